(** C13-C16: control flow.

    Vocabulary: Spec/CFG.v (functions, executions, SSA form, loops) and
    Spec/BitVectorIR.v (integer instructions as the expressions of a function);
    the emitted procedure is Model/ControlFlow.v, the loop pass
    Model/NormalizeLoops.v.
    [behaves ... f args m t o]: called with [args] in memory [m], [f] has an
    execution that makes the events [t] observable and, if [o = Some (outcome,
    m')], has finished that way ([o = None]: it has not finished yet).
    [bbehaves ... f args r0 exn m t o]: the same for the emitted procedure,
    whose local variables start with the arbitrary values [r0], and whose
    global $exn starts as [exn].
    [undefined_after ... f args m t]: [f] has an execution with undefined
    behaviour (poison, [unreachable], a missing phi value) after the events [t]. *)
From Coq Require Import ZArith List String Bool Lia.
From Verif.Spec Require Import LLVMInt IR CFG BitVectorIR Encodings.
From Verif.Model Require Import Boogie PreludeInt SmackRepInt BitVectorCode ControlFlow NormalizeLoops AnnotateLoopExits.
From Verif.Proofs Require Import CFGBase SSACheck BitVectorCFG CFGProofs SplitEdges SplitSim ControlMain ControlExamples LoopExitProofs.
Import ListNotations.
Open Scope string_scope.
Open Scope list_scope.
Open Scope nat_scope.

(** The emitted expression has the value of the operand whenever the registers
    it reads agree. *)
Definition expressions_agree {V E T} (uses : E -> list string) (evS : (string -> option V) -> E -> option V)
    (tr : E -> T) (evT : (string -> V) -> T -> option V) : Prop :=
  forall r rb e v, (forall x, In x (uses e) -> r x = Some (rb x)) -> evS r e = Some v -> evT rb (tr e) = Some v.

(** ** C13 *)
Section C13.
  (** values, expressions, memories, primitives (calls, loads, stores, checks),
      events, Boogie expressions; what they mean *)
  Context {V E M P Ev T : Type} (uses : E -> list string)
          (evS : (string -> option V) -> E -> option V) (tr : E -> T) (evT : (string -> V) -> T -> option V)
          (prim : P -> list V -> M -> list Ev -> V -> M -> Prop)
          (inv : P -> list V -> M -> list Ev -> V -> bool -> M -> Prop) (one : V) (veq : V -> V -> bool).

  Theorem C13_every_execution_is_translated : forall f args r0 exn m t o,
    expressions_agree uses evS tr evT -> ssa_form uses f -> lowered f -> normalized f ->
    List.length args = List.length (params f) ->
    behaves evS prim inv one veq f args m t o ->
    bbehaves tr evT prim inv one veq f args r0 exn m t o.
  Proof.
    intros f args r0 exn m t o H1 H2 H3 H4 H5 H6.
    exact (cfg_forward evS uses prim inv one veq tr evT H1 f H2 H3 H4 args r0 exn m t o H5 H6).
  Qed.
  Theorem C13_no_other_executions : forall f args r0 exn m t o,
    expressions_agree uses evS tr evT -> ssa_form uses f -> lowered f -> normalized f ->
    List.length args = List.length (params f) ->
    bbehaves tr evT prim inv one veq f args r0 exn m t o ->
    behaves evS prim inv one veq f args m t o \/
    exists t1 t2, t = t1 ++ t2 /\ undefined_after evS prim inv one veq f args m t1.
  Proof.
    intros f args r0 exn m t o H1 H2 H3 H4 H5 H6.
    exact (cfg_backward evS uses prim inv one veq tr evT H1 f H2 H3 H4 args r0 exn m t o H5 H6).
  Qed.
  (** so, for functions without undefined behaviour: *)
  Theorem C13_same_executions : forall f args r0 exn m t o,
    expressions_agree uses evS tr evT -> ssa_form uses f -> lowered f -> normalized f ->
    List.length args = List.length (params f) ->
    (forall t1, ~ undefined_after evS prim inv one veq f args m t1) ->
    (bbehaves tr evT prim inv one veq f args r0 exn m t o <-> behaves evS prim inv one veq f args m t o).
  Proof.
    intros f args r0 exn m t o H1 H2 H3 H4 H5 HU. split; intros H.
    - destruct (C13_no_other_executions f args r0 exn m t o H1 H2 H3 H4 H5 H) as [H6|(t1 & t2 & _ & H6)]; [exact H6|].
      destruct (HU t1 H6).
    - exact (C13_every_execution_is_translated f args r0 exn m t o H1 H2 H3 H4 H5 H).
  Qed.
End C13.
Print Assumptions C13_every_execution_is_translated.
Print Assumptions C13_no_other_executions.
Print Assumptions C13_same_executions.

(** The same with nothing left abstract about expressions: functions over
    integers of the supported widths up to 64 bits, bit-vector mode. *)
Definition int_width (n : Z) : Prop := In n INTEGER_SIZES /\ (n <= 64)%Z.
Section C13BV.
  Context {M P Ev : Type} (G : string -> option Z) (bvptr ndebug : bool) (I : interp)
          (prim : P -> list val -> M -> list Ev -> val -> M -> Prop)
          (inv : P -> list val -> M -> list Ev -> val -> bool -> M -> Prop).
  Notation ir := (typed G int_width).
  Notation "'uses'" := (typed_regs G int_width).
  Notation llvm := (behaves (typed_den G int_width) prim inv bv_true bv_eq).
  Notation llvm_undefined := (undefined_after (typed_den G int_width) prim inv bv_true bv_eq).
  Notation boogie := (bbehaves (trans_typed bvptr ndebug) (eval_emitted bvptr I) prim inv bv_true bv_eq).

  Theorem C13_bitvector_expressions_agree :
    expressions_agree uses (typed_den G int_width) (trans_typed bvptr ndebug) (eval_emitted bvptr I).
  Proof. exact (typed_sim bvptr ndebug I G). Qed.
  Theorem C13_bitvector_every_execution : forall (f : func val ir P) args r0 exn m t o,
    ssa_form uses f -> lowered f -> normalized f -> List.length args = List.length (params f) ->
    llvm f args m t o -> boogie f args r0 exn m t o.
  Proof.
    intros f args r0 exn m t o H1 H2 H3 H4.
    exact (C13_every_execution_is_translated _ _ _ _ _ _ _ _ f args r0 exn m t o C13_bitvector_expressions_agree H1 H2 H3 H4).
  Qed.
  Theorem C13_bitvector_no_other : forall (f : func val ir P) args r0 exn m t o,
    ssa_form uses f -> lowered f -> normalized f -> List.length args = List.length (params f) ->
    boogie f args r0 exn m t o -> llvm f args m t o \/ exists t1 t2, t = t1 ++ t2 /\ llvm_undefined f args m t1.
  Proof.
    intros f args r0 exn m t o H1 H2 H3 H4.
    exact (C13_no_other_executions _ _ _ _ _ _ _ _ f args r0 exn m t o C13_bitvector_expressions_agree H1 H2 H3 H4).
  Qed.
End C13BV.
Print Assumptions C13_bitvector_expressions_agree.
Print Assumptions C13_bitvector_every_execution.
Print Assumptions C13_bitvector_no_other.

(** A summation loop with two phis meets every hypothesis once normalized, and
    its run with n = 3 checks and returns s = 3. *)
Example C13_nonvacuous :
  ssa_form (typed_regs exG int_width) (runOnFunction do_while ex_forest) /\
  lowered (runOnFunction do_while ex_forest) /\ normalized (runOnFunction do_while ex_forest) /\
  behaves (typed_den exG int_width) ex_prim ex_inv bv_true bv_eq (runOnFunction do_while ex_forest) [VBv 32%Z 3%Z] tt
    [("check", [VBv 32%Z 3%Z])] (Some (Returned (Some (VBv 32%Z 3%Z)), tt)).
Proof.
  destruct (run_ok _ do_while ex_forest do_while_original do_while_forest do_while_ssa) as (H1 & H2 & H3).
  split; [exact H1|]. split; [exact (H2 do_while_lowered)|]. split; [exact H3|].
  exact (run_forward _ _ _ _ _ _ do_while ex_forest do_while_original do_while_forest do_while_ssa _ _ _ _ do_while_run).
Qed.

(** None of the three conditions on the shape can be dropped. *)
(** Loops not normalized: the phi of the loop header is assigned although the
    loop is left, and the value returned is a different one. *)
Theorem C13_without_normalization_refuted :
  exists f, ssa_form suses f /\ lowered f /\ expressions_agree suses sden sid sval /\
    behaves sden sprim sinv 1 Nat.eqb f [0] tt [] (Some (Returned (Some 0), tt)) /\
    (forall r0 exn t v m, bbehaves sid sval sprim sinv 1 Nat.eqb f [0] r0 exn tt t (Some (Returned (Some v), m)) -> v = 7).
Proof.
  exists lost_copy. split; [exact lost_ssa|]. split; [exact lost_lowered|]. split; [exact sfaithful|].
  split; [exact lost_copy_llvm|exact lost_copy_boogie].
Qed.
Print Assumptions C13_without_normalization_refuted.
(** Both arms of a branch lead to one block with no other predecessor: both
    assumptions are inserted there and no execution gets past them. *)
Theorem C13_same_arms_refuted :
  exists f, ssa_form suses f /\ normalized f /\ expressions_agree suses sden sid sval /\
    (forall c, behaves sden sprim sinv 1 Nat.eqb f [c] tt [] (Some (Returned (Some 3), tt))) /\
    (forall c r0 exn t o, ~ bbehaves sid sval sprim sinv 1 Nat.eqb f [c] r0 exn tt t (Some o)).
Proof.
  exists same_target. split; [exact same_ssa|]. split; [exact same_normalized|]. split; [exact sfaithful|].
  split; [exact same_target_llvm|exact same_target_boogie].
Qed.
Print Assumptions C13_same_arms_refuted.
(** An invoke leading to a block with phis: the phis keep whatever value the
    Boogie variable had. *)
Theorem C13_invoke_phis_refuted :
  exists f, ssa_form suses f /\ expressions_agree suses sden sid sval /\
    (forall t, ~ undefined_after sden sprim sinv 1 Nat.eqb f [] tt t) /\
    (forall t v m, behaves sden sprim sinv 1 Nat.eqb f [] tt t (Some (Returned (Some v), m)) -> v = 5) /\
    bbehaves sid sval sprim sinv 1 Nat.eqb f [] (fun _ => 9) false tt [] (Some (Returned (Some 9), tt)).
Proof.
  exists invoke_phi. split; [exact invoke_ssa|]. split; [exact sfaithful|]. split; [exact invoke_phi_defined|].
  split; [exact invoke_phi_llvm|exact invoke_phi_boogie].
Qed.
Print Assumptions C13_invoke_phis_refuted.

(** ** C14 *)
Section C14.
  Context {V E M P Ev : Type} (uses : E -> list string) (evS : (string -> option V) -> E -> option V)
          (prim : P -> list V -> M -> list Ev -> V -> M -> Prop)
          (inv : P -> list V -> M -> list Ev -> V -> bool -> M -> Prop) (one : V) (veq : V -> V -> bool).
  Context (f : func V E P) (loops : list loop)
          (Ho : original f) (Hl : loop_forest f loops) (Hssa : ssa_form uses f).
  Notation f' := (runOnFunction f loops).

  Theorem C14_behaviour_kept : forall args m t o,
    behaves evS prim inv one veq f args m t o -> behaves evS prim inv one veq f' args m t o.
  Proof. exact (run_forward evS uses prim inv one veq f loops Ho Hl Hssa). Qed.
  Theorem C14_no_new_behaviour : forall args m t o,
    behaves evS prim inv one veq f' args m t o ->
    behaves evS prim inv one veq f args m t o \/
    exists t1 t2, t = t1 ++ t2 /\ undefined_after evS prim inv one veq f args m t1.
  Proof. exact (run_backward evS uses prim inv one veq f loops Ho Hl Hssa). Qed.
  Theorem C14_undefined_behaviour_same : forall args m,
    (forall t, undefined_after evS prim inv one veq f args m t ->
       exists t', undefined_after evS prim inv one veq f' args m (t ++ t')) /\
    (forall t, undefined_after evS prim inv one veq f' args m t ->
       exists t1 t2, t = t1 ++ t2 /\ undefined_after evS prim inv one veq f args m t1).
  Proof.
    intros args m. split; [exact (run_ub_forward evS uses prim inv one veq f loops Ho Hl Hssa args m)|
                           exact (run_ub_backward evS uses prim inv one veq f loops Ho Hl Hssa args m)].
  Qed.
  Theorem C14_result_is_normalized :
    ssa_form uses f' /\ normalized f' /\ (lowered f -> lowered f').
  Proof. destruct (run_ok uses f loops Ho Hl Hssa) as (H1 & H2 & H3). auto. Qed.
  (** The function as it was given, translated after the pass. *)
  Theorem C14_pass_then_translation : forall {T} (tr : E -> T) (evT : (string -> V) -> T -> option V) args r0 exn m,
    expressions_agree uses evS tr evT -> lowered f -> List.length args = List.length (params f) ->
    (forall t o, behaves evS prim inv one veq f args m t o -> bbehaves tr evT prim inv one veq f' args r0 exn m t o) /\
    (forall t o, bbehaves tr evT prim inv one veq f' args r0 exn m t o ->
       behaves evS prim inv one veq f args m t o \/
       exists t1 t2, t = t1 ++ t2 /\ undefined_after evS prim inv one veq f args m t1).
  Proof.
    intros T tr evT args r0 exn m. exact (run_translate evS uses prim inv one veq f loops Ho Hl Hssa tr evT args r0 exn m).
  Qed.
End C14.
Print Assumptions C14_behaviour_kept.
Print Assumptions C14_no_new_behaviour.
Print Assumptions C14_undefined_behaviour_same.
Print Assumptions C14_result_is_normalized.
Print Assumptions C14_pass_then_translation.

(** The do-while loop, whose back edge leaves a block with two successors, meets
    the hypotheses and is changed by the pass. *)
Example C14_nonvacuous :
  original do_while /\ loop_forest do_while ex_forest /\ ssa_form (typed_regs exG int_width) do_while /\ lowered do_while /\
  block_of (runOnFunction do_while ex_forest) (Fwd (Blk 1) (Blk 1)) = Some (Block [] [] (TBr (Blk 1))) /\
  ~ normalized do_while.
Proof.
  split; [exact do_while_original|]. split; [exact do_while_forest|]. split; [exact do_while_ssa|]. split; [exact do_while_lowered|].
  split; [reflexivity|].
  intros H. eapply (H (Blk 1) _ (Blk 1)); try reflexivity; try discriminate.
  - left; reflexivity.
  - exists [Blk 1; Blk 0]. apply path_check_ok. reflexivity.
  - intros t Ht. inversion Ht; now left.
Qed.

(** ** C15 *)
(** A switch is translated to one unconditional jump to its default
    destination (after assigning phis): whatever the condition. *)
Theorem C15_switch_jumps_to_default : forall {V E M P Ev T : Type} (tr : E -> T) evT prim inv one veq
    (f : func V E P) l e d cases,
  exists phi_assignments, trans_term tr f l (TSwitch e d cases) = phi_assignments ++ [BGoto [BB d]] /\
    (forall s, In s phi_assignments -> exists xs ts, s = BAssign xs ts) /\
    forall r ret exn exnv (m : M) (t : list Ev) s,
      bstep tr evT prim inv one veq f (BRun [BGoto [BB d]] r ret exn exnv m) t s ->
      exists c, code_at tr f (BB d) = Some c /\ s = BRun c r ret exn exnv m.
Proof. intros. apply switch_default. Qed.
Print Assumptions C15_switch_jumps_to_default.
(** So it continues where LLVM does exactly if the selected destination is the
    default one. *)
Theorem C15_agrees_iff_default : forall {V E P T : Type} (tr : E -> T) (veq : V -> V -> bool) (f : func V E P) l e d cases v,
  select_case veq v d cases = d <->
  goto_targets f l (targets tr (TSwitch (V:=V) (P:=P) e d cases)) = [BB (select_case veq v d cases)].
Proof. intros. apply switch_iff. Qed.
Print Assumptions C15_agrees_iff_default.
(** The English property fails when a case is selected that leads elsewhere. *)
Theorem C15_case_lost_refuted :
  exists f, ssa_form suses f /\ expressions_agree suses sden sid sval /\
    behaves sden sprim sinv 1 Nat.eqb f [4] tt [] (Some (Returned (Some 2), tt)) /\
    (forall r0 exn t v m, bbehaves sid sval sprim sinv 1 Nat.eqb f [4] r0 exn tt t (Some (Returned (Some v), m)) -> v = 1).
Proof.
  exists switch_fn. split; [exact switch_ssa|]. split; [exact sfaithful|]. split; [exact switch_llvm|exact switch_boogie].
Qed.
Print Assumptions C15_case_lost_refuted.
Example C15_nonvacuous : select_case Nat.eqb 4 (Blk 1) [(4, Blk 2)] = Blk 2 /\ select_case Nat.eqb 3 (Blk 1) [(4, Blk 2)] = Blk 1.
Proof. split; reflexivity. Qed.

(** ** C16 *)
Section C16.
  Context {V E M P Ev : Type} (evS : (string -> option V) -> E -> option V)
          (prim : P -> list V -> M -> list Ev -> V -> M -> Prop)
          (inv : P -> list V -> M -> list Ev -> V -> bool -> M -> Prop) (one : V) (veq : V -> V -> bool).
  Context (check : P) (f : func V E P) (loops : list loop).
  Notation f' := (annotateLoopExits check f loops).

  (** Whenever control passes from a block of an outermost loop to a block outside
      of it, the next thing to be executed is the check. *)
  Theorem C16_leaving_a_loop_is_checked : forall h blocks subloops p l r m t k r' m',
    In (Loop h blocks subloops) loops -> In p blocks -> ~ In l blocks ->
    lstep evS prim inv one veq f' (LRun p [] r m) t (LRun l k r' m') ->
    exists k', k = SPrim None check [] :: k'.
  Proof. exact (leaving_checked check evS prim inv one veq f loops). Qed.
  (** Nothing else is changed: blocks keep their phis, statements and terminator,
      and get checks in front exactly if an edge leaving an outermost loop leads
      to them. *)
  Theorem C16_nothing_else_changes : forall l b, block_of f l = Some b ->
    exists n, block_of f' l = Some (Block (phis b) (repeat (SPrim None check []) n ++ body b) (bterm b)) /\
      (0 < n <-> exists h blocks subloops p, In (Loop h blocks subloops) loops /\ In p blocks /\ ~ In l blocks /\ edge f p l).
  Proof. exact (other_unchecked check f loops). Qed.
  (** If exit blocks are entered from loops only (what LoopSimplify, required by
      the pass, establishes), no check is met except when leaving a loop. *)
  Theorem C16_no_check_without_leaving : forall p l r m t k r' m',
    (forall q, In l (exits f loops) -> edge f q l ->
       exists h blocks subloops, In (Loop h blocks subloops) loops /\ In q blocks /\ ~ In l blocks) ->
    (forall h blocks subloops, In (Loop h blocks subloops) loops -> In p blocks -> In l blocks) ->
    lstep evS prim inv one veq f' (LRun p [] r m) t (LRun l k r' m') ->
    exists b, block_of f l = Some b /\ k = body b.
  Proof. exact (inside_unchanged check evS prim inv one veq f loops). Qed.
End C16.
Print Assumptions C16_leaving_a_loop_is_checked.
Print Assumptions C16_nothing_else_changes.
Print Assumptions C16_no_check_without_leaving.
(** An edge that leaves an inner loop only is not checked. *)
Theorem C16_inner_loop_refuted :
  exists (f : func nat nat string) loops h blocks p l,
    loop_forest f loops /\ In (h, blocks) (flat_map all_loops loops) /\ In p blocks /\ ~ In l blocks /\ edge f p l /\
    block_of (annotateLoopExits "__SMACK_loop_exit" f loops) l = block_of f l.
Proof.
  exists nested, nested_loops, (Blk 2), [Blk 2], (Blk 2), (Blk 1). split.
  - apply (forest_check_ok nested (fun l => match l with Blk 0 => [Blk 0] | Blk 1 => [Blk 1; Blk 0] | Blk 2 => [Blk 2; Blk 1; Blk 0] | _ => [] end)).
    reflexivity.
  - split; [right; left; reflexivity|]. split; [now left|]. split; [intros [E1|[]]; discriminate|].
    split; [|reflexivity]. eexists. split; [reflexivity|right; left; reflexivity].
Qed.
Print Assumptions C16_inner_loop_refuted.
Example C16_nonvacuous :
  option_map body (block_of (annotateLoopExits "__SMACK_loop_exit" nested nested_loops) (Blk 3)) =
  Some [SPrim None "__SMACK_loop_exit" []].
Proof. reflexivity. Qed.
