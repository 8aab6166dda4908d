(** C70: with checks for integer overflow, what the verifier is given fails
    exactly if the program overflows or an assertion of it fails.

    Vocabulary: Spec/OverflowProgram.v (programs, [can_get_to], [ocan_return],
    [owell_formed]); [overflow_pass] of Model/OverflowProgram.v is the pass;
    [boogie_can_fail] of Model/WholeProgram.v is what the verifier looks for. *)
From Coq Require Import ZArith List String Bool Lia.
From Verif.Spec Require Import LLVMInt IR CFG BitVectorIR Program OverflowProgram.
From Verif.Spec Require Overflow.
From Verif.Model Require Import Boogie PreludeInt NormalizeLoops WholeProgram OverflowProgram.
From Verif.Proofs Require Import CFGBase SSACheck ControlExamples ProgramSim OverflowPass OverflowSim OverflowWhole.
Import ListNotations.
Open Scope string_scope.
Open Scope list_scope.
Open Scope Z_scope.

Section C70.
  (** [reported]: the functions named by --checked-functions; [I], [ndebug] as in
      C64 *)
  Context (reported : string -> bool) (I : interp) (ndebug : bool) (p : oprogram).
  Notation checked := (overflow_pass reported p).

  (** No overflow is missed: if the verifier proves that the Boogie program cannot
      fail, then no execution of the program overflows in a reported function, or
      gets to a failing assertion. *)
  Theorem C70_no_missed_overflows : owell_formed source_name p -> forall f args m,
    ~ boogie_can_fail I checked ndebug f args m ->
    ~ can_get_to reported p Overflow f args m /\ ~ can_get_to reported p OFailed f args m.
  Proof.
    intros Hwf f args m H. pose proof (pass_well_formed reported p Hwf) as Hwf'.
    split; intros Hg; apply H; apply (failure_found I ndebug _ Hwf'); exact (wrong_kept reported p Hwf _ f args m Hg).
  Qed.
  (** No false alarms: if the Boogie program can fail, then some execution
      overflows or gets to a failing assertion, unless behaviour is undefined. *)
  Theorem C70_no_false_alarms : owell_formed source_name p -> forall f args m,
    ~ can_get_to reported p OUndefined f args m -> boogie_can_fail I checked ndebug f args m ->
    can_get_to reported p Overflow f args m \/ can_get_to reported p OFailed f args m.
  Proof.
    intros Hwf f args m Hu H. pose proof (pass_well_formed reported p Hwf) as Hwf'.
    destruct (failure_real I ndebug _ Hwf' f args m H) as [H1|H1].
    - destruct (fail_real reported p Hwf f args m H1) as [H2|[H2|H2]]; [auto|auto|destruct (Hu H2)].
    - destruct (Hu (undefined_real reported p Hwf f args m H1)).
  Qed.
  Theorem C70_same_verdict : owell_formed source_name p -> forall f args m,
    ~ can_get_to reported p OUndefined f args m ->
    (boogie_can_fail I checked ndebug f args m <-> can_get_to reported p Overflow f args m \/ can_get_to reported p OFailed f args m).
  Proof.
    intros Hwf f args m Hu. split; [now apply C70_no_false_alarms|]. pose proof (pass_well_formed reported p Hwf) as Hwf'.
    intros [Hg|Hg]; apply (failure_found I ndebug _ Hwf'); exact (wrong_kept reported p Hwf _ f args m Hg).
  Qed.
  (** The results are the same as well: value and memory. *)
  Theorem C70_same_results : owell_formed source_name p -> forall f args m v m', ~ can_get_to reported p OUndefined f args m ->
    ((exists n, bcalls I checked ndebug n f args m [] v m') <-> ocan_return reported p f args m v m').
  Proof.
    intros Hwf f args m v m' Hu. pose proof (pass_well_formed reported p Hwf) as Hwf'. split.
    - intros (n & H). destruct (returns_real I ndebug _ Hwf' f args m v m' n H) as [Hr|Hr]; [|destruct (Hu (undefined_real reported p Hwf f args m Hr))].
      destruct (return_real reported p Hwf f args m v m' Hr) as [H1|H1]; [exact H1|destruct (Hu H1)].
    - intros H. exact (returns_kept I ndebug _ Hwf' f args m v m' (return_kept reported p Hwf f args m v m' H)).
  Qed.
  (** Where nothing is reported, checked operations never fail: a failure is one
      of an assertion of the program. *)
  Theorem C70_unreported : (forall f, reported f = false) -> owell_formed source_name p -> forall f args m,
    ~ can_get_to reported p OUndefined f args m -> boogie_can_fail I checked ndebug f args m -> can_get_to reported p OFailed f args m.
  Proof.
    intros Hr Hwf f args m Hu H. destruct (C70_no_false_alarms Hwf f args m Hu H) as [(n & v & m' & H1)|H1]; [|exact H1].
    destruct (no_overflow_calls reported p n Hr f args m _ v m' H1). now left.
  Qed.
End C70.
Print Assumptions C70_no_missed_overflows.
Print Assumptions C70_no_false_alarms.
Print Assumptions C70_same_verdict.
Print Assumptions C70_same_results.
Print Assumptions C70_unreported.

(** The order of this pass and the loop pass (llvm2bpl.cpp:199, 222) does not
    matter. *)
Theorem C70_pass_order : forall ck F, runOnFunction (code (overflow_fn ck F)) (loops (overflow_fn ck F)) =
  visit_func (owidths F) (opairs F) ck (runOnFunction (ocode F) (oloops F)).
Proof. intros ck F. apply order. Qed.
Print Assumptions C70_pass_order.

(** ** An example
<<
    inc(x): d = sadd.with.overflow.i32(x, 1); v = extractvalue d, 0; c = extractvalue d, 1;
            if (c) return 0; else return v;
>> *)
Definition oW (x : string) : option Z :=
  if existsb (String.eqb x) ["x"; "v"; "z"] then Some 32 else if String.eqb x "c" then Some 1 else None.
Definition oP (x : string) : option Z := if String.eqb x "d" then Some 32 else None.
Definition o_reg (n : Z) (x : string) : oexp := Plain (Op (VReg n x)).
Definition o_const (c : Z) : oexp := Plain (Op (VConst 32 c)).
Definition inc_fn : ofn := OFn oW oP (Func ["x"] (Blk 0)
  [ (Blk 0, Block [] [SPrim (Some "d") (With true Overflow.OAdd 32) [o_reg 32 "x"; o_const 1];
                      SAssign "v" (Part "d" 32 false); SAssign "c" (Part "d" 32 true)]
                  (TCond (o_reg 1 "c") (Blk 1) (Blk 2)));
    (Blk 1, Block [] [] (TRet (Some (o_const 0))));
    (Blk 2, Block [] [] (TRet (Some (o_reg 32 "v")))) ]) [].
Definition inc_program : oprogram := [("inc", inc_fn)].
Definition o_doms (l : label) : list label :=
  match l with Blk 0 => [Blk 0] | Blk 1 => [Blk 0; Blk 1] | Blk 2 => [Blk 0; Blk 2] | _ => [] end.
Definition o_avoid (l : label) : list label := match l with Blk 0 => [Blk 0] | _ => [] end.
Lemma letter_source : forall c s, (12 < Ascii.nat_of_ascii c)%nat -> source_name (String c s).
Proof.
  intros c s H k d Hk E. injection E as -> _. rewrite Ascii.nat_ascii_embedding in H by lia. lia.
Qed.
Lemma o_regs : forall x n, oW x = Some n -> plain_reg source_name oP x.
Proof.
  intros x n H. unfold oW in H. cbn [existsb] in H.
  repeat match type of H with context [String.eqb x ?y] => destruct (String.eqb_spec x y) as [->|_] end; cbn in H; try discriminate;
    (split; [apply letter_source; cbn; lia|reflexivity]).
Qed.
Lemma o_pairs : forall d n, oP d = Some n -> source_name d /\ width_ok n.
Proof.
  intros d n H. unfold oP in H. destruct (String.eqb_spec d "d") as [->|_]; [|discriminate]. injection H as <-.
  split; [apply letter_source; cbn; lia|split; [cbn; tauto|lia]].
Qed.
Ltac okay := repeat match goal with
  | |- _ /\ _ => split
  | |- Forall _ _ => constructor
  | |- source_name _ => apply letter_source; cbn; lia
  | |- width_ok _ => split; [cbn; tauto|lia]
  | |- plain_reg _ _ _ => split
  | |- is_iN _ _ => unfold is_iN; lia
  | |- forall y, Some _ = Some y -> _ => intros ? ?E; injection E as <-
  | |- forall y, None = Some y -> _ => intros ? ?E; discriminate
  | |- oexp_ok _ _ (Plain _) => cbn [oexp_ok o_reg o_const wt_operand wt_value]
  | |- oexp_ok _ _ (Part _ _ _) => reflexivity
  | |- oexp_ok _ _ _ => unfold o_reg, o_const
  | |- True => exact Logic.I
  | |- _ = _ => reflexivity
  end.
Lemma inc_ok : fn_ok source_name oW oP (ocode inc_fn).
Proof.
  split; [exact o_regs|exact o_pairs| |].
  - intros x [<-|[]]. okay.
  - intros l b [E|[E|[E|[]]]]; injection E as <- <-; unfold block_ok; cbn [phis body bterm term_ok]; okay.
    + cbn [stmt_ok]. exists "d", (VReg 32 "x"), (VConst 32 1). cbn [wt_value]. okay.
    + cbn [stmt_ok]. okay.
    + cbn [stmt_ok]. okay.
Qed.
Ltac owf := first [apply (ssa_check_ok _ o_doms); reflexivity | apply lowered_check_ok; reflexivity
          | apply original_check_ok; reflexivity | apply (forest_check_ok _ o_avoid); reflexivity].
Lemma inc_well_formed : owell_formed source_name inc_program.
Proof. split; intros f F [E|[]]; injection E as <- <-; first [exact inc_ok|owf]. Qed.
Definition all_functions (f : string) : bool := true.
Definition no_functions (f : string) : bool := false.
Ltac small := unfold is_iN; cbn; lia.

Lemma inc_overflows : forall m, can_get_to all_functions inc_program Overflow "inc" [VBv 32 (2 ^ 31 - 1)] m.
Proof.
  intros m. exists 1%nat, (VBv 1 0), m. exists inc_fn. split; [reflexivity|]. split; [reflexivity|]. right. left. split; [|discriminate].
  eexists _, _. split; [reflexivity|]. split.
  - eapply (lsteps_cons _ _ _ _ _ _ _ [Overflow] _ []); [|constructor].
    eapply L_prim; [reflexivity|]. apply (O_overflow _ _ true Overflow.OAdd 32 (2 ^ 31 - 1) 1 m (VBv 1 0)); [small|small|reflexivity].
  - reflexivity.
Qed.
Lemma inc_returns : forall reported m, ocan_return reported inc_program "inc" [VBv 32 5] m (VBv 32 6) m.
Proof.
  intros reported m. exists 1%nat. exists inc_fn. split; [reflexivity|]. split; [reflexivity|]. left. exists (Some (VBv 32 6)). split; [|reflexivity].
  eexists _, _. split; [reflexivity|]. split.
  - eapply (lsteps_cons _ _ _ _ _ _ _ []).
    { eapply L_prim; [reflexivity|]. apply (O_with _ _ true Overflow.OAdd 32 5 1 m); [small|small|apply andb_false_r]. }
    do 2 (eapply (lsteps_cons _ _ _ _ _ _ _ []); [eapply L_assign; reflexivity|]).
    eapply (lsteps_cons _ _ _ _ _ _ _ []); [eapply L_cond; reflexivity|].
    eapply (lsteps_cons _ _ _ _ _ _ _ [] _ []); [eapply L_retv; reflexivity|]. constructor.
  - reflexivity.
Qed.
(** If nothing is reported, the pair holds the wrapped value and the flag. *)
Lemma inc_wraps : forall m, ocan_return no_functions inc_program "inc" [VBv 32 (2 ^ 31 - 1)] m (VBv 32 0) m.
Proof.
  intros m. exists 1%nat. exists inc_fn. split; [reflexivity|]. split; [reflexivity|]. left. exists (Some (VBv 32 0)). split; [|reflexivity].
  eexists _, _. split; [reflexivity|]. split.
  - eapply (lsteps_cons _ _ _ _ _ _ _ []).
    { eapply L_prim; [reflexivity|]. apply (O_with _ _ true Overflow.OAdd 32 (2 ^ 31 - 1) 1 m); [small|small|reflexivity]. }
    do 2 (eapply (lsteps_cons _ _ _ _ _ _ _ []); [eapply L_assign; reflexivity|]).
    eapply (lsteps_cons _ _ _ _ _ _ _ []); [eapply L_cond; reflexivity|].
    eapply (lsteps_cons _ _ _ _ _ _ _ [] _ []); [eapply L_retv; reflexivity|]. constructor.
  - reflexivity.
Qed.
Ltac next H Hs := apply lsteps_head in H; destruct H as [[<- ->]|(? & ? & ? & Hs & H & ->)];
  [split; [reflexivity|]; let Hw := fresh "Hw" in intros Hw; cbn in Hw;
   try (let E := fresh "E" in destruct Hw as (? & E & Hw); injection E as <-; cbn in Hw); discriminate|].
Lemma inc_steps : forall call s0 m t s, lstart (ocode inc_fn) [VBv 32 5] m = Some s0 ->
  lsteps (oexp_den oW) (exec_oop true call) no_oinvoke bv_true bv_eq (ocode inc_fn) s0 t s ->
  t = [] /\ ~ goes_wrong (oexp_den oW) no_oinvoke bv_true bv_eq (ocode inc_fn) s.
Proof.
  intros call s0 m t s H1 H. cbn in H1. injection H1 as <-.
  next H Hs. inversion Hs as [|? ? ? ? ? ? ? ? ? ? ? He Hp| | | | | | |]; subst. cbn in He. injection He as <-.
  inversion Hp as [| |? ? ? a b ? Ra Rb Ho|? ? ? a b ? u Ra Rb Ho|]; subst; [|cbn in Ho; discriminate]. clear Hs Hp Ra Rb Ho. cbn [updo] in H.
  next H Hs. inversion Hs as [? ? ? ? ? ? ? Hv| | | | | | | |]; subst. cbn in Hv. injection Hv as <-. clear Hs.
  next H Hs. inversion Hs as [? ? ? ? ? ? ? Hv| | | | | | | |]; subst. cbn in Hv. injection Hv as <-. clear Hs.
  next H Hs. inversion Hs as [| |? ? ? b Hb Ht|? ? ? b ? ? Hb Ht|? ? ? b ? ? Hb Ht|? ? ? b ? ? ? Hb Ht|? ? ? b ? ? ? ? ? ? Hb Ht Hv Hn|? ? ? b ? ? ? ? ? ? Hb Ht|? ? ? b ? ? ? ? ? ? ? ? ? ? ? ? Hb Ht]; subst;
    cbn in Hb; injection Hb as <-; cbn in Ht; try discriminate. injection Ht as <- <- <-. cbn in Hv. injection Hv as <-. cbn in Hn. injection Hn as <- <-. clear Hs.
  next H Hs. inversion Hs as [| |? ? ? b Hb Ht|? ? ? b ? ? Hb Ht|? ? ? b ? ? Hb Ht|? ? ? b ? ? ? Hb Ht|? ? ? b ? ? ? ? ? ? Hb Ht Hv Hn|? ? ? b ? ? ? ? ? ? Hb Ht|? ? ? b ? ? ? ? ? ? ? ? ? ? ? ? Hb Ht]; subst;
    cbn in Hb; injection Hb as <-; cbn in Ht; try discriminate. clear Hs.
  apply lsteps_head in H. destruct H as [[<- ->]|(? & ? & ? & Hs & _ & _)]; [split; [reflexivity|intros []]|inversion Hs].
Qed.
Lemma inc_calls : forall n m t v m', ocalls all_functions inc_program n "inc" [VBv 32 5] m t v m' -> t = [].
Proof.
  intros [|n] m t v m' H; [destruct H|]. destruct H as (F & Hf & _ & H). cbn in Hf. injection Hf as <-.
  destruct H as [(r & (s0 & s & H1 & H2 & _) & _)|[[(s0 & s & H1 & H2 & _) _]|(t0 & -> & (s0 & s & H1 & H2 & H3))]].
  - exact (proj1 (inc_steps _ _ _ _ _ H1 H2)).
  - exact (proj1 (inc_steps _ _ _ _ _ H1 H2)).
  - destruct (inc_steps _ _ _ _ _ H1 H2) as [_ H4]. destruct (H4 H3).
Qed.
Example C70_nonvacuous : owell_formed source_name inc_program /\
  (forall m, can_get_to all_functions inc_program Overflow "inc" [VBv 32 (2 ^ 31 - 1)] m) /\
  (forall m, ocan_return no_functions inc_program "inc" [VBv 32 (2 ^ 31 - 1)] m (VBv 32 0) m) /\
  (forall I ndebug m, boogie_can_fail I (overflow_pass all_functions inc_program) ndebug "inc" [VBv 32 (2 ^ 31 - 1)] m) /\
  forall I ndebug m, ~ boogie_can_fail I (overflow_pass all_functions inc_program) ndebug "inc" [VBv 32 5] m /\
    exists n, bcalls I (overflow_pass all_functions inc_program) ndebug n "inc" [VBv 32 5] m [] (VBv 32 6) m.
Proof.
  split; [exact inc_well_formed|]. split; [exact inc_overflows|]. split; [exact inc_wraps|].
  assert (forall e m, ~ can_get_to all_functions inc_program e "inc" [VBv 32 5] m) as Hno by (intros e m (n & v & m' & H); apply inc_calls in H; discriminate).
  split.
  - intros I ndebug m. apply (failure_found I ndebug _ (pass_well_formed all_functions _ inc_well_formed)).
    exact (wrong_kept all_functions _ inc_well_formed _ _ _ _ (inc_overflows m)).
  - intros I ndebug m. split.
    + intros H. destruct (C70_no_false_alarms _ _ _ _ inc_well_formed _ _ _ (Hno OUndefined m) H) as [H1|H1]; exact (Hno _ m H1).
    + apply (C70_same_results all_functions I ndebug _ inc_well_formed); [apply Hno|apply inc_returns].
Qed.

(** A function whose first instruction is a call of the handler. *)
Definition one_block (k : list (stmt oexp oop)) : oprogram := [("f", OFn oW oP (Func [] (Blk 0) [(Blk 0, Block [] k (TRet None))]) [])].
Definition failing : list (stmt oexp oop) := [SPrim None (OBase Assert) [o_const 0]].
Definition handled : list (stmt oexp oop) := SPrim (Some "u") Handler [] :: failing.
Lemma handled_well_formed : owell_formed source_name (one_block handled).
Proof.
  split; intros f F [E|[]]; injection E as <- <-; [owf|owf|owf|owf|]. split; [exact o_regs|exact o_pairs|intros x []|].
  intros l b [E|[]]; injection E as <- <-; unfold block_ok; cbn [phis body bterm term_ok]; okay.
  - exists "u". okay.
  - cbn [stmt_ok]. okay.
Qed.
(** Where overflows are not to be reported, executions are not followed beyond a
    handler: a failure after it is missed. *)
Theorem C70_unreported_handler_refuted : exists k, owell_formed source_name (one_block (SPrim (Some "u") Handler [] :: k)) /\
  (forall m, can_get_to no_functions (one_block k) OFailed "f" [] m) /\
  forall I ndebug m, ~ boogie_can_fail I (overflow_pass no_functions (one_block (SPrim (Some "u") Handler [] :: k))) ndebug "f" [] m.
Proof.
  exists failing. split; [exact handled_well_formed|]. split.
  - intros m. exists 1%nat, (VBv 1 0), m. eexists. split; [reflexivity|]. split; [reflexivity|]. right. left. split; [|discriminate].
    eexists _, _. split; [reflexivity|]. split.
    + eapply (lsteps_cons _ _ _ _ _ _ _ [OFailed] _ []); [|constructor].
      eapply L_prim; [reflexivity|]. change [OFailed] with (map olift [Failed]). apply (O_base _ _ Assert _ m [Failed] (VBv 1 0) m). constructor.
    + reflexivity.
  - intros I ndebug m H.
    assert (forall e, ~ can_get_to no_functions (one_block handled) e "f" [] m) as Hno.
    { intros e ([|n] & v & m' & Hc); [destruct Hc|]. destruct Hc as (F & Hf & _ & Hc). cbn in Hf. injection Hf as <-.
      assert (forall call s0 t s, lstart (ocode (OFn oW oP (Func [] (Blk 0) [(Blk 0, Block [] handled (TRet None))]) [])) [] m = Some s0 ->
        lsteps (oexp_den oW) (exec_oop false call) no_oinvoke bv_true bv_eq (Func [] (Blk 0) [(Blk 0, Block [] handled (TRet None))]) s0 t s -> t = [] /\ s = s0) as Hs.
      { intros call s0 t s H1 H2. cbn in H1. injection H1 as <-. apply lsteps_head in H2. destruct H2 as [[<- ->]|(? & ? & ? & Hs & _ & _)]; [auto|].
        inversion Hs as [|? ? ? ? ? ? ? ? ? ? ? He Hp| | | | | | |]; subst. inversion Hp; subst. discriminate. }
      destruct Hc as [(r & (s0 & s & H1 & H2 & _) & _)|[[(s0 & s & H1 & H2 & _) _]|(t0 & E & (s0 & s & H1 & H2 & H3))]].
      - destruct (Hs _ _ _ _ H1 H2); discriminate.
      - destruct (Hs _ _ _ _ H1 H2); discriminate.
      - destruct (Hs _ _ _ _ H1 H2) as [_ ->]. cbn in H1. injection H1 as <-. discriminate. }
    destruct (C70_no_false_alarms _ _ _ _ handled_well_formed _ _ _ (Hno OUndefined) H) as [H1|H1]; exact (Hno _ H1).
Qed.
Print Assumptions C70_unreported_handler_refuted.
