(** Executions of whole programs and of the Boogie programs for them. *)
From Coq Require Import ZArith List String Bool Lia.
From Verif.Base Require Import ZBits.
From Verif.Spec Require Import LLVMInt IR CFG BitVectorIR ByteMemory Encodings Pointers Program.
From Verif.Model Require Import Boogie PreludeInt SmackRepInt PreludeMem BitVectorCode ControlFlow NormalizeLoops WholeProgram.
From Verif.Proofs Require Import Lookup PreludeCalls ExprSim ByteMem MemMain BitVectorCFG CFGProofs SplitSim ControlMain.
Import ListNotations.
Open Scope string_scope.
Open Scope list_scope.

(** ** Changing what primitives do *)
Section Prims.
  Context {V E P M Ev : Type} (evS : (string -> option V) -> E -> option V).
  Context (prim1 prim2 : P -> list V -> M -> list Ev -> V -> M -> Prop).
  Context (inv : P -> list V -> M -> list Ev -> V -> bool -> M -> Prop) (one : V) (veq : V -> V -> bool) (f : func V E P).
  Context (Hinv : forall p vs m t v w m', ~ inv p vs m t v w m').
  Notation steps1 := (lsteps evS prim1 inv one veq f).
  Notation steps2 := (lsteps evS prim2 inv one veq f).

  Lemma lstep_inv : forall prim (s : lstate V E M P) t s', lstep evS prim inv one veq f s t s' ->
    (t = [] /\ forall prim', lstep evS prim' inv one veq f s [] s') \/
    exists l x p es k r m vs v m', s = LRun l (SPrim x p es :: k) r m /\ s' = LRun l k (updo r x v) m' /\
      evals evS r es = Some vs /\ prim p vs m t v m'.
  Proof.
    intros prim s t s' H. destruct H; try (left; split; [reflexivity|intros; econstructor; eassumption]).
    - right. repeat eexists; eassumption.
    - destruct (Hinv _ _ _ _ _ _ _ H2).
  Qed.

  Lemma steps_ok : forall ok : list Ev -> Prop, (forall a b, ok (a ++ b) -> ok a /\ ok b) ->
    (forall p vs m t v m', ok t -> prim1 p vs m t v m' -> prim2 p vs m t v m') ->
    forall s t s', ok t -> steps1 s t s' -> steps2 s t s'.
  Proof.
    intros ok Hok Hp s t s' Ht H. induction H as [s|s1 t1 s2 t2 s3 H IH Hs]; [constructor|].
    destruct (Hok _ _ Ht) as [H1 H2]. apply LS_step with s2; [auto|].
    apply lstep_inv in Hs. destruct Hs as [[-> Hs]|(l & x & p & es & k & r & m & vs & v & m' & -> & -> & He & Hpr)]; [apply Hs|].
    econstructor; [exact He|auto].
  Qed.

  Lemma steps_back : forall bad : Ev,
    (forall p vs m t v m', prim1 p vs m t v m' -> prim2 p vs m t v m' \/
       exists t1 t2 v1 m1, t = t1 ++ t2 /\ prim2 p vs m (t1 ++ [bad]) v1 m1) ->
    forall s t s', steps1 s t s' -> steps2 s t s' \/
      exists t1 t2 s1, t = t1 ++ t2 /\ steps2 s (t1 ++ [bad]) s1 /\ result s1 = None.
  Proof.
    intros bad Hp s t s' H. induction H as [s|s1 t1 s2 t2 s3 H IH Hs]; [left; constructor|].
    destruct IH as [IH|(u1 & u2 & s4 & -> & IH & Hr)].
    2:{ right. exists u1, (u2 ++ t2), s4. now rewrite app_assoc. }
    apply lstep_inv in Hs. destruct Hs as [[-> Hs]|(l & x & p & es & k & r & m & vs & v & m' & -> & -> & He & Hpr)].
    - left. econstructor; [exact IH|apply Hs].
    - destruct (Hp _ _ _ _ _ _ Hpr) as [Hq|(u1 & u2 & v1 & m1 & -> & Hq)].
      + left. econstructor; [exact IH|]. econstructor; eassumption.
      + right. exists (t1 ++ u1), u2, (LRun l k (updo r x v1) m1). split; [now rewrite app_assoc|]. split; [|reflexivity].
        rewrite <- app_assoc. econstructor; [exact IH|]. econstructor; eassumption.
  Qed.

  (** A prefix of the events up to one that primitives can stop at. *)
  Lemma app_split : forall (a b c d : list Ev) x, a ++ b = c ++ x :: d ->
    (exists e, a = c ++ x :: e) \/ exists e, b = e ++ x :: d /\ c = a ++ e.
  Proof.
    induction a as [|y a IH]; intros b c d x H.
    - right. exists c. split; [exact H|reflexivity].
    - destruct c as [|z c]; cbn in H.
      + injection H as -> <-. left. now exists a.
      + injection H as -> H. destruct (IH _ _ _ _ H) as [(e & ->)|(e & -> & ->)]; [left; now exists e|right; now exists e].
  Qed.
  Lemma steps_cut : forall bad : Ev,
    (forall p vs m a b v m', prim1 p vs m (a ++ bad :: b) v m' -> exists v1 m1, prim1 p vs m (a ++ [bad]) v1 m1) ->
    forall s t s', steps1 s t s' -> forall a b, t = a ++ bad :: b ->
      exists s1, steps1 s (a ++ [bad]) s1 /\ result s1 = None.
  Proof.
    intros bad Hp s t s' H. induction H as [s|s1 t1 s2 t2 s3 H IH Hs]; intros a b Ht.
    - destruct a; discriminate.
    - destruct (app_split _ _ _ _ _ Ht) as [(e & ->)|(e & -> & ->)]; [eauto|].
      apply lstep_inv in Hs. destruct Hs as [[Hn _]|(l & x & p & es & k & r & m & vs & v & m' & -> & -> & He & Hpr)].
      + destruct e; discriminate.
      + destruct (Hp _ _ _ _ _ _ _ Hpr) as (v1 & m1 & Hq).
        exists (LRun l k (updo r x v1) m1). split; [|reflexivity]. rewrite <- app_assoc.
        econstructor; [exact H|]. econstructor; eassumption.
  Qed.
End Prims.
Section BPrims.
  Context {V E P M Ev T : Type} (tr : E -> T) (evT : (string -> V) -> T -> option V).
  Context (prim : P -> list V -> M -> list Ev -> V -> M -> Prop).
  Context (inv : P -> list V -> M -> list Ev -> V -> bool -> M -> Prop) (one : V) (veq : V -> V -> bool) (f : func V E P).
  Context (Hinv : forall p vs m t v w m', ~ inv p vs m t v w m').
  Lemma bsteps_never : forall bad : Ev, (forall p vs m t v m', prim p vs m t v m' -> ~ In bad t) ->
    forall s t s', bsteps tr evT prim inv one veq f s t s' -> ~ In bad t.
  Proof.
    intros bad Hp s t s' H. induction H as [s|s1 t1 s2 t2 s3 H IH Hs]; [intros []|].
    rewrite in_app_iff. intros [Hi|Hi]; [auto|]. destruct Hs; try destruct Hi; eauto.
    - eapply Hp; eassumption.
    - eapply Hinv; eassumption.
  Qed.
End BPrims.

(** ** The instructions *)
Open Scope Z_scope.
Lemma width_in : forall w, In (width w) INTEGER_SIZES.
Proof. intros []; cbn; tauto. Qed.
Lemma width_bytes : forall w, width w < 8 \/ width w mod 8 = 0.
Proof. intros []; cbn; (left; reflexivity) || (right; reflexivity). Qed.
Lemma extends_whole : extends whole_prelude (preludeMem (flags BitVector true) 64).
Proof. apply extends_refl. Qed.

Section Ops.
  Context (I : interp).
  Lemma load_value : forall w a m, is_iN 64 a -> byte_memory m ->
    exists v, value_of I [("$M.0", bmap m); ("p", VBv 64 a)] (load_code w) (VBv (width w) (pat (width w) v)) /\
      reads_as (bytes_at a) (bytes_needed (width w)) m v.
  Proof.
    intros w a m Ha Hm.
    exact (load_bytes BitVector true 64 whole_prelude I extends_whole (or_intror eq_refl) whole_memory
             (bindings [("$M.0", bmap m); ("p", VBv 64 a)]) (width w) (EVar "p") a m eq_refl eq_refl eq_refl (width_in w) (width_bytes w)
             (fun _ => Ha) Hm eq_refl (ex_intro _ O eq_refl)).
  Qed.
  Lemma store_value : forall w a x m, is_iN 64 a -> is_iN (width w) x ->
    exists m', value_of I [("$M.0", bmap m); ("p", VBv 64 a); ("v", VBv (width w) x)] (store_code w) (bmap m') /\
      written (bytes_at a) (bytes_needed (width w)) x m m'.
  Proof.
    intros w a x m Ha Hx.
    exact (store_bytes BitVector true 64 whole_prelude I extends_whole (or_intror eq_refl) whole_memory
             (bindings [("$M.0", bmap m); ("p", VBv 64 a); ("v", VBv (width w) x)]) (width w) (EVar "p") (EVar "v") a m x
             eq_refl eq_refl eq_refl (width_in w) (width_bytes w)
             (fun _ => Ha) Hx eq_refl (ex_intro _ O eq_refl) (ex_intro _ O eq_refl)).
  Qed.
  Lemma check_value : forall x b, value_of I [("x", VBv 32 x); ("$0", VBv 32 0)] check_code (VBool b) <-> b = negb (x =? 0).
  Proof.
    intros x b. split.
    - intros (k & Hk). unfold check_code in Hk. cbn in Hk. congruence.
    - intros ->. exists O. reflexivity.
  Qed.
End Ops.

(** ** Instructions on both sides *)
Lemma written_byte_memory : forall A k x m m', byte_memory m -> written A k x m m' ->
  (forall q, (exists i, 0 <= i < k /\ q = A i) \/ forall i, 0 <= i < k -> q <> A i) -> byte_memory m'.
Proof.
  intros A k x m m' Hm [H1 H2] Hdec q. destruct (Hdec q) as [(i & Hi & ->)|Hq].
  - rewrite H1 by exact Hi. unfold byte_of. apply Z.mod_pos_bound. reflexivity.
  - rewrite H2 by exact Hq. apply Hm.
Qed.
Lemma written_same : forall A k x m m1 m2,
  (forall q, (exists i, 0 <= i < k /\ q = A i) \/ forall i, 0 <= i < k -> q <> A i) ->
  written A k x m m1 -> written A k x m m2 -> forall q, m1 q = m2 q.
Proof.
  intros A k x m m1 m2 Hdec [A1 A2] [B1 B2] q. destruct (Hdec q) as [(i & Hi & ->)|Hq].
  - now rewrite A1, B1.
  - now rewrite A2, B2.
Qed.
Lemma below_dec : forall (A : Z -> Z) k q, (exists i, 0 <= i < Z.of_nat k /\ q = A i) \/ forall i, 0 <= i < Z.of_nat k -> q <> A i.
Proof.
  intros A k q. induction k as [|k IH]; [right; lia|]. destruct IH as [(i & Hi & E)|IH]; [left; exists i; split; [lia|exact E]|].
  destruct (Z.eq_dec q (A (Z.of_nat k))) as [E|E]; [left; exists (Z.of_nat k); split; [lia|exact E]|right].
  intros i Hi. destruct (Z.eq_dec i (Z.of_nat k)) as [->|Hn]; [exact E|apply IH; lia].
Qed.
Lemma access_dec : forall a w q, (exists i, 0 <= i < bytes_needed (width w) /\ q = bytes_at a i) \/
  forall i, 0 <= i < bytes_needed (width w) -> q <> bytes_at a i.
Proof.
  intros a w q. replace (bytes_needed (width w)) with (Z.of_nat (Z.to_nat (bytes_needed (width w)))) by (now destruct w).
  apply below_dec.
Qed.
Lemma bmap_inj : forall m m', bmap m = bmap m' -> m = m'.
Proof. intros m m' H. injection H. auto. Qed.

Section Sides.
  Context (I : interp).
  (** [ok]: events for which the two kinds of calls agree *)
  Lemma op_forward : forall (ok : list event -> Prop) (call1 call2 : string -> effect),
    (forall f vs m t v m', ok t -> call1 f vs m t v m' -> call2 f vs m t v m') ->
    forall p vs m t v m', ok t -> exec_op call1 p vs m t v m' -> bexec_op I call2 p vs m t v m'.
  Proof.
    intros ok call1 call2 Hc p vs m t v m' Hok H. destruct H.
    - destruct (load_value I w a (proj1_sig m) H (proj2_sig m)) as (v' & Hv & Hr).
      assert (0 <= bytes_needed (width w)) as Hk by (now destruct w).
      rewrite (reads_as_unique _ _ _ v v' Hk H0 Hr). now constructor.
    - destruct (store_value I w a x (proj1_sig m) H H0) as (m1 & Hv & Hw).
      econstructor; [exact H|exact H0|exact Hv|].
      intros q. symmetry. exact (written_same _ _ _ _ _ _ (access_dec a w) Hw H1 q).
    - now constructor.
    - constructor. apply check_value. symmetry. apply negb_true_iff, Z.eqb_neq. exact H.
    - apply Y_assert_holds. apply check_value. symmetry. apply negb_true_iff, Z.eqb_neq. exact H.
    - apply Y_assert_fails. now apply check_value.
    - constructor. auto.
  Qed.
  Lemma op_backward : forall (call1 call2 : string -> effect),
    (forall f vs m t v m', call1 f vs m t v m' -> call2 f vs m t v m' \/
       exists t1 t2 v1 m1, t = t1 ++ t2 /\ call2 f vs m (t1 ++ [Undefined]) v1 m1) ->
    forall p vs m t v m', bexec_op I call1 p vs m t v m' -> exec_op call2 p vs m t v m' \/
      exists t1 t2 v1 m1, t = t1 ++ t2 /\ exec_op call2 p vs m (t1 ++ [Undefined]) v1 m1.
  Proof.
    intros call1 call2 Hc p vs m t v m' H. destruct H.
    - left. destruct (load_value I w a (proj1_sig m) H (proj2_sig m)) as (v' & Hv & Hr).
      rewrite (evaluates_det whole_prelude I _ _ _ _ H0 Hv). now constructor.
    - left. destruct (store_value I w a x (proj1_sig m) H H0) as (m2 & Hv & Hw).
      rewrite <- (bmap_inj _ _ (evaluates_det whole_prelude I _ _ _ _ H1 Hv)) in Hw.
      constructor; [exact H|exact H0|]. destruct Hw as [A B]. split; intros; rewrite H2; auto.
    - left. now constructor.
    - left. constructor. apply check_value in H. destruct (Z.eqb_spec x 0); [discriminate|assumption].
    - left. apply X_assert_holds. apply check_value in H. destruct (Z.eqb_spec x 0); [discriminate|assumption].
    - left. apply check_value in H. destruct (Z.eqb_spec x 0); [subst|discriminate]. apply X_assert_fails.
    - destruct (Hc _ _ _ _ _ _ H) as [H1|(t1 & t2 & v1 & m1 & -> & H1)]; [left; now constructor|].
      right. exists t1, t2, v1, m1. split; [reflexivity|]. now constructor.
  Qed.
End Sides.

(** ** Whole programs *)
Lemma no_inv : forall p vs m t v w m', ~ no_invoke p vs m t v w m'.
Proof. intros p vs m t v w m' []. Qed.
Lemma find_in : forall p f F, find_fn p f = Some F -> In (f, F) p.
Proof.
  induction p as [|[g G] p IH]; intros f F H; cbn in H; [discriminate|].
  destruct (String.eqb_spec f g) as [->|]; [injection H as ->; now left|right; auto].
Qed.
Lemma runs_ok : forall (ok : list event -> Prop), (forall a b, ok (a ++ b) -> ok a /\ ok b) ->
  forall F (prim1 prim2 : op -> effect), (forall p vs m t v m', ok t -> prim1 p vs m t v m' -> prim2 p vs m t v m') ->
  forall args m t o, ok t ->
    behaves (typed_den (reg_widths F) width_ok) prim1 no_invoke bv_true bv_eq (code F) args m t o ->
    behaves (typed_den (reg_widths F) width_ok) prim2 no_invoke bv_true bv_eq (code F) args m t o.
Proof.
  intros ok Hok F prim1 prim2 Hp args m t o Ht (s0 & s & H1 & H2 & H3).
  exists s0, s. split; [exact H1|]. split; [|exact H3].
  exact (steps_ok _ prim1 prim2 no_invoke _ _ _ no_inv ok Hok Hp s0 t s Ht H2).
Qed.
Lemma runs_back : forall F (prim1 prim2 : op -> effect),
  (forall p vs m t v m', prim1 p vs m t v m' -> prim2 p vs m t v m' \/
     exists t1 t2 v1 m1, t = t1 ++ t2 /\ prim2 p vs m (t1 ++ [Undefined]) v1 m1) ->
  forall args m t o,
    behaves (typed_den (reg_widths F) width_ok) prim1 no_invoke bv_true bv_eq (code F) args m t o ->
    behaves (typed_den (reg_widths F) width_ok) prim2 no_invoke bv_true bv_eq (code F) args m t o \/
    exists t1 t2, t = t1 ++ t2 /\
      behaves (typed_den (reg_widths F) width_ok) prim2 no_invoke bv_true bv_eq (code F) args m (t1 ++ [Undefined]) None.
Proof.
  intros F prim1 prim2 Hp args m t o (s0 & s & H1 & H2 & H3).
  destruct (steps_back _ prim1 prim2 no_invoke _ _ _ no_inv Undefined Hp s0 t s H2) as [H4|(t1 & t2 & s1 & -> & H4 & H5)].
  - left. exists s0, s. auto.
  - right. exists t1, t2. split; [reflexivity|]. exists s0, s1. auto.
Qed.
Lemma undefined_back : forall F (prim1 prim2 : op -> effect),
  (forall p vs m t v m', prim1 p vs m t v m' -> prim2 p vs m t v m' \/
     exists t1 t2 v1 m1, t = t1 ++ t2 /\ prim2 p vs m (t1 ++ [Undefined]) v1 m1) ->
  forall args m t,
    undefined_after (typed_den (reg_widths F) width_ok) prim1 no_invoke bv_true bv_eq (code F) args m t ->
    undefined_after (typed_den (reg_widths F) width_ok) prim2 no_invoke bv_true bv_eq (code F) args m t \/
    exists t1 t2, t = t1 ++ t2 /\
      behaves (typed_den (reg_widths F) width_ok) prim2 no_invoke bv_true bv_eq (code F) args m (t1 ++ [Undefined]) None.
Proof.
  intros F prim1 prim2 Hp args m t (s0 & s & H1 & H2 & H3).
  destruct (steps_back _ prim1 prim2 no_invoke _ _ _ no_inv Undefined Hp s0 t s H2) as [H4|(t1 & t2 & s1 & -> & H4 & H5)].
  - left. exists s0, s. auto.
  - right. exists t1, t2. split; [reflexivity|]. exists s0, s1. auto.
Qed.

Section Whole.
  Context (I : interp) (ndebug : bool) (p : program) (Hwf : well_formed p).

  Lemma translate : forall F f call args r0 exn m, In (f, F) p -> List.length args = List.length (params (code F)) ->
    (forall t o, behaves (typed_den (reg_widths F) width_ok) (bexec_op I call) no_invoke bv_true bv_eq (code F) args m t o ->
       bruns I ndebug call F args r0 exn m t o) /\
    (forall t o, bruns I ndebug call F args r0 exn m t o ->
       behaves (typed_den (reg_widths F) width_ok) (bexec_op I call) no_invoke bv_true bv_eq (code F) args m t o \/
       exists t1 t2, t = t1 ++ t2 /\
         undefined_after (typed_den (reg_widths F) width_ok) (bexec_op I call) no_invoke bv_true bv_eq (code F) args m t1).
  Proof.
    intros F f call args r0 exn m Hin Hlen.
    exact (run_translate (typed_den (reg_widths F) width_ok) (typed_regs (reg_widths F) width_ok) (bexec_op I call) no_invoke
             bv_true bv_eq (code F) (loops F) (wf_original p Hwf f F Hin) (wf_loops p Hwf f F Hin) (wf_ssa p Hwf f F Hin)
             (trans_typed true ndebug) (eval_emitted true I) args r0 exn m (typed_sim true ndebug I (reg_widths F))
             (wf_lowered p Hwf f F Hin) Hlen).
  Qed.

  Lemma whole_forward : forall n f args m t v m', ~ In Undefined t ->
    calls p n f args m t v m' -> bcalls I p ndebug n f args m t v m'.
  Proof.
    induction n as [|n IH]; intros f args m t v m' Hu H; [destruct H|].
    destruct H as (F & Hf & Hlen & H). pose proof (find_in _ _ _ Hf) as Hin.
    exists F, (fun _ => bv_true), false. split; [exact Hf|]. split; [exact Hlen|].
    assert (forall o, runs (calls p n) F args m t o -> bruns I ndebug (bcalls I p ndebug n) F args (fun _ => bv_true) false m t o) as Hgo.
    { intros o Ho. apply (translate F f (bcalls I p ndebug n) args (fun _ => bv_true) false m Hin Hlen).
      refine (runs_ok (fun t => ~ In Undefined t) _ F _ _ _ args m t o Hu Ho).
      - intros a b Hab. split; intros Hi; apply Hab, in_app_iff; tauto.
      - apply op_forward. intros. now apply IH. }
    destruct H as [(r & Hr & Hv)|[[Hr Hb]|(t0 & -> & _)]].
    - left. exists r. auto.
    - right. split; [auto|]. tauto.
    - destruct Hu. apply in_app_iff. right. now left.
  Qed.

  Lemma whole_backward : forall n f args m t v m', bcalls I p ndebug n f args m t v m' ->
    calls p n f args m t v m' \/ exists t1 t2 v1 m1, t = t1 ++ t2 /\ calls p n f args m (t1 ++ [Undefined]) v1 m1.
  Proof.
    induction n as [|n IH]; intros f args m t v m' H; [destruct H|].
    destruct H as (F & r0 & exn & Hf & Hlen & H). pose proof (find_in _ _ _ Hf) as Hin.
    pose proof (op_backward I (bcalls I p ndebug n) (calls p n) IH) as Hop.
    assert (forall o, bruns I ndebug (bcalls I p ndebug n) F args r0 exn m t o -> runs (calls p n) F args m t o \/
              exists t1 t2, t = t1 ++ t2 /\ calls p (S n) f args m (t1 ++ [Undefined]) v m') as Hgo.
    { intros o Ho. apply (translate F f (bcalls I p ndebug n) args r0 exn m Hin Hlen) in Ho.
      destruct Ho as [Ho|(t1 & t2 & -> & Ho)].
      - destruct (runs_back F _ _ Hop _ _ _ _ Ho) as [H1|(t1 & t2 & -> & H1)]; [now left|].
        right. exists t1, t2. split; [reflexivity|]. exists F. split; [exact Hf|]. split; [exact Hlen|].
        right. left. split; [exact H1|]. right. apply in_app_iff. right. now left.
      - right. destruct (undefined_back F _ _ Hop _ _ _ Ho) as [H1|(u1 & u2 & -> & H1)].
        + exists t1, t2. split; [reflexivity|]. exists F. split; [exact Hf|]. split; [exact Hlen|].
          right. right. exists t1. auto.
        + exists u1, (u2 ++ t2). split; [now rewrite app_assoc|]. exists F. split; [exact Hf|]. split; [exact Hlen|].
          right. left. split; [exact H1|]. right. apply in_app_iff. right. now left. }
    destruct H as [(r & Hr & Hv)|[Hr Hb]].
    - destruct (Hgo _ Hr) as [H1|(t1 & t2 & H1 & H2)]; [|right; eauto 6].
      left. exists F. split; [exact Hf|]. split; [exact Hlen|]. left. eauto.
    - destruct (Hgo _ Hr) as [H1|(t1 & t2 & H1 & H2)]; [|right; eauto 6].
      left. exists F. split; [exact Hf|]. split; [exact Hlen|]. right. left. auto.
  Qed.

  Lemma boogie_never : forall n f args m t v m', bcalls I p ndebug n f args m t v m' -> ~ In Undefined t.
  Proof.
    induction n as [|n IH]; intros f args m t v m' H; [destruct H|].
    destruct H as (F & r0 & exn & Hf & Hlen & H).
    assert (forall o, bruns I ndebug (bcalls I p ndebug n) F args r0 exn m t o -> ~ In Undefined t) as Hgo.
    { intros o (s0 & s & _ & Hs & _). refine (bsteps_never _ _ _ no_invoke _ _ _ no_inv Undefined _ s0 t s Hs).
      intros q vs m1 t1 v1 m2 Hq. destruct Hq; try (intros []; fail); [|eauto].
      intros [E|[]]; discriminate. }
    destruct H as [(r & Hr & _)|[Hr _]]; eauto.
  Qed.
End Whole.

Lemma calls_cut : forall p n f args m a b v m', calls p n f args m (a ++ Failed :: b) v m' ->
  exists v1 m1, calls p n f args m (a ++ [Failed]) v1 m1.
Proof.
  intros p. induction n as [|n IH]; intros f args m a b v m' H; [destruct H|].
  destruct H as (F & Hf & Hlen & H). exists v, m', F. split; [exact Hf|]. split; [exact Hlen|].
  assert (forall s0 s c d, lstart (code F) args m = Some s0 ->
            lsteps (typed_den (reg_widths F) width_ok) (exec_op (calls p n)) no_invoke bv_true bv_eq (code F) s0 (c ++ Failed :: d) s ->
            runs (calls p n) F args m (c ++ [Failed]) None) as Hgo.
  { intros s0 s c d Hs H1.
    assert (forall q vs m1 a1 b1 v1 m2, exec_op (calls p n) q vs m1 (a1 ++ Failed :: b1) v1 m2 ->
              exists v3 m3, exec_op (calls p n) q vs m1 (a1 ++ [Failed]) v3 m3) as Hc.
    { intros q vs m1 a1 b1 v1 m2 Hq. inversion Hq; subst;
      try (match goal with E : [] = ?l ++ _ :: _ |- _ => destruct l; discriminate E end).
    - assert (a1 = [] /\ b1 = []) as [-> ->].
      { destruct a1 as [|x a1]; cbn in *; [split; congruence|].
        match goal with E : [Failed] = _ |- _ => injection E; intros E2 _; destruct a1; discriminate E2 end. }
      exists v1, m2. apply X_assert_fails.
    - match goal with Hc : calls p n _ _ _ _ _ _ |- _ => destruct (IH _ _ _ _ _ _ _ Hc) as (v3 & m3 & H3) end.
      exists v3, m3. now constructor. }
    destruct (steps_cut _ _ no_invoke bv_true bv_eq (code F) no_inv Failed Hc s0 _ s H1 c d eq_refl) as (s1 & H2 & H3).
    exists s0, s1. auto. }
  destruct H as [(r & (s0 & s & H1 & H2 & _) & _)|[[(s0 & s & H1 & H2 & _) _]|(t0 & Ht & (s0 & s & H1 & H2 & _))]].
  - right. left. split; [eapply Hgo; eassumption|]. left. apply in_app_iff. right. now left.
  - right. left. split; [eapply Hgo; eassumption|]. left. apply in_app_iff. right. now left.
  - right. left. split; [|left; apply in_app_iff; right; now left].
    destruct b as [|x b] using rev_ind.
    + assert (Failed = Undefined) by (now apply app_inj_tail in Ht). discriminate.
    + rewrite app_comm_cons, app_assoc in Ht. apply app_inj_tail in Ht. destruct Ht as [<- _]. eapply Hgo; eassumption.
Qed.
Lemma first_failed : forall t, In Failed t -> exists a b, t = a ++ Failed :: b /\ ~ In Failed a.
Proof.
  induction t as [|[] t IH]; intros H; [destruct H| |].
  - now exists [], t.
  - destruct H as [H|H]; [discriminate|]. destruct (IH H) as (a & b & -> & Ha).
    exists (Undefined :: a), b. split; [reflexivity|]. intros [E|E]; [discriminate|auto].
Qed.
Lemma failed_dec : forall t, In Failed t \/ ~ In Failed t.
Proof.
  induction t as [|[] t [IH|IH]]; cbn; auto. right. intros [E|E]; [discriminate|auto].
Qed.

Section Main.
  Context (I : interp) (ndebug : bool) (p : program) (Hwf : well_formed p).
  Lemma failure_found : forall f args m, can_fail p f args m -> boogie_can_fail I p ndebug f args m.
  Proof.
    intros f args m (n & t & v & m' & H & Hf & Hu). exists n, (t ++ [Failed]), v, m'. split.
    - apply (whole_forward I ndebug p Hwf); [|exact H]. rewrite in_app_iff. intros [Hi|[Hi|[]]]; [auto|discriminate].
    - apply in_app_iff. right. now left.
  Qed.
  Lemma failure_real : forall f args m, boogie_can_fail I p ndebug f args m ->
    can_fail p f args m \/ can_be_undefined p f args m.
  Proof.
    assert (forall n f args m t v m', calls p n f args m t v m' -> In Failed t -> forall t1 t2, t = t1 ++ t2 -> In Failed t1 ->
              ~ In Undefined t1 -> can_fail p f args m) as Hcut.
    { intros n f args m t v m' H Hf t1 t2 -> Hf1 Hu. destruct (first_failed _ Hf1) as (a & b & -> & Ha).
      rewrite <- app_assoc in H. cbn in H. destruct (calls_cut _ _ _ _ _ _ _ _ _ H) as (v1 & m1 & H1).
      exists n, a, v1, m1. split; [exact H1|]. split; [exact Ha|]. intros Hi. apply Hu, in_app_iff. now left. }
    intros f args m (n & t & v & m' & H & Hf). pose proof (boogie_never I ndebug p n _ _ _ _ _ _ H) as Hu.
    destruct (whole_backward I ndebug p Hwf n _ _ _ _ _ _ H) as [H1|(t1 & t2 & v1 & m1 & -> & H1)].
    - left. apply (Hcut n f args m t v m' H1 Hf t []); [now rewrite app_nil_r|exact Hf|exact Hu].
    - destruct (failed_dec t1) as [Hf1|Hf1].
      + left. apply (Hcut n f args m _ v1 m1 H1) with (t1 := t1) (t2 := [Undefined]); auto.
        * apply in_app_iff. now left.
        * intros Hi. apply Hu, in_app_iff. now left.
      + right. exists n, t1, v1, m1. split; [exact H1|]. split; [exact Hf1|]. intros Hi. apply Hu, in_app_iff. now left.
  Qed.
  Lemma returns_kept : forall f args m v m', can_return p f args m v m' -> exists n, bcalls I p ndebug n f args m [] v m'.
  Proof. intros f args m v m' (n & H). exists n. apply (whole_forward I ndebug p Hwf); [intros []|exact H]. Qed.
  Lemma returns_real : forall f args m v m' n, bcalls I p ndebug n f args m [] v m' ->
    can_return p f args m v m' \/ can_be_undefined p f args m.
  Proof.
    intros f args m v m' n H. destruct (whole_backward I ndebug p Hwf n _ _ _ _ _ _ H) as [H1|(t1 & t2 & v1 & m1 & Ht & H1)].
    - left. now exists n.
    - right. symmetry in Ht. apply app_eq_nil in Ht. destruct Ht as [-> ->]. exists n, [], v1, m1. split; [exact H1|]. split; intros [].
  Qed.
End Main.
