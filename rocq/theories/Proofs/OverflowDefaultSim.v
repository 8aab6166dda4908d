(** A function with checked arithmetic, and the function after the overflow pass
    executed on unbounded integers. *)
From Coq Require Import ZArith List String Ascii Bool Lia ZifyBool.
From Verif.Base Require Import ZBits.
From Verif.Spec Require Import LLVMInt IR CFG BitVectorIR ByteMemory Encodings Program DefaultMode OverflowProgram OverflowDefault.
From Verif.Spec Require Overflow.
From Verif.Model Require Import Boogie PreludeInt SmackRepInt DefaultMode OverflowProgram.
From Verif.Model Require OverflowChecker.
From Verif.Proofs Require ControlExamples.
From Verif.Proofs Require Import CFGBase SafePass IntUnbounded Lockstep DefaultExpr DefaultSim OverflowPass OverflowSim OverflowDefaultExpr.
Import ListNotations.
Open Scope list_scope.
Open Scope Z_scope.

(** ** Executions, counted *)
Section GSteps.
  Context {E M P Ev : Type} (evS : (string -> option val) -> E -> option val) (prim : P -> list val -> M -> list Ev -> val -> M -> Prop)
    (inv : P -> list val -> M -> list Ev -> val -> bool -> M -> Prop) (one : val) (veq : val -> val -> bool) (f : func val E P).
  Notation step := (lstep evS prim inv one veq f).
  Notation steps := (lsteps evS prim inv one veq f).
  Notation st := (lstate val E M P).
  Fixpoint g_nsteps (n : nat) (s : st) (t : list Ev) (s' : st) : Prop :=
    match n with
    | O => t = [] /\ s = s'
    | S n => exists t1 s1 t2, step s t1 s1 /\ g_nsteps n s1 t2 s' /\ t = t1 ++ t2
    end.
  Lemma g_nsteps_snoc : forall n s t1 s1 t2 s2, g_nsteps n s t1 s1 -> step s1 t2 s2 -> g_nsteps (S n) s (t1 ++ t2) s2.
  Proof.
    induction n as [|n IH]; intros s t1 s1 t2 s2 H Hs.
    - destruct H as [-> ->]. exists t2, s2, []. rewrite app_nil_r. cbn. auto.
    - destruct H as (u & a & w & H1 & H2 & ->). exists u, a, (w ++ t2). split; [exact H1|]. split; [exact (IH _ _ _ _ _ H2 Hs)|now rewrite app_assoc].
  Qed.
  Lemma g_steps_count : forall s t s', steps s t s' -> exists n, g_nsteps n s t s'.
  Proof.
    intros s t s' H. induction H as [s|s1 t1 s2 t2 s3 H [n IH] Hs]; [exists O; cbn; auto|]. exists (S n). exact (g_nsteps_snoc _ _ _ _ _ _ IH Hs).
  Qed.
  Lemma g_steps_app : forall s1 t1 s2 t2 s3, steps s1 t1 s2 -> steps s2 t2 s3 -> steps s1 (t1 ++ t2) s3.
  Proof.
    intros s1 t1 s2 t2 s3 H1 H2. revert H1. induction H2 as [s|a u b w c H IH Hs]; intros H1; [now rewrite app_nil_r|].
    rewrite app_assoc. eapply LS_step; [exact (IH H1)|exact Hs].
  Qed.
  Lemma g_steps_one : forall s t s', step s t s' -> steps s t s'.
  Proof. intros s t s' H. change t with ([] ++ t). eapply LS_step; [constructor|exact H]. Qed.
  Lemma g_first_event : forall s e t s', steps s (e :: t) s' -> exists s1 s2 t2, steps s [] s1 /\ step s1 (e :: t2) s2.
  Proof.
    intros s e t s' H. remember (e :: t) as u eqn:Eu. revert t Eu. induction H as [s|s1 t1 s2 t2 s3 H IH Hs]; intros t Eu; [discriminate|].
    destruct t1 as [|e1 t1]; cbn in Eu.
    - subst t2. eauto 6.
    - injection Eu as -> Eu. exact (IH t1 eq_refl).
  Qed.

  (** Assignments only. *)
  Notation asteps := (@asteps E M P evS).
  Notation busy := (@busy E M P evS).
  Lemma g_asteps_steps : forall n s s', asteps n s s' -> steps s [] s'.
  Proof.
    induction n as [|n IH]; intros s s' H; [cbn in H; subst; constructor|].
    destruct s as [l [|[x e|x p es] k] r m|]; try destruct H. destruct H as [Hv H].
    apply (ControlExamples.lsteps_cons _ _ _ _ _ _ _ []  (LRun l k (upd r x x0) m) []); [now constructor|now apply IH].
  Qed.
  Lemma g_asteps_det : forall k a b, asteps k a b -> forall n t c, g_nsteps n a t c ->
    ((k <= n)%nat /\ g_nsteps (n - k) b t c) \/ (t = [] /\ busy c).
  Proof.
    induction k as [|k IH]; intros a b H n t c Hn; [cbn in H; subst; left; rewrite Nat.sub_0_r; split; [lia|exact Hn]|].
    destruct a as [l [|[x e|x p es] q] r m|]; try destruct H. destruct H as [Hv H].
    destruct n as [|n].
    - destruct Hn as [-> <-]. right. split; [reflexivity|]. exists l, x, e, q, r, m, x0. auto.
    - destruct Hn as (t1 & s1 & t2 & Hs & Hn & ->). inversion Hs; subst.
      assert (v = x0) as -> by congruence. destruct (IH _ _ H _ _ _ Hn) as [[H1 H2]|[H1 H2]].
      + left. split; [lia|exact H2].
      + right. subst t2. auto.
  Qed.
  Lemma g_busy_fine : forall s, busy s -> ~ goes_wrong evS inv one veq f s.
  Proof. intros s (l & x & e & k & r & m & v & -> & Hv) H. cbn in H. congruence. Qed.
  Lemma term_det : (forall p vs m t v w m', ~ inv p vs m t v w m') -> forall l r m t s t' s',
    step (LRun l [] r m) t s -> step (LRun l [] r m) t' s' -> t = t' /\ s = s'.
  Proof.
    intros Hinv l r m t s t' s' H1 H2. inversion H1; subst; inversion H2; subst;
      try (match goal with H : inv _ _ _ _ _ _ _ |- _ => destruct (Hinv _ _ _ _ _ _ _ H) end);
      match goal with A : block_of f l = Some ?b1, B : block_of f l = Some ?b2 |- _ => rewrite A in B; injection B as <- end;
      match goal with A : bterm ?b = _, B : bterm ?b = _ |- _ => rewrite A in B; first [discriminate B | injection B; clear B; intros; subst | clear B] end;
      try match goal with A : evS ?r ?e = Some ?v, B : evS ?r ?e = Some ?w |- _ => rewrite A in B; injection B as <- end;
      split; congruence.
  Qed.
  Lemma term_fine : (forall p vs m t v w m', ~ inv p vs m t v w m') -> forall l r m t s, step (LRun l [] r m) t s -> ~ goes_wrong evS inv one veq f (LRun l [] r m).
  Proof.
    intros Hinv l r m t s H (b0 & Hb & Hw). inversion H; subst;
      try (match goal with H : inv _ _ _ _ _ _ _ |- _ => destruct (Hinv _ _ _ _ _ _ _ H) end);
      match goal with A : block_of f l = Some ?b1 |- _ => rewrite A in Hb; injection Hb as <- end;
      match goal with A : bterm _ = _ |- _ => rewrite A in Hw end;
      repeat match goal with A : evS _ _ = Some _ |- _ => rewrite A in Hw end; try congruence; exact Hw.
  Qed.
End GSteps.

(** ** What is described *)
Lemma described_dec : forall ly ck o vs, described ly ck o vs \/ ~ described ly ck o vs.
Proof.
  intros ly ck o vs. destruct o as [o|sg op n|].
  - destruct (access_dec_typed ly o vs); [left|right]; assumption.
  - destruct sg; destruct vs as [|[| | |] [|[| | |] [|]]]; cbn [described]; try (right; intros []; fail).
    + destruct ck; [left; now left|]. destruct (Overflow.overflows true op n _ _); [right; intros [H|H]; discriminate|left; now right].
    + match goal with |- ?P \/ _ => assert (forall a b c : bool, True) as _ by auto end.
      match goal with |- (?a <= ?b /\ ?c <= ?d /\ ?e <= ?g < ?h) \/ _ => destruct (Z_le_dec a b), (Z_le_dec c d), (Z_le_dec e g), (Z_lt_dec g h); tauto end.
  - destruct vs; [left; exact Logic.I|right; intros []].
Qed.
Lemma described_wide : forall ly ck sg op n k1 k2 x y, described ly ck (With sg op n) [VBv k1 x; VBv k2 y] -> wide_described sg op n x y.
Proof. intros ly ck [] op n k1 k2 x y H; [now left|]. right. split; [reflexivity|exact H]. Qed.
Lemma described_fine : forall ly ck sg op n k1 k2 x y, described ly ck (With sg op n) [VBv k1 x; VBv k2 y] -> 1 <= n ->
  ck && Overflow.overflows sg op n x y = false -> Overflow.overflows sg op n x y = false.
Proof.
  intros ly ck [] op n k1 k2 x y H Hn He; cbn [described] in H.
  - destruct H as [-> |H]; [exact He|exact H].
  - destruct H as (_ & _ & H). clear He. unfold Overflow.overflows, Overflow.representable.
    assert (2 ^ (n - 1) < 2 ^ n) by (apply Z.pow_lt_mono_r; lia). lia.
Qed.

(** ** Loads, stores, inputs, assumptions and assertions *)
Definition no_icallee : string -> ieffect := fun _ _ _ _ _ _ => False.
Lemma base_to_int : forall I ly, layout_ok ly -> forall o vs ws m M t v m', Forall2 Rw vs ws -> same_memory ly m M ->
  exec_op no_callee o vs m t v m' -> typed_access ly o vs ->
  (t = [] -> exists w M', iexec_op I no_icallee o ws M [] w M' /\ Rv v w /\ same_memory ly m' M') /\
  (t <> [] -> exists w M', iexec_op I no_icallee o ws M [Failed] w M').
Proof.
  intros I ly Hly o vs ws m M t v m' Hvs HM H Hty.
  assert (t = [] \/ t = [Failed]) as Ht by (destruct H; auto; destruct H).
  destruct (op_to_int I ly Hly no_callee no_icallee ltac:(intros; contradiction) o vs ws m M t v m' Hvs HM H Hty) as [(w & M' & H1 & H2 & H3)|(u & w & M' & (b & E & Hin) & H1)].
  - split; [intros ->; eauto|]. intros Hne. destruct Ht as [->| ->]; [congruence|]. eauto.
  - destruct Ht as [->| ->].
    + destruct u; [destruct Hin|discriminate].
    + split; [discriminate|]. intros _. destruct u as [|e [|? ?]]; [destruct Hin|injection E as <- _; eauto|destruct b; discriminate].
Qed.
Lemma base_from_int : forall I ly, layout_ok ly -> forall o vs ws m M t w M', Forall2 Rw vs ws -> same_memory ly m M ->
  iexec_op I no_icallee o ws M t w M' -> typed_access ly o vs ->
  (t = [] -> exists v m', exec_op no_callee o vs m [] v m' /\ Rv v w /\ same_memory ly m' M') /\
  (t <> [] -> exists v m', exec_op no_callee o vs m [Failed] v m').
Proof.
  intros I ly Hly o vs ws m M t w M' Hvs HM H Hty.
  assert (t = [] \/ t = [Failed]) as Ht by (destruct H; auto; destruct H).
  assert (forall u v m1, exact_op ly no_callee o vs m u v m1 -> exec_op no_callee o vs m u v m1 /\ (u = [] \/ u = [Failed])) as Hex.
  { intros u v m1 Hu. destruct Hu as [? ? ? ? ? ? Hu _|? ? ? ? ? Hn]; [|contradiction]. split; [exact Hu|]. destruct Hu; auto. destruct H0. }
  destruct (op_from_int I ly Hly no_callee no_icallee ltac:(intros; contradiction) o vs ws m M t w M' Hvs HM H) as [(v & m' & H1 & H2 & H3)|(u & v & m' & Hcut & H1)].
  - destruct (Hex _ _ _ H1) as [H4 _]. split; [intros ->; eauto|]. intros Hne. destruct Ht as [->| ->]; [congruence|]. eauto.
  - destruct (Hex _ _ _ H1) as [H4 H5]. destruct Hcut as [(a & b & E & ->)|(b & E & Hin)].
    + destruct H5 as [H5|H5]; [destruct a; discriminate|]. destruct a as [|? [|]]; discriminate.
    + destruct H5 as [->| ->]; [destruct Hin|]. subst t. split; [discriminate|]. eauto.
Qed.

Section Sim.
  Context (all : bool) (W P : string -> option Z) (ck : bool) (f : func val oexp oop) (Hok : fn_ok source_name W P f).
  Context (HG : forall x n, widths_after W P x = Some n -> 1 <= n).
  Context (Hcond : forall l b e l1 l2, block_of f l = Some b -> bterm b = TCond e l1 l2 -> oexp_width e = 1).
  Context (Hsw : forall l b e d c, block_of f l = Some b -> bterm b <> TSwitch e d c).
  Context (I : interp) (ly : layout) (Hly : layout_ok ly).
  Context (ocall : string -> oeffect) (icall : string -> ieffect).
  Notation G := (widths_after W P).
  Notation sden := (oexact_den all W).
  Notation tden := (lax_den all G).
  Notation visit := (visit_stmt W P ck).
  Notation f' := (visit_func W P ck f).
  Notation sstep := (lstep sden (exact_oop ly ck ocall) no_oinvoke bv_true bv_eq f).
  Notation ssteps := (lsteps sden (exact_oop ly ck ocall) no_oinvoke bv_true bv_eq f).
  Notation swrong := (goes_wrong sden no_oinvoke bv_true bv_eq f).
  Notation tstep := (lstep tden (iexec_op I icall) no_iinvoke int_true int_eq f').
  Notation tsteps := (lsteps tden (iexec_op I icall) no_iinvoke int_true int_eq f').
  Notation twrong := (goes_wrong tden no_iinvoke int_true int_eq f').
  Notation tasteps := (@asteps _ (Z -> Z) op tden).
  Notation tnsteps := (g_nsteps tden (iexec_op I icall) no_iinvoke int_true int_eq f').
  Notation rel := (REL P).
  Notation ssteps_app := (g_steps_app sden (exact_oop ly ck ocall) no_oinvoke bv_true bv_eq f).
  Notation tsteps_app := (g_steps_app tden (iexec_op I icall) no_iinvoke int_true int_eq f').
  Notation tasteps_steps := (g_asteps_steps tden (iexec_op I icall) no_iinvoke int_true int_eq f').
  Notation tasteps_det := (g_asteps_det tden (iexec_op I icall) no_iinvoke int_true int_eq f').

  Inductive imatches : lstate val oexp mem oop -> lstate val (typed G width_ok) (Z -> Z) op -> Prop :=
  | IM_run : forall l k r ri m M, Forall (stmt_ok source_name W P) k -> rel r ri -> same_memory ly m M ->
      imatches (LRun l k r m) (LRun l (flat_map visit k) ri M)
  | IM_done : forall o o' m M, Ro Rw o o' -> same_memory ly m M -> imatches (LDone o m) (LDone o' M).

  Lemma eval_both : forall r ri e v, rel r ri -> oexp_ok W P e -> sden r e = Some v -> tden ri (visit_exp W P e) = Some (as_int v) /\ Rw v (as_int v).
  Proof. intros r ri e v Hr He Hv. exact (eval_fwd all W P f Hok HG r ri e v Hr He Hv). Qed.
  Lemma REL_upd : forall r ri x v w, rel r ri -> plain_reg source_name P x -> Rv v w -> rel (upd r x v) (upd ri x w).
  Proof. intros r ri x v w (rq & Hi & HR) Hx Hv. exists (upd rq x v). split; [now apply INV_upd|now apply Rreg_upd]. Qed.
  Lemma REL_updo : forall r ri x v w, rel r ri -> (forall y, x = Some y -> plain_reg source_name P y) -> Rv v w -> rel (updo r x v) (updo ri x w).
  Proof. intros r ri [x|] v w Hr Hx Hv; cbn; [apply REL_upd; auto|exact Hr]. Qed.
  Lemma REL_upds : forall l r ri, rel r ri -> (forall x v, In (x, v) l -> plain_reg source_name P x) ->
    rel (upds r l) (upds ri (map (fun xv => (fst xv, as_int (snd xv))) l)).
  Proof.
    induction l as [|[x v] l IH]; intros r ri Hr Hl; cbn; [exact Hr|]. apply IH; [|intros y w Hy; apply (Hl y w); now right].
    apply REL_upd; [exact Hr|apply (Hl x v); now left|]. intros _. reflexivity.
  Qed.
  Lemma evals_both : forall r ri es vs, rel r ri -> Forall (oexp_ok W P) es -> evals sden r es = Some vs ->
    evals tden ri (map (visit_exp W P) es) = Some (map as_int vs) /\ Forall2 Rw vs (map as_int vs).
  Proof.
    intros r ri es vs Hr He. revert vs. induction He as [|e es H He IH]; intros vs Hv.
    - injection Hv as <-. cbn. split; [reflexivity|constructor].
    - unfold evals in *. cbn in *. destruct (sden r e) as [v|] eqn:Ev; [|discriminate]. destruct (all_some (map (sden r) es)) as [ws|]; [|discriminate].
      injection Hv as <-. destruct (eval_both r ri e v Hr H Ev) as [H1 H2]. destruct (IH ws eq_refl) as [H3 H4]. rewrite H1. rewrite H3. cbn. split; [reflexivity|now constructor].
  Qed.
  Lemma phis_both : forall r ri l ps vs, rel r ri -> Forall (phi_ok source_name W P) ps -> phi_values sden r l ps = Some vs ->
    phi_values tden ri l (map (visit_phi W P) ps) = Some (map (fun xv => (fst xv, as_int (snd xv))) vs).
  Proof.
    intros r ri l ps vs Hr Hp. revert vs. induction Hp as [|[x inc] ps [_ H] Hp IH]; intros vs Hv.
    - injection Hv as <-. reflexivity.
    - unfold phi_values in *. cbn in *. rewrite (lookup_map (visit_exp W P) l inc). destruct (CFG.lookup l inc) as [e|] eqn:El; cbn [option_map]; [|discriminate].
      destruct (sden r e) as [v|] eqn:Ev; [|discriminate]. destruct (eval_both r ri e v Hr (H l e (lookup_in _ _ _ _ El)) Ev) as [-> _].
      destruct (all_some _) as [ws|] eqn:Ew in Hv; [|discriminate]. injection Hv as <-. rewrite (IH ws Ew). reflexivity.
  Qed.
  Lemma enter_both : forall r ri l l' k r1, rel r ri -> enter sden f l l' r = Some (k, r1) ->
    exists r1', enter tden f' l l' ri = Some (flat_map visit k, r1') /\ forall m M, same_memory ly m M -> imatches (LRun l' k r1 m) (LRun l' (flat_map visit k) r1' M).
  Proof.
    intros r ri l l' k r1 Hr. unfold enter. rewrite (oblock_visit W P ck f). destruct (block_of f l') as [b|] eqn:Eb; cbn [option_map]; [|discriminate].
    destruct (block_good W P f Hok l' b Eb) as (Hp & Hb & _). cbn [visit_block phis body].
    destruct (phi_values sden r l (phis b)) as [vs|] eqn:Ev; [|discriminate]. intros E. injection E as <- <-.
    rewrite (phis_both r ri l (phis b) vs Hr Hp Ev). eexists. split; [reflexivity|]. intros m M HM. constructor; [exact Hb| |exact HM].
    apply REL_upds; [exact Hr|]. intros x v Hin.
    pose proof (phi_values_names _ _ _ _ _ _ _ Ev Hin) as Hx. apply in_map_iff in Hx as ([y inc] & <- & Hy). rewrite Forall_forall in Hp. exact (proj1 (Hp _ Hy)).
  Qed.
  Lemma cond_same : forall r ri e v, rel r ri -> oexp_ok W P e -> oexp_width e = 1 -> sden r e = Some v -> bv_eq v bv_true = int_eq (as_int v) int_true.
  Proof.
    intros r ri e v Hr He Hw Hv. unfold oexact_den in Hv. destruct (oexp_exact all W r e); [|discriminate].
    assert (exists a, v = VBv 1 a) as (a & ->).
    { destruct e as [[x|i]|d n [|]]; cbn in Hv, Hw.
      - destruct (value_den (bits W r) x); [|discriminate]. injection Hv as <-. rewrite Hw. eauto.
      - destruct (inst_den (bits W r) i); [|discriminate]. injection Hv as <-. rewrite Hw. eauto.
      - unfold part in Hv. destruct (r d) as [[| | |]|]; try discriminate. destruct (_ && _ && _) in Hv; [|discriminate]. injection Hv as <-. eauto.
      - unfold part in Hv. destruct (r d) as [[| | |]|]; try discriminate. destruct (_ && _ && _) in Hv; [|discriminate]. injection Hv as <-. rewrite Hw. eauto. }
    cbn. destruct a as [|[]|]; reflexivity.
  Qed.

  (** ** Ends of blocks *)
  Definition stuck_both (s : lstate val oexp mem oop) (s' : lstate val (typed G width_ok) (Z -> Z) op) : Prop :=
    (forall t s1, ~ sstep s t s1) /\ (forall t s1', ~ tstep s' t s1') /\ ~ twrong s'.
  Lemma term_sim : forall l r ri m M, rel r ri -> same_memory ly m M ->
    swrong (LRun l [] r m) \/
    (exists s1 s1', sstep (LRun l [] r m) [] s1 /\ tstep (LRun l [] ri M) [] s1' /\ imatches s1 s1') \/
    stuck_both (LRun l [] r m) (LRun l [] ri M).
  Proof.
    intros l r ri m M Hr HM. pose proof (oblock_visit W P ck f l) as Hb'. destruct (block_of f l) as [b|] eqn:Eb; cbn [option_map] in Hb'.
    2: { right. right. split; [|split].
      - intros t s1 H. inversion H; congruence.
      - intros t s1 H. inversion H; congruence.
      - intros (b & E & _). congruence. }
    destruct (block_good W P f Hok l b Eb) as (_ & _ & Hg).
    assert (bterm (visit_block W P ck b) = visit_term W P (bterm b)) as Ht' by reflexivity.
    destruct (bterm b) as [[e|]|l'|e l1 l2|e d c|x p es n u|e|] eqn:Et; cbn [term_ok visit_term option_map] in Hg, Ht'.
    - destruct (sden r e) as [v|] eqn:Ev; [|left; exists b; rewrite Et; auto]. destruct (eval_both r ri e v Hr Hg Ev) as [H1 H2]. right. left.
      do 2 eexists. split; [eapply L_retv; eassumption|]. split; [eapply L_retv; eassumption|]. constructor; [exact H2|exact HM].
    - right. left. do 2 eexists. split; [eapply L_ret; eassumption|]. split; [eapply L_ret; eassumption|]. constructor; [exact Logic.I|exact HM].
    - destruct (enter sden f l l' r) as [[k r1]|] eqn:Ee; [|left; exists b; rewrite Et; auto].
      destruct (enter_both _ _ _ _ _ _ Hr Ee) as (r1' & Ee' & Hm). right. left.
      do 2 eexists. split; [eapply L_br; eassumption|]. split; [eapply L_br; eassumption|]. now apply Hm.
    - destruct (sden r e) as [v|] eqn:Ev; [|left; exists b; rewrite Et, Ev; auto]. destruct (eval_both r ri e v Hr Hg Ev) as [H1 H2].
      pose proof (cond_same r ri e v Hr Hg (Hcond _ _ _ _ _ Eb Et) Ev) as Hc.
      destruct (enter sden f l (if bv_eq v bv_true then l1 else l2) r) as [[k r1]|] eqn:Ee; [|left; exists b; rewrite Et, Ev; auto].
      destruct (enter_both _ _ _ _ _ _ Hr Ee) as (r1' & Ee' & Hm). right. left.
      do 2 eexists. split; [eapply L_cond; eassumption|]. split; [eapply L_cond; [eassumption|eassumption|exact H1|rewrite <- Hc; exact Ee']|]. rewrite <- Hc. now apply Hm.
    - destruct (Hsw _ _ _ _ _ Eb Et).
    - destruct (evals sden r es) as [vs|] eqn:Ev; [|left; exists b; rewrite Et, Ev; auto]. destruct (evals_both r ri es vs Hr (proj2 Hg) Ev) as [H1 H2].
      right. right. split; [|split].
      + intros t s1 H. inversion H; try congruence. match goal with Hn : no_oinvoke _ _ _ _ _ _ _ |- _ => destruct Hn end.
      + intros t s1 H. inversion H; try congruence. match goal with Hn : no_iinvoke _ _ _ _ _ _ _ |- _ => destruct Hn end.
      + intros (b0 & E & Hw). assert (b0 = visit_block W P ck b) as -> by congruence. rewrite Ht', H1 in Hw. destruct Hw as (? & ? & ? & ? & [] & _).
    - destruct (sden r e) as [v|] eqn:Ev; [|left; exists b; rewrite Et; auto]. destruct (eval_both r ri e v Hr Hg Ev) as [H1 H2]. right. left.
      do 2 eexists. split; [eapply L_resume; eassumption|]. split; [eapply L_resume; eassumption|]. constructor; [exact H2|exact HM].
    - left. exists b. rewrite Et. auto.
  Qed.

  (** ** Instructions *)
  Lemma ibase_op : forall o vs m t v m', iexec_op I icall o vs m t v m' -> (exists g, o = Call g /\ icall g vs m t v m') \/ iexec_op I no_icallee o vs m t v m'.
  Proof.
    intros o vs m t v m' H. destruct H; [right; now apply Z_load|right; eapply Z_store; eassumption|right; now apply Z_input|right; now apply Z_assume|
      right; now apply Z_assert_holds|right; now apply Z_assert_fails|left; eauto].
  Qed.
  Lemma ibase_lift : forall o vs m t v m', iexec_op I no_icallee o vs m t v m' -> iexec_op I icall o vs m t v m' /\ (t = [] \/ t = [Failed]).
  Proof.
    intros o vs m t v m' H. destruct H; (split; [|auto]); [now apply Z_load|eapply Z_store; eassumption|now apply Z_input|now apply Z_assume|
      now apply Z_assert_holds|now apply Z_assert_fails|destruct H|destruct H].
  Qed.
  Lemma iassert_step : forall l (rest : list (stmt (typed G width_ok) op)) r'' (m : Z -> Z) e c, c <> 0 -> tden r'' e = Some (VInt c) ->
    tstep (LRun l ([SPrim None Assert [e]] ++ rest) r'' m) [] (LRun l rest r'' m).
  Proof.
    intros l rest r'' m e c Hc H. cbn. apply (L_prim _ _ _ _ _ _ l None Assert [e] rest r'' m [VInt c] [] (VInt c) m); [now apply evals_one|].
    apply Z_assert_holds. apply check_int_value. destruct (Z.eqb_spec c 0); [contradiction|reflexivity].
  Qed.
  Lemma iassert_fail : forall l (rest : list (stmt (typed G width_ok) op)) r'' (m : Z -> Z) e, tden r'' e = Some (VInt 0) ->
    tstep (LRun l ([SPrim None Assert [e]] ++ rest) r'' m) [Failed] (LRun l rest r'' m).
  Proof.
    intros l rest r'' m e H. cbn. apply (L_prim _ _ _ _ _ _ l None Assert [e] rest r'' m [VInt 0] [Failed] (VInt 0) m); [now apply evals_one|].
    apply Z_assert_fails. now apply check_int_value.
  Qed.
  Lemma ihandler_run : forall l rest r ri (m : Z -> Z) u, rel r ri -> ck = true ->
    exists r'' rest', tasteps 3 (LRun l (visit (SPrim (Some u) Handler []) ++ rest) ri m) (LRun l ([SPrim None Assert [as_typed G (Op (VReg 32 (COND u)))]] ++ rest') r'' m) /\
      tden r'' (as_typed G (Op (VReg 32 (COND u)))) = Some (VInt 0).
  Proof.
    intros l rest r ri m u (rq & _ & HR) Eck. cbn [visit_stmt]. replace ck with true. rewrite <- app_assoc.
    destruct (check_exact all W P f Hok HG u (VConst 1 1) 1 l (add_blocking_assume W P u (VConst 1 1) ++ rest) rq ri m (one_wt W P) eq_refl eq_refl ltac:(lia) eq_refl eq_refl HR)
      as (rq'' & ri'' & HA & _ & _ & HC).
    exists ri''. eexists. split; [exact HA|exact HC].
  Qed.
  Lemma ihandler_blocked : forall l rest r ri (m : Z -> Z) u, rel r ri -> ck = false ->
    exists r'' rest', tasteps 2 (LRun l (visit (SPrim (Some u) Handler []) ++ rest) ri m) (LRun l (SPrim None Assume [as_typed G (Op (VReg 32 (ARG2 u)))] :: rest') r'' m) /\
      tden r'' (as_typed G (Op (VReg 32 (ARG2 u)))) = Some (VInt 0).
  Proof.
    intros l rest r ri m u (rq & _ & HR) Eck. cbn [visit_stmt]. replace ck with false. cbn [app].
    exact (block_exact all W P f Hok HG u l rest rq ri m HR).
  Qed.
  Lemma with_values : forall r a b n vs, vwidth a = n -> vwidth b = n -> wt_value W width_ok a -> wt_value W width_ok b -> evals sden r [Plain (Op a); Plain (Op b)] = Some vs ->
    exists x y, sden r (Plain (Op a)) = Some (VBv n x) /\ sden r (Plain (Op b)) = Some (VBv n y) /\ is_iN n x /\ is_iN n y /\ vs = [VBv n x; VBv n y].
  Proof.
    assert (forall r a n v, vwidth a = n -> wt_value W width_ok a -> sden r (Plain (Op a)) = Some v -> exists x, v = VBv n x /\ is_iN n x) as Hone.
    { intros r a n v En Hw Hv. unfold oexact_den in Hv. destruct (oexp_exact all W r _); [|discriminate]. cbn in Hv.
      destruct (value_den (bits W r) a) as [x|] eqn:Ex; [|discriminate]. injection Hv as <-. rewrite En. exists x. split; [reflexivity|].
      rewrite <- En. exact (value_in_range W r a x Hw Ex). }
    intros r a b n vs Ea Eb Ha Hb H. unfold evals in H. cbn [map all_some] in H.
    destruct (sden r (Plain (Op a))) as [va|] eqn:Eva; [|discriminate]. destruct (sden r (Plain (Op b))) as [vb|] eqn:Evb; [|discriminate]. injection H as <-.
    destruct (Hone r a n va Ea Ha Eva) as (x & -> & Hx). destruct (Hone r b n vb Eb Hb Evb) as (y & -> & Hy). exists x, y. auto.
  Qed.
  Lemma visit_base : forall x o es, visit (SPrim x (OBase o) es) = [SPrim x o (map (visit_exp W P) es)].
  Proof. intros [x|] o es; reflexivity. Qed.

  (** *** From the program to the program after the pass *)
  Context (HF : forall g vs ws m M t v m', ocall g vs m t v m' -> Forall2 Rw vs ws -> same_memory ly m M ->
    (t = [] -> exists w M', icall g ws M [] w M' /\ Rv v w /\ same_memory ly m' M') /\
    (forall e t0, t = e :: t0 -> e <> OUndefined -> exists w M', icall g ws M [Failed] w M')).
  Context (HB : forall g vs ws m M t w M', icall g ws M t w M' -> Forall2 Rw vs ws -> same_memory ly m M ->
    (t = [] -> (exists v m', ocall g vs m [] v m' /\ Rv v w /\ same_memory ly m' M') \/ (exists v m', ocall g vs m [OUndefined] v m')) /\
    (forall e' t0, t = e' :: t0 -> exists e v m', ocall g vs m [e] v m')).

  Lemma istep_fwd : forall s s' t s1, imatches s s' -> sstep s t s1 ->
    (t = [] -> exists s1', tsteps s' [] s1' /\ imatches s1 s1') /\
    (forall e t0, t = e :: t0 -> e <> OUndefined -> exists s1', tsteps s' [Failed] s1' /\ result s1' = None).
  Proof.
    intros s s' t s1 Hm Hs. destruct Hm as [l k r ri m M Hk Hr HM|o o' m M _ _]; [|inversion Hs].
    destruct k as [|st k].
    { destruct (term_sim l r ri m M Hr HM) as [H|[(s2 & s2' & H1 & H2 & H3)|H]].
      - destruct (term_fine _ _ no_oinvoke _ _ _ ltac:(intros; intros []) l r m t s1 Hs H).
      - destruct (term_det _ _ no_oinvoke _ _ _ ltac:(intros; intros []) l r m _ _ _ _ Hs H1) as [-> ->]. split; [|intros; discriminate].
        intros _. exists s2'. split; [now apply g_steps_one|exact H3].
      - destruct H as [H _]. destruct (H _ _ Hs). }
    pose proof (Forall_inv Hk) as Hst. pose proof (Forall_inv_tail Hk) as Hk'. cbn [flat_map]. destruct st as [x e|x o es].
    - inversion Hs; subst. cbn [stmt_ok] in Hst. destruct Hst as [Hx He]. split; [|intros; discriminate]. intros _.
      match goal with H : sden _ _ = Some _ |- _ => destruct (eval_both _ _ _ _ Hr He H) as [H1 H2] end. eexists. split.
      + apply g_steps_one. cbn [visit_stmt app]. apply L_assign. exact H1.
      + constructor; [exact Hk'| |exact HM]. apply REL_upd; [exact Hr|exact Hx|now apply Rw_Rv].
    - inversion Hs; subst.
      match goal with H : exact_oop _ _ _ _ _ _ _ _ _ |- _ => inversion H as [? ? ? ? ? ? He Hdes|]; subst end.
      2: { split; [discriminate|]. intros e t0 E Hne. injection E as <- _. congruence. }
      match goal with H : evals _ _ _ = Some vs |- _ => rename H into Hev end.
      destruct o as [o|sg op n|]; cbn [stmt_ok] in Hst.
      + destruct Hst as [Hx Hes]. destruct (evals_both _ _ _ _ Hr Hes Hev) as [H1 H2]. rewrite visit_base. cbn [app].
        inversion He; subst.
        * match goal with H : exec_op no_callee _ _ _ _ _ _ |- _ => destruct (base_to_int I ly Hly _ _ _ _ _ _ _ _ H2 HM H Hdes) as [B1 B2] end. split.
          -- intros E. apply map_eq_nil in E. destruct (B1 E) as (w & M' & B3 & B4 & B5). apply ibase_lift in B3 as [B3 _].
             eexists. split; [apply g_steps_one; eapply L_prim; [exact H1|exact B3]|]. constructor; [exact Hk'|now apply REL_updo|exact B5].
          -- intros e t1 E _. destruct B2 as (w & M' & B3); [intros ->; discriminate|]. apply ibase_lift in B3 as [B3 _].
             eexists. split; [apply g_steps_one; eapply L_prim; [exact H1|exact B3]|reflexivity].
        * match goal with H : ocall _ _ _ _ _ _ |- _ => destruct (HF _ _ _ _ _ _ _ _ H H2 HM) as [B1 B2] end. split.
          -- intros E. destruct (B1 E) as (w & M' & B3 & B4 & B5).
             eexists. split; [apply g_steps_one; eapply L_prim; [exact H1|apply Z_call; exact B3]|]. constructor; [exact Hk'|now apply REL_updo|exact B5].
          -- intros e t0 E Hne. destruct (B2 e t0 E Hne) as (w & M' & B3). eexists. split; [apply g_steps_one; eapply L_prim; [exact H1|apply Z_call; exact B3]|reflexivity].
      + assert (stmt_ok source_name W P (SPrim x (With sg op n) es)) as Hst' by exact Hst.
        destruct Hst as (d & a & b & -> & Hd & HP & Hn & Hn2 & -> & Ha & Ea & Hb & Eb).
        destruct (with_values _ _ _ _ _ Ea Eb Ha Hb Hev) as (x & y & Hx & Hy & Rx & Ry & ->).
        destruct (with_exact all W P ck f Hok HG l (flat_map visit k) r ri M d sg op n a b x y Hr Hst' Hx Hy Rx Ry (described_wide _ _ _ _ _ _ _ _ _ Hdes)) as (j & r'' & _ & HA & HI & HC).
        pose proof (double_ok n Hn Hn2) as Hpos.
        inversion He; subst.
        * split; [|intros; discriminate]. intros _.
          assert (Overflow.overflows sg op (vwidth a) x y = false) as Hno by (eapply described_fine; [exact Hdes|clear - Hpos; lia|assumption]).
          exists (LRun l (flat_map visit k) r'' M). split; [|constructor; [exact Hk'|exact (HI Hno)|exact HM]].
          apply (tsteps_app _ [] _ [] _ (tasteps_steps _ _ _ HA)).
          destruct (bool_dec ck true) as [Eck|Eck]; [|rewrite chk_false by (destruct ck; congruence); constructor].
          specialize (HC Eck). rewrite (chk_true _ _ _ d Eck). apply g_steps_one. eapply iassert_step; [|exact HC].
          unfold Overflow.ovf_flag. rewrite Hno. discriminate.
        * split; [discriminate|]. intros e t0 E _. match goal with H : ck && _ = true |- _ => apply andb_true_iff in H as [Eck Eo] end. specialize (HC Eck).
          exists (LRun l (flat_map visit k) r'' M). split; [|reflexivity].
          apply (tsteps_app _ [] _ [Failed] _ (tasteps_steps _ _ _ HA)). rewrite (chk_true _ _ _ d Eck). apply g_steps_one.
          apply iassert_fail. rewrite HC. unfold Overflow.ovf_flag. rewrite Eo. reflexivity.
      + destruct Hst as (u & -> & Hu & _ & _ & ->). inversion He; subst.
        split; [discriminate|]. intros e t0 E _.
        destruct (ihandler_run l (flat_map visit k) r ri M u Hr) as (r'' & rest' & HA & HC); [assumption|].
        eexists. split; [apply (tsteps_app _ [] _ [Failed] _ (tasteps_steps _ _ _ HA)); apply g_steps_one; apply iassert_fail; exact HC|reflexivity].
  Qed.
  Lemma isteps_fwd_ : forall s t s1, ssteps s t s1 -> t = [] -> forall s', imatches s s' -> exists s1', tsteps s' [] s1' /\ imatches s1 s1'.
  Proof.
    intros s t s1 H. induction H as [s|s1 t1 s2 t2 s3 H IH Hs]; intros Et s' Hm; [exists s'; split; [constructor|exact Hm]|].
    apply app_eq_nil in Et as [-> ->]. destruct (IH eq_refl s' Hm) as (s2' & H1 & Hm2). destruct (proj1 (istep_fwd _ _ _ _ Hm2 Hs) eq_refl) as (s3' & H3 & Hm3).
    exists s3'. split; [exact (tsteps_app _ [] _ [] _ H1 H3)|exact Hm3].
  Qed.
  Lemma isteps_fwd : forall s s1, ssteps s [] s1 -> forall s', imatches s s' -> exists s1', tsteps s' [] s1' /\ imatches s1 s1'.
  Proof. intros s s1 H. exact (isteps_fwd_ s [] s1 H eq_refl). Qed.
  Lemma ievent_fwd : forall s e t s1 s', ssteps s (e :: t) s1 -> e <> OUndefined -> imatches s s' -> exists s1', tsteps s' [Failed] s1' /\ result s1' = None.
  Proof.
    intros s e t s1 s' H Hne Hm. destruct (g_first_event _ _ _ _ _ _ _ _ _ _ H) as (a & b & t2 & H1 & H2).
    destruct (isteps_fwd _ _ H1 s' Hm) as (a' & Ha & Hm2). destruct (proj2 (istep_fwd _ _ _ _ Hm2 H2) e t2 eq_refl Hne) as (b' & Hb & Hr).
    exists b'. split; [exact (tsteps_app _ [] _ _ _ Ha Hb)|exact Hr].
  Qed.

  (** *** From the program after the pass to the program *)
  Definition iundefined_from (s : lstate val oexp mem oop) : Prop :=
    (exists s1, ssteps s [] s1 /\ swrong s1) \/ exists s1, ssteps s [OUndefined] s1 /\ result s1 = None.
  Definition iexplained (s : lstate val oexp mem oop) (t : list event) (c : lstate val (typed G width_ok) (Z -> Z) op) : Prop :=
    iundefined_from s \/
    match t with
    | [] => (forall o' M, c = LDone o' M -> exists o m, ssteps s [] (LDone o m) /\ Ro Rw o o' /\ same_memory ly m M) /\ ~ twrong c
    | _ :: _ => exists e s1, ssteps s [e] s1 /\ result s1 = None
    end.
  Lemma iexplained_before : forall s s1 t c, ssteps s [] s1 -> iexplained s1 t c -> iexplained s t c.
  Proof.
    intros s s1 t c Hs [[(s2 & H1 & H2)|(s2 & H1 & H2)]|H].
    - left. left. exists s2. split; [exact (ssteps_app _ [] _ [] _ Hs H1)|exact H2].
    - left. right. exists s2. split; [exact (ssteps_app _ [] _ _ _ Hs H1)|exact H2].
    - right. destruct t as [|e' t].
      + destruct H as [H1 H2]. split; [|exact H2]. intros o' M E. destruct (H1 o' M E) as (o & m & H3 & H4). exists o, m. split; [exact (ssteps_app _ [] _ [] _ Hs H3)|exact H4].
      + destruct H as (e & s2 & H1 & H2). exists e, s2. split; [exact (ssteps_app _ [] _ _ _ Hs H1)|exact H2].
  Qed.
  Lemma iexplained_busy : forall s c, busy tden c -> iexplained s [] c.
  Proof.
    intros s c H. right. split; [|now apply g_busy_fine]. intros o m ->. destruct H as (? & ? & ? & ? & ? & ? & ? & E & _). discriminate.
  Qed.
  Lemma inexact_from : forall l x o es k r m vs, evals sden r es = Some vs -> ~ described ly ck o vs -> iundefined_from (LRun l (SPrim x o es :: k) r m).
  Proof.
    intros l x o es k r m vs Hev Hn. right. exists (LRun l k (updo r x (VBool true)) m). split; [|reflexivity].
    apply g_steps_one. eapply L_prim; [exact Hev|]. now apply EO_inexact.
  Qed.
  Lemma isteps_bwd : forall N n, (n < N)%nat -> forall s s' t c, imatches s s' -> tnsteps n s' t c -> iexplained s t c.
  Proof.
    induction N as [|N IH]; intros n Hn s s' t c Hm Hs; [clear - Hn; lia|].
    assert (forall q, (q < n)%nat -> (q < N)%nat) as Hlt by (clear - Hn; lia).
    destruct Hm as [l k r ri m M Hk Hr HM|o o' m M Ho HM].
    2: { destruct n as [|n]; [|destruct Hs as (t1 & s1' & t2 & Hs & _); inversion Hs]. destruct Hs as [-> <-]. right. split; [|intros []].
         intros o1 m1 E. injection E as <- <-. exists o, m. split; [constructor|auto]. }
    destruct k as [|st k].
    { destruct (term_sim l r ri m M Hr HM) as [H|[(s2 & s2' & H1 & H2 & H3)|(Hx & H & H0)]].
      - left. left. eexists. split; [constructor|exact H].
      - destruct n as [|n].
        + destruct Hs as [-> <-]. right. split; [intros; discriminate|]. exact (term_fine _ _ no_iinvoke _ _ _ ltac:(intros; intros []) l ri M _ _ H2).
        + destruct Hs as (t1 & s1' & t2 & Hs & Hrest & ->).
          destruct (term_det _ _ no_iinvoke _ _ _ ltac:(intros; intros []) l ri M _ _ _ _ Hs H2) as [-> ->].
          apply (iexplained_before _ s2); [now apply g_steps_one|]. exact (IH n (Hlt n (Nat.lt_succ_diag_r n)) _ _ _ _ H3 Hrest).
      - destruct n as [|n].
        + destruct Hs as [-> <-]. right. split; [intros; discriminate|exact H0].
        + destruct Hs as (t1 & s1' & t2 & Hs & _). destruct (H _ _ Hs). }
    pose proof (Forall_inv Hk) as Hst. pose proof (Forall_inv_tail Hk) as Hk'. cbn [flat_map] in Hs. destruct st as [x e|x o es].
    - cbn [stmt_ok] in Hst. destruct Hst as [Hx He]. destruct (sden r e) as [v|] eqn:Ev; [|left; left; eexists; split; [constructor|exact Ev]].
      destruct (eval_both r ri e v Hr He Ev) as [H1 H2]. destruct n as [|n].
      + destruct Hs as [-> <-]. right. split; [intros; discriminate|]. cbn. congruence.
      + destruct Hs as (t1 & s1' & t2 & Hs & Hrest & ->). cbn [visit_stmt app] in Hs. inversion Hs; subst.
        match goal with H : tden _ _ = Some _ |- _ => rewrite H1 in H; injection H as <- end.
        eapply iexplained_before; [apply g_steps_one; apply L_assign; exact Ev|]. apply (IH n (Hlt n (Nat.lt_succ_diag_r n)) _ _ _ _) with (2 := Hrest).
        constructor; [exact Hk'| |exact HM]. apply REL_upd; [exact Hr|exact Hx|now apply Rw_Rv].
    - destruct (evals sden r es) as [vs|] eqn:Hev; [|left; left; eexists; split; [constructor|exact Hev]].
      destruct (described_dec ly ck o vs) as [Hdes|Hdes]; [|left; eapply inexact_from; eassumption].
      destruct o as [o|sg op n0|]; cbn [stmt_ok] in Hst.
      + destruct Hst as [Hx Hes]. destruct (evals_both _ _ _ _ Hr Hes Hev) as [H1 H2]. rewrite visit_base in Hs. cbn [app] in Hs.
        destruct n as [|n].
        { destruct Hs as [-> <-]. right. split; [intros; discriminate|]. cbn. congruence. }
        destruct Hs as (t1 & s1' & t2 & Hs & Hrest & ->). inversion Hs; subst.
        match goal with H : evals tden _ _ = Some _ |- _ => rewrite H1 in H; injection H as <- end.
        match goal with H : iexec_op I icall _ _ _ _ _ _ |- _ => destruct (ibase_op _ _ _ _ _ _ H) as [(g & -> & Hc)|Hc] end.
        * destruct (HB _ _ _ _ _ _ _ _ Hc H2 HM) as [B1 B2]. destruct t1 as [|e' t1].
          -- destruct (B1 eq_refl) as [(v1 & m1 & B3 & B4 & B5)|(v1 & m1 & B3)].
             ++ eapply iexplained_before; [apply g_steps_one; eapply L_prim; [exact Hev|apply EO_exact; [apply O_call; exact B3|exact Hdes]]|].
                apply (IH n (Hlt n (Nat.lt_succ_diag_r n)) _ _ _ _) with (2 := Hrest). constructor; [exact Hk'|now apply REL_updo|exact B5].
             ++ left. right. eexists. split; [apply g_steps_one; eapply L_prim; [exact Hev|apply EO_exact; [apply O_call; exact B3|exact Hdes]]|reflexivity].
          -- destruct (B2 e' t1 eq_refl) as (e & v1 & m1 & B3). right. cbn [app]. exists e.
             eexists. split; [apply g_steps_one; eapply L_prim; [exact Hev|apply EO_exact; [apply O_call; exact B3|exact Hdes]]|reflexivity].
        * destruct (base_from_int I ly Hly _ _ _ _ _ _ _ _ H2 HM Hc Hdes) as [B1 B2]. destruct t1 as [|e' t1].
          -- destruct (B1 eq_refl) as (v1 & m1 & B3 & B4 & B5).
             eapply iexplained_before; [apply g_steps_one; eapply L_prim; [exact Hev|apply EO_exact; [exact (O_base ck ocall _ _ _ _ _ _ B3)|exact Hdes]]|].
             apply (IH n (Hlt n (Nat.lt_succ_diag_r n)) _ _ _ _) with (2 := Hrest). constructor; [exact Hk'|now apply REL_updo|exact B5].
          -- destruct B2 as (v1 & m1 & B3); [discriminate|]. right. cbn [app]. exists OFailed.
             eexists. split; [apply g_steps_one; eapply L_prim; [exact Hev|apply EO_exact; [exact (O_base ck ocall _ _ _ _ _ _ B3)|exact Hdes]]|reflexivity].
      + assert (stmt_ok source_name W P (SPrim x (With sg op n0) es)) as Hst' by exact Hst.
        destruct Hst as (d & a & b & -> & Hd & HP & Hn1 & Hn2 & -> & Ha & Ea & Hb & Eb).
        destruct (with_values _ _ _ _ _ Ea Eb Ha Hb Hev) as (x & y & Hx & Hy & Rx & Ry & ->).
        destruct (with_exact all W P ck f Hok HG l (flat_map visit k) r ri M d sg op n0 a b x y Hr Hst' Hx Hy Rx Ry (described_wide _ _ _ _ _ _ _ _ _ Hdes)) as (j & r'' & Hj & HA & HI & HC).
        pose proof (double_ok n0 Hn1 Hn2) as Hpos.
        assert (forall q, (q <= n - j)%nat -> (j <= n)%nat -> (q < N)%nat) as Hlt2 by (clear - Hn Hj; lia).
        destruct (tasteps_det _ _ _ HA _ _ _ Hs) as [[Hle Hrest]|[-> Hbusy]]; [|now apply iexplained_busy].
        destruct (bool_dec ck true) as [Eck|Eck].
        * specialize (HC Eck). rewrite (chk_true _ _ _ d Eck) in Hrest. destruct (n - j)%nat as [|q] eqn:Eq.
          -- destruct Hrest as [-> <-]. right. split; [intros; discriminate|]. cbn [goes_wrong app]. rewrite (evals_one _ _ _ _ HC). discriminate.
          -- destruct Hrest as (u1 & c1 & u2 & Hc1 & Hc2 & ->).
             destruct (Overflow.overflows sg op n0 x y) eqn:Eo.
             ++ unfold Overflow.ovf_flag in HC. rewrite Eo in HC. cbn in HC.
                cbn [app] in Hc1. inversion Hc1; subst.
                match goal with H : evals tden r'' _ = Some _ |- _ => rewrite (evals_one _ _ _ _ HC) in H; injection H as <- end.
                match goal with H : iexec_op I icall Assert _ _ _ _ _ |- _ => inversion H; subst end.
                { match goal with H : int_value_of I _ _ _ |- _ => apply check_int_value in H; discriminate end. }
                right. cbn [app]. exists Overflow. eexists.
                split; [apply g_steps_one; eapply L_prim; [exact Hev|apply EO_exact; [apply (O_overflow ck ocall sg op _ x y _ v Rx Ry); rewrite Eo, Eck; reflexivity|exact Hdes]]|reflexivity].
             ++ unfold Overflow.ovf_flag in HC. rewrite Eo in HC. cbn in HC.
                cbn [app] in Hc1. inversion Hc1; subst.
                match goal with H : evals tden r'' _ = Some _ |- _ => rewrite (evals_one _ _ _ _ HC) in H; injection H as <- end.
                match goal with H : iexec_op I icall Assert _ _ _ _ _ |- _ => inversion H; subst end.
                2: { match goal with H : int_value_of I _ _ _ |- _ => apply check_int_value in H; discriminate end. }
                eapply iexplained_before; [apply g_steps_one; eapply L_prim; [exact Hev|apply EO_exact; [apply (O_with ck ocall sg op _ x y _ Rx Ry); rewrite Eo; apply andb_false_r|exact Hdes]]|].
                apply (IH q (Hlt2 q (Nat.le_succ_diag_r q) Hle) _ _ _ _) with (2 := Hc2). constructor; [exact Hk'|exact (HI eq_refl)|exact HM].
        * assert (ck = false) as Eck' by (destruct ck; congruence). rewrite (chk_false _ _ _ d Eck') in Hrest. cbn [app] in Hrest.
          assert (ck && Overflow.overflows sg op n0 x y = false) as Hck by (now rewrite Eck').
          assert (Overflow.overflows sg op n0 x y = false) as Hno by (eapply described_fine; [exact Hdes|clear - Hpos; lia|exact Hck]).
          eapply iexplained_before; [apply g_steps_one; eapply L_prim; [exact Hev|apply EO_exact; [apply (O_with ck ocall sg op _ x y _ Rx Ry Hck)|exact Hdes]]|].
          apply (IH (n - j)%nat (Hlt2 _ (le_n _) Hle) _ _ _ _) with (2 := Hrest). constructor; [exact Hk'|exact (HI Hno)|exact HM].
      + destruct Hst as (u & -> & Hu & _ & _ & ->). injection Hev as <-.
        destruct (bool_dec ck true) as [Eck|Eck].
        * destruct (ihandler_run l (flat_map visit k) r ri M u Hr Eck) as (r'' & rest' & HA & HC).
          destruct (tasteps_det _ _ _ HA _ _ _ Hs) as [[Hle Hrest]|[-> Hbusy]]; [|now apply iexplained_busy].
          destruct (n - 3)%nat as [|q] eqn:Eq.
          -- destruct Hrest as [-> <-]. right. split; [intros; discriminate|]. cbn [goes_wrong app]. rewrite (evals_one _ _ _ _ HC). discriminate.
          -- destruct Hrest as (u1 & c1 & u2 & Hc1 & Hc2 & ->). cbn [app] in Hc1. inversion Hc1; subst.
             match goal with H : evals tden r'' _ = Some _ |- _ => rewrite (evals_one _ _ _ _ HC) in H; injection H as <- end.
             match goal with H : iexec_op I icall Assert _ _ _ _ _ |- _ => inversion H; subst end.
             { match goal with H : int_value_of I _ _ _ |- _ => apply check_int_value in H; discriminate end. }
             right. cbn [app]. exists Overflow. eexists.
             split; [apply g_steps_one; eapply L_prim; [reflexivity|apply EO_exact; [apply (O_handler ck ocall _ v Eck)|exact Hdes]]|reflexivity].
        * destruct (ihandler_blocked l (flat_map visit k) r ri M u Hr) as (r'' & rest' & HA & HC); [destruct ck; congruence|].
          destruct (tasteps_det _ _ _ HA _ _ _ Hs) as [[Hle Hrest]|[-> Hbusy]]; [|now apply iexplained_busy].
          destruct (n - 2)%nat as [|q] eqn:Eq.
          -- destruct Hrest as [-> <-]. right. split; [intros; discriminate|]. cbn [goes_wrong app]. rewrite (evals_one _ _ _ _ HC). discriminate.
          -- destruct Hrest as (u1 & c1 & u2 & Hc1 & Hc2 & ->). inversion Hc1; subst.
             match goal with H : evals tden r'' _ = Some _ |- _ => rewrite (evals_one _ _ _ _ HC) in H; injection H as <- end.
             match goal with H : iexec_op I icall Assume _ _ _ _ _ |- _ => inversion H; subst end.
             match goal with H : int_value_of I _ _ _ |- _ => apply check_int_value in H; discriminate end.
  Qed.
End Sim.
