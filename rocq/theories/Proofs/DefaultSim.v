(** Executions of whole programs and of the Boogie programs for them, in the
    default encoding. *)
From Coq Require Import ZArith List String Bool Lia ZifyBool.
From Verif.Base Require Import ZBits.
From Verif.Spec Require Import LLVMInt IR CFG BitVectorIR ByteMemory Encodings Pointers Program DefaultMode.
From Verif.Model Require Import Boogie PreludeInt SmackRepInt PreludeMem ControlFlow NormalizeLoops WholeProgram DefaultMode.
From Verif.Proofs Require Import Lookup PreludeCalls ExprSim IntUnbounded ByteMem MemMain ControlMain ProgramSim Lockstep DefaultExpr.
Import ListNotations.
Open Scope string_scope.
Open Scope list_scope.
Open Scope Z_scope.

(** ** Instructions *)
Lemma extends_default : extends default_prelude (preludeMem (flags UnboundedInteger false) 64).
Proof. apply extends_refl. Qed.
Section Ops.
  Context (I : interp).
  Lemma load_int_value : forall w a m v,
    int_value_of I [("$M.0", imap m); ("p", VInt a)] (load_int w) v <-> v = VInt (m a).
  Proof.
    assert (forall w a m, int_value_of I [("$M.0", imap m); ("p", VInt a)] (load_int w) (VInt (m a))) as H.
    { intros w a m.
      refine (load_typed UnboundedInteger false 64 default_prelude I extends_default (or_intror eq_refl) default_memory
               (bindings [("$M.0", imap m); ("p", VInt a)]) (intType default_flags (width w)) (EVar "p") a None m eq_refl eq_refl
               _ _ eq_refl (ex_intro _ O eq_refl)).
      - right. exists (width w). split; [apply width_in|reflexivity].
      - intros E. discriminate E. }
    intros w a m v. split; [|intros ->; apply H].
    intros Hv. exact (evaluates_det default_prelude I _ _ _ _ Hv (H w a m)).
  Qed.
  Lemma store_int_value : forall w a x m v,
    int_value_of I [("$M.0", imap m); ("p", VInt a); ("v", VInt x)] (store_int w) v <->
    v = imap (fun q => if q =? a then x else m q).
  Proof.
    assert (forall w a x m, int_value_of I [("$M.0", imap m); ("p", VInt a); ("v", VInt x)] (store_int w)
              (imap (fun q => if q =? a then x else m q))) as H.
    { intros w a x m.
      refine (store_typed UnboundedInteger false 64 default_prelude I extends_default (or_intror eq_refl) default_memory
               (bindings [("$M.0", imap m); ("p", VInt a); ("v", VInt x)]) (intType default_flags (width w)) (EVar "p") (EVar "v")
               a None m (VInt x) x eq_refl eq_refl _ _ eq_refl (ex_intro _ O eq_refl) (ex_intro _ O eq_refl) eq_refl).
      - right. exists (width w). split; [apply width_in|reflexivity].
      - intros E. discriminate E. }
    intros w a x m v. split; [|intros ->; apply H].
    intros Hv. exact (evaluates_det default_prelude I _ _ _ _ Hv (H w a x m)).
  Qed.
  Lemma check_int_value : forall x b, int_value_of I [("x", VInt x); ("$0", VInt 0)] check_code (VBool b) <-> b = negb (x =? 0).
  Proof.
    intros x b. split.
    - intros (k & Hk). unfold check_code in Hk. cbn in Hk. congruence.
    - intros ->. exists O. reflexivity.
  Qed.
End Ops.

Lemma access_dec_typed : forall ly o vs, typed_access ly o vs \/ ~ typed_access ly o vs.
Proof.
  assert (forall (a b : access), a = b \/ a <> b) as Hdec by (intros [] []; (left; reflexivity) || (right; discriminate)).
  assert (forall (a : option access) b, a = Some b \/ a <> Some b) as Hd2.
  { intros [a|] b; [destruct (Hdec a b) as [->|H]; [left; reflexivity|right; congruence]|right; discriminate]. }
  intros ly o vs. destruct o as [w|w|w| | |f]; cbn; auto.
  - destruct vs as [|[|n a| |] [|]]; auto. destruct (Z.eq_dec n 64), (Hd2 (ly a) w); tauto.
  - destruct vs as [|[|k x| |] [|[|n a| |] [|]]]; auto. destruct (Z.eq_dec k (width w)), (Z.eq_dec n 64), (Hd2 (ly a) w); tauto.
  - destruct vs; auto.
  - destruct vs as [|[|n a| |] [|]]; auto. lia.
  - destruct vs as [|[|n a| |] [|]]; auto. lia.
Qed.

(** ** Memory *)
Lemma sval64_inj : forall a b, 0 <= a < 2 ^ 64 -> 0 <= b < 2 ^ 64 -> int_value 64 a = int_value 64 b -> a = b.
Proof. intros a b Ha Hb H. apply (sval_inj 64 a b); [lia|exact Ha|exact Hb|exact H]. Qed.
Lemma width_pos : forall w, 1 <= width w.
Proof. intros []; cbn; lia. Qed.
Lemma width_fits : forall w x, is_iN (width w) x -> 0 <= x < 2 ^ (8 * bytes_needed (width w)).
Proof.
  intros w x [H1 H2]. split; [exact H1|]. apply Z.lt_le_trans with (2 ^ width w); [exact H2|].
  apply Z.pow_le_mono_r; [lia|]. destruct w; cbn; lia.
Qed.
Lemma store_related : forall ly m m' M M' a w x, layout_ok ly -> ly a = Some w -> is_iN (width w) x ->
  written (bytes_at a) (bytes_needed (width w)) x (proj1_sig m) (proj1_sig m') ->
  (forall q, M' q = if q =? int_value 64 a then int_value (width w) x else M q) ->
  same_memory ly m M -> same_memory ly m' M'.
Proof.
  intros ly m m' M M' a w x [Hr Hd] Ha Hx Hw HM H a' w' v Ha' Hv. rewrite HM.
  assert (forall u, 0 <= bytes_needed (width u)) as Hk by (intros []; cbn; lia).
  destruct (Z.eqb_spec (int_value 64 a') (int_value 64 a)) as [E|E].
  - apply sval64_inj in E; [|eauto|eauto]. subst a'. rewrite Ha in Ha'. injection Ha' as <-.
    pose proof (written_reads _ _ _ _ _ (Hk w) (width_fits w x Hx) Hw) as Hx'.
    rewrite (reads_as_unique _ _ _ _ _ (Hk w) Hv Hx'). now rewrite pat_id.
  - apply H; [exact Ha'|]. destruct Hv as [Hv1 Hv2]. split; [exact Hv1|]. intros j Hj. rewrite (Hv2 j Hj).
    destruct Hw as [_ Hw]. apply Hw. intros i Hi Eq. apply E. f_equal. symmetry. eapply Hd; eauto.
Qed.
Lemma store_exists : forall (m : mem) a w x, is_iN 64 a -> is_iN (width w) x ->
  exists m' : mem, written (bytes_at a) (bytes_needed (width w)) x (proj1_sig m) (proj1_sig m').
Proof.
  intros m a w x Ha Hx. destruct (store_value (fun _ _ => None) w a x (proj1_sig m) Ha Hx) as (m1 & _ & Hw).
  exists (exist _ m1 (written_byte_memory _ _ _ _ _ (proj2_sig m) Hw (access_dec a w))). exact Hw.
Qed.
Lemma read_exists : forall (m : mem) a w, is_iN 64 a -> exists v, reads_as (bytes_at a) (bytes_needed (width w)) (proj1_sig m) v.
Proof.
  intros m a w Ha. destruct (load_value (fun _ _ => None) w a (proj1_sig m) Ha (proj2_sig m)) as (v & _ & H). eauto.
Qed.

Lemma int_value_range : forall n a, 1 <= n -> is_iN n a -> in_range n (int_value n a).
Proof. exact sval_fits. Qed.
Lemma machine_int_bv : forall n a, 1 <= n -> is_iN n a -> machine_int (VBv n a).
Proof. intros n a H1 H2. exists n, a. auto. Qed.
Lemma Rw_bv : forall n a w, Rw (VBv n a) w -> 1 <= n /\ is_iN n a /\ w = VInt (int_value n a).
Proof. intros n a w [(k & b & E & H1 & H2) ->]. injection E as <- <-. auto. Qed.
Lemma Rw_int : forall v z, Rw v (VInt z) -> exists n a, v = VBv n a /\ 1 <= n /\ is_iN n a /\ z = int_value n a.
Proof. intros v z [(n & a & -> & H1 & H2) E]. cbn in E. injection E as ->. eauto 6. Qed.
Lemma Rv_any : forall w, Rv (VBool true) w.
Proof. intros w (n & a & E & _). discriminate. Qed.
Lemma Rw_Rv : forall v w, Rw v w -> Rv v w.
Proof. intros v w [_ H] _. exact H. Qed.
Lemma int32_zero : forall x, is_iN 32 x -> (int_value 32 x =? 0) = (x =? 0).
Proof.
  intros x Hx. apply Bool.eq_iff_eq_true. rewrite !Z.eqb_eq. split; [|intros ->; reflexivity].
  intros E. apply (sval_inj 32 x 0); [lia|exact Hx|unfold is_iN; lia|exact E].
Qed.

(** ** Instructions on both sides *)
Definition cutU (t u : list event) : Prop := exists a b, t = a ++ b /\ u = a ++ [Undefined].
Definition cutF (t u : list event) : Prop := exists b, t = u ++ b /\ In Failed u.
Lemma cutU_app : forall t0 t t1 u, cutU t u -> cutU (t0 ++ t ++ t1) (t0 ++ u).
Proof. intros t0 t t1 u (a & b & -> & ->). exists (t0 ++ a), (b ++ t1). now rewrite !app_assoc. Qed.
Lemma cutF_app : forall t0 t t1 u, cutF t u -> cutF (t0 ++ t ++ t1) (t0 ++ u).
Proof.
  intros t0 t t1 u (b & -> & H). exists (b ++ t1). rewrite !app_assoc. split; [reflexivity|]. apply in_app_iff. auto.
Qed.
Lemma cutU_nil : forall t, cutU t [Undefined].
Proof. intros t. now exists [], t. Qed.

Section Sides.
  Context (I : interp) (ly : layout) (Hly : layout_ok ly).
  Lemma op_to_int : forall (call : string -> effect) (icall : string -> ieffect),
    (forall f vs ws m M t v m', Forall2 Rw vs ws -> same_memory ly m M -> call f vs m t v m' ->
      (exists w M', icall f ws M t w M' /\ Rv v w /\ same_memory ly m' M') \/ (exists u w M', cutF t u /\ icall f ws M u w M')) ->
    forall o vs ws m M t v m', Forall2 Rw vs ws -> same_memory ly m M -> exec_op call o vs m t v m' -> typed_access ly o vs ->
      (exists w M', iexec_op I icall o ws M t w M' /\ Rv v w /\ same_memory ly m' M') \/
      (exists u w M', cutF t u /\ iexec_op I icall o ws M u w M').
  Proof.
    intros call icall Hc o vs ws m M t v m' Hvs HM H Hty. destruct H; cbn in Hty.
    - left. inversion Hvs as [|? y ? ? Hy Hn]; subst. inversion Hn; subst. apply Rw_bv in Hy. destruct Hy as (_ & _ & ->).
      destruct Hty as [_ Hty]. exists (VInt (M (int_value 64 a))), M. split; [constructor; now apply load_int_value|].
      split; [|exact HM]. intros _. cbn [as_int]. now rewrite (HM a w v Hty H0).
    - left. inversion Hvs as [|? y ? ? Hy Hn]; subst. inversion Hn as [|? z ? ? Hz Hn2]; subst. inversion Hn2; subst.
      apply Rw_bv in Hy, Hz. destruct Hy as (_ & _ & ->), Hz as (_ & _ & ->). destruct Hty as (_ & _ & Hty).
      set (M' := fun q => if q =? int_value 64 a then int_value (width w) x else M q).
      exists (as_int u), M'. split; [econstructor; [now apply store_int_value|reflexivity]|]. split; [intros _; reflexivity|].
      eapply store_related; eauto. intros q. reflexivity.
    - left. inversion Hvs; subst. exists (VInt (int_value (width w) x)), M.
      split; [constructor; apply int_value_range; [apply width_pos|exact H]|]. split; [intros _; reflexivity|exact HM].
    - left. inversion Hvs as [|? y ? ? Hy Hn]; subst. inversion Hn; subst. apply Rw_bv in Hy. destruct Hy as (_ & Hx & ->).
      exists (as_int u), M. split; [|split; [intros _; reflexivity|exact HM]]. constructor. apply check_int_value.
      rewrite int32_zero by exact Hx. lia.
    - left. inversion Hvs as [|? y ? ? Hy Hn]; subst. inversion Hn; subst. apply Rw_bv in Hy. destruct Hy as (_ & Hx & ->).
      exists (as_int u), M. split; [|split; [intros _; reflexivity|exact HM]]. apply Z_assert_holds. apply check_int_value.
      rewrite int32_zero by exact Hx. lia.
    - left. inversion Hvs as [|? y ? ? Hy Hn]; subst. inversion Hn; subst. apply Rw_bv in Hy. destruct Hy as (_ & Hx & ->).
      exists (as_int u), M. split; [|split; [intros _; reflexivity|exact HM]]. apply Z_assert_fails. now apply check_int_value.
    - destruct (Hc _ _ _ _ _ _ _ _ Hvs HM H) as [(w & M' & H1 & H2)|(u & w & M' & H1 & H2)].
      + left. exists w, M'. split; [now constructor|exact H2].
      + right. exists u, w, M'. split; [exact H1|now constructor].
  Qed.
  Lemma op_from_int : forall (call : string -> effect) (icall : string -> ieffect),
    (forall f vs ws m M t w M', Forall2 Rw vs ws -> same_memory ly m M -> icall f ws M t w M' ->
      (exists v m', call f vs m t v m' /\ Rv v w /\ same_memory ly m' M') \/
      (exists u v m', (cutU t u \/ cutF t u) /\ call f vs m u v m')) ->
    forall o vs ws m M t w M', Forall2 Rw vs ws -> same_memory ly m M -> iexec_op I icall o ws M t w M' ->
      (exists v m', exact_op ly call o vs m t v m' /\ Rv v w /\ same_memory ly m' M') \/
      (exists u v m', (cutU t u \/ cutF t u) /\ exact_op ly call o vs m u v m').
  Proof.
    intros call icall Hc o vs ws m M t w M' Hvs HM H.
    destruct (access_dec_typed ly o vs) as [Hty|Hty].
    2:{ right. exists [Undefined], (VBool true), m. split; [left; apply cutU_nil|]. now apply E_inexact. }
    destruct H; cbn in Hty.
    - left. inversion Hvs as [|y ? ? ? Hy Hn]; subst. inversion Hn; subst. apply Rw_int in Hy. destruct Hy as (n & b & -> & _ & Hb & ->).
      destruct Hty as [-> Hty]. destruct (read_exists m b w Hb) as (x & Hx). apply load_int_value in H. subst v.
      exists (VBv (width w) (pat (width w) x)), m. split; [constructor; [now constructor|now cbn]|]. split; [|exact HM].
      intros _. cbn [as_int]. now rewrite (HM b w x Hty Hx).
    - left. inversion Hvs as [|y ? ? ? Hy Hn]; subst. inversion Hn as [|z ? ? ? Hz Hn2]; subst. inversion Hn2; subst.
      apply Rw_int in Hy, Hz. destruct Hy as (k & y' & -> & _ & Hk & ->), Hz as (n & b & -> & _ & Hb & ->).
      destruct Hty as (-> & -> & Hty). destruct (store_exists m b w y' Hb Hk) as (m2 & Hm2). apply store_int_value in H.
      injection H as ->.
      exists (VBool true), m2. split; [constructor; [now constructor|now cbn]|]. split; [apply Rv_any|].
      eapply store_related; eauto.
    - left. inversion Hvs; subst. exists (VBv (width w) (pat (width w) x)), m.
      assert (is_iN (width w) (pat (width w) x)) as Hp by (apply pat_range; pose proof (width_pos w); lia).
      split; [constructor; [now constructor|exact Logic.I]|]. split; [|exact HM]. intros _. cbn [as_int]. f_equal. symmetry.
      apply (pat_sval (width w) x); [apply width_pos|exact H].
    - left. inversion Hvs as [|y ? ? ? Hy Hn]; subst. inversion Hn; subst. apply Rw_int in Hy. destruct Hy as (n & b & -> & _ & Hb & ->).
      subst n. apply check_int_value in H. rewrite int32_zero in H by exact Hb.
      exists (VBool true), m. split; [constructor; [constructor; lia|reflexivity]|]. split; [apply Rv_any|exact HM].
    - left. inversion Hvs as [|y ? ? ? Hy Hn]; subst. inversion Hn; subst. apply Rw_int in Hy. destruct Hy as (n & b & -> & _ & Hb & ->).
      subst n. apply check_int_value in H. rewrite int32_zero in H by exact Hb.
      exists (VBool true), m. split; [constructor; [apply X_assert_holds; lia|reflexivity]|]. split; [apply Rv_any|exact HM].
    - left. inversion Hvs as [|y ? ? ? Hy Hn]; subst. inversion Hn; subst. apply Rw_int in Hy. destruct Hy as (n & b & -> & _ & Hb & ->).
      subst n. apply check_int_value in H. rewrite int32_zero in H by exact Hb. assert (b = 0) as -> by lia.
      exists (VBool true), m. split; [constructor; [apply X_assert_fails|reflexivity]|]. split; [apply Rv_any|exact HM].
    - destruct (Hc _ _ _ _ _ _ _ _ Hvs HM H) as [(x & m2 & H1 & H2)|(u & x & m2 & H1 & H2)].
      + left. exists x, m2. split; [|exact H2]. constructor; [now constructor|exact Logic.I].
      + right. exists u, x, m2. split; [exact H1|]. constructor; [now constructor|exact Logic.I].
  Qed.
End Sides.

(** ** Functions *)
Lemma eq_upd : forall (rA rB : string -> option val) x v w, rA = rB -> v = w -> upd rA x v = upd rB x w.
Proof. intros rA rB x v w -> ->. reflexivity. Qed.
Lemma Forall2_eq : forall (vs ws : list val), Forall2 eq vs ws -> vs = ws.
Proof. intros vs ws H. induction H; congruence. Qed.
Definition okU (t : list event) : Prop := ~ In Undefined t.
Lemma okU_app : forall a b, okU (a ++ b) -> okU a /\ okU b.
Proof. intros a b H. split; intros Hi; apply H, in_app_iff; tauto. Qed.
Lemma no_iinv : forall p vs m t v w m', ~ no_iinvoke p vs m t v w m'.
Proof. intros p vs m t v w m' []. Qed.
Lemma Ro_eq : forall a b : outcome val, Ro eq a b -> a = b.
Proof. intros [[a|]|a] [[b|]|b]; cbn; intros H; try destruct H; reflexivity. Qed.
Lemma Rres_eq : forall (a b : option (outcome val * mem)), Rres eq eq a b -> a = b.
Proof. intros [[a m]|] [[b m']|]; cbn; intros H; try contradiction; [|reflexivity]. destruct H as [H ->]. now rewrite (Ro_eq _ _ H). Qed.

Section Functions.
  Context (p : program) (Hwf : well_formed p) (Hwt : well_typed p) (all : bool) (ly : layout) (Hly : layout_ok ly).

  Lemma runs_exact : forall f F (call1 call2 : string -> effect), In (f, F) p ->
    (forall g vs m t v m', okU t -> call1 g vs m t v m' -> call2 g vs m t v m' \/ exists u v' m1, cutU t u /\ call2 g vs m u v' m1) ->
    forall args m t o, okU t -> runs call1 F args m t o ->
      exact_runs all ly call2 F args m t o \/
      (exists u, cutU t u /\ exact_runs all ly call2 F args m u None) \/
      (exists t1 t2, t = t1 ++ t2 /\ exact_undefined all ly call2 F args m t1).
  Proof.
    intros f F call1 call2 Hin Hc args m t o Ht Hr.
    set (primA := fun q vs m t v m' => exec_op call1 q vs m t v m' /\ okU t).
    assert (behaves (typed_den (reg_widths F) width_ok) primA no_invoke bv_true bv_eq (code F) args m t o) as HA.
    { refine (runs_ok okU okU_app F _ primA _ args m t o Ht Hr). intros. split; assumption. }
    destruct (behaves_R (code F) (typed_den (reg_widths F) width_ok) (exact_den all (reg_widths F)) primA (exact_op ly call2)
                no_invoke no_invoke bv_true bv_true bv_eq bv_eq eq eq eq True cutU eq) with (argsA := args) (argsB := args) (mA := m) (mB := m) (t := t) (o := o)
      as [(o' & H1 & H2)|[(u & H1 & H2)|(_ & H1)]]; auto.
    - exact eq_upd.
    - intros rA rB e v -> He. destruct (exact_den all (reg_widths F) rB e) as [w|] eqn:E; [|now right].
      left. exists w. split; [reflexivity|]. apply exact_plain in E. congruence.
    - intros l b e l1 l2 rA rB v w _ _ -> He Hx. apply exact_plain in Hx. congruence.
    - intros q vs ws mA mB t' v mA' Hvs <- [Hq Hok]. apply Forall2_eq in Hvs. subst ws.
      destruct (access_dec_typed ly q vs) as [Hty|Hty].
      2:{ right. exists [Undefined], v, mA'. split; [apply cutU_nil|now apply E_inexact]. }
      assert (exec_op call2 q vs mA t' v mA' \/ exists u v' m1, cutU t' u /\ exec_op call2 q vs mA u v' m1) as Hx.
      { destruct Hq as [| | | | | |g vs m0 t0 v0 m0' Hg]; try (left; now constructor).
        destruct (Hc _ _ _ _ _ _ Hok Hg) as [Hg'|(u & v' & m1 & Hu & Hg')]; [left; now constructor|].
        right. exists u, v', m1. split; [exact Hu|now constructor]. }
      destruct Hx as [Hx|(u & v' & m1 & Hu & Hx)].
      + left. exists v, mA'. split; [now apply E_exact|split; reflexivity].
      + right. exists u, v', m1. split; [exact Hu|now apply E_exact].
    - exact cutU_app.
    - exact (low_no_switch _ (wf_lowered p Hwf f F Hin)).
    - left. apply Rres_eq in H2. now subst o'.
    - right. left. eauto.
  Qed.

  Lemma exact_runs_plain : forall f F (call1 call2 : string -> effect), In (f, F) p ->
    (forall g vs m t v m', okU t -> call1 g vs m t v m' -> call2 g vs m t v m') ->
    forall args m t o, okU t -> exact_runs all ly call1 F args m t o -> runs call2 F args m t o.
  Proof.
    intros f F call1 call2 Hin Hc args m t o Ht (s0 & s & Hs0 & Hs & Ho).
    set (primA := fun q vs m t v m' => exact_op ly call1 q vs m t v m' /\ okU t).
    assert (behaves (exact_den all (reg_widths F)) primA no_invoke bv_true bv_eq (code F) args m t o) as HA.
    { exists s0, s. split; [exact Hs0|]. split; [|exact Ho].
      refine (steps_ok _ _ primA no_invoke _ _ _ no_inv okU okU_app _ s0 t s Ht Hs). intros. split; assumption. }
    destruct (behaves_R (code F) (exact_den all (reg_widths F)) (typed_den (reg_widths F) width_ok) primA (exec_op call2)
                no_invoke no_invoke bv_true bv_true bv_eq bv_eq eq eq eq False (fun _ _ => False) eq) with (argsA := args) (argsB := args) (mA := m) (mB := m) (t := t) (o := o)
      as [(o' & H1 & H2)|[(u & [] & H2)|([] & H1)]]; auto.
    - exact eq_upd.
    - intros rA rB e v -> He. left. exists v. split; [|reflexivity]. eapply exact_plain; eassumption.
    - intros l b e l1 l2 rA rB v w _ _ -> He Hx. apply exact_plain in He. congruence.
    - intros q vs ws mA mB t' v mA' Hvs <- [Hq Hok]. apply Forall2_eq in Hvs. subst ws. left. exists v, mA'. split; [|split; reflexivity].
      destruct Hq as [o1 vs m1 t1 v1 m1' Hq _|o1 vs m1 v1 m1' Hq].
      + destruct Hq as [| | | | | |g vs m0 t0 v0 m0' Hg]; try now constructor. constructor. apply Hc; assumption.
      + destruct Hok. now left.
    - exact (low_no_switch _ (wf_lowered p Hwf f F Hin)).
    - apply Rres_eq in H2. now subst o'.
  Qed.

  Lemma Rreg_params : forall ps args args' r ri, Rreg r ri -> Forall2 Rw args args' ->
    Rreg (upds r (combine ps args)) (upds ri (combine ps args')).
  Proof.
    induction ps as [|x ps IH]; intros args args' r ri H Ha; [exact H|]. destruct Ha as [|v w args args' Hv Ha]; [exact H|].
    cbn. apply IH; [|exact Ha]. apply Rreg_upd; [exact H|]. now apply Rw_Rv.
  Qed.
  Lemma Rreg_empty : Rreg (fun _ => None) (fun _ => None).
  Proof. intros x v E. discriminate. Qed.
  Lemma exact_int : forall f F r ri e v, In (f, F) p -> Rreg r ri -> exact_den all (reg_widths F) r e = Some v ->
    int_den all (reg_widths F) ri e = Some (as_int v) /\ Rw v (as_int v).
  Proof.
    intros f F r ri e v Hin Hr He. unfold int_den.
    rewrite (exact_den_sub all (reg_widths F) r (decode (reg_widths F) ri) e v); [|apply Rreg_bits; [exact Hr|]|exact He].
    - split; [reflexivity|]. split; [|reflexivity]. apply exact_plain, typed_den_int in He. destruct He as (a & -> & H1 & H2).
      now apply machine_int_bv.
    - intros x n Hx. exact (wt_registers p Hwt f F x n Hin Hx).
  Qed.
  Lemma cond_int : forall f F l b e l1 l2 r v, In (f, F) p -> block_of (code F) l = Some b -> bterm b = TCond e l1 l2 ->
    exact_den all (reg_widths F) r e = Some v -> bv_eq v bv_true = int_eq (as_int v) int_true.
  Proof.
    intros f F l b e l1 l2 r v Hin Hb Ht He. apply exact_plain, typed_den_int in He. destruct He as (a & -> & _ & _).
    rewrite (wt_conditions p Hwt f F l b e l1 l2 Hin Hb Ht). cbn. destruct a as [|[]|]; reflexivity.
  Qed.

  Context (I : interp).
  Lemma runs_int : forall f F (call : string -> effect) (icall : string -> ieffect), In (f, F) p ->
    (forall g vs ws m M t v m', okU t -> Forall2 Rw vs ws -> same_memory ly m M -> call g vs m t v m' ->
      (exists w M', icall g ws M t w M' /\ Rv v w /\ same_memory ly m' M') \/ (exists u w M', cutF t u /\ icall g ws M u w M')) ->
    forall args args' m M t o, okU t -> Forall2 Rw args args' -> same_memory ly m M -> exact_runs all ly call F args m t o ->
      (exists o', behaves (int_den all (reg_widths F)) (iexec_op I icall) no_iinvoke int_true int_eq (code F) args' M t o' /\
         Rres Rw (same_memory ly) o o') \/
      (exists u, cutF t u /\ behaves (int_den all (reg_widths F)) (iexec_op I icall) no_iinvoke int_true int_eq (code F) args' M u None).
  Proof.
    intros f F call icall Hin Hc args args' m M t o Ht Hargs HM (s0 & s & Hs0 & Hs & Ho).
    set (primA := fun q vs m t v m' => exact_op ly call q vs m t v m' /\ okU t).
    assert (behaves (exact_den all (reg_widths F)) primA no_invoke bv_true bv_eq (code F) args m t o) as HA.
    { exists s0, s. split; [exact Hs0|]. split; [|exact Ho].
      refine (steps_ok _ _ primA no_invoke _ _ _ no_inv okU okU_app _ s0 t s Ht Hs). intros. split; assumption. }
    destruct (behaves_R (code F) (exact_den all (reg_widths F)) (int_den all (reg_widths F)) primA (iexec_op I icall)
                no_invoke no_iinvoke bv_true int_true bv_eq int_eq Rw Rv (same_memory ly) False cutF Rreg)
      with (argsA := args) (argsB := args') (mA := m) (mB := M) (t := t) (o := o)
      as [H|[H|([] & H1)]]; auto.
    - exact Rreg_upd.
    - exact Rw_Rv.
    - intros rA rB e v HR He. left. exists (as_int v). exact (exact_int f F rA rB e v Hin HR He).
    - intros l b e l1 l2 rA rB v w Hb Hte HR He Hx. destruct (exact_int f F rA rB e v Hin HR He) as [E _].
      rewrite E in Hx. injection Hx as <-. eapply cond_int; eassumption.
    - intros q vs ws mA mB t' v mA' Hvs Hm [Hq Hok]. destruct Hq as [o1 vs m1 t1 v1 m1' Hq Hty|o1 vs m1 v1 m1' Hq]; [|destruct Hok; now left].
      apply (op_to_int I ly Hly (fun g vs m t v m' => call g vs m t v m' /\ okU t) icall) with (vs := vs) (m := m1); auto.
      + intros g vs' ws' m2 M2 t2 v2 m2' Hvs' Hm2 [Hg Hok2]. eapply Hc; eassumption.
      + destruct Hq; now constructor.
    - exact cutF_app.
    - exact (low_no_switch _ (wf_lowered p Hwf f F Hin)).
    - apply Rreg_params; [exact Rreg_empty|exact Hargs].
  Qed.

  Lemma int_runs : forall f F (call : string -> effect) (icall : string -> ieffect), In (f, F) p ->
    (forall g vs ws m M t w M', Forall2 Rw vs ws -> same_memory ly m M -> icall g ws M t w M' ->
      (exists v m', call g vs m t v m' /\ Rv v w /\ same_memory ly m' M') \/
      (exists u v m', (cutU t u \/ cutF t u) /\ call g vs m u v m')) ->
    forall args args' m M t o', Forall2 Rw args args' -> same_memory ly m M ->
      behaves (int_den all (reg_widths F)) (iexec_op I icall) no_iinvoke int_true int_eq (code F) args' M t o' ->
      (exists o, exact_runs all ly call F args m t o /\ Rres (fun w v => Rw v w) (fun M m => same_memory ly m M) o' o) \/
      (exists u, (cutU t u \/ cutF t u) /\ exact_runs all ly call F args m u None) \/
      (exists t1 t2, t = t1 ++ t2 /\ exact_undefined all ly call F args m t1).
  Proof.
    intros f F call icall Hin Hc args args' m M t o' Hargs HM HA.
    destruct (behaves_R (code F) (int_den all (reg_widths F)) (exact_den all (reg_widths F)) (iexec_op I icall) (exact_op ly call)
                no_iinvoke no_invoke int_true bv_true int_eq bv_eq (fun w v => Rw v w) (fun w v => Rv v w) (fun M m => same_memory ly m M)
                True (fun t u => cutU t u \/ cutF t u) (fun ri r => Rreg r ri))
      with (argsA := args') (argsB := args) (mA := M) (mB := m) (t := t) (o := o')
      as [H|[H|(_ & H1)]]; auto.
    - intros rA rB x v w. apply Rreg_upd.
    - intros v w. apply Rw_Rv.
    - intros rA rB e w HR He. destruct (exact_den all (reg_widths F) rB e) as [v|] eqn:E; [|now right].
      left. exists v. split; [reflexivity|]. destruct (exact_int f F rB rA e v Hin HR E) as [E1 E2]. rewrite He in E1. now injection E1 as ->.
    - intros l b e l1 l2 rA rB w v Hb Hte HR He Hx. destruct (exact_int f F rB rA e v Hin HR Hx) as [E _].
      rewrite E in He. injection He as <-. symmetry. eapply cond_int; eassumption.
    - intros q ws vs MA mB t' w MA' Hvs Hm Hq.
      apply (op_from_int I ly Hly call icall Hc q vs ws mB MA t' w MA'); [|exact Hm|exact Hq]. clear - Hvs. induction Hvs; constructor; auto.
    - intros t0 t1 t2 u [H|H]; [left; now apply cutU_app|right; now apply cutF_app].
    - exact (low_no_switch _ (wf_lowered p Hwf f F Hin)).
    - apply Rreg_params; [exact Rreg_empty|exact Hargs].
  Qed.
  Lemma int_undefined : forall f F (call : string -> effect) (icall : string -> ieffect), In (f, F) p ->
    (forall g vs ws m M t w M', Forall2 Rw vs ws -> same_memory ly m M -> icall g ws M t w M' ->
      (exists v m', call g vs m t v m' /\ Rv v w /\ same_memory ly m' M') \/
      (exists u v m', (cutU t u \/ cutF t u) /\ call g vs m u v m')) ->
    forall args args' m M t, Forall2 Rw args args' -> same_memory ly m M ->
      undefined_after (int_den all (reg_widths F)) (iexec_op I icall) no_iinvoke int_true int_eq (code F) args' M t ->
      (exists u, (cutU t u \/ cutF t u) /\ exact_runs all ly call F args m u None) \/
      (exists t1 t2, t = t1 ++ t2 /\ exact_undefined all ly call F args m t1).
  Proof.
    intros f F call icall Hin Hc args args' m M t Hargs HM HA.
    destruct (undefined_R (code F) (int_den all (reg_widths F)) (exact_den all (reg_widths F)) (iexec_op I icall) (exact_op ly call)
                no_iinvoke no_invoke int_true bv_true int_eq bv_eq (fun w v => Rw v w) (fun w v => Rv v w) (fun M m => same_memory ly m M)
                True (fun t u => cutU t u \/ cutF t u) (fun ri r => Rreg r ri))
      with (argsA := args') (argsB := args) (mA := M) (mB := m) (t := t)
      as [H|[H|(_ & H1)]]; auto.
    - intros rA rB x v w. apply Rreg_upd.
    - intros v w. apply Rw_Rv.
    - intros rA rB e w HR He. destruct (exact_den all (reg_widths F) rB e) as [v|] eqn:E; [|now right].
      left. exists v. split; [reflexivity|]. destruct (exact_int f F rB rA e v Hin HR E) as [E1 E2]. rewrite He in E1. now injection E1 as ->.
    - intros l b e l1 l2 rA rB w v Hb Hte HR He Hx. destruct (exact_int f F rB rA e v Hin HR Hx) as [E _].
      rewrite E in He. injection He as <-. symmetry. eapply cond_int; eassumption.
    - intros q ws vs MA mB t' w MA' Hvs Hm Hq.
      apply (op_from_int I ly Hly call icall Hc q vs ws mB MA t' w MA'); [|exact Hm|exact Hq]. clear - Hvs. induction Hvs; constructor; auto.
    - intros t0 t1 t2 u [H|H]; [left; now apply cutU_app|right; now apply cutF_app].
    - exact (low_no_switch _ (wf_lowered p Hwf f F Hin)).
    - intros rA rB e HR He. destruct (exact_den all (reg_widths F) rB e) as [v|] eqn:E; [|reflexivity].
      destruct (exact_int f F rB rA e v Hin HR E) as [E1 _]. congruence.
    - apply Rreg_params; [exact Rreg_empty|exact Hargs].
    - right. exists t, []. rewrite app_nil_r. auto.
  Qed.
End Functions.

(** ** Whole programs *)
Lemma Forall2_len : forall A B (R : A -> B -> Prop) l l', Forall2 R l l' -> List.length l = List.length l'.
Proof. induction 1; cbn; congruence. Qed.

Section Whole.
  Context (p : program) (Hwf : well_formed p) (Hwt : well_typed p) (all : bool) (ly : layout) (Hly : layout_ok ly).

  Lemma last_undefined : forall t : list event, In Undefined (t ++ [Undefined]).
  Proof. intros t. apply in_app_iff. right. now left. Qed.
  Lemma plain_exact : forall n f args m t v m', okU t -> calls p n f args m t v m' ->
    exact_calls all ly p n f args m t v m' \/ exists u v' m1, cutU t u /\ exact_calls all ly p n f args m u v' m1.
  Proof.
    induction n as [|n IH]; intros f args m t v m' Hu H; [destruct H|].
    destruct H as (F & Hf & Hlen & H). pose proof (find_in _ _ _ Hf) as Hin.
    assert (forall o, runs (calls p n) F args m t o -> exact_runs all ly (exact_calls all ly p n) F args m t o \/
              exists u v' m1, cutU t u /\ exact_calls all ly p (S n) f args m u v' m1) as Hgo.
    { intros o Ho. destruct (runs_exact p Hwf all ly f F _ (exact_calls all ly p n) Hin IH args m t o Hu Ho) as [H1|[(u & H1 & H2)|(t1 & t2 & -> & H1)]].
      - now left.
      - right. exists u, v, m'. split; [exact H1|]. exists F. split; [exact Hf|]. split; [exact Hlen|]. right. left. split; [exact H2|].
        right. destruct H1 as (a & b & _ & ->). apply last_undefined.
      - right. exists (t1 ++ [Undefined]), v, m'. split; [now exists t1, t2|]. exists F. split; [exact Hf|]. split; [exact Hlen|].
        right. right. eauto. }
    destruct H as [(r & Hr & Hv)|[[Hr Hb]|(t0 & -> & _)]].
    - destruct (Hgo _ Hr) as [H1|H1]; [|now right]. left. exists F. split; [exact Hf|]. split; [exact Hlen|]. left. eauto.
    - destruct (Hgo _ Hr) as [H1|H1]; [|now right]. left. exists F. split; [exact Hf|]. split; [exact Hlen|]. right. left. auto.
    - destruct Hu. apply last_undefined.
  Qed.
  Lemma exact_calls_plain : forall n f args m t v m', okU t -> exact_calls all ly p n f args m t v m' -> calls p n f args m t v m'.
  Proof.
    induction n as [|n IH]; intros f args m t v m' Hu H; [destruct H|].
    destruct H as (F & Hf & Hlen & H). pose proof (find_in _ _ _ Hf) as Hin.
    pose proof (exact_runs_plain p Hwf all ly f F _ (calls p n) Hin IH args m t) as Hgo.
    exists F. split; [exact Hf|]. split; [exact Hlen|]. destruct H as [(r & Hr & Hv)|[[Hr Hb]|(t0 & -> & _)]].
    - left. eauto.
    - right. left. auto.
    - destruct Hu. apply last_undefined.
  Qed.
  Lemma exact_cut : forall n f args m a b v m', exact_calls all ly p n f args m (a ++ Failed :: b) v m' ->
    exists v1 m1, exact_calls all ly p n f args m (a ++ [Failed]) v1 m1.
  Proof.
    induction n as [|n IH]; intros f args m a b v m' H; [destruct H|].
    destruct H as (F & Hf & Hlen & H). exists v, m', F. split; [exact Hf|]. split; [exact Hlen|].
    assert (forall s0 s c d, lstart (code F) args m = Some s0 ->
              lsteps (exact_den all (reg_widths F)) (exact_op ly (exact_calls all ly p n)) no_invoke bv_true bv_eq (code F) s0 (c ++ Failed :: d) s ->
              exact_runs all ly (exact_calls all ly p n) F args m (c ++ [Failed]) None) as Hgo.
    { intros s0 s c d Hs H1.
      assert (forall q vs m1 a1 b1 v1 m2, exact_op ly (exact_calls all ly p n) q vs m1 (a1 ++ Failed :: b1) v1 m2 ->
                exists v3 m3, exact_op ly (exact_calls all ly p n) q vs m1 (a1 ++ [Failed]) v3 m3) as Hc.
      { intros q vs m1 a1 b1 v1 m2 Hq. inversion Hq as [? ? ? ? ? ? Hx Hty|]; subst.
        2:{ destruct a1 as [|[] a1]; try discriminate. match goal with E : [Undefined] = _ |- _ => injection E; intros E2; destruct a1; discriminate E2 end. }
        inversion Hx; subst;
        try (match goal with E : [] = ?l ++ _ :: _ |- _ => destruct l; discriminate E end).
        - assert (a1 = [] /\ b1 = []) as [-> ->].
          { destruct a1 as [|x a1]; cbn in *; [split; congruence|].
            match goal with E : [Failed] = _ |- _ => injection E; intros E2 _; destruct a1; discriminate E2 end. }
          exists v1, m2. apply E_exact; [apply X_assert_fails|exact Hty].
        - match goal with Hc : exact_calls _ _ _ n _ _ _ _ _ _ |- _ => destruct (IH _ _ _ _ _ _ _ Hc) as (v3 & m3 & H3) end.
          exists v3, m3. apply E_exact; [now constructor|exact Hty]. }
      destruct (steps_cut _ _ no_invoke bv_true bv_eq (code F) no_inv Failed Hc s0 _ s H1 c d eq_refl) as (s1 & H2 & H3).
      exists s0, s1. auto. }
    destruct H as [(r & (s0 & s & H1 & H2 & _) & _)|[[(s0 & s & H1 & H2 & _) _]|(t0 & Ht & (s0 & s & H1 & H2 & _))]].
    - right. left. split; [eapply Hgo; eassumption|]. left. apply in_app_iff. right. now left.
    - right. left. split; [eapply Hgo; eassumption|]. left. apply in_app_iff. right. now left.
    - right. left. split; [|left; apply in_app_iff; right; now left].
      destruct b as [|x b] using rev_ind.
      + assert (Failed = Undefined) by (now apply app_inj_tail in Ht). discriminate.
      + rewrite app_comm_cons, app_assoc in Ht. apply app_inj_tail in Ht. destruct Ht as [<- _]. eapply Hgo; eassumption.
  Qed.

  Context (I : interp) (ndebug : bool) (HK : bitwise_knowledge UnboundedInteger false I (bwP all)).
  Lemma translate_int : forall F f call args r0 exn m, In (f, F) p -> List.length args = List.length (params (code F)) ->
    (forall t o, behaves (int_den all (reg_widths F)) (iexec_op I call) no_iinvoke int_true int_eq (code F) args m t o ->
       iruns I ndebug call F args r0 exn m t o) /\
    (forall t o, iruns I ndebug call F args r0 exn m t o ->
       behaves (int_den all (reg_widths F)) (iexec_op I call) no_iinvoke int_true int_eq (code F) args m t o \/
       exists t1 t2, t = t1 ++ t2 /\
         undefined_after (int_den all (reg_widths F)) (iexec_op I call) no_iinvoke int_true int_eq (code F) args m t1).
  Proof.
    intros F f call args r0 exn m Hin Hlen.
    exact (run_translate (int_den all (reg_widths F)) (typed_regs (reg_widths F) width_ok) (iexec_op I call) no_iinvoke
             int_true int_eq (code F) (loops F) (wf_original p Hwf f F Hin) (wf_loops p Hwf f F Hin) (wf_ssa p Hwf f F Hin)
             (trans_default ndebug) (eval_default I) args r0 exn m (default_agree I ndebug all HK (reg_widths F))
             (wf_lowered p Hwf f F Hin) Hlen).
  Qed.

  Lemma exact_boogie : forall n f args args' m M t v m', okU t -> Forall2 Rw args args' -> same_memory ly m M ->
    exact_calls all ly p n f args m t v m' ->
    (exists w M', icalls I p ndebug n f args' M t w M' /\ Rv v w /\ same_memory ly m' M') \/
    (exists u w M', cutF t u /\ icalls I p ndebug n f args' M u w M').
  Proof.
    induction n as [|n IH]; intros f args args' m M t v m' Hu Hargs HM H; [destruct H|].
    destruct H as (F & Hf & Hlen & H). pose proof (find_in _ _ _ Hf) as Hin.
    assert (List.length args' = List.length (params (code F))) as Hlen' by (rewrite <- Hlen; symmetry; eapply Forall2_len; eassumption).
    pose proof (proj1 (translate_int F f (icalls I p ndebug n) args' (fun _ => int_true) false M Hin Hlen')) as Htr.
    assert (forall u, behaves (int_den all (reg_widths F)) (iexec_op I (icalls I p ndebug n)) no_iinvoke int_true int_eq (code F) args' M u None ->
              In Failed u -> icalls I p ndebug (S n) f args' M u int_true M) as Hstop.
    { intros u Hb Hi. exists F, (fun _ => int_true), false. split; [exact Hf|]. split; [exact Hlen'|]. right. auto. }
    pose proof (runs_int p Hwf Hwt all ly Hly I f F (exact_calls all ly p n) (icalls I p ndebug n) Hin (fun g vs ws m M t v m' => IH g vs ws m M t v m')
                  args args' m M t) as Hgo.
    destruct H as [(r & Hr & Hv)|[[Hr Hb]|(t0 & -> & _)]].
    - destruct (Hgo _ Hu Hargs HM Hr) as [(o & H1 & H2)|(u & H1 & H2)].
      + destruct o as [[[r'|] M']|]; cbn in H2; try tauto. destruct H2 as [H2 H3].
        * left. exists (match r' with Some w => w | None => as_int v end), M'. split; [|split; [|exact H3]].
          -- exists F, (fun _ => int_true), false. split; [exact Hf|]. split; [exact Hlen'|]. left. exists r'. split; [auto|].
             destruct r'; [reflexivity|exact Logic.I].
          -- destruct r as [v0|], r' as [w|]; try contradiction; cbn in *; [subst v0; now apply Rw_Rv|intros _; reflexivity].
        * destruct r; tauto.
      + right. exists u, int_true, M. split; [exact H1|]. apply Hstop; [exact H2|]. destruct H1 as (b & _ & H1). exact H1.
    - assert (In Failed t) as Hi by (destruct Hb as [Hb|Hb]; [exact Hb|destruct (Hu Hb)]).
      destruct (Hgo _ Hu Hargs HM Hr) as [(o & H1 & H2)|(u & H1 & H2)].
      + destruct o as [[? ?]|]; [destruct H2|]. right. exists t, int_true, M. split; [exists []; rewrite app_nil_r; auto|]. now apply Hstop.
      + right. exists u, int_true, M. split; [exact H1|]. apply Hstop; [exact H2|]. destruct H1 as (b & _ & H1). exact H1.
    - destruct Hu. apply last_undefined.
  Qed.

  Lemma boogie_exact : forall n f args args' m M t w M', Forall2 Rw args args' -> same_memory ly m M ->
    icalls I p ndebug n f args' M t w M' ->
    (exists v m', exact_calls all ly p n f args m t v m' /\ Rv v w /\ same_memory ly m' M') \/
    (exists u v m', (cutU t u \/ cutF t u) /\ exact_calls all ly p n f args m u v m').
  Proof.
    induction n as [|n IH]; intros f args args' m M t w M' Hargs HM H; [destruct H|].
    destruct H as (F & r0 & exn & Hf & Hlen' & H). pose proof (find_in _ _ _ Hf) as Hin.
    assert (List.length args = List.length (params (code F))) as Hlen by (rewrite <- Hlen'; eapply Forall2_len; eassumption).
    assert (forall t1 t2, t = t1 ++ t2 -> exact_undefined all ly (exact_calls all ly p n) F args m t1 ->
              exists u v m', (cutU t u \/ cutF t u) /\ exact_calls all ly p (S n) f args m u v m') as Hund.
    { intros t1 t2 -> H1. exists (t1 ++ [Undefined]), (VBool true), m. split; [left; now exists t1, t2|].
      exists F. split; [exact Hf|]. split; [exact Hlen|]. right. right. eauto. }
    assert (forall u, cutU t u \/ cutF t u -> exact_runs all ly (exact_calls all ly p n) F args m u None ->
              exists u v m', (cutU t u \/ cutF t u) /\ exact_calls all ly p (S n) f args m u v m') as Hstop.
    { intros u Hu H1. exists u, (VBool true), m. split; [exact Hu|]. exists F. split; [exact Hf|]. split; [exact Hlen|]. right. left. split; [exact H1|].
      destruct Hu as [(a & b & _ & ->)|(b & _ & Hi)]; [right; apply last_undefined|now left]. }
    assert (forall o, iruns I ndebug (icalls I p ndebug n) F args' r0 exn M t o ->
              (exists o', exact_runs all ly (exact_calls all ly p n) F args m t o' /\ Rres (fun w v => Rw v w) (fun M m => same_memory ly m M) o o') \/
              (exists u v m', (cutU t u \/ cutF t u) /\ exact_calls all ly p (S n) f args m u v m')) as Hgo.
    { intros o Ho. apply (translate_int F f (icalls I p ndebug n) args' r0 exn M Hin Hlen') in Ho. destruct Ho as [Ho|(t1 & t2 & Et & Ho)].
      - destruct (int_runs p Hwf Hwt all ly Hly I f F (exact_calls all ly p n) (icalls I p ndebug n) Hin IH args args' m M t o Hargs HM Ho)
          as [H1|[(u & H1 & H2)|(t1 & t2 & Et & H1)]]; [now left|right; eauto|right; eauto].
      - right. destruct (int_undefined p Hwf Hwt all ly Hly I f F (exact_calls all ly p n) (icalls I p ndebug n) Hin IH args args' m M t1 Hargs HM Ho)
          as [(u & H1 & H2)|(t3 & t4 & Et2 & H1)].
        + apply (Hstop u); [|exact H2]. subst t. rewrite <- (app_nil_l (t1 ++ t2)). rewrite <- (app_nil_l u).
          destruct H1 as [H1|H1]; [left; now apply cutU_app|right; now apply cutF_app].
        + subst t1. apply (Hund t3 (t4 ++ t2)); [now rewrite app_assoc|exact H1]. }
    destruct H as [(r & Hr & Hv)|[Hr Hb]].
    - destruct (Hgo _ Hr) as [(o & H1 & H2)|H1]; [|now right]. destruct o as [[[r'|] m']|]; cbn in H2; try tauto.
      + destruct H2 as [H2 H3]. left. exists (match r' with Some v => v | None => VBool true end), m'. split; [|split; [|exact H3]].
        * exists F. split; [exact Hf|]. split; [exact Hlen|]. left. exists r'. split; [exact H1|]. destruct r'; [reflexivity|exact Logic.I].
        * destruct r as [w0|], r' as [v|]; try contradiction; cbn in *; [subst w0; now apply Rw_Rv|apply Rv_any].
      + destruct r; tauto.
    - destruct (Hgo _ Hr) as [(o & H1 & H2)|H1]; [|now right]. destruct o as [[? ?]|]; [destruct H2|]. right. apply (Hstop t); [|exact H1].
      right. exists []. rewrite app_nil_r. auto.
  Qed.

  Lemma default_never : forall n f args m t v m', icalls I p ndebug n f args m t v m' -> ~ In Undefined t.
  Proof.
    induction n as [|n IH]; intros f args m t v m' H; [destruct H|].
    destruct H as (F & r0 & exn & Hf & Hlen & H).
    assert (forall o, iruns I ndebug (icalls I p ndebug n) F args r0 exn m t o -> ~ In Undefined t) as Hgo.
    { intros o (s0 & s & _ & Hs & _). refine (bsteps_never _ _ _ no_iinvoke _ _ _ no_iinv Undefined _ s0 t s Hs).
      intros q vs m1 t1 v1 m2 Hq. destruct Hq; try (intros []; fail); [|eauto].
      intros [E|[]]; discriminate. }
    destruct H as [(r & Hr & _)|[Hr _]]; eauto.
  Qed.

  Context (args : list val) (Hargs : Forall machine_int args).
  Lemma args_related : Forall2 Rw args (map as_int args).
  Proof. induction Hargs as [|v vs Hv _ IH]; cbn; constructor; [split; [exact Hv|reflexivity]|exact (IH ltac:(now inversion Hargs))]. Qed.
  Lemma default_found : forall f m M, same_memory ly m M -> can_fail p f args m ->
    default_can_fail I p ndebug f (map as_int args) M \/ can_be_inexact all ly p f args m.
  Proof.
    intros f m M HM (n & t & v & m' & H & Hf & Hu).
    assert (okU (t ++ [Failed])) as Hok by (unfold okU; rewrite in_app_iff; intros [Hi|[Hi|[]]]; [auto|discriminate]).
    assert ((exists v1 m1, exact_calls all ly p n f args m (t ++ [Failed]) v1 m1) -> default_can_fail I p ndebug f (map as_int args) M) as Hgo.
    { intros (v1 & m1 & H1). destruct (exact_boogie n f args (map as_int args) m M _ v1 m1 Hok args_related HM H1) as [(w & M' & H2 & _)|(u & w & M' & H2 & H3)].
      - exists n, (t ++ [Failed]), w, M'. split; [exact H2|]. apply in_app_iff. right. now left.
      - destruct H2 as (b & _ & Hi). exists n, u, w, M'. auto. }
    destruct (plain_exact n f args m _ v m' Hok H) as [H1|(u & v1 & m1 & (a & b & Et & ->) & H1)]; [left; eauto|].
    destruct (failed_dec a) as [Ha|Ha].
    - left. apply Hgo. apply first_failed in Ha. destruct Ha as (a1 & a2 & -> & Ha1).
      rewrite <- app_assoc in H1. cbn in H1. apply exact_cut in H1. destruct H1 as (v2 & m2 & H1).
      assert (a1 = t) as <-; [|eauto]. rewrite <- app_assoc in Et. cbn in Et. clear - Et Hf Ha1.
      revert a1 Et Ha1. induction t as [|x t IH]; intros [|y a1] Et Ha1; cbn in *; auto; try congruence.
      + injection Et as _ E. destruct a1; discriminate.
      + injection Et as -> E. destruct Hf. now left.
      + injection Et as -> E. f_equal. apply IH; auto.
    - right. exists n, a, v1, m1. split; [exact H1|]. split; [exact Ha|]. intros Hi.
      assert (In Undefined (t ++ [Failed])) by (rewrite Et; apply in_app_iff; now left). now apply Hok.
  Qed.
  Lemma default_real : forall f m M, same_memory ly m M -> default_can_fail I p ndebug f (map as_int args) M ->
    can_fail p f args m \/ can_be_inexact all ly p f args m.
  Proof.
    intros f m M HM (n & t & w & M' & H & Hf). pose proof (default_never n _ _ _ _ _ _ H) as Hu.
    assert (forall a c v1 m1, exact_calls all ly p n f args m (a ++ c) v1 m1 -> In Failed a -> okU a -> can_fail p f args m) as Hcut.
    { intros a c v1 m1 H1 Ha Hok. apply first_failed in Ha. destruct Ha as (a1 & a2 & -> & Ha1).
      rewrite <- app_assoc in H1. cbn in H1. apply exact_cut in H1. destruct H1 as (v2 & m2 & H1).
      assert (okU a1) as Hok1 by (intros Hi; apply Hok, in_app_iff; now left).
      exists n, a1, v2, m2. split; [|split; assumption]. apply (exact_calls_plain n); [|exact H1].
      unfold okU. rewrite in_app_iff. intros [Hi|[Hi|[]]]; [auto|discriminate]. }
    destruct (boogie_exact n f args (map as_int args) m M t w M' args_related HM H) as [(v & m' & H1 & _)|(u & v & m' & Hc & H1)].
    - left. apply (Hcut t [] v m'); [now rewrite app_nil_r|exact Hf|exact Hu].
    - destruct Hc as [(a & b & -> & ->)|(b & -> & Hi)].
      + assert (okU a) as Hok by (intros Hi; apply Hu, in_app_iff; now left).
        destruct (failed_dec a) as [Ha|Ha]; [left; eapply Hcut; eassumption|]. right. exists n, a, v, m'. auto.
      + left. apply (Hcut u [] v m'); [now rewrite app_nil_r|exact Hi|]. intros Hi2. apply Hu, in_app_iff. now left.
  Qed.
End Whole.
