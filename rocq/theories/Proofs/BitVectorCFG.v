(** The emitted expressions mean what the operands mean (hypothesis of
    Proofs/CFGProofs.v), in bit-vector mode. *)
From Coq Require Import ZArith List String Bool Lia ZifyBool.
From Verif.Base Require Import ZBits.
From Verif.Spec Require Import LLVMInt IR CFG BitVectorIR Encodings.
From Verif.Model Require Import Boogie PreludeInt SmackRepInt BitVectorCode.
From Verif.Proofs Require Import Lookup PreludeCalls ExprSim IntEncodings IntUnbounded EventGuards IntMain.
Import ListNotations.
Open Scope Z_scope.

Definition W64 (n : Z) : Prop := In n INTEGER_SIZES /\ n <= 64.

Lemma value_den_ext : forall v r r', (forall x, In x (value_regs v) -> r x = r' x) ->
  value_den r v = value_den r' v.
Proof.
  induction v; intros r r' H; cbn in *; auto;
    repeat match goal with
    | IH : forall r r', _ -> value_den r ?v = _ |- context [value_den r ?v] =>
        rewrite (IH r r') by (intros; apply H; rewrite ?in_app_iff; tauto)
    end; reflexivity.
Qed.
Lemma inst_den_ext : forall i r r', (forall x, In x (inst_regs i) -> r x = r' x) ->
  inst_den r i = inst_den r' i.
Proof.
  intros i r r' H. destruct i; cbn in H.
  - cbn. rewrite (value_den_ext a r r'), (value_den_ext b r r') by (intros; apply H; rewrite in_app_iff; tauto).
    reflexivity.
  - apply (value_den_ext (CIcmp p n a b)). exact H.
  - apply (value_den_ext (CCast c n1 n2 a)). exact H.
  - apply (value_den_ext (CSelect n c a b)). exact H.
Qed.

Lemma gb_value : forall nd G r v u ui, wt_value G W64 v -> gd_value (gb nd) r v u ui.
Proof.
  induction v; intros u ui H; cbn in *.
  - exact I.
  - intros _ _ _. apply H.
  - destruct H as (H1 & H2 & _). repeat split; auto.
  - destruct H as (H1 & H2 & _). repeat split; auto.
  - destruct H as (H1 & _). split; auto.
  - destruct H as (H1 & H2 & H3 & _). auto.
Qed.
Lemma gb_inst : forall nd G r i, wt_inst G W64 i -> gd_inst (gb nd) r i.
Proof.
  intros nd G r i H. destruct i; cbn in H.
  - destruct H as (H1 & H2 & _). repeat split; eauto using gb_value.
  - exact (gb_value nd G r (CIcmp p n a b) false false H).
  - exact (gb_value nd G r (CCast c n1 n2 a) false false H).
  - exact (gb_value nd G r (CSelect n c a b) false false H).
Qed.

Lemma bits_related : forall G r rb us, (forall x, In x us -> r x = Some (rb x)) ->
  related Rb G (fun x => if in_dec string_dec x us then bits G r x else None) (fun x => Some (rb x)).
Proof.
  intros G r rb us H x n a Hx Ha. destruct (in_dec string_dec x us) as [Hin|]; [|discriminate].
  unfold bits in Ha. rewrite Hx, (H x Hin) in Ha. destruct (rb x) as [|m b| |] eqn:Erb; try discriminate.
  destruct ((m =? n) && (0 <=? b) && (b <? 2 ^ n)) eqn:Er; [|discriminate]. injection Ha as <-.
  assert (m = n) by lia. subst m. split; [unfold is_iN; lia|]. exists (VBv n b). split; [congruence|reflexivity].
Qed.

Lemma W64_total : forall p nd, lits_total (flags BitVector p) nd W64.
Proof. intros. apply lits_total_64. intros n [H ?]. split; [apply size_pos; exact H|assumption]. Qed.
Lemma W64_supported : forall n, W64 n -> supported n.
Proof. intros n [H _]. exact H. Qed.

Lemma typed_sim : forall p nd I G r rb (e : typed G W64) v,
  (forall x, In x (typed_regs G W64 e) -> r x = Some (rb x)) ->
  typed_den G W64 r e = Some v -> eval_emitted p I rb (trans_typed p nd e) = Some v.
Proof.
  intros p nd I G r rb [o Ho] v Hu Hv. unfold typed_regs, typed_den, trans_typed in *. cbn [proj1_sig] in *.
  set (r' := fun x => if in_dec string_dec x (match o with Op v => value_regs v | Instr i => inst_regs i end)
                      then bits G r x else None).
  pose proof (bits_related G r rb _ Hu) as Hr. fold r' in Hr.
  assert (He : forall x, In x (match o with Op v => value_regs v | Instr i => inst_regs i end) -> bits G r x = r' x).
  { intros x Hx. unfold r'. destruct (in_dec _ _ _); [reflexivity|contradiction]. }
  destruct o as [w|i]; cbn [trans_operand] in *.
  - rewrite (value_den_ext w _ r' He) in Hv. destruct (value_den r' w) as [a|] eqn:Ea; [|discriminate]. injection Hv as <-.
    destruct (expr_total _ nd G W64 w false false (W64_total p nd) Ho) as [t Ht]. rewrite Ht. cbv beta iota delta [eval_emitted].
    assert (X := extends_refl (preludeInt (flags BitVector p))).
    destruct (value_sim (flags BitVector p) nd (preludeInt (flags BitVector p)) I 5%nat Rb (gb nd)
      (b_lit (flags BitVector p) nd _ I 0%nat X eq_refl eq_refl) (b_bin (flags BitVector p) nd _ I 0%nat X eq_refl eq_refl)
      (b_icmp (flags BitVector p) nd _ I 0%nat X eq_refl eq_refl) (b_cast (flags BitVector p) nd _ I 0%nat X eq_refl eq_refl)
      (b_cond (flags BitVector p) _ I 0%nat eq_refl eq_refl)
      G r' _ w false false t a Hr (wt_value_mono _ _ _ _ W64_supported Ho) Ht Ea (gb_value nd G r' w _ _ Ho))
      as (bv & E1 & E2).
    unfold eval. refine (eq_trans E1 _). now rewrite E2.
  - rewrite (inst_den_ext i _ r' He) in Hv. destruct (inst_den r' i) as [a|] eqn:Ea; [|discriminate]. injection Hv as <-.
    destruct (inst_total _ nd G W64 i (W64_total p nd) Ho) as [t Ht]. rewrite Ht. cbv beta iota delta [eval_emitted].
    destruct (b_inst_sim (flags BitVector p) nd _ I 0%nat (extends_refl (preludeInt (flags BitVector p))) eq_refl eq_refl
      G r' _ i t a Hr) as (bv & E1 & E2 & _); auto.
    + destruct i.
      * exact (wt_value_mono G W64 supported (CBin op n a0 b) W64_supported Ho).
      * exact (wt_value_mono G W64 supported (CIcmp p0 n a0 b) W64_supported Ho).
      * exact (wt_value_mono G W64 supported (CCast c n1 n2 a0) W64_supported Ho).
      * exact (wt_value_mono G W64 supported (CSelect n c a0 b) W64_supported Ho).
    + exact (gb_inst nd G r' i Ho).
    + unfold eval. refine (eq_trans E1 _). now rewrite E2.
Qed.
