(** Expressions in the default encoding: the emitted expression has the signed
    value of the operand if no operation in it is inexact. *)
From Coq Require Import ZArith List String Bool Lia ZifyBool.
From Verif.Base Require Import ZBits.
From Verif.Spec Require Import LLVMInt IR CFG BitVectorIR ByteMemory Encodings Pointers Program DefaultMode.
From Verif.Model Require Import Boogie PreludeInt SmackRepInt PreludeMem WholeProgram DefaultMode.
From Verif.Proofs Require Import Lookup PreludeCalls ExprSim IntEncodings IntUnbounded EventGuards IntMain BitVectorCFG.
Import ListNotations.
Open Scope string_scope.
Open Scope list_scope.
Open Scope Z_scope.

Definition bwP (all : bool) : binop -> Z -> Prop := if all then all_bitwise else axiomatised.

Lemma in_rangeb_fits : forall n z, in_rangeb n z = true <-> fits n z.
Proof. intros n z. unfold in_rangeb, fits. destruct (n =? 1); lia. Qed.
Lemma known_bwP : forall all op n, is_bitwise op = true -> known_bitwise all op n = true -> bwP all op n.
Proof.
  intros all op n Hb H. unfold bwP, known_bitwise in *. destruct all; [exact Logic.I|]. cbn in H.
  apply andb_true_iff in H. destruct H as [H1 H2]. split; [lia|]. destruct op; try discriminate; tauto.
Qed.
Lemma event_guard : forall nd all e, event_exact (known_bitwise all) e = true -> ev_ok (gu nd (bwP all)) e.
Proof.
  intros nd all e H. destruct e as [op n x y|q n x y|c n1 n2 x]; [destruct op|destruct q|destruct c]; cbn in *;
    try exact Logic.I; try (apply in_rangeb_fits; exact H);
    try (apply known_bwP; [reflexivity|exact H]);
    change int_value with sval in *; lia.
Qed.
Lemma const_guard : forall nd all t, snd (fst t) <= 64 -> const_exact t = true -> const_ok (gu nd (bwP all)) t.
Proof.
  intros nd all [[pl n] k] Hn H. cbn [fst snd] in Hn. unfold const_ok. cbn. split; [auto|].
  destruct pl as [op nsw|op|q| | |]; [destruct op|destruct op|destruct q|..]; cbn in H |- *; try tauto; try lia;
    destruct nsw; cbn in *; tauto || lia.
Qed.

Lemma operand_guard : forall nd all G o r, wt_operand G width_ok o -> operand_exact all r o = true ->
  match o with
  | Op v => gd_value (gu nd (bwP all)) r v false false
  | Instr i => gd_inst (gu nd (bwP all)) r i
  end.
Proof.
  intros nd all G o r Hw H. unfold operand_exact in H. apply andb_true_iff in H. destruct H as [He Hc].
  assert (Forall (ev_ok (gu nd (bwP all))) (operand_events r o)) as Fe.
  { apply Forall_forall. intros e Hin. apply event_guard. rewrite forallb_forall in He. auto. }
  assert (Forall (const_ok (gu nd (bwP all))) (operand_consts o)) as Fc.
  { apply Forall_forall. intros t Hin. rewrite forallb_forall in Hc. apply const_guard; [|auto].
    destruct o as [v|i]; cbn in Hin, Hw.
    - pose proof (consts_width G width_ok v InCast Hw) as F. rewrite Forall_forall in F. destruct (F t Hin) as [[_ H64] _]. exact H64.
    - pose proof (inst_consts_width G width_ok i Hw) as F. rewrite Forall_forall in F. destruct (F t Hin) as [[_ H64] _]. exact H64. }
  destruct o as [v|i].
  - exact (gd_value_events _ r v InCast Fe Fc).
  - exact (gd_inst_events _ r i Fe Fc).
Qed.

(** ** Registers that hold integers *)
Definition decode (G : string -> option Z) (r : string -> option val) : string -> option val := fun x =>
  match G x, r x with
  | Some n, Some (VInt z) => if (1 <=? n) && in_rangeb n z then Some (VBv n (pat n z)) else None
  | _, _ => None
  end.
Definition int_den (all : bool) (G : string -> option Z) (r : string -> option val) (e : typed G width_ok) : option val :=
  match exact_den all G (decode G r) e with
  | Some v => Some (as_int v)
  | None => None
  end.

Lemma wok_supported : forall n, width_ok n -> supported n.
Proof. intros n [H _]. exact H. Qed.
Lemma wok_total : forall nd, lits_total default_flags nd width_ok.
Proof. intros. apply lits_total_64. intros n [H ?]. split; [apply size_pos; exact H|assumption]. Qed.

Section Agree.
  Context (I : interp) (nd all : bool).
  Hypothesis HK : bitwise_knowledge UnboundedInteger false I (bwP all).

  Lemma decode_related : forall G r rb us, (forall x, In x us -> r x = Some (rb x)) ->
    related Ru G (fun x => if in_dec string_dec x us then bits G (decode G r) x else None) (fun x => Some (rb x)).
  Proof.
    intros G r rb us H x n a Hx Ha. destruct (in_dec string_dec x us) as [Hin|]; [|discriminate].
    unfold bits, decode in Ha. rewrite Hx, (H x Hin) in Ha. destruct (rb x) as [z| | |] eqn:Erb; try discriminate.
    destruct ((1 <=? n) && in_rangeb n z) eqn:Er; [|discriminate]. apply andb_true_iff in Er. destruct Er as [En Er].
    destruct (_ && _ && _) eqn:E in Ha; [|discriminate]. injection Ha as <-.
    split; [unfold is_iN; lia|]. exists (VInt z). split; [reflexivity|]. unfold Ru. f_equal. symmetry.
    apply pat_sval; [lia|]. now apply in_rangeb_fits.
  Qed.
  Lemma value_events_ext : forall v r r', (forall x, In x (value_regs v) -> r x = r' x) ->
    value_events r v = value_events r' v.
  Proof.
    induction v; intros r r' H; cbn in *; auto; unfold ev2;
      repeat match goal with
      | IH : forall r r', _ -> value_events r ?v = _ |- context [value_events r ?v] =>
          rewrite (IH r r') by (intros; apply H; rewrite ?in_app_iff; tauto)
      | |- context [value_den r ?v] => rewrite (value_den_ext v r r') by (intros; apply H; rewrite ?in_app_iff; tauto)
      end; reflexivity.
  Qed.
  Lemma operand_events_ext : forall o r r', (forall x, In x (match o with Op v => value_regs v | Instr i => inst_regs i end) -> r x = r' x) ->
    operand_events r o = operand_events r' o.
  Proof.
    intros [v|i] r r' H; [exact (value_events_ext v r r' H)|]. destruct i; cbn in H.
    - exact (value_events_ext (CBin op n a b) r r' H).
    - exact (value_events_ext (CIcmp p n a b) r r' H).
    - exact (value_events_ext (CCast c n1 n2 a) r r' H).
    - exact (value_events_ext (CSelect n c a b) r r' H).
  Qed.

  Lemma default_agree : forall G r rb (e : typed G width_ok) v,
    (forall x, In x (typed_regs G width_ok e) -> r x = Some (rb x)) ->
    int_den all G r e = Some v -> eval_default I rb (trans_default nd e) = Some v.
  Proof.
    intros G r rb [o Ho] v Hu Hv. unfold typed_regs, int_den, exact_den, typed_den, trans_default in *. cbn [proj1_sig] in *.
    set (us := match o with Op v => value_regs v | Instr i => inst_regs i end) in *.
    set (r' := fun x => if in_dec string_dec x us then bits G (decode G r) x else None).
    pose proof (decode_related G r rb us Hu) as Hr. fold r' in Hr.
    assert (He : forall x, In x us -> bits G (decode G r) x = r' x).
    { intros x Hx. unfold r'. destruct (in_dec _ _ _); [reflexivity|contradiction]. }
    destruct (operand_exact all (bits G (decode G r)) o) eqn:Eo; [|discriminate].
    assert (operand_exact all r' o = true) as Eo'.
    { unfold operand_exact in *. rewrite <- (operand_events_ext o _ _ He). exact Eo. }
    pose proof (operand_guard nd all G o r' Ho Eo') as Hg. unfold us in *. clear us.
    assert (X := extends_refl (preludeInt default_flags)).
    destruct o as [w|i].
    - rewrite (value_den_ext w _ r' He) in Hv. destruct (value_den r' w) as [a|] eqn:Ea; [|discriminate]. injection Hv as <-.
      destruct (expr_total _ nd G width_ok w false false (wok_total nd) Ho) as [t Ht]. rewrite Ht. cbv beta iota delta [eval_default].
      destruct (value_sim default_flags nd (preludeInt default_flags) I 5%nat Ru (gu nd (bwP all))
        (u_lit default_flags nd _ I 0%nat X eq_refl eq_refl (bwP all))
        (u_bin default_flags nd _ I 0%nat X eq_refl eq_refl (bwP all) (unbounded_knowledge false I (bwP all) HK))
        (u_icmp default_flags nd _ I 0%nat X eq_refl eq_refl (bwP all)) (u_cast default_flags nd _ I 0%nat X eq_refl eq_refl (bwP all))
        (u_cond default_flags _ I 0%nat eq_refl)
        G r' _ w false false t a Hr (wt_value_mono _ _ _ _ wok_supported Ho) Ht Ea Hg)
        as (bv & E1 & E2).
      unfold eval. refine (eq_trans E1 _). now rewrite E2.
    - rewrite (inst_den_ext i _ r' He) in Hv. destruct (inst_den r' i) as [a|] eqn:Ea; [|discriminate]. injection Hv as <-.
      destruct (inst_total _ nd G width_ok i (wok_total nd) Ho) as [t Ht]. rewrite Ht. cbv beta iota delta [eval_default].
      destruct (u_inst_sim default_flags nd _ I 0%nat X eq_refl eq_refl (bwP all) (unbounded_knowledge false I (bwP all) HK)
        G r' _ i t a Hr) as (bv & E1 & E2 & _); auto.
      + destruct i.
        * exact (wt_value_mono G width_ok supported (CBin op n a0 b) wok_supported Ho).
        * exact (wt_value_mono G width_ok supported (CIcmp p n a0 b) wok_supported Ho).
        * exact (wt_value_mono G width_ok supported (CCast c n1 n2 a0) wok_supported Ho).
        * exact (wt_value_mono G width_ok supported (CSelect n c a0 b) wok_supported Ho).
      + unfold eval. refine (eq_trans E1 _). now rewrite E2.
  Qed.
End Agree.

(** ** More registers *)
Definition sub_regs (r r' : IR.regs) : Prop := forall x a, r x = Some a -> r' x = Some a.
Lemma value_den_sub : forall v r r' a, sub_regs r r' -> value_den r v = Some a ->
  value_den r' v = Some a /\ value_events r' v = value_events r v.
Proof.
  induction v; intros r r' a0 Hs H; cbn in *; unfold ev2; auto.
  - destruct (value_den r v1) as [x|] eqn:E1; [|discriminate]. destruct (value_den r v2) as [y|] eqn:E2; [|discriminate].
    destruct (IHv1 _ _ _ Hs E1) as [-> ->], (IHv2 _ _ _ Hs E2) as [-> ->]. auto.
  - destruct (value_den r v1) as [x|] eqn:E1; [|discriminate]. destruct (value_den r v2) as [y|] eqn:E2; [|discriminate].
    destruct (IHv1 _ _ _ Hs E1) as [-> ->], (IHv2 _ _ _ Hs E2) as [-> ->]. auto.
  - destruct (value_den r v) as [x|] eqn:E1; [|discriminate]. destruct (IHv _ _ _ Hs E1) as [-> ->]. auto.
  - destruct (value_den r v1) as [x|] eqn:E1; [|discriminate]. destruct (value_den r v2) as [y|] eqn:E2; [|discriminate].
    destruct (value_den r v3) as [z|] eqn:E3; [|discriminate].
    destruct (IHv1 _ _ _ Hs E1) as [-> ->], (IHv2 _ _ _ Hs E2) as [-> ->], (IHv3 _ _ _ Hs E3) as [-> ->]. auto.
Qed.
Lemma inst_den_sub : forall i r r' a, sub_regs r r' -> inst_den r i = Some a ->
  inst_den r' i = Some a /\ inst_events r' i = inst_events r i.
Proof.
  intros i r r' a Hs H. destruct i.
  - cbn in *. unfold ev2. destruct (value_den r a0) as [x|] eqn:E1; [|discriminate]. destruct (value_den r b) as [y|] eqn:E2; [|discriminate].
    destruct (value_den_sub _ _ _ _ Hs E1) as [-> ->], (value_den_sub _ _ _ _ Hs E2) as [-> ->]. auto.
  - exact (value_den_sub (CIcmp p n a0 b) r r' a Hs H).
  - exact (value_den_sub (CCast c n1 n2 a0) r r' a Hs H).
  - exact (value_den_sub (CSelect n c a0 b) r r' a Hs H).
Qed.
Lemma exact_den_sub : forall all G r r' e v, sub_regs (bits G r) (bits G r') -> exact_den all G r e = Some v ->
  exact_den all G r' e = Some v.
Proof.
  intros all G r r' [o Ho] v Hs. unfold exact_den, typed_den, operand_exact. cbn [proj1_sig]. intros H.
  destruct (_ && _) eqn:E in H; [|discriminate]. destruct o as [w|i]; cbn [operand_events] in *.
  - destruct (value_den (bits G r) w) as [a|] eqn:Ea; [|discriminate].
    destruct (value_den_sub _ _ _ _ Hs Ea) as [-> ->]. now rewrite E.
  - destruct (inst_den (bits G r) i) as [a|] eqn:Ea; [|discriminate].
    destruct (inst_den_sub _ _ _ _ Hs Ea) as [-> ->]. now rewrite E.
Qed.
Lemma exact_plain : forall all G r e v, exact_den all G r e = Some v -> typed_den G width_ok r e = Some v.
Proof. intros all G r e v. unfold exact_den. destruct (operand_exact _ _ _); [auto|discriminate]. Qed.

(** The values of operands. *)
Lemma bits_ok : forall G r, regs_ok G (bits G r).
Proof.
  intros G r x n a Hx Ha. unfold bits in Ha. rewrite Hx in Ha. destruct (r x) as [[|m b| |]|]; try discriminate.
  destruct (_ && _ && _) eqn:E in Ha; [|discriminate]. injection Ha as <-. unfold is_iN. lia.
Qed.
Lemma typed_den_int : forall G r e v, typed_den G width_ok r e = Some v ->
  exists a, v = VBv (operand_width (proj1_sig e)) a /\ 1 <= operand_width (proj1_sig e) /\ is_iN (operand_width (proj1_sig e)) a.
Proof.
  intros G r [o Ho] v H. unfold typed_den in H. cbn [proj1_sig] in *.
  assert (forall w, wt_value G width_ok w -> 1 <= vwidth w) as Hw.
  { induction w; cbn; intros; try (apply size_pos; unfold width_ok in *; tauto). lia. }
  destruct o as [w|i]; cbn [wt_operand operand_width] in *.
  - destruct (value_den (bits G r) w) as [a|] eqn:E; [|discriminate]. injection H as <-. exists a. split; [reflexivity|]. split; [auto|].
    exact (value_range G _ w a (bits_ok G r) (wt_value_mono _ _ _ _ wok_supported Ho) E).
  - destruct (inst_den (bits G r) i) as [a|] eqn:E; [|discriminate]. injection H as <-. exists a. split; [reflexivity|].
    destruct i.
    + cbn [iwidth]. split; [exact (Hw (CBin op n a0 b) Ho)|].
      refine (value_range G (bits G r) (CBin op n a0 b) a (bits_ok G r) (wt_value_mono G _ _ _ wok_supported Ho) _).
      cbn in E |- *. destruct (value_den (bits G r) a0) as [x|]; [|discriminate]. destruct (value_den (bits G r) b) as [y|]; [|discriminate].
      cbn in E |- *. destruct (_ && _); [discriminate|exact E].
    + split; [exact (Hw (CIcmp p n a0 b) Ho)|].
      exact (value_range G (bits G r) (CIcmp p n a0 b) a (bits_ok G r) (wt_value_mono G _ _ _ wok_supported Ho) E).
    + split; [exact (Hw (CCast c n1 n2 a0) Ho)|].
      exact (value_range G (bits G r) (CCast c n1 n2 a0) a (bits_ok G r) (wt_value_mono G _ _ _ wok_supported Ho) E).
    + split; [exact (Hw (CSelect n c a0 b) Ho)|].
      exact (value_range G (bits G r) (CSelect n c a0 b) a (bits_ok G r) (wt_value_mono G _ _ _ wok_supported Ho) E).
Qed.

(** ** Corresponding values and registers *)
(** [Rw]: values of operands; [Rv]: contents of registers, where anything may
    stand for what is not an integer. *)
Definition Rw (v w : val) : Prop := machine_int v /\ w = as_int v.
Definition Rv (v w : val) : Prop := machine_int v -> w = as_int v.
Definition Rreg (r ri : string -> option val) : Prop := forall x v, r x = Some v -> exists w, ri x = Some w /\ Rv v w.

Lemma Rreg_upd : forall r ri x v w, Rreg r ri -> Rv v w -> Rreg (upd r x v) (upd ri x w).
Proof.
  intros r ri x v w H Hv y u. unfold upd. destruct (String.eqb x y); [|apply H].
  intros E. injection E as <-. eauto.
Qed.
Lemma Rreg_bits : forall G r ri, Rreg r ri -> (forall x n, G x = Some n -> 1 <= n) -> sub_regs (bits G r) (bits G (decode G ri)).
Proof.
  intros G r ri H HG x a Ha. unfold bits in Ha. destruct (G x) as [n|] eqn:Eg; [|discriminate].
  destruct (r x) as [v|] eqn:Er; [|discriminate]. destruct v as [|m b| |]; try discriminate.
  destruct (_ && _ && _) eqn:E in Ha; [|discriminate]. injection Ha as <-. assert (m = n) by lia. subst m.
  pose proof (HG x n Eg) as Hn. assert (is_iN n b) as Hb by (unfold is_iN; lia).
  destruct (H x _ Er) as (w & Hw & Hv). assert (w = VInt (sval n b)) as -> by (apply Hv; exists n, b; auto).
  unfold bits, decode. rewrite Eg, Hw. destruct ((1 <=? n) && in_rangeb n (sval n b)) eqn:E2.
  - rewrite (sval_pat n b Hn Hb). destruct (_ && _ && _) eqn:E3; [reflexivity|]. lia.
  - apply andb_false_iff in E2. destruct E2 as [E2|E2]; [lia|].
    pose proof (proj2 (in_rangeb_fits n (sval n b)) (sval_fits n b Hn Hb)). congruence.
Qed.
