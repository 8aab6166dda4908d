(** C54: the models of <math.h> and <fenv.h>. *)
From Coq Require Import ZArith List String Ascii Bool Lia.
From Verif.Spec Require Import TraceValues IEEE FloatArith CMath.
From Verif.Model Require Import Floats FloatOps MathLib.
From Verif.Proofs Require Import Rounding MathEval MathFacts MathLibFacts MathLibFacts2.
Import ListNotations.
Open Scope string_scope.
Open Scope list_scope.
Open Scope Z_scope.

(** float and double; for long double the prelude has a type with significands of 65
    bits (C55_fp80_refuted), which contains the numbers of x86_fp80. *)
Definition c_format (t : cty) : format := match t with CFloat => Format 8 24 | CDouble => Format 11 53 | CLongDouble => Format 15 65 end.
Definition c_data (t : cty) (x : fpval) : Prop := member (c_format t) x.
Lemma data_member : forall t x, c_data t x -> c_member t x.
Proof. intros [] x H; exact H. Qed.
Lemma c_format_eq : forall t, c_format t = layout (llvm t).
Proof. intros []; reflexivity. Qed.

(** floor, ceil, trunc, round, rint and nearbyint yield the integer of their name with
    the sign of the argument; NaN and infinities stay. *)
Theorem C54_integral : forall o bp t rm x, c_data t x ->
  (exists r, c_floor o bp t rm x = Some r /\ to_integral is_floor x r) /\
  (exists r, c_ceil o bp t rm x = Some r /\ to_integral is_ceil x r) /\
  (exists r, c_trunc o bp t rm x = Some r /\ to_integral is_trunc x r) /\
  (exists r, c_round o bp t rm x = Some r /\ to_integral is_round x r) /\
  (exists r, c_rint o bp t rm x = Some r /\ to_integral (is_rint rm) x r) /\
  (exists r, c_nearbyint o bp t rm x = Some r /\ to_integral (is_rint rm) x r).
Proof.
  intros o bp t rm x Hx. apply data_member in Hx. rewrite floor_eval, ceil_eval, trunc_eval, round_eval, rint_eval, nearbyint_eval.
  split; [|split; [|split; [|split; [|split]]]]; (eexists; split; [reflexivity|]).
  - apply (integral_spec RTN x _ Hx).
  - apply (integral_spec RTP x _ Hx).
  - apply (integral_spec RTZ x _ Hx).
  - apply (integral_spec RNA x _ Hx).
  - apply (integral_spec rm x _ Hx).
  - apply (integral_spec rm x _ Hx).
Qed.
Print Assumptions C54_integral.

(** lround and lrint, with bit vectors: the same integer as a long, if it is one. *)
Lemma to_int_integral : forall rm s m k rm', 0 <= m -> exists n, is_rint rm (Fin s m k) n /\ fp_to_int rm' (fp_round_integral rm (Fin s m k)) = Some n.
Proof.
  intros rm s m k rm' Hm. destruct (rint_spec rm s m k Hm) as (n & In & (s1 & m1 & k1 & E1) & Eq & Sg). exists n. split; [exact In|]. cbn [fp_round_integral] in *.
  destruct (Z.leb_spec 0 k) as [Hk|Hk].
  - unfold fp_to_int. cbn [fp_round_integral]. rewrite (proj2 (Z.leb_le 0 k) Hk). f_equal.
    apply (equal_units _ _ _ _ _ _ 0) in Eq; [|lia|lia]. unfold units in Eq. rewrite signed_abs, !Z.sub_0_r, Z.pow_0_r, Z.mul_1_r in Eq. destruct s; cbn [signed_int] in *; lia.
  - unfold fp_to_int. cbn [fp_round_integral Z.leb Z.compare]. f_equal. apply (equal_units _ _ _ _ _ _ 0) in Eq; [|lia|lia]. unfold units in Eq. rewrite signed_abs, !Z.sub_0_r, Z.pow_0_r, !Z.mul_1_r in Eq.
    rewrite Z.pow_0_r, Z.mul_1_r. exact Eq.
Qed.
Theorem C54_lround : forall o t rm s m k, c_data t (Fin s m k) ->
  (forall n, is_round (Fin s m k) n -> - 2 ^ 63 <= n < 2 ^ 63 -> c_lround o true t rm (Fin s m k) = Some n) /\
  (forall n, is_rint rm (Fin s m k) n -> - 2 ^ 63 <= n < 2 ^ 63 -> c_lrint o true t rm (Fin s m k) = Some n).
Proof.
  intros o t rm s m k Hx. assert (0 <= m) as Hm by (apply Hx).
  assert (forall r n, is_rint r (Fin s m k) n -> - 2 ^ 63 <= n < 2 ^ 63 -> to_long o true t rm (fp_round_integral r (Fin s m k)) = Some n) as A.
  { intros r n Hn Rn. destruct (to_int_integral r s m k RTZ Hm) as (n1 & I1 & E1). rewrite (rint_unique _ _ _ _ _ _ I1 Hn) in E1. rewrite to_long_eval. unfold to_bv. rewrite E1. unfold fits, of_bv.
    rewrite (proj2 (Z.leb_le (- 2 ^ (64 - 1)) n)), (proj2 (Z.ltb_lt n (2 ^ (64 - 1)))) by (change (2 ^ (64 - 1)) with (2 ^ 63); lia). cbn [andb]. f_equal.
    change (2 ^ (64 - 1)) with 9223372036854775808. change (2 ^ 64) with 18446744073709551616. change (2 ^ 63) with 9223372036854775808 in Rn.
    destruct (Z_lt_le_dec n 0).
    - replace (n mod 18446744073709551616) with (n + 18446744073709551616) by (apply (Z.mod_unique _ _ (-1)); lia). destruct (Z.leb_spec 9223372036854775808 (n + 18446744073709551616)); lia.
    - rewrite Z.mod_small by lia. destruct (Z.leb_spec 9223372036854775808 n); lia. }
  split; intros n H1 H2; unfold c_lround, c_lrint; rewrite ?round_eval, ?rint_eval; cbn [obind].
  - apply (A RNA n H1 H2).
  - apply (A rm n H1 H2).
Qed.
Print Assumptions C54_lround.

(** fabs, remainder, fmin and fmax. *)
Theorem C54_selection : forall o bp t rm x y, c_data t x -> c_data t y ->
  c_fabs o bp t rm x = Some (fp_abs x) /\
  (exists r, c_remainder o bp t rm x y = Some r /\ is_remainder x y r) /\
  (exists r, c_fmin o bp t rm x y = Some r /\ is_fmin x y r) /\
  (exists r, c_fmax o bp t rm x y = Some r /\ is_fmax x y r).
Proof.
  intros o bp t rm x y Hx Hy. rewrite fabs_eval, remainder_eval, fmin_eval, fmax_eval. split; [reflexivity|]. split; [|split]; (eexists; split; [reflexivity|]).
  - apply (remainder_spec (c_format t)); assumption.
  - apply fmin_spec.
  - apply fmax_spec.
Qed.
Print Assumptions C54_selection.

(** copysign, fmod and modf, with bit vectors.  fmod is exact in every rounding mode,
    and so is the fractional part. *)
Theorem C54_copysign : forall o t x y, bits_ok o (llvm t) -> c_data t x -> c_data t y -> is_copysign x y (c_copysign o true t x y).
Proof.
  intros o t x y Hb Hx Hy. apply data_member, member_in in Hx, Hy. split.
  - pose proof (copysign_flip o t x y Hb Hx) as C. destruct (negb _); apply same_abs in C; [|exact C]. destruct x; exact C.
  - intros Nx Ny. pose proof (copysign_spec o t x y Hb Hx Hy Nx Ny) as C. rewrite (same_sign _ _ C). destruct (Bool.eqb (sign x) (sign y)) eqn:E.
    + apply Bool.eqb_prop. exact E.
    + destruct x as [|s|s m k]; [congruence| |]; cbn [fp_neg sign] in *; destruct s, (sign y); cbn in *; congruence.
Qed.
Print Assumptions C54_copysign.
Theorem C54_fmod : forall o t rm x y, bits_ok o (llvm t) -> c_data t x -> c_data t y -> exists r, c_fmod o true t rm x y = Some r /\ is_fmod x y r.
Proof. intros. apply fmod_spec; auto using data_member. Qed.
Print Assumptions C54_fmod.
Theorem C54_modf : forall o t rm x, bits_ok o (llvm t) -> c_data t x -> exists i r, c_modf o true t rm x = Some (i, r) /\ is_modf x i r.
Proof. intros. apply modf_spec; auto using data_member. Qed.
Print Assumptions C54_modf.

(** fdim, if the solver's maximum of +0 and -0 is +0 or the difference is not -0. *)
Theorem C54_fdim : forall o bp t rm x y, c_data t x -> c_data t y ->
  (equal x y -> (if Bool.eqb (sign x) (sign y) then rm = RTN else sign x = true) -> o_zero o "fp.max" (llvm t) false = false) ->
  exists r, c_fdim o bp t rm x y = Some r /\ is_fdim (c_format t) rm x y r.
Proof. intros o bp t rm x y Hx Hy Hz. rewrite c_format_eq. apply fdim_spec; auto using data_member. Qed.
Print Assumptions C54_fdim.

(** The classes. *)
Theorem C54_classes : forall o bp t rm x, c_data t x ->
  (exists c, c_fpclassify o bp t rm x = Some c /\ is_class (c_format t) x c /\ c_isnormal o bp t rm x = Some (if c =? 4 then 1 else 0)) /\
  (exists n, c_finite o bp t rm x = Some n /\ (n <> 0 <-> finite x)) /\
  (exists n, c_isnan o bp t rm x = Some n /\ (n <> 0 <-> x = NaN)) /\
  (exists n, c_isinf o bp t rm x = Some n /\ (n <> 0 <-> exists s, x = Inf s)).
Proof.
  intros o bp t rm x Hx. apply data_member in Hx. rewrite c_format_eq. unfold c_fpclassify, c_finite. rewrite isnan_eval, isinf_eval, iszero_eval, issubnormal_eval, isnormal_eval. cbn [obind].
  unfold finite, c_member in *. set (f := layout (llvm t)) in *. destruct x as [|s|s m k].
  - split; [|split; [|split]]; (eexists; split; [reflexivity|]); [split; reflexivity| | |]; split; try congruence; intros H; try (exfalso; apply H; reflexivity); repeat (destruct H as (? & H)); discriminate.
  - split; [|split; [|split]]; (eexists; split; [reflexivity|]); [split; reflexivity| | |]; split; try congruence; intros H; try (exfalso; apply H; reflexivity); try (eexists; reflexivity); repeat (destruct H as (? & H)); discriminate.
  - cbn [is_nan is_inf is_zero is_subnormal is_normal orb]. change (truth 0) with false. cbn [obind]. split; [|split; [|split]].
    + cbn [member] in Hx. assert (0 < 2 ^ (k - f_kmin f)) as P by (apply pow_pos; lia). unfold is_normal. cbn [is_nan is_inf is_zero is_subnormal orb].
      destruct (Z.eqb_spec m 0) as [E0|E0]; [eexists; split; [reflexivity|]; split; [left; auto|reflexivity]|]. change (truth 0) with false. cbn match. cbn [orb].
      rewrite (proj2 (Z.ltb_lt 0 m)) by lia. cbn [andb]. destruct (Z.ltb_spec (m * 2 ^ (k - f_kmin f)) (2 ^ (f_p f - 1))) as [L|L]; (eexists; split; [reflexivity|]; split; [|reflexivity]); cbn [is_class]; right; [left|right]; split; try reflexivity; [nia|exact L].
    + eexists; split; [reflexivity|]. split; [intros _; eexists _, _, _; reflexivity|discriminate].
    + eexists; split; [reflexivity|]. split; [congruence|discriminate].
    + eexists; split; [reflexivity|]. split; [congruence|intros (? & H); discriminate].
Qed.
Print Assumptions C54_classes.
(** signbit and nan *)
Theorem C54_signbit : forall o t x, bits_ok o (llvm t) -> c_data t x -> x <> NaN -> (c_signbit o t x <> 0 <-> sign x = true) /\ c_nan = NaN.
Proof.
  intros o t x Hb Hx N. pose proof (signbit_spec o t x Hb (member_in t x (data_member t x Hx)) N) as S. unfold truth in S. split; [|reflexivity]. rewrite <- S. destruct (Z.eqb_spec (c_signbit o t x) 0); cbn; split; congruence.
Qed.
Print Assumptions C54_signbit.

(** The rounding mode: fesetround sets the mode and returns 0 for its four constants,
    else changes nothing; fegetround returns the constant of the mode. *)
Theorem C54_rounding_mode : forall v rm any,
  (forall rm', fe_mode v = Some rm' -> c_fesetround v rm = (0, rm')) /\
  (fe_mode v = None -> fst (c_fesetround v rm) <> 0 /\ snd (c_fesetround v rm) = rm) /\
  (fst (c_fesetround v rm) = 0 -> c_fegetround any (snd (c_fesetround v rm)) = v) /\
  (fe_mode (c_fegetround any rm) = Some rm \/ rm = RNA /\ c_fegetround any rm = any) /\
  fe_mode 0 = Some initial_rmode.
Proof.
  intros v rm any. unfold fe_mode, c_fesetround, FE_TONEAREST, FE_DOWNWARD, FE_UPWARD, FE_TOWARDZERO.
  destruct (Z.eqb_spec v 0) as [->|N0]; [|destruct (Z.eqb_spec v 1024) as [->|N1]; [|destruct (Z.eqb_spec v 2048) as [->|N2]; [|destruct (Z.eqb_spec v 3072) as [->|N3]]]]; cbn [fst snd];
    (split; [intros rm' H; congruence|split; [intros H; first [discriminate H|split; [discriminate|reflexivity]]|split; [intros H; try discriminate H; reflexivity|split; [destruct rm; auto|reflexivity]]]]).
Qed.
Print Assumptions C54_rounding_mode.

(** ** Cases that meet the hypotheses *)
(** -7.5: the functions to integers; fmod(-7.5, 2) = -1.5 by way of a negative
    remainder; modf; copysign *)
Definition x75 : fpval := Fin true 15 (-1).
Example C54_nonvacuous :
  c_data CFloat x75 /\ bits_ok encoder (llvm CFloat) /\ bits_ok encoder (llvm CDouble) /\ bits_ok encoder (llvm CLongDouble) /\
  c_floor encoder false CFloat RNE x75 = Some (Fin true 8 0) /\ c_ceil encoder false CDouble RNE x75 = Some (Fin true 7 0) /\
  c_rint encoder true CDouble RNE x75 = Some (Fin true 8 0) /\ c_lrint encoder true CDouble RTZ x75 = Some (-7) /\
  c_fmod encoder true CFloat RNE x75 (Fin false 2 0) = Some (Fin true 12582912 (-23)) /\
  c_modf encoder true CFloat RNE x75 = Some (Fin true 7 0, Fin true 8388608 (-24)) /\
  c_copysign encoder true CFloat x75 (Fin false 1 0) = Fin false 15728640 (-21) /\
  c_fdim encoder true CFloat RNE (Fin false 3 0) x75 = Some (Fin false 11010048 (-20)) /\
  c_fpclassify encoder false CFloat RNE (Fin false 1 (-149)) = Some 3.
Proof. split; [|split; [|split; [|split; [|repeat (split; [vm_compute; reflexivity|]); vm_compute; reflexivity]]]]; [vm_compute; intuition congruence|apply encoder_ok|apply encoder_ok|apply encoder_ok]. Qed.

(** fdim(1, 1) is -0 when rounding downward, if the solver's maximum of +0 and -0 is -0:
    SMT-LIB leaves that open. *)
Theorem C54_fdim_zero_refuted : exists o x r, c_data CFloat x /\ c_fdim o true CFloat RTN x x = Some r /\ at_most x x /\ ~ same_datum r (Fin false 0 0).
Proof.
  exists (Solver (fun _ _ _ => true) (fun _ _ _ => 0) (fun _ _ x => x) (fun _ _ x _ _ => x) (fun t x => encode (layout t) x) (fun t b => NaN) (fun _ _ _ _ _ => 0) (fun _ _ _ _ _ => NaN)), (Fin false 1 0).
  eexists. split; [vm_compute; intuition congruence|]. split; [vm_compute; reflexivity|]. split; [right; intros j _ _; reflexivity|]. intros [H _]. discriminate.
Qed.
Print Assumptions C54_fdim_zero_refuted.

(** Without bit vectors the conversions between numbers and bits are uninterpreted:
    copysign, fmod, modf and lround may give anything, even where the bits read are
    those of the numbers. *)
Theorem C54_integer_mode_refuted : exists o, (forall t, bits_ok o (llvm t)) /\
  c_copysign o false CFloat (Fin false 1 0) (Fin true 1 0) = NaN /\ c_fmod o false CFloat RNE (Fin true 7 0) (Fin false 2 0) = Some NaN /\ c_lround o false CFloat RNE (Fin false 7 0) = Some 0.
Proof. exists encoder. split; [exact encoder_ok|]. split; [|split]; vm_compute; reflexivity. Qed.
Print Assumptions C54_integer_mode_refuted.
