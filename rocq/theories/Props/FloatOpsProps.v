(** C55: floating-point instructions. *)
From Coq Require Import ZArith List String Ascii Bool Lia.
From Verif.Spec Require Import TraceValues IEEE FloatArith CMath IEEERound.
From Verif.Model Require Import Floats FloatOps.
From Verif.Proofs Require Import Rounding MathFacts MathLibFacts MathLibFacts2 CorrectRounding.
From Verif.Props Require Import MathProps.
Import ListNotations.
Open Scope string_scope.
Open Scope list_scope.
Open Scope Z_scope.

(** The formats of LLVM's types half, float, double and x86_fp80 *)
Definition machine (t : fptype) : format :=
  match t with HalfTy => Format 5 11 | FloatTy => Format 8 24 | DoubleTy => Format 11 53 | X86_FP80Ty => Format 15 64 end.
Definition num (t : fptype) (x : fpval) : fterm := TVal (VF t x).
Definition int (w n : Z) : fterm := TVal (VI w n).

Lemma machine_layout : forall t, t <> X86_FP80Ty -> layout t = machine t.
Proof. intros []; try reflexivity; congruence. Qed.
Lemma machine_ok : forall t, format_ok (machine t).
Proof. intros []; vm_compute; intuition congruence. Qed.
Lemma sum_spec : forall f rm x y, format_ok f -> is_sum f rm x y (fp_add f rm x y).
Proof.
  intros f rm [|s|s m k] [|s'|s' m' k'] Hf; try reflexivity. cbn [is_sum fp_add]. cbv zeta. replace (zero_sign rm s s') with (if Bool.eqb s s' then s else match rm with RTN => true | _ => false end) by (destruct s, s'; reflexivity).
  apply round_dyadic_correct. exact Hf.
Qed.
Lemma product_spec : forall f rm x y, format_ok f -> is_product f rm x y (fp_mul f rm x y).
Proof. intros f rm [|s|s m k] [|s'|s' m' k'] Hf; try reflexivity. apply round_dyadic_correct. exact Hf. Qed.
Lemma quotient_spec : forall f rm x y, format_ok f -> member f x -> member f y -> is_quotient f rm x y (fp_div f rm x y).
Proof.
  intros f rm [|s|s m k] [|s'|s' m' k'] Hf Hx Hy; try reflexivity; [apply same_refl|]. cbn [is_quotient fp_div]. destruct (Z.eqb_spec m' 0); [reflexivity|]. destruct (Z.eqb_spec m 0); [apply same_refl|]. cbn [member] in Hx, Hy.
  apply round_to_correct; [exact Hf| |]; (apply Z.mul_pos_pos; [lia|apply pow_pos']).
Qed.

(** fadd, fsub, fmul and fdiv are the operations of IEEE 754 in the current rounding
    mode: the exact result, correctly rounded. *)
Theorem C55_arithmetic : forall o bp t rm x y, t <> X86_FP80Ty -> member (machine t) x -> member (machine t) y ->
  (exists r, eval_term o bp rm (tr_bop FAdd t (num t x) (num t y)) = Some (VF t r) /\ is_sum (machine t) rm x y r) /\
  (exists r, eval_term o bp rm (tr_bop FSub t (num t x) (num t y)) = Some (VF t r) /\ is_difference (machine t) rm x y r) /\
  (exists r, eval_term o bp rm (tr_bop FMul t (num t x) (num t y)) = Some (VF t r) /\ is_product (machine t) rm x y r) /\
  (exists r, eval_term o bp rm (tr_bop FDiv t (num t x) (num t y)) = Some (VF t r) /\ is_quotient (machine t) rm x y r) /\
  eval_term o bp rm (tr_fneg t (num t x)) = Some (VF t (fp_neg x)).
Proof.
  intros o bp t rm x y Ht Hx Hy. pose proof (machine_ok t) as Hf. rewrite <- (machine_layout t Ht) in *. split; [|split; [|split; [|split]]].
  - exists (fp_add (layout t) rm x y). split; [destruct t; reflexivity|apply sum_spec; exact Hf].
  - exists (fp_sub (layout t) rm x y). split; [destruct t; reflexivity|apply sum_spec; exact Hf].
  - exists (fp_mul (layout t) rm x y). split; [destruct t; reflexivity|apply product_spec; exact Hf].
  - exists (fp_div (layout t) rm x y). split; [destruct t; reflexivity|apply quotient_spec; assumption].
  - destruct t; reflexivity.
Qed.
Print Assumptions C55_arithmetic.

(** Conversions between formats: correctly rounded, and exact to a larger format. *)
Theorem C55_conversion : forall o bp t t' rm x, t <> X86_FP80Ty -> t' <> X86_FP80Ty -> member (machine t) x ->
  (fp_width t' < fp_width t -> exists r, eval_term o bp rm (tr_cast bp FPTrunc (TyF t) (TyF t') (num t x)) = Some (VF t' r) /\ is_conversion (machine t') rm x r) /\
  (fp_width t < fp_width t' -> exists r, eval_term o bp rm (tr_cast bp FPExt (TyF t) (TyF t') (num t x)) = Some (VF t' r) /\ same_datum r x).
Proof.
  intros o bp t t' rm x Ht Ht' Hx. assert (is_conversion (machine t') rm x (fp_convert (machine t') rm x)) as C by (destruct x; try reflexivity; apply round_dyadic_correct; apply machine_ok). split; intros W.
  - exists (fp_convert (machine t') rm x). split; [|exact C]. destruct t, t'; try congruence; try (exfalso; vm_compute in W; discriminate W); destruct bp; reflexivity.
  - exists (fp_convert (machine t') rm x). split; [destruct t, t'; try congruence; try (exfalso; vm_compute in W; discriminate W); destruct bp; reflexivity|].
    destruct x as [|s|s m k]; try apply same_refl. cbn [fp_convert]. destruct (Z.eq_dec m 0) as [-> |M0].
    + replace (signed_int s 0) with 0 by (destruct s; reflexivity). unfold round_dyadic. cbn [Z.eqb]. apply zero_same; reflexivity.
    + cbn [member] in Hx. destruct Hx as [Hm Hk].
      assert (2 ^ f_p (machine t) <= 2 ^ f_p (machine t') /\ f_kmin (machine t') <= k <= f_emax (machine t') - f_p (machine t')) as [HP HK].
      { destruct t, t'; try congruence; try (exfalso; vm_compute in W; discriminate W); (split; [vm_compute; discriminate|]); unfold f_kmin, f_emax in *; cbn in Hk |- *; lia. }
      pose proof (round_dyadic_exact (machine t') rm s (signed_int s m) k (machine_ok t') ltac:(destruct s; cbn [signed_int]; lia) ltac:(destruct s; cbn [signed_int]; lia) HK) as Q.
      replace (signed_int s m <? 0) with s in Q by (destruct s; cbn [signed_int]; symmetry; [apply Z.ltb_lt|apply Z.ltb_ge]; lia). replace (Z.abs (signed_int s m)) with m in Q by (destruct s; cbn [signed_int]; lia). exact Q.
Qed.
Print Assumptions C55_conversion.

(** Integers, with bit vectors of the declared sizes: correctly rounded to a number;
    truncated to an integer, if it fits. *)
Definition declared_sizes : list Z := [1; 5; 6; 8; 16; 24; 32; 33; 40; 48; 56; 64; 80; 88; 96; 128; 160; 256].
Ltac each_size H := unfold declared_sizes in H; cbn [In] in H; repeat match type of H with _ \/ _ => destruct H as [H|H] end; try contradiction; subst.
Lemma sizes_pos : forall w, In w declared_sizes -> 1 <= w.
Proof. intros w H. each_size H; lia. Qed.
Lemma signed_bits : forall w v, 1 <= w -> - 2 ^ (w - 1) <= v < 2 ^ (w - 1) -> of_bv true w (v mod 2 ^ w) = v.
Proof.
  intros w v Hw Hv. assert (2 ^ w = 2 * 2 ^ (w - 1)) as E by (rewrite <- Z.pow_succ_r by lia; f_equal; lia). unfold of_bv. cbn [andb]. destruct (Z_lt_le_dec v 0).
  - replace (v mod 2 ^ w) with (v + 2 ^ w) by (apply (Z.mod_unique _ _ (-1)); lia). rewrite (proj2 (Z.leb_le _ _)) by lia. lia.
  - rewrite Z.mod_small by lia. rewrite (proj2 (Z.leb_gt _ _)) by lia. reflexivity.
Qed.
Theorem C55_of_integer : forall o t rm w v, t <> X86_FP80Ty -> In w declared_sizes ->
  (- 2 ^ (w - 1) <= v < 2 ^ (w - 1) -> exists r, eval_term o true rm (tr_cast true SIToFP (TyI w) (TyF t) (int w (v mod 2 ^ w))) = Some (VF t r) /\ is_of_int (machine t) rm v r) /\
  (0 <= v < 2 ^ w -> exists r, eval_term o true rm (tr_cast true UIToFP (TyI w) (TyF t) (int w v)) = Some (VF t r) /\ is_of_int (machine t) rm v r).
Proof.
  intros o t rm w v Ht Hw. pose proof (sizes_pos w Hw) as W1. rewrite <- (machine_layout t Ht). split; intros Hv; exists (fp_of_int (layout t) rm v); (split; [|apply round_dyadic_correct; rewrite (machine_layout t Ht); apply machine_ok]).
  - transitivity (Some (VF t (fp_of_int (layout t) rm (of_bv true w (v mod 2 ^ w))))); [|rewrite signed_bits by assumption; reflexivity]. generalize (v mod 2 ^ w). intros n. clear Hv Ht v. each_size Hw; destruct t; reflexivity.
  - clear Hv. each_size Hw; destruct t; try congruence; reflexivity.
Qed.
Print Assumptions C55_of_integer.
Theorem C55_to_integer : forall o t rm w s m k n, In w declared_sizes -> member (machine t) (Fin s m k) -> is_trunc (Fin s m k) n ->
  (- 2 ^ (w - 1) <= n < 2 ^ (w - 1) -> eval_term o true rm (tr_cast true FPToSI (TyF t) (TyI w) (num t (Fin s m k))) = Some (VI w (n mod 2 ^ w))) /\
  (0 <= n < 2 ^ w -> eval_term o true rm (tr_cast true FPToUI (TyF t) (TyI w) (num t (Fin s m k))) = Some (VI w n)).
Proof.
  intros o t rm w s m k n Hw Hx Hn. cbn [member] in Hx.
  assert (fp_to_int RTZ (Fin s m k) = Some n) as E.
  { destruct (to_int_integral RTZ s m k RTZ ltac:(lia)) as (n1 & H1 & E). rewrite <- (rint_unique RTZ _ _ _ _ _ H1 Hn). rewrite <- E. unfold fp_to_int. f_equal.
    cbn [fp_round_integral]. destruct (0 <=? k) eqn:K; cbn [fp_round_integral]; rewrite ?K; reflexivity. }
  assert (forall x, eval_term o true rm (tr_cast true FPToSI (TyF t) (TyI w) (num t x)) = Some (VI w (to_bv o "fp2si" true w RTZ x)) /\
                    eval_term o true rm (tr_cast true FPToUI (TyF t) (TyI w) (num t x)) = Some (VI w (to_bv o "fp2ui" false w RTZ x))) as A.
  { clear - Hw. intros x. each_size Hw; destruct t; split; reflexivity. }
  destruct (A (Fin s m k)) as [-> ->]. unfold to_bv. rewrite E. unfold fits. split; intros Rn.
  - rewrite (proj2 (Z.leb_le _ _)), (proj2 (Z.ltb_lt _ _)) by lia. reflexivity.
  - rewrite (proj2 (Z.leb_le _ _)), (proj2 (Z.ltb_lt _ _)) by lia. cbn [andb]. rewrite Z.mod_small by lia. reflexivity.
Qed.
Print Assumptions C55_to_integer.

(** The intrinsics *)
Theorem C55_intrinsics : forall o bp t rm x y, member (machine t) x -> member (machine t) y ->
  let run i := eval_term o bp rm (tr_intrinsic i t [num t x; num t y]) in
  run I_fabs = Some (VF t (fp_abs x)) /\
  (exists r, run I_maxnum = Some (VF t r) /\ is_fmax x y r) /\
  (exists r, run I_minnum = Some (VF t r) /\ is_fmin x y r) /\
  (exists r, run I_ceil = Some (VF t r) /\ to_integral is_ceil x r) /\
  (exists r, run I_floor = Some (VF t r) /\ to_integral is_floor x r) /\
  (exists r, run I_nearbyint = Some (VF t r) /\ to_integral (is_rint rm) x r) /\
  (exists r, run I_rint = Some (VF t r) /\ to_integral (is_rint rm) x r) /\
  (exists r, run I_round = Some (VF t r) /\ to_integral is_round x r) /\
  (exists r, run I_trunc = Some (VF t r) /\ to_integral is_trunc x r).
Proof.
  intros o bp t rm x y Hx Hy run. split; [destruct t; reflexivity|]. split; [|split; [|split; [|split; [|split; [|split; [|split]]]]]].
  - exists (fp_select o "fp.max" t x y (negb (fp_lt x y))). split; [destruct t; reflexivity|apply fmax_spec].
  - exists (fp_select o "fp.min" t x y (negb (fp_lt y x))). split; [destruct t; reflexivity|apply fmin_spec].
  - exists (fp_round_integral RTP x). split; [destruct t; reflexivity|apply (integral_spec RTP x _ Hx)].
  - exists (fp_round_integral RTN x). split; [destruct t; reflexivity|apply (integral_spec RTN x _ Hx)].
  - exists (fp_round_integral rm x). split; [destruct t; reflexivity|apply (integral_spec rm x _ Hx)].
  - exists (fp_round_integral rm x). split; [destruct t; reflexivity|apply (integral_spec rm x _ Hx)].
  - exists (fp_round_integral RNA x). split; [destruct t; reflexivity|apply (integral_spec RNA x _ Hx)].
  - exists (fp_round_integral RTZ x). split; [destruct t; reflexivity|apply (integral_spec RTZ x _ Hx)].
Qed.
Print Assumptions C55_intrinsics.
(** llvm.convert.from.fp16, with bit vectors: the number of these bits, exactly. *)
Theorem C55_from_fp16 : forall o rm t b, t = FloatTy \/ t = DoubleTy -> 0 <= b < 2 ^ 16 ->
  exists r, eval_term o true rm (tr_from_fp16 t (int 16 b)) = Some (VF t r) /\ same_datum r (ieee 5 11 b).
Proof.
  intros o rm t b Ht Hb. assert (member (machine HalfTy) (ieee 5 11 b)) as M.
  { unfold ieee. pose proof (Z.mod_pos_bound (b / 2 ^ (11 - 1)) (2 ^ 5) ltac:(lia)) as E1. pose proof (Z.mod_pos_bound b (2 ^ (11 - 1)) ltac:(lia)) as E2. set (e := (b / 2 ^ (11 - 1)) mod 2 ^ 5) in *. set (fr := b mod 2 ^ (11 - 1)) in *.
    destruct (Z.eqb_spec e (2 ^ 5 - 1)); [destruct (fr =? 0); exact I|]. clearbody e fr. change (2 ^ 5) with 32 in *. change (2 ^ (11 - 1)) with 1024 in *.
    destruct (Z.eqb_spec e 0); cbn [member machine f_p f_E]; unfold f_kmin, f_emax; cbn [machine f_p f_E]; change (2 ^ 11) with 2048; change (2 ^ (5 - 1)) with 16; lia. }
  destruct (C55_conversion o true HalfTy t rm (ieee 5 11 b)) as [_ C]; [discriminate|destruct Ht as [-> | ->]; discriminate|exact M|].
  destruct C as (r & E & S); [destruct Ht as [-> | ->]; reflexivity|]. exists r. split; [|exact S]. rewrite <- E. destruct Ht as [-> | ->]; reflexivity.
Qed.
Print Assumptions C55_from_fp16.
(** The instruction frem becomes C's remainder. *)
Theorem C55_remainder : forall o bp t rm x y, member (machine t) x -> member (machine t) y ->
  exists r, eval_term o bp rm (tr_bop FRem t (num t x) (num t y)) = Some (VF t r) /\ is_remainder x y r.
Proof.
  intros o bp t rm x y Hx Hy. exists (fp_remainder x y). split; [destruct t; reflexivity|]. apply (remainder_spec (machine t)); assumption.
Qed.
Print Assumptions C55_remainder.

(** ** Cases that meet the hypotheses *)
(** Rounded up, to an even significand, to infinity, to zero; 1/3 *)
Example C55_nonvacuous :
  member (machine FloatTy) (Fin false 16777215 0) /\
  eval_term encoder true RNE (tr_bop FAdd FloatTy (num FloatTy (Fin false 16777215 0)) (num FloatTy (Fin false 1 (-1)))) = Some (VF FloatTy (Fin false 16777216 0)) /\
  eval_term encoder true RTZ (tr_bop FAdd FloatTy (num FloatTy (Fin false 16777215 0)) (num FloatTy (Fin false 1 (-1)))) = Some (VF FloatTy (Fin false 16777215 0)) /\
  eval_term encoder false RNE (tr_bop FMul HalfTy (num HalfTy (Fin false 2047 5)) (num HalfTy (Fin true 2 0))) = Some (VF HalfTy (Inf true)) /\
  eval_term encoder false RNE (tr_bop FDiv FloatTy (num FloatTy (Fin false 1 0)) (num FloatTy (Fin false 3 0))) = Some (VF FloatTy (Fin false 11184811 (-25))) /\
  eval_term encoder false RNE (tr_cast false FPTrunc (TyF DoubleTy) (TyF FloatTy) (num DoubleTy (Fin true 1 (-1074)))) = Some (VF FloatTy (Fin true 0 (-149))) /\
  eval_term encoder true RNE (tr_cast true SIToFP (TyI 32) (TyF FloatTy) (int 32 (-16777217 mod 2 ^ 32))) = Some (VF FloatTy (Fin true 8388608 1)) /\
  eval_term encoder true RNE (tr_cast true FPToSI (TyF FloatTy) (TyI 8) (num FloatTy (Fin true 15 (-1)))) = Some (VI 8 249) /\
  eval_term encoder true RNE (tr_from_fp16 FloatTy (int 16 49920)) = Some (VF FloatTy (Fin true 14680064 (-22))).
Proof. split; [vm_compute; intuition congruence|]. repeat (split; [vm_compute; reflexivity|]). vm_compute. reflexivity. Qed.

(** LLVM's frem is C's fmod: 5 frem 3 is 2, but $frem is SMT-LIB's fp.rem, which is
    -1. *)
Theorem C55_frem_refuted : exists r, eval_term encoder true RNE (tr_bop FRem DoubleTy (num DoubleTy (Fin false 5 0)) (num DoubleTy (Fin false 3 0))) = Some (VF DoubleTy r) /\
  equal r (Fin true 1 0) /\ ~ is_fmod (Fin false 5 0) (Fin false 3 0) r.
Proof. exists (Fin true 1 0). split; [vm_compute; reflexivity|]. split; [intros j _ _; reflexivity|]. intros (_ & H & _). discriminate. Qed.
Print Assumptions C55_frem_refuted.
(** The intrinsics sqrt and fma are called without the rounding mode that the functions
    $sqrt and $fma are declared with: Boogie rejects the program. *)
Theorem C55_sqrt_fma_refuted : forall o bp t rm x y z,
  eval_term o bp rm (tr_intrinsic I_sqrt t [num t x]) = None /\ eval_term o bp rm (tr_intrinsic I_fma t [num t x; num t y; num t z]) = None.
Proof. intros. destruct t; split; reflexivity. Qed.
Print Assumptions C55_sqrt_fma_refuted.
(** x86_fp80 has significands of 64 bits; the prelude's type has 65: 2^64 + 1 is
    computed exactly, on the machine it is 2^64. *)
Theorem C55_fp80_refuted : exists x y r, member (machine X86_FP80Ty) x /\ member (machine X86_FP80Ty) y /\
  eval_term encoder true RNE (tr_bop FAdd X86_FP80Ty (num X86_FP80Ty x) (num X86_FP80Ty y)) = Some (VF X86_FP80Ty r) /\ ~ is_sum (machine X86_FP80Ty) RNE x y r.
Proof.
  exists (Fin false 1 64), (Fin false 1 0), (Fin false (2 ^ 64 + 1) 0). split; [vm_compute; intuition congruence|]. split; [vm_compute; intuition congruence|]. split; [vm_compute; reflexivity|].
  intros (m & k & ([Hm Hk] & _) & A & B). assert (~ num_le 1 (f_emax (machine X86_FP80Ty)) m k) as NO by (intros H; apply B in H; discriminate). apply A in NO. clear A B. change (2 ^ f_p (machine X86_FP80Ty)) with (2 ^ 64) in Hm.
  apply (same_fwd _ _ _ _ _ _ (Z.min 0 k)) in NO; [|lia|lia]. destruct NO as [_ E]. change (2 ^ 64) with 18446744073709551616 in *. destruct (Z_le_gt_dec k 0) as [K|K].
  - replace (Z.min 0 k) with k in E by lia. rewrite Z.sub_diag, Z.pow_0_r in E. pose proof (pow_pos (0 - k) ltac:(lia)). nia.
  - replace (Z.min 0 k) with 0 in E by lia. rewrite !Z.sub_0_r in E. replace k with (Z.succ (k - 1)) in E by lia. rewrite Z.pow_succ_r in E by lia. rewrite Z.pow_0_r in E. replace (m * (2 * 2 ^ (k - 1))) with (2 * (m * 2 ^ (k - 1))) in E by ring. lia.
Qed.
Print Assumptions C55_fp80_refuted.
(** Without bit vectors the conversions from and to integers are uninterpreted, and
    other sizes than the declared ones are not declared. *)
Theorem C55_integers_refuted :
  (exists o, eval_term o false RNE (tr_cast false SIToFP (TyI 32) (TyF FloatTy) (int 32 1)) = Some (VF FloatTy NaN) /\
             eval_term o false RNE (tr_cast false FPToSI (TyF FloatTy) (TyI 32) (num FloatTy (Fin false 1 0))) = Some (VI 32 0)) /\
  (forall o rm, eval_term o true rm (tr_cast true UIToFP (TyI 7) (TyF FloatTy) (int 7 1)) = None).
Proof. split; [exists encoder; split; vm_compute; reflexivity|]. intros. reflexivity. Qed.
Print Assumptions C55_integers_refuted.
