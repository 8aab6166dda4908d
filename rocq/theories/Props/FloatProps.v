(** C31: floating-point constants; C32: floating-point comparisons; C52: remainders. *)
From Coq Require Import ZArith List String Ascii Bool Lia.
From Verif.Spec Require Import Regex TraceValues IEEE.
From Verif.Model Require Import Floats.
From Verif.Proofs Require Import TraceFloats.
Import ListNotations.
Open Scope string_scope.
Open Scope list_scope.
Open Scope Z_scope.

(** ** Numerals *)
Lemma numeral_snoc : forall base s acc c, numeral_from base acc (s ++ String c "")%string = numeral_from base acc s * base + digit_value c.
Proof. induction s as [|d s IH]; intros acc c; cbn [append numeral_from]; [reflexivity|apply IH]. Qed.
Lemma numeral_acc : forall base s acc, numeral_from base acc s = acc * base ^ Z.of_nat (String.length s) + numeral_from base 0 s.
Proof.
  induction s as [|c s IH]; intros acc; [cbn; lia|]. cbn [numeral_from String.length]. rewrite IH, (IH (0 * base + digit_value c)).
  rewrite Nat2Z.inj_succ, Z.pow_succ_r by lia. ring.
Qed.
Lemma digit_char_ok : forall d, 0 <= d < 16 -> digit_value (digit_char d) = d /\ hexdigit (digit_char d) = true /\ (d < 10 -> digit (digit_char d) = true).
Proof.
  intros d H. assert (exists n, d = Z.of_nat n /\ (n < 16)%nat) as (n & -> & Hn) by (exists (Z.to_nat d); lia).
  do 16 (destruct n as [|n]; [vm_compute; repeat split; intros; (reflexivity || discriminate)|]). lia.
Qed.
Lemma toString_from_ok : forall base, base = 10 \/ base = 16 -> forall fuel n, 0 <= n < base ^ Z.of_nat fuel -> (0 < fuel)%nat ->
  numeral base (toString_from fuel base n) = n /\ all (if base =? 10 then digit else hexdigit) (toString_from fuel base n) /\
  (forall k, base ^ Z.of_nat k <= n < base ^ Z.of_nat (S k) -> String.length (toString_from fuel base n) = S k) /\ toString_from fuel base n <> "".
Proof.
  intros base Hb. assert (2 <= base <= 16) as Hb2 by lia.
  assert (forall d, 0 <= d < base -> digit_value (digit_char d) = d /\ (if base =? 10 then digit else hexdigit) (digit_char d) = true) as HD.
  { intros d H. destruct (digit_char_ok d ltac:(lia)) as (H1 & H2 & H3). split; [exact H1|]. destruct Hb as [-> | ->]; [apply H3; lia|exact H2]. }
  induction fuel as [|fuel IH]; intros n Hn Hf; [lia|]. cbn [toString_from]. destruct (Z.ltb_spec n base) as [H|H].
  - destruct (HD n ltac:(lia)) as (H1 & H2). split; [exact H1|]. split; [split; [exact H2|exact I]|]. split; [|discriminate]. intros k Hk. destruct k as [|k]; [reflexivity|].
    exfalso. assert (base ^ 1 <= base ^ Z.of_nat (S k)) by (apply Z.pow_le_mono_r; lia). lia.
  - assert (0 < fuel)%nat as Hf' by (destruct fuel; [cbn in Hn; lia|lia]).
    assert (0 <= n / base < base ^ Z.of_nat fuel) as Hq.
    { split; [apply Z.div_pos; lia|]. apply Z.div_lt_upper_bound; [lia|]. rewrite Nat2Z.inj_succ, Z.pow_succ_r in Hn by lia. lia. }
    destruct (IH (n / base) Hq Hf') as (H1 & H2 & H3 & H4). pose proof (Z.mod_pos_bound n base ltac:(lia)) as Hm. destruct (HD (n mod base) Hm) as (H5 & H6).
    split; [|split; [|split]].
    + unfold numeral in *. rewrite numeral_snoc, H1, H5. rewrite (Z.div_mod n base) at 3 by lia. ring.
    + apply all_app. split; [exact H2|]. split; [exact H6|exact I].
    + intros k Hk. destruct k as [|k]; [cbn in Hk; lia|]. rewrite length_app, (H3 k); [cbn; lia|]. rewrite !Nat2Z.inj_succ, !Z.pow_succ_r in Hk by lia. rewrite Nat2Z.inj_succ, Z.pow_succ_r by lia.
      split; [apply Z.div_le_lower_bound; lia|apply Z.div_lt_upper_bound; lia].
    + intros E. apply (f_equal String.length) in E. rewrite length_app in E. cbn in E. lia.
Qed.
Lemma toString_ok : forall base n, base = 10 \/ base = 16 -> 0 <= n ->
  numeral base (toString base n) = n /\ all (if base =? 10 then digit else hexdigit) (toString base n) /\
  (forall k, base ^ Z.of_nat k <= n < base ^ Z.of_nat (S k) -> String.length (toString base n) = S k) /\ toString base n <> "".
Proof.
  intros base n Hb Hn. apply toString_from_ok; [exact Hb| |lia]. split; [exact Hn|]. rewrite Nat2Z.inj_succ, Z2Nat.id by apply Z.log2_nonneg.
  destruct (Z.eq_dec n 0) as [->|N]; [change (Z.log2 0) with 0; rewrite Z.pow_1_r; lia|]. pose proof (Z.log2_spec n ltac:(lia)) as (_ & H).
  eapply Z.lt_le_trans; [exact H|]. apply Z.pow_le_mono_l. lia.
Qed.
Lemma size_text : forall p E, 0 <= p -> 0 <= E -> sizes p E (toString 10 p) (toString 10 E).
Proof.
  intros p E Hp HE. destruct (toString_ok 10 p (or_introl eq_refl) Hp) as (H1 & H2 & _ & H4). destruct (toString_ok 10 E (or_introl eq_refl) HE) as (H5 & H6 & _ & H8).
  repeat split; assumption.
Qed.

Lemma lor_pow2 : forall a k, 0 <= k -> 0 <= a < 2 ^ k -> Z.lor a (2 ^ k) = a + 2 ^ k.
Proof.
  intros a k Hk Ha. assert (Z.land a (2 ^ k) = 0) as E.
  { apply Z.bits_inj'. intros i Hi. rewrite Z.land_spec, Z.bits_0, Z.pow2_bits_eqb by lia. destruct (Z.eqb_spec k i) as [<-|]; [|apply andb_false_r].
    rewrite andb_true_r. destruct (Z.eq_dec a 0) as [->|]; [apply Z.bits_0|]. apply Z.bits_above_log2; [lia|]. apply Z.log2_lt_pow2; lia. }
  rewrite <- Z.lxor_lor by exact E. symmetry. now apply Z.add_nocarry_lxor.
Qed.
Lemma top_digit : forall a P r r', 0 <= r < P -> 0 <= r' < P -> a * P + r = r' + 8 * P -> r = r'.
Proof. intros a P r r' H H' E. assert (a = 8) as ->; [|lia]. assert (~ a <= 7) by nia. assert (~ 9 <= a) by nia. lia. Qed.
Lemma insert_dot : forall d f, insert 1 "." (String d f) = String d ("." ++ f)%string.
Proof.
  intros d f. unfold insert. cbn [String.length]. replace (S (String.length f) - 1)%nat with (String.length f) by lia.
  assert (substring 0 0 f = "") as E0 by (destruct f; reflexivity). assert (forall s, substring 0 (String.length s) s = s) as E1 by (induction s; cbn; congruence).
  cbn [substring append]. rewrite E0, E1. reflexivity.
Qed.

(** ** Constants *)
Lemma fp_lit_ok : forall E p bits, 3 <= E -> 5 <= p -> 0 <= bits < 2 ^ (E + p) ->
  exists v, literal p E (fp_lit E p (E + p) bits) v /\ same_datum v (ieee E p bits).
Proof.
  intros E p bits HE Hp Hbits. unfold fp_lit, ieee. cbv zeta.
  assert (Z.testbit bits (E + p - 1) = Z.odd (bits / 2 ^ (E + p - 1))) as -> by (rewrite Z.testbit_odd, Z.shiftr_div_pow2 by lia; reflexivity).
  set (neg := Z.odd (bits / 2 ^ (E + p - 1))). set (e := (bits / 2 ^ (p - 1)) mod 2 ^ E). set (f := bits mod 2 ^ (p - 1)).
  pose proof (size_text p E ltac:(lia) ltac:(lia)) as Hsz. set (ps := toString 10 p) in *. set (es := toString 10 E) in *.
  assert (0 <= e < 2 ^ E) as He by (apply Z.mod_pos_bound, pow_pos; lia). assert (0 <= f < 2 ^ (p - 1)) as Hf by (apply Z.mod_pos_bound, pow_pos; lia).
  destruct (Z.eqb_spec e (2 ^ E - 1)) as [Ee|Ne].
  { destruct (Z.eqb_spec f 0) as [Ef|Nf]; cbn [negb].
    - exists (Inf neg). split; [|reflexivity]. destruct neg; [exact (l_minf p E ps es Hsz)|exact (l_pinf p E ps es Hsz)].
    - exists NaN. split; [exact (l_nan p E ps es Hsz)|exact I]. }
  (* the significand and the exponent *)
  set (bias := 2 ^ (E - 1) - 1).
  assert (exists s x, (if negb (e =? 0) then Z.lor f (2 ^ (p - 1)) else f) = s /\ e - (if e =? 0 then bias - 1 else bias) = x /\
    (if e =? 0 then Fin neg f (1 - bias - (p - 1)) else Fin neg (2 ^ (p - 1) + f) (e - bias - (p - 1))) = Fin neg s (x - (p - 1)) /\
    0 <= s < 2 ^ p /\ - 2 ^ (E - 1) + 2 <= x < 2 ^ (E - 1)) as (s & x & -> & -> & -> & Hs & Hx).
  { assert (2 ^ p = 2 * 2 ^ (p - 1)) as E2 by (replace p with (Z.succ (p - 1)) at 1 by lia; apply Z.pow_succ_r; lia).
    assert (2 ^ E = 2 * 2 ^ (E - 1)) as E3 by (replace E with (Z.succ (E - 1)) at 1 by lia; apply Z.pow_succ_r; lia).
    destruct (Z.eqb_spec e 0) as [E0|N0]; cbn [negb]; eexists; eexists; (split; [reflexivity|]); (split; [reflexivity|]).
    - split; [f_equal; unfold bias; lia|]. split; [lia|]. unfold bias. assert (2 ^ 2 <= 2 ^ (E - 1)) by (apply Z.pow_le_mono_r; lia). lia.
    - rewrite lor_pow2 by lia. split; [f_equal; lia|]. split; [lia|]. unfold bias. lia. }
  assert (2 ^ E = 4 * 2 ^ (E - 2)) as E4 by (change 4 with (2 ^ 2); rewrite <- Z.pow_add_r by lia; f_equal; lia).
  assert (2 ^ (E - 1) = 4 * 2 ^ (E - 3)) as E5 by (change 4 with (2 ^ 2); rewrite <- Z.pow_add_r by lia; f_equal; lia).
  assert (2 ^ E = 2 * 2 ^ (E - 1)) as E6 by (replace E with (Z.succ (E - 1)) at 1 by lia; apply Z.pow_succ_r; lia).
  pose proof (pow_pos (E - 2) ltac:(lia)) as P2.
  assert (Z.land (x mod 2 ^ E) 3 = x mod 4) as ->.
  { change 3 with (Z.ones 2). rewrite Z.land_ones by lia. change (2 ^ 2) with 4. rewrite E4, Z.rem_mul_r by lia. rewrite (Z.mul_comm 4), Z.mod_add by lia. apply Z.mod_mod. lia. }
  set (md := x mod 4). assert (0 <= md < 4) as Hmd by (apply Z.mod_pos_bound; lia).
  assert (x = 4 * (x / 4) + md) as Ex by (apply Z.div_mod; lia).
  assert (sval E ((x mod 2 ^ E - md) mod 2 ^ E) / 4 = x / 4) as ->.
  { rewrite Zminus_mod_idemp_l. set (y := x - md). assert (y = 4 * (x / 4)) as Ey by (unfold y; lia).
    assert (- 2 ^ (E - 1) <= y < 2 ^ (E - 1)) as Hy by (split; [|lia]; assert (- 2 ^ (E - 3) <= x / 4) by (apply Z.div_le_lower_bound; lia); lia).
    assert (sval E (y mod 2 ^ E) = y) as ->; [|rewrite Ey, Z.mul_comm; apply Z.div_mul; lia].
    unfold sval. destruct (Z_lt_le_dec y 0) as [Hneg|Hpos].
    - assert (y mod 2 ^ E = y + 2 ^ E) as -> by (symmetry; apply Z.mod_unique with (-1); lia). replace (y + 2 ^ E <? 2 ^ (E - 1)) with false by (symmetry; apply Z.ltb_ge; lia). lia.
    - rewrite Z.mod_small by lia. replace (y <? 2 ^ (E - 1)) with true by (symmetry; apply Z.ltb_lt; lia). reflexivity. }
  set (fe := x / 4) in *. replace (md / 4) with 0 by (symmetry; apply Z.div_small; lia). change (4 * (0 + 1)) with 4.
  set (q := p - md - 2). assert (0 <= q) as Hq by (unfold q; lia). pose proof (Z.div_mod q 4 ltac:(lia)) as Eq. pose proof (Z.mod_pos_bound q 4 ltac:(lia)) as Hqm. assert (0 <= q / 4) as Hq4 by (apply Z.div_pos; lia).
  set (R := q / 4 + 1) in *. set (sh := 4 * R - p + md + 1). assert (0 <= sh <= 3) as Hsh by (unfold sh, R, q in *; lia).
  assert (0 <= s * 2 ^ sh < 2 ^ (4 * R + 4)) as Hs2.
  { pose proof (pow_pos sh ltac:(lia)). split; [nia|]. apply Z.lt_le_trans with (2 ^ p * 2 ^ sh); [nia|]. rewrite <- Z.pow_add_r by lia. apply Z.pow_le_mono_r; [lia|]. unfold sh. lia. }
  assert (2 ^ (4 * R + 4) < 2 ^ (4 * R + 7)) as HP1 by (apply Z.pow_lt_mono_r; lia). assert (2 ^ (4 * R + 7) < 2 ^ (4 + 4 * R + 4)) as HP2 by (apply Z.pow_lt_mono_r; lia).
  rewrite (Z.mod_small (s * 2 ^ sh)) by lia. replace (4 + 4 * R + 4 - 1) with (4 * R + 7) by lia. rewrite lor_pow2 by lia.
  set (N := s * 2 ^ sh + 2 ^ (4 * R + 7)). destruct (toString_ok 16 N (or_intror eq_refl)) as (T1 & T2 & T3 & _); [unfold N; lia|]. change (16 =? 10) with false in T2. cbv iota in T2.
  assert (String.length (toString 16 N) = S (S (Z.to_nat R))) as TL.
  { apply T3. rewrite !Nat2Z.inj_succ, Z2Nat.id by lia. change 16 with (2 ^ 4). rewrite <- !Z.pow_mul_r by lia. replace (4 * Z.succ R) with (4 * R + 4) by lia. replace (4 * Z.succ (Z.succ R)) with (4 + 4 * R + 4) by lia. unfold N.
    assert (2 ^ (4 + 4 * R + 4) = 2 * 2 ^ (4 * R + 7)) by (replace (4 + 4 * R + 4) with (Z.succ (4 * R + 7)) by lia; apply Z.pow_succ_r; lia). lia. }
  destruct (toString 16 N) as [|c0 rest]; [discriminate|]. destruct rest as [|d0 fr]; [discriminate|]. cbn [substr1]. change (Z.to_nat (4 / 4)) with 1%nat. rewrite insert_dot.
  cbn [String.length] in TL. assert (Z.of_nat (String.length fr) = R) as LR by lia. destruct T2 as (_ & Td & Tf).
  assert (numeral 16 (String d0 fr) = s * 2 ^ sh) as EN.
  { unfold numeral in T1. cbn [numeral_from] in T1. rewrite Z.mul_0_l, Z.add_0_l in T1. change (numeral_from 16 (digit_value c0 * 16 + digit_value d0) fr) with (numeral_from 16 (digit_value c0) (String d0 fr)) in T1.
    rewrite numeral_acc in T1. fold (numeral 16 (String d0 fr)) in T1. pose proof (numeral_range (String d0 fr) (conj Td Tf)) as HR. cbn [String.length] in HR, T1. rewrite Nat2Z.inj_succ, LR in HR, T1.
    assert (16 ^ Z.succ R = 2 ^ (4 * Z.succ R)) as E16 by (rewrite Z.pow_mul_r by lia; reflexivity). rewrite E16 in HR, T1. clear E16. replace (4 * Z.succ R) with (4 * R + 4) in HR, T1 by lia. unfold N in T1.
    replace (4 * R + 7) with (3 + (4 * R + 4)) in T1 by lia. rewrite (Z.pow_add_r 2 3 (4 * R + 4)) in T1 by lia. change (2 ^ 3) with 8 in T1.
    exact (top_digit _ _ _ _ HR Hs2 T1). }
  (* the exponent's text *)
  destruct (toString_ok 10 (Z.abs fe) (or_introl eq_refl) ltac:(lia)) as (X1 & X2 & _ & X4). change (10 =? 10) with true in X2. cbv iota in X2.
  exists (Fin neg (s * 2 ^ sh) (4 * (fe - R))). split.
  - assert (print_fp neg (String d0 ("." ++ fr)%string) (toString_signed fe) p E = printed (Fp neg (String d0 "") fr (fe <? 0) (toString 10 (Z.abs fe)) ps es)) as ->.
    { assert (forall a b c : string, ((a ++ b) ++ c = a ++ (b ++ c))%string) as A by (clear; induction a; cbn; intros; congruence).
      unfold print_fp, printed, toString_signed, ps, es, minus. cbn [append]. rewrite !A. reflexivity. }
    pose proof Hsz as (S1 & S2 & S3). apply l_fin; [exact Hsz| |].
    + split; [split; [discriminate|split; [exact Td|exact I]]|]. split; [split; [intros ->; cbn in LR; lia|exact Tf]|]. split; [split; assumption|]. tauto.
    + unfold fp_magnitude. cbn [append]. rewrite EN, LR. f_equal. unfold exponent. rewrite X1. destruct (Z.ltb_spec fe 0); lia.
  - cbn. split; [reflexivity|]. pose proof (same_shift s (4 * (fe - R)) sh ltac:(lia)) as X. replace (x - (p - 1)) with (4 * (fe - R) + sh) by (unfold sh; lia). exact X.
Qed.

(** The literal of a half, float or double constant denotes it exactly. *)
Theorem C31_literal : forall t bits, t = HalfTy \/ t = FloatTy \/ t = DoubleTy -> 0 <= bits < 2 ^ fp_width t ->
  exists v, literal (snd (fp_sizes t)) (fst (fp_sizes t)) (lit_fp t bits) v /\ same_datum v (ieee (fst (fp_sizes t)) (snd (fp_sizes t)) bits).
Proof. intros t bits [-> |[-> | ->]] H; unfold lit_fp, fp_sizes, fst, snd, fp_width in *; apply fp_lit_ok; lia. Qed.
Print Assumptions C31_literal.

(** The long double 1.0 is emitted as 1.5, and infinity as NaN. *)
Theorem C31_long_double_refuted :
  exists bits i f en e ps es m k,
    x87 bits = Fin false m k /\ same_number (m, k) (1, 0) /\
    lit_fp X86_FP80Ty bits = printed (Fp false i f en e ps es) /\ same_number (fp_magnitude i f en e) (3, -1).
Proof.
  exists (16383 * 2 ^ 64 + 2 ^ 63), "1", "8000000000000000", false, "0", "65", "15", (2 ^ 63), (-63). repeat split; vm_compute; reflexivity.
Qed.
Print Assumptions C31_long_double_refuted.
Theorem C31_long_infinity_refuted : exists bits, x87 bits = Inf false /\ lit_fp X86_FP80Ty bits = "0NaN65e15".
Proof. exists ((2 ^ 15 - 1) * 2 ^ 64 + 2 ^ 63). split; vm_compute; reflexivity. Qed.
Print Assumptions C31_long_infinity_refuted.
(** Without floating-point reasoning, 15.0 and 0.15 are the same term. *)
Theorem C31_uninterpreted_refuted : uninterpreted_lit "double 1.500000e+01" = Some (1, 500000, 1) /\ uninterpreted_lit "double 1.500000e-01" = Some (1, 500000, 1).
Proof. split; vm_compute; reflexivity. Qed.
Print Assumptions C31_uninterpreted_refuted.
Example C31_nonvacuous :
  lit_fp DoubleTy 4609434218613702656 = "0x1.8000000000000e0f53e11" /\ ieee 11 53 4609434218613702656 = Fin false (3 * 2 ^ 51) (-52) /\
  lit_fp DoubleTy (2 ^ 63 + 1) = "-0x0.0000000000004e-256f53e11" /\ ieee 11 53 (2 ^ 63 + 1) = Fin true 1 (-1074).
Proof. repeat split; vm_compute; reflexivity. Qed.

(** ** Comparisons *)
Lemma fp_lt_less : forall a b, fp_lt a b = true <-> less a b.
Proof.
  intros [|s|s m k] [|s'|s' m' k']; cbn [fp_lt less]; try (split; [discriminate|tauto]).
  - destruct s, s'; cbn; split; intuition congruence.
  - destruct s; cbn; intuition congruence.
  - destruct s'; cbn; intuition congruence.
  - rewrite Z.ltb_lt. unfold scaled. set (i := Z.min k k'). split.
    + intros H j Hj Hj'. replace (k - j) with ((k - i) + (i - j)) by lia. replace (k' - j) with ((k' - i) + (i - j)) by lia.
      rewrite !Z.pow_add_r by (unfold i; lia). rewrite !Z.mul_assoc. apply Z.mul_lt_mono_pos_r; [apply pow_pos; unfold i; lia|exact H].
    + intros H. apply H; unfold i; lia.
Qed.
Lemma fp_eq_equal : forall a b, fp_eq a b = true <-> equal a b.
Proof.
  intros [|s|s m k] [|s'|s' m' k']; cbn [fp_eq equal]; try (split; [discriminate|tauto]).
  - destruct s, s'; cbn; split; intuition congruence.
  - rewrite Z.eqb_eq. unfold scaled. set (i := Z.min k k'). split.
    + intros H j Hj Hj'. replace (k - j) with ((k - i) + (i - j)) by lia. replace (k' - j) with ((k' - i) + (i - j)) by lia.
      rewrite !Z.pow_add_r by (unfold i; lia). rewrite !Z.mul_assoc. now rewrite H.
    + intros H. apply H; unfold i; lia.
Qed.
Lemma isnan_unordered : forall a b, fp_isnan a || fp_isnan b = true <-> unordered a b.
Proof. intros a b. unfold unordered. destruct a, b; cbn; intuition (congruence || discriminate). Qed.

Theorem C32_fcmp : forall p a b, exists r, fcmp_value p a b = Some r /\ ((r = 1 /\ fcmp p a b) \/ (r = 0 /\ ~ fcmp p a b)).
Proof.
  intros p a b.
  assert (forall (r : bool) (P : Prop), (r = true <-> P) -> (r = false <-> ~ P)) as HN by (intros [] P H; split; intros; intuition congruence).
  pose proof (fp_lt_less a b) as L1. pose proof (fp_lt_less b a) as L2. pose proof (fp_eq_equal a b) as L3. pose proof (isnan_unordered a b) as L4.
  assert (unordered a b -> ~ less a b /\ ~ less b a /\ ~ equal a b) as HU by (intros [-> | ->]; destruct a || destruct b; cbn; tauto).
  assert (exists r : bool, call_pred 5 (cmpinst p) [a; b] = Some r /\ (r = true <-> fcmp p a b)) as (r & Hr & Hi).
  { set (lt1 := fp_lt a b) in *. set (lt2 := fp_lt b a) in *. set (eq := fp_eq a b) in *.
    destruct p; eexists; (split; [cbv - [fp_lt fp_eq fp_isnan orb negb]; fold lt1 lt2 eq; reflexivity|]); cbn [fcmp]; rewrite <- ?L1, <- ?L2, <- ?L3, <- ?L4 in *;
      destruct (fp_isnan a || fp_isnan b), lt1, lt2, eq; cbn [orb negb]; intuition congruence. }
  unfold fcmp_value. rewrite Hr. cbn [option_map]. exists (if r then 1 else 0). split; [reflexivity|]. destruct r; [left|right]; split; try reflexivity; intuition congruence.
Qed.
Print Assumptions C32_fcmp.
Example C32_nonvacuous :
  fcmp_value FCMP_UNE NaN NaN = Some 1 /\ fcmp_value FCMP_ONE NaN NaN = Some 0 /\ fcmp_value FCMP_OEQ (Fin true 0 0) (Fin false 0 5) = Some 1 /\ fcmp_value FCMP_OLT (Fin true 3 4) (Inf false) = Some 1 /\
  fcmp FCMP_ULT (Fin true 3 4) (Fin true 5 3).
Proof. repeat split; try (vm_compute; reflexivity). right. cbn [less signed_int]. intros j H1 H2. replace (4 - j) with (1 + (3 - j)) by lia. rewrite Z.pow_add_r by lia. pose proof (pow_pos (3 - j) ltac:(lia)). change (2 ^ 1) with 2. lia. Qed.

(** ** Remainder *)
(** LLVM's frem (C's fmod): the remainder of the quotient rounded towards zero.  The
    translation, fp.rem, agrees with it exactly if the remainder is less than half the
    divisor, or half of it with an even quotient.  Operands at a common exponent; the
    sign of the divisor is irrelevant for both. *)
Theorem C52_frem : forall x y, 0 < y -> (fp_rem x y = Z.rem x y <-> 2 * Z.abs (Z.rem x y) < y \/ 2 * Z.abs (Z.rem x y) = y /\ Z.even (Z.quot x y) = true).
Proof.
  intros x y Hy. unfold fp_rem, nearest_even. pose proof (Z.quot_rem' x y) as Eq. pose proof (Z.div_mod x y ltac:(lia)) as Ed. pose proof (Z.mod_pos_bound x y Hy) as Hm.
  set (t := Z.rem x y) in *. set (n := Z.quot x y) in *. set (q := x / y) in *. set (r := x mod y) in *.
  assert ((0 <= x /\ n = q /\ t = r) \/ (x < 0 /\ t = 0 /\ r = 0 /\ n = q) \/ (x < 0 /\ - y < t < 0 /\ r = t + y /\ n = q + 1)) as [(Hx & -> & ->)|[(Hx & Ht & Hr & ->)|(Hx & Ht & Hr & ->)]].
  { destruct (Z_lt_le_dec x 0) as [Hx|Hx].
    - right. assert (- y < t <= 0) as Ht by (unfold t; pose proof (Z.rem_bound_pos (- x) y ltac:(lia) Hy); rewrite Z.rem_opp_l in * by lia; lia).
      destruct (Z.eq_dec t 0) as [E0|N0]; [left|right].
      + assert (q = n) by nia. repeat split; [lia|lia|nia|lia].
      + assert (q = n - 1) by nia. repeat split; try lia; nia.
    - left. assert (t = r /\ n = q); [|tauto]. unfold t, r, n, q. split; [apply Z.rem_mod_nonneg; lia|apply Z.quot_div_nonneg; lia]. }
  - rewrite Z.abs_eq by lia. destruct (Z.ltb_spec (2 * r) y); [split; [lia|intros _; lia]|]. destruct (Z.ltb_spec y (2 * r)); [split; [nia|lia]|]. destruct (Z.even q); split; intros; try nia; intuition (lia || discriminate).
  - rewrite Hr, Ht. cbn [Z.abs Z.mul]. replace (0 <? y) with true by (symmetry; apply Z.ltb_lt; lia). split; [intros _; lia|intros _; lia].
  - rewrite (Z.abs_neq t) by lia. assert (Z.even (q + 1) = negb (Z.even q)) as -> by (rewrite Z.even_add; cbn; destruct (Z.even q); reflexivity).
    destruct (Z.ltb_spec (2 * r) y); [split; [nia|lia]|]. destruct (Z.ltb_spec y (2 * r)); [split; [lia|intros _; nia]|].
    destruct (Z.even q); cbn [negb]; split; intros; try nia; intuition (lia || discriminate).
Qed.
Print Assumptions C52_frem.
(** 5.0 frem 3.0 is 2.0, the translation gives -1.0. *)
Theorem C52_frem_refuted : Z.rem 5 3 = 2 /\ fp_rem 5 3 = -1.
Proof. split; vm_compute; reflexivity. Qed.
Print Assumptions C52_frem_refuted.
Example C52_nonvacuous : fp_rem (-13) 4 = Z.rem (-13) 4.
Proof. vm_compute. reflexivity. Qed.
