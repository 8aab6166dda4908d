(** Rounding to binary64 is exact on the numbers of the format. *)
From Coq Require Import ZArith List String Ascii Bool Lia.
From Verif.Spec Require Import Regex TraceValues.
From Verif.Model Require Import PyRegex ErrTrace.
Import ListNotations.
Open Scope Z_scope.

Lemma pow_pos : forall n, 0 <= n -> 0 < 2 ^ n.
Proof. intros. apply Z.pow_pos_nonneg; lia. Qed.

(** [same_number], at any common exponent. *)
Lemma same_at : forall m k m' k' j, j <= k -> j <= k' -> (same_number (m, k) (m', k') <-> m * 2 ^ (k - j) = m' * 2 ^ (k' - j)).
Proof.
  intros m k m' k' j H H'. unfold same_number. set (i := Z.min k k'). assert (j <= i) by (unfold i; lia).
  replace (k - j) with ((k - i) + (i - j)) by lia. replace (k' - j) with ((k' - i) + (i - j)) by lia.
  rewrite !Z.pow_add_r by (unfold i; lia). rewrite !Z.mul_assoc. pose proof (pow_pos (i - j) ltac:(lia)). split; [congruence|]. intros E. apply Z.mul_cancel_r in E; [exact E|lia].
Qed.
Lemma same_refl : forall a, same_number a a.
Proof. intros (m & k). unfold same_number. reflexivity. Qed.
Lemma same_sym : forall a b, same_number a b -> same_number b a.
Proof. intros (m & k) (m' & k') H. apply (same_at _ _ _ _ (Z.min k k')) in H; [|lia|lia]. apply (same_at _ _ _ _ (Z.min k k')); [lia|lia|]. congruence. Qed.
Lemma same_trans : forall a b c, same_number a b -> same_number b c -> same_number a c.
Proof.
  intros (m & k) (m' & k') (m2 & k2) H1 H2. set (j := Z.min k (Z.min k' k2)).
  apply (same_at _ _ _ _ j) in H1; [|unfold j; lia|unfold j; lia]. apply (same_at _ _ _ _ j) in H2; [|unfold j; lia|unfold j; lia].
  apply (same_at _ _ _ _ j); [unfold j; lia|unfold j; lia|]. congruence.
Qed.
Lemma same_shift : forall m k d, 0 <= d -> same_number (m * 2 ^ d, k) (m, k + d).
Proof. intros m k d H. apply (same_at _ _ _ _ k); [lia|lia|]. rewrite Z.sub_diag, Z.pow_0_r. replace (k + d - k) with d by lia. lia. Qed.
Lemma same_mul : forall m k m' k' n j, same_number (m, k) (m', k') -> same_number (m * n, k + j) (m' * n, k' + j).
Proof.
  intros m k m' k' n j H. apply (same_at _ _ _ _ (Z.min k k')) in H; [|lia|lia]. apply (same_at _ _ _ _ (Z.min k k' + j)); [lia|lia|].
  replace (k + j - (Z.min k k' + j)) with (k - Z.min k k') by lia. replace (k' + j - (Z.min k k' + j)) with (k' - Z.min k k') by lia.
  rewrite <- !Z.mul_assoc, !(Z.mul_comm n), !Z.mul_assoc. now f_equal.
Qed.
Lemma same_zero : forall m k m' k', same_number (m, k) (m', k') -> m = 0 <-> m' = 0.
Proof.
  intros m k m' k' H. unfold same_number in H. pose proof (pow_pos (k - Z.min k k') ltac:(lia)). pose proof (pow_pos (k' - Z.min k k') ltac:(lia)). nia.
Qed.

(** Comparing with a power of two. *)
Lemma same_log : forall m k m' k', 0 < m -> 0 < m' -> same_number (m, k) (m', k') -> Z.log2 m + k = Z.log2 m' + k'.
Proof.
  intros m k m' k' H H' E. unfold same_number in E. set (i := Z.min k k') in *. apply (f_equal Z.log2) in E. rewrite !Z.log2_mul_pow2 in E by (unfold i; lia). lia.
Qed.

Theorem round_exact : forall neg m e, 0 <= m -> binary64 (m, e) ->
  exists M k, round64 neg m e = Fin neg M k /\ 0 <= M /\ same_number (M, k) (m, e).
Proof.
  intros neg m e Hm (m' & k' & Hm' & Hk' & E). unfold round64. destruct (Z.eqb_spec m 0) as [->|N].
  { exists 0, 0. split; [reflexivity|]. split; [lia|]. unfold same_number. lia. }
  assert (0 < m) as Pm by lia. assert (m' <> 0) as N' by (intros ->; apply N; eapply same_zero; [exact E|reflexivity]).
  assert (0 < m') as Pm' by lia. pose proof (same_log _ _ _ _ Pm Pm' E) as EL.
  assert (Z.log2 m' <= 52) as HL by (apply Z.lt_succ_r; apply Z.log2_lt_pow2; lia).
  cbv zeta. remember (Z.max (-1074) (e + Z.log2 m - 52)) as k eqn:Ek. assert (k <= k') as Hkk by lia. clear Ek.
  assert (forall M, 0 <= M -> same_number (M, k) (m, e) -> (1024 <=? Z.log2 M + k) = false) as Hov.
  { intros M HM EM. assert (0 < M) as PM by (assert (M <> 0) by (intros ->; apply N; eapply same_zero; [apply same_sym, EM|reflexivity]); lia).
    rewrite (same_log _ _ _ _ PM Pm EM). apply Z.leb_gt. lia. }
  destruct (Z.leb_spec k e) as [Hke|Hke].
  - assert (same_number (m * 2 ^ (e - k), k) (m, e)) as EM by (pose proof (same_shift m k (e - k) ltac:(lia)) as X; replace (k + (e - k)) with e in X by lia; exact X).
    pose proof (pow_pos (e - k) ltac:(lia)). rewrite Hov by (nia || assumption). exists (m * 2 ^ (e - k)), k. split; [reflexivity|]. split; [nia|exact EM].
  - assert (m = m' * 2 ^ (k' - k) * 2 ^ (k - e)) as Em.
    { apply (same_at _ _ _ _ e) in E; [|lia|lia]. rewrite Z.sub_diag, Z.pow_0_r, Z.mul_1_r in E. rewrite <- Z.mul_assoc, <- Z.pow_add_r by lia. rewrite E. f_equal. f_equal. lia. }
    pose proof (pow_pos (k - e) ltac:(lia)) as P1. pose proof (pow_pos (k' - k) ltac:(lia)) as P2.
    set (M := m' * 2 ^ (k' - k)) in *. assert (same_number (M, k) (M * 2 ^ (k - e), e)) as EM.
    { apply same_sym. pose proof (same_shift M e (k - e) ltac:(lia)) as X. replace (e + (k - e)) with k in X by lia. exact X. }
    rewrite Em in Hov |- *. rewrite Z.div_mul, Z.mod_mul by lia. replace (2 * 0 <? 2 ^ (k - e)) with true by (symmetry; apply Z.ltb_lt; lia).
    assert (0 <= M) by (unfold M; nia). rewrite Hov by assumption. exists M, k. auto.
Qed.

(** Numerals *)
Lemma digit_value_nonneg : forall c, hexdigit c = true -> 0 <= digit_value c < 16.
Proof. intros [[] [] [] [] [] [] [] []]; vm_compute; intros H; try discriminate H; split; congruence || reflexivity. Qed.
Lemma numeral_bound : forall s acc n, all hexdigit s -> 0 <= acc < 16 ^ n -> 0 <= n -> 0 <= numeral_from 16 acc s < 16 ^ (n + Z.of_nat (String.length s)).
Proof.
  induction s as [|c s IH]; intros acc n H Ha Hn.
  - cbn [numeral_from String.length]. rewrite Z.add_0_r. exact Ha.
  - destruct H as (Hc & H). cbn [numeral_from String.length]. pose proof (digit_value_nonneg c Hc). replace (n + Z.of_nat (S (String.length s))) with ((n + 1) + Z.of_nat (String.length s)) by lia.
    apply IH; [exact H| |lia]. rewrite Z.pow_add_r, Z.pow_1_r by lia. lia.
Qed.
Lemma all_app : forall p a b, all p (a ++ b)%string <-> all p a /\ all p b.
Proof. induction a as [|c a IH]; intros b; cbn; [tauto|]. rewrite IH. tauto. Qed.
Lemma numeral_range : forall s, all hexdigit s -> 0 <= numeral 16 s < 16 ^ Z.of_nat (String.length s).
Proof. intros s H. unfold numeral. pose proof (numeral_bound s 0 0 H ltac:(cbn; lia) ltac:(lia)) as X. exact X. Qed.
Lemma length_app : forall a b, String.length (a ++ b)%string = (String.length a + String.length b)%nat.
Proof. induction a; cbn; intros; [reflexivity|]. now rewrite IHa. Qed.

(** The significand is exact if the number is one of the format. *)
Theorem significand_exact : forall i f x, all hexdigit i -> all hexdigit f -> (String.length i <= 255)%nat -> (String.length f <= 268)%nat ->
  binary64 (numeral 16 (i ++ f), 4 * (x - Z.of_nat (String.length f))) -> binary64 (numeral 16 (i ++ f), -4 * Z.of_nat (String.length f)).
Proof.
  intros i f x Hi Hf Li Lf (m & k & Hm & Hk & E). set (N := numeral 16 (i ++ f)) in *. set (n := Z.of_nat (String.length f)) in *.
  pose proof (numeral_range (i ++ f)%string (proj2 (all_app _ i f) (conj Hi Hf))) as HN. rewrite length_app, Nat2Z.inj_add in HN. fold N n in HN.
  apply (same_mul _ _ _ _ 1 (-4 * x)) in E. rewrite !Z.mul_1_r in E. replace (4 * (x - n) + -4 * x) with (-4 * n) in E by lia.
  destruct (Z.eq_dec N 0) as [E0|N0]; [exists 0, 0; rewrite E0; split; [lia|split; [lia|reflexivity]]|].
  assert (0 < m) as Pm by (assert (m <> 0) by (intros ->; apply N0; eapply same_zero; [exact E|reflexivity]); lia).
  assert (0 < N) as PN by lia. pose proof (same_log _ _ _ _ PN Pm E) as EL. set (j := k + -4 * x) in *.
  assert (Z.log2 m <= 52) as HL by (apply Z.lt_succ_r; apply Z.log2_lt_pow2; lia).
  assert (Z.log2 N + -4 * n < 1020) as HU.
  { assert (Z.log2 N < 4 * (Z.of_nat (String.length i) + n)) as X; [|lia]. apply Z.log2_lt_pow2; [lia|]. change 16 with (2 ^ 4) in HN. rewrite <- Z.pow_mul_r in HN by lia. lia. }
  destruct (Z_lt_le_dec j (-1074)) as [H1|H1]; [|destruct (Z_lt_le_dec 971 j) as [H2|H2]].
  - (* the significand has few digits *)
    apply (same_at _ _ _ _ j) in E; [|lia|lia]. rewrite Z.sub_diag, Z.pow_0_r, Z.mul_1_r in E. pose proof (pow_pos (-4 * n - j) ltac:(lia)).
    exists N, (-4 * n). split; [nia|]. split; [lia|apply same_refl].
  - exists (m * 2 ^ (j - 971)), 971. split; [split|split; [lia|]].
    + pose proof (pow_pos (j - 971) ltac:(lia)). nia.
    + apply Z.log2_lt_pow2; [pose proof (pow_pos (j - 971) ltac:(lia)); nia|]. rewrite Z.log2_mul_pow2 by lia. lia.
    + eapply same_trans; [exact E|]. apply same_sym. pose proof (same_shift m 971 (j - 971) ltac:(lia)) as X. replace (971 + (j - 971)) with j in X by lia. exact X.
  - exists m, j. auto.
Qed.
