(** Arithmetic of two's complement. *)
From Coq Require Import ZArith Lia Bool ZifyBool.
From Verif.Spec Require Import LLVMInt.
Open Scope Z_scope.

Lemma pow2_pos : forall n, 0 <= n -> 0 < 2 ^ n.
Proof. intros; apply Z.pow_pos_nonneg; lia. Qed.

Lemma pow2_half : forall n, 1 <= n -> 2 ^ n = 2 * 2 ^ (n - 1).
Proof.
  intros n H. replace n with (Z.succ (n - 1)) at 1 by lia.
  apply Z.pow_succ_r. lia.
Qed.

Lemma pow2_half_pos : forall n, 1 <= n -> 0 < 2 ^ (n - 1).
Proof. intros; apply pow2_pos; lia. Qed.

Lemma pow2_le : forall a b, a <= b -> 2 ^ a <= 2 ^ b.
Proof. intros; apply Z.pow_le_mono_r; lia. Qed.

Lemma pow2_lt : forall a b, 0 <= b -> a < b -> 2 ^ a < 2 ^ b.
Proof. intros; apply Z.pow_lt_mono_r; lia. Qed.

Lemma pat_range : forall n x, 0 <= n -> is_iN n (pat n x).
Proof. intros n x H. unfold is_iN, pat. apply Z.mod_pos_bound, pow2_pos, H. Qed.

Lemma pat_id : forall n x, is_iN n x -> pat n x = x.
Proof. intros n x H. unfold pat. apply Z.mod_small, H. Qed.

Lemma signed_range : forall n x, 1 <= n -> is_iN n x ->
  - 2 ^ (n - 1) <= signed n x < 2 ^ (n - 1).
Proof.
  intros n x Hn [H1 H2]. pose proof (pow2_half n Hn). pose proof (pow2_half_pos n Hn).
  unfold signed. destruct (Z.ltb_spec x (2 ^ (n - 1))); lia.
Qed.

Lemma mod_unique_pos : forall a b m k, 0 < m -> 0 <= b < m -> a = b + k * m -> a mod m = b.
Proof.
  intros a b m k Hm Hb ->. rewrite Z.mod_add by lia. apply Z.mod_small, Hb.
Qed.

Lemma signed_pat : forall n x, 1 <= n -> is_iN n x -> pat n (signed n x) = x.
Proof.
  intros n x Hn H. unfold pat, signed. pose proof (pow2_pos n ltac:(lia)).
  destruct (Z.ltb_spec x (2 ^ (n - 1))).
  - apply Z.mod_small, H.
  - apply mod_unique_pos with (k := -1); unfold is_iN in H; lia.
Qed.

Lemma pat_signed : forall n s, 1 <= n -> - 2 ^ (n - 1) <= s < 2 ^ (n - 1) ->
  signed n (pat n s) = s.
Proof.
  intros n s Hn H. pose proof (pow2_half n Hn). pose proof (pow2_half_pos n Hn).
  unfold pat, signed. destruct (Z.leb_spec 0 s).
  - rewrite Z.mod_small by lia. destruct (Z.ltb_spec s (2 ^ (n - 1))); lia.
  - rewrite (mod_unique_pos s (s + 2 ^ n) (2 ^ n) (-1)) by lia.
    destruct (Z.ltb_spec (s + 2 ^ n) (2 ^ (n - 1))); lia.
Qed.

Lemma pat_pat : forall n x, pat n (pat n x) = pat n x.
Proof. intros. unfold pat. apply Zmod_mod. Qed.

Lemma pat_add : forall n a b, pat n (pat n a + pat n b) = pat n (a + b).
Proof. intros. unfold pat. symmetry. apply Zplus_mod. Qed.
Lemma pat_sub : forall n a b, pat n (pat n a - pat n b) = pat n (a - b).
Proof. intros. unfold pat. symmetry. apply Zminus_mod. Qed.
Lemma pat_mul : forall n a b, pat n (pat n a * pat n b) = pat n (a * b).
Proof. intros. unfold pat. symmetry. apply Zmult_mod. Qed.

(** Reducing to fewer bits. *)
Lemma pat_narrow : forall n m x, 0 <= m <= n -> pat m (pat n x) = pat m x.
Proof.
  intros n m x H. unfold pat.
  replace n with (m + (n - m)) by lia. rewrite Z.pow_add_r by lia.
  pose proof (pow2_pos m ltac:(lia)). pose proof (pow2_pos (n - m) ltac:(lia)).
  rewrite Z.rem_mul_r by lia.
  rewrite Z.mul_comm, Z.mod_add by lia. apply Zmod_mod.
Qed.

Lemma is_iN_widen : forall n m x, n <= m -> is_iN n x -> is_iN m x.
Proof. intros n m x H [H1 H2]. split; [lia|]. pose proof (pow2_le n m H). lia. Qed.

Lemma signed_eq_iff : forall n a b, 1 <= n -> is_iN n a -> is_iN n b ->
  signed n a = signed n b -> a = b.
Proof.
  intros n a b Hn Ha Hb E. rewrite <- (signed_pat n a), <- (signed_pat n b) by assumption.
  now rewrite E.
Qed.

Lemma signed_0 : forall n, 1 <= n -> signed n 0 = 0.
Proof.
  intros n H. unfold signed. pose proof (pow2_half_pos n H).
  destruct (Z.ltb_spec 0 (2 ^ (n - 1))); lia.
Qed.

Lemma signed_nonneg_id : forall n x, 0 <= x < 2 ^ (n - 1) -> signed n x = x.
Proof. intros n x H. unfold signed. destruct (Z.ltb_spec x (2 ^ (n - 1))); lia. Qed.

Lemma pat_neg_pat : forall n x, pat n (- pat n x) = pat n (- x).
Proof.
  intros. rewrite <- (Z.sub_0_l (pat n x)), <- (Z.sub_0_l x).
  rewrite <- (pat_sub n 0 (pat n x)), pat_pat, pat_sub. reflexivity.
Qed.

Lemma i1_cases : forall a, is_iN 1 a -> a = 0 \/ a = 1.
Proof. intros a [H1 H2]. cbn in H2. lia. Qed.
Lemma signed_nn : forall n a, is_iN n a -> 0 <= signed n a -> signed n a = a.
Proof.
  intros n a [H1 H2] H. unfold signed in *. destruct (Z.ltb_spec a (2 ^ (n - 1))); lia.
Qed.
