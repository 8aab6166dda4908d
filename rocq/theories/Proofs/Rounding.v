(** Facts about rounding (Spec/FloatArith.v). *)
From Coq Require Import ZArith List Bool Lia.
From Verif.Spec Require Import TraceValues IEEE FloatArith.
Import ListNotations.
Open Scope Z_scope.

Lemma pow_pos : forall a, 0 <= a -> 0 < 2 ^ a.
Proof. intros. apply Z.pow_pos_nonneg; lia. Qed.
Lemma pos_nonneg : forall a, 0 <= pos a.
Proof. intros. unfold pos. lia. Qed.
Lemma pow_pos' : forall a, 0 < 2 ^ pos a.
Proof. intros. apply pow_pos, pos_nonneg. Qed.

(** N/D against 2^e, with any scaling. *)
Lemma scale_le : forall N D e c, 0 <= c -> 0 <= e + c -> (D * 2 ^ pos e <= N * 2 ^ pos (- e) <-> D * 2 ^ (e + c) <= N * 2 ^ c).
Proof.
  intros N D e c Hc He. unfold pos. destruct (Z_le_gt_dec 0 e).
  - rewrite (Z.max_r 0 e), (Z.max_l 0 (- e)) by lia. rewrite Z.pow_0_r, Z.mul_1_r, Z.pow_add_r by lia. pose proof (pow_pos c Hc). rewrite Z.mul_assoc. split; intros; nia.
  - rewrite (Z.max_l 0 e), (Z.max_r 0 (- e)) by lia. rewrite Z.pow_0_r, Z.mul_1_r. replace (2 ^ c) with (2 ^ (- e) * 2 ^ (e + c)) by (rewrite <- Z.pow_add_r by lia; f_equal; lia).
    pose proof (pow_pos (e + c) He). rewrite Z.mul_assoc. split; intros; nia.
Qed.
Lemma scale_lt : forall N D e c, 0 <= c -> 0 <= e + c -> (N * 2 ^ pos (- e) < D * 2 ^ pos e <-> N * 2 ^ c < D * 2 ^ (e + c)).
Proof. intros. pose proof (scale_le N D e c). lia. Qed.

Lemma flog_spec : forall N D, 0 < N -> 0 < D -> let e := flog N D in D * 2 ^ pos e <= N * 2 ^ pos (- e) /\ N * 2 ^ pos (- (e + 1)) < D * 2 ^ pos (e + 1).
Proof.
  intros N D HN HD. cbv zeta. unfold flog. set (a := Z.log2 N - Z.log2 D).
  pose proof (Z.log2_spec N HN) as [N1 N2]. pose proof (Z.log2_spec D HD) as [D1 D2]. pose proof (Z.log2_nonneg N). pose proof (Z.log2_nonneg D).
  rewrite Z.pow_succ_r in N2, D2 by lia.
  assert (forall c, 0 <= c -> 0 <= a + c -> D * 2 ^ (a + c) < 2 * (N * 2 ^ c)) as Hlow.
  { intros c Hc Ha. pose proof (pow_pos c Hc). pose proof (pow_pos _ Ha).
    assert (2 ^ (Z.log2 D + (a + c)) = 2 ^ (Z.log2 N + c)) as E by (f_equal; unfold a; lia). rewrite (Z.pow_add_r 2 (Z.log2 D)), (Z.pow_add_r 2 (Z.log2 N)) in E by lia.
    assert (D * 2 ^ (a + c) < 2 * 2 ^ Z.log2 D * 2 ^ (a + c)) by (apply Z.mul_lt_mono_pos_r; lia).
    assert (2 ^ Z.log2 N * 2 ^ c <= N * 2 ^ c) by (apply Z.mul_le_mono_nonneg_r; lia). lia. }
  assert (forall c, 0 <= c -> 0 <= a + c -> N * 2 ^ c < 2 * (D * 2 ^ (a + c))) as Hhigh.
  { intros c Hc Ha. pose proof (pow_pos c Hc). pose proof (pow_pos _ Ha).
    assert (2 ^ (Z.log2 D + (a + c)) = 2 ^ (Z.log2 N + c)) as E by (f_equal; unfold a; lia). rewrite (Z.pow_add_r 2 (Z.log2 D)), (Z.pow_add_r 2 (Z.log2 N)) in E by lia. assert (N * 2 ^ c < 2 * 2 ^ Z.log2 N * 2 ^ c) by (apply Z.mul_lt_mono_pos_r; lia).
    assert (2 ^ Z.log2 D * 2 ^ (a + c) <= D * 2 ^ (a + c)) by (apply Z.mul_le_mono_nonneg_r; lia). lia. }
  set (c := Z.abs a + 2).
  destruct (Z.ltb_spec (N * 2 ^ pos (- a)) (D * 2 ^ pos a)) as [L|L].
  - split.
    + apply (scale_le N D (a - 1) c); [lia|lia|]. specialize (Hlow c ltac:(lia) ltac:(lia)).
      replace (a + c) with (Z.succ (a - 1 + c)) in Hlow by lia. rewrite Z.pow_succ_r in Hlow by lia. lia.
    + replace (a - 1 + 1) with a by lia. exact L.
  - split; [exact L|]. apply (scale_lt N D (a + 1) c); [lia|lia|]. specialize (Hhigh c ltac:(lia) ltac:(lia)).
    replace (a + 1 + c) with (Z.succ (a + c)) by lia. rewrite Z.pow_succ_r by lia. lia.
Qed.
Lemma flog_unique : forall N D e, 0 < N -> 0 < D -> D * 2 ^ pos e <= N * 2 ^ pos (- e) -> e <= flog N D.
Proof.
  intros N D e HN HD H. destruct (flog_spec N D HN HD) as [_ L]. set (g := flog N D) in *. destruct (Z_le_gt_dec e g); [lia|exfalso].
  set (c := Z.abs e + Z.abs g + 2). apply (scale_le N D e c) in H; [|lia|lia]. apply (scale_lt N D (g + 1) c) in L; [|lia|lia].
  assert (2 ^ (g + 1 + c) <= 2 ^ (e + c)) by (apply Z.pow_le_mono_r; lia). nia.
Qed.

Lemma round_int_exact : forall rm neg a den, 0 < den -> round_int rm neg (a * den) den = a.
Proof.
  intros rm neg a den H. unfold round_int. rewrite Z.div_mul, Z.mod_mul by lia.
  destruct rm; cbn [round_up]; rewrite ?andb_false_r; try reflexivity.
  - replace (den <? 2 * 0) with false by (symmetry; apply Z.ltb_ge; lia). replace (den =? 2 * 0) with false by (symmetry; apply Z.eqb_neq; lia). reflexivity.
  - replace (den <=? 2 * 0) with false by (symmetry; apply Z.leb_gt; lia). reflexivity.
Qed.
Lemma round_int_bounds : forall rm neg num den, 0 < den -> num / den <= round_int rm neg num den <= num / den + 1.
Proof. intros. unfold round_int. destruct (round_up _ _ _ _ _); lia. Qed.

(** A number of the format is not changed. *)
Lemma round_to_exact : forall f rm neg N D m k, format_ok f -> 0 < N -> 0 < D -> 0 < m < 2 ^ f_p f -> f_kmin f <= k -> m * 2 ^ pos k < 2 ^ f_emax f * 2 ^ pos (- k) ->
  N * 2 ^ pos (- k) = m * D * 2 ^ pos k -> same_datum (round_to f rm neg N D) (Fin neg m k).
Proof.
  intros f rm neg N D m k (HE & Hp & Hpe) HN HD Hm Hk Hmax HNm. unfold round_to. set (q := Z.max (f_kmin f) (flog N D - (f_p f - 1))).
  assert (q <= k) as Hqk.
  { unfold q. apply Z.max_lub; [exact Hk|].
    destruct (flog_spec N D HN HD) as [L _]. set (g := flog N D) in *. destruct (Z_le_gt_dec (g - (f_p f - 1)) k); [lia|exfalso].
    set (c := Z.abs g + Z.abs k + f_p f). apply (scale_le N D g c) in L; [|lia|lia].
    assert (N * 2 ^ c = m * D * 2 ^ (k + c)) as Ec.
    { assert (2 ^ pos k = 2 ^ (k + pos (- k))) as Ek by (f_equal; unfold pos; lia). rewrite Ek in HNm.
      assert (2 ^ (k + c) * 2 ^ pos (- k) = 2 ^ (k + pos (- k)) * 2 ^ c) as E2 by (rewrite <- !Z.pow_add_r by (unfold pos; lia); f_equal; lia).
      pose proof (pow_pos' (- k)). apply (Z.mul_cancel_r _ _ (2 ^ pos (- k))); [lia|]. rewrite <- (Z.mul_assoc (m * D)), E2, Z.mul_assoc, <- HNm. ring. }
    assert (2 ^ f_p f * 2 ^ (k + c) <= 2 ^ (g + c)) by (rewrite <- Z.pow_add_r by lia; apply Z.pow_le_mono_r; lia).
    pose proof (pow_pos (k + c) ltac:(lia)). assert (m * 2 ^ (k + c) < 2 ^ f_p f * 2 ^ (k + c)) by nia. nia. }
  assert (N * 2 ^ pos (- q) = m * 2 ^ (k - q) * (D * 2 ^ pos q)) as Eq.
  { pose proof (pow_pos' (- k)). apply (Z.mul_cancel_r _ _ (2 ^ pos (- k))); [lia|].
    replace (N * 2 ^ pos (- q) * 2 ^ pos (- k)) with (N * 2 ^ pos (- k) * 2 ^ pos (- q)) by ring. rewrite HNm.
    replace (m * 2 ^ (k - q) * (D * 2 ^ pos q) * 2 ^ pos (- k)) with (m * D * (2 ^ (k - q) * 2 ^ pos q * 2 ^ pos (- k))) by ring.
    rewrite <- !Z.mul_assoc. f_equal. f_equal. rewrite <- !Z.pow_add_r by (unfold pos; lia). f_equal. unfold pos. lia. }
  rewrite Eq, round_int_exact by (pose proof (pow_pos' q); nia).
  assert (m * 2 ^ (k - q) < 2 ^ pos (f_emax f - q)) as Hno.
  { assert (0 <= f_emax f) by (unfold f_emax; apply Z.pow_nonneg; lia).
    assert (m * 2 ^ (k - q) * 2 ^ (pos q + pos (- k)) < 2 ^ f_emax f * 2 ^ (pos (- k) + pos (- q))) as H1.
    { rewrite (Z.pow_add_r 2 (pos q)), (Z.pow_add_r 2 (pos (- k))) by apply pos_nonneg. 
      replace (m * 2 ^ (k - q) * (2 ^ pos q * 2 ^ pos (- k))) with (m * (2 ^ (k - q) * 2 ^ pos q * 2 ^ pos (- k))) by ring.
      rewrite <- !Z.pow_add_r by (unfold pos; lia). replace (k - q + pos q + pos (- k)) with (pos k + pos (- q)) by (unfold pos; lia).
      rewrite !Z.pow_add_r by (unfold pos; lia). rewrite !Z.mul_assoc. apply Z.mul_lt_mono_pos_r; [apply pow_pos'|exact Hmax]. }
    destruct (Z_le_gt_dec q (f_emax f)).
    - unfold pos at 1. rewrite Z.max_r by lia. 
      assert (2 ^ f_emax f * 2 ^ (pos (- k) + pos (- q)) = 2 ^ (f_emax f - q) * 2 ^ (pos q + pos (- k))) as E2 by (rewrite <- !Z.pow_add_r by (unfold pos; lia); f_equal; unfold pos; lia).
      rewrite E2 in H1. apply Z.mul_lt_mono_pos_r in H1; [exact H1|]. apply pow_pos. unfold pos. lia.
    - exfalso. assert (0 <= q) by lia. replace (pos (- q)) with 0 in H1 by (unfold pos; lia). replace (pos (- k)) with 0 in H1 by (unfold pos; lia). rewrite !Z.add_0_r, Z.pow_0_r, Z.mul_1_r in H1.
      replace (pos q) with q in H1 by (unfold pos; lia). assert (2 ^ f_emax f <= 2 ^ q) by (apply Z.pow_le_mono_r; lia). pose proof (pow_pos (k - q) ltac:(lia)). pose proof (pow_pos q ltac:(lia)). assert (1 * 2 ^ q <= m * 2 ^ (k - q) * 2 ^ q) by (apply Z.mul_le_mono_nonneg_r; nia). lia. }
  destruct (Z.leb_spec (2 ^ pos (f_emax f - q)) (m * 2 ^ (k - q))); [lia|]. cbn [same_datum same_number]. split; [reflexivity|].
  rewrite Z.min_l by lia. rewrite Z.sub_diag, Z.pow_0_r, Z.mul_1_r. reflexivity.
Qed.

(** The rounded number keeps the sign and is not zero unless tiny. *)
Lemma round_to_sign : forall f rm neg N D, sign (round_to f rm neg N D) = neg /\ round_to f rm neg N D <> NaN.
Proof. intros. unfold round_to. destruct (_ <=? _); [|split; [reflexivity|discriminate]]. unfold overflow. destruct (match rm with RNE | RNA => true | RTP => negb neg | RTN => neg | RTZ => false end); split; (reflexivity || discriminate). Qed.
Lemma round_to_nonzero : forall f rm neg N D, format_ok f -> 0 < N -> 0 < D -> D * 2 ^ pos (f_kmin f) <= N * 2 ^ pos (- f_kmin f) -> is_zero (round_to f rm neg N D) = false.
Proof.
  intros f rm neg N D (HE & Hp & Hpe) HN HD H. unfold round_to. set (q := Z.max (f_kmin f) (flog N D - (f_p f - 1))).
  assert (q <= flog N D) as Hq by (pose proof (flog_unique N D _ HN HD H); unfold q; lia).
  assert (1 <= round_int rm neg (N * 2 ^ pos (- q)) (D * 2 ^ pos q)) as H1.
  { pose proof (round_int_bounds rm neg (N * 2 ^ pos (- q)) (D * 2 ^ pos q)) as B. pose proof (pow_pos' q). assert (0 < D * 2 ^ pos q) as Hd by nia. specialize (B Hd).
    assert (1 <= N * 2 ^ pos (- q) / (D * 2 ^ pos q)); [|lia]. apply Z.div_le_lower_bound; [lia|]. rewrite Z.mul_1_r.
    destruct (flog_spec N D HN HD) as [L _]. set (g := flog N D) in *. set (c := Z.abs g + Z.abs q). apply (scale_le N D g c) in L; [|lia|lia]. apply (scale_le N D q c); [lia|lia|].
    assert (2 ^ (q + c) <= 2 ^ (g + c)) by (apply Z.pow_le_mono_r; lia). nia. }
  destruct (_ <=? _).
  - unfold overflow. destruct (match rm with RNE | RNA => true | RTP => negb neg | RTN => neg | RTZ => false end); [reflexivity|]. cbn [is_zero]. apply Z.eqb_neq. assert (2 ^ 1 < 2 ^ f_p f) by (apply Z.pow_lt_mono_r; lia). lia.
  - cbn [is_zero]. apply Z.eqb_neq. lia.
Qed.
