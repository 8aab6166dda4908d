(** The rounding of Spec/FloatArith.v is correct rounding (Spec/IEEERound.v). *)
From Coq Require Import ZArith Bool Lia.
From Verif.Spec Require Import TraceValues IEEE FloatArith CMath IEEERound.
From Verif.Proofs Require Import Rounding MathFacts MathLibFacts.
Open Scope Z_scope.

Lemma below_power : forall N D q p e, N * 2 ^ pos (- (e + 1)) < D * 2 ^ pos (e + 1) -> e + 1 <= q + p -> 0 <= p -> 0 < D -> N * 2 ^ pos (- q) < D * 2 ^ pos q * 2 ^ p.
Proof.
  intros N D q p e H Hq Hp HD. set (c := Z.abs e + Z.abs q + 2). apply (scale_lt N D (e + 1) c) in H; [|lia|lia]. rewrite <- Z.mul_assoc, (Z.mul_comm (2 ^ pos q)), Z.mul_assoc. apply (scale_lt N (D * 2 ^ p) q c); [lia|lia|].
  rewrite <- Z.mul_assoc, <- Z.pow_add_r by lia. eapply Z.lt_le_trans; [exact H|]. apply Z.mul_le_mono_nonneg_l; [lia|]. apply Z.pow_le_mono_r; lia.
Qed.
Lemma above_power : forall N D q p e, D * 2 ^ pos e <= N * 2 ^ pos (- e) -> q + p = e -> 0 <= p -> D * 2 ^ pos q * 2 ^ p <= N * 2 ^ pos (- q).
Proof.
  intros N D q p e H Hq Hp. set (c := Z.abs e + Z.abs q + 2). apply (scale_le N D e c) in H; [|lia|lia]. rewrite <- Z.mul_assoc, (Z.mul_comm (2 ^ pos q)), Z.mul_assoc. apply (scale_le N (D * 2 ^ p) q c); [lia|lia|].
  rewrite <- Z.mul_assoc, <- Z.pow_add_r by lia. replace (p + (q + c)) with (e + c) by lia. exact H.
Qed.

(** Comparisons at one scale hold at all. *)
Lemma rescale : forall m k l l', l' <= l -> l <= k -> m * 2 ^ (k - l') = m * 2 ^ (k - l) * 2 ^ (l - l').
Proof. intros. rewrite <- Z.mul_assoc, <- Z.pow_add_r by lia. f_equal. f_equal. lia. Qed.
Lemma rescale0 : forall n l l', l' <= l -> l <= 0 -> n * 2 ^ (- l') = n * 2 ^ (- l) * 2 ^ (l - l').
Proof. intros. rewrite <- Z.mul_assoc, <- Z.pow_add_r by lia. f_equal. f_equal. lia. Qed.
Lemma above_at : forall N D m k l0, l0 <= k -> l0 <= 0 -> N * 2 ^ (- l0) <= m * 2 ^ (k - l0) * D -> at_or_above N D m k.
Proof.
  intros N D m k l0 Hk H0 H l Lk L0. set (i := Z.min l l0). pose proof (pow_pos (l - i) ltac:(lia)) as P. pose proof (pow_pos (l0 - i) ltac:(lia)) as P0.
  apply (Z.mul_le_mono_pos_r _ _ _ P). apply (Z.mul_le_mono_pos_r _ _ _ P0) in H. rewrite <- (rescale0 N l0 i) in H by lia. rewrite <- (rescale0 N l i) by lia.
  replace (m * 2 ^ (k - l) * D * 2 ^ (l - i)) with (m * 2 ^ (k - i) * D) by (rewrite (rescale m k l i) by lia; ring). replace (m * 2 ^ (k - l0) * D * 2 ^ (l0 - i)) with (m * 2 ^ (k - i) * D) in H by (rewrite (rescale m k l0 i) by lia; ring). exact H.
Qed.
Lemma below_at : forall N D m k l0, l0 <= k -> l0 <= 0 -> m * 2 ^ (k - l0) * D <= N * 2 ^ (- l0) -> at_or_below N D m k.
Proof.
  intros N D m k l0 Hk H0 H l Lk L0. set (i := Z.min l l0). pose proof (pow_pos (l - i) ltac:(lia)) as P. pose proof (pow_pos (l0 - i) ltac:(lia)) as P0.
  apply (Z.mul_le_mono_pos_r _ _ _ P). apply (Z.mul_le_mono_pos_r _ _ _ P0) in H. rewrite <- (rescale0 N l0 i) in H by lia. rewrite <- (rescale0 N l i) by lia.
  replace (m * 2 ^ (k - l) * D * 2 ^ (l - i)) with (m * 2 ^ (k - i) * D) by (rewrite (rescale m k l i) by lia; ring). replace (m * 2 ^ (k - l0) * D * 2 ^ (l0 - i)) with (m * 2 ^ (k - i) * D) in H by (rewrite (rescale m k l0 i) by lia; ring). exact H.
Qed.
Lemma num_le_at : forall m k m' k' l0, l0 <= k -> l0 <= k' -> m * 2 ^ (k - l0) <= m' * 2 ^ (k' - l0) -> num_le m k m' k'.
Proof.
  intros m k m' k' l0 Hk Hk' H l Lk Lk'. set (i := Z.min l l0). pose proof (pow_pos (l - i) ltac:(lia)) as P. pose proof (pow_pos (l0 - i) ltac:(lia)) as P0.
  apply (Z.mul_le_mono_pos_r _ _ _ P). apply (Z.mul_le_mono_pos_r _ _ _ P0) in H. rewrite <- !(rescale _ _ l0 i) in H by lia. rewrite <- !(rescale _ _ l i) by lia. exact H.
Qed.
Lemma close_at : forall N D m k m' k' l0, l0 <= k -> l0 <= k' -> l0 <= 0 ->
  Z.abs (N * 2 ^ (- l0) - m * 2 ^ (k - l0) * D) <= Z.abs (N * 2 ^ (- l0) - m' * 2 ^ (k' - l0) * D) -> as_close N D m k m' k'.
Proof.
  intros N D m k m' k' l0 Hk Hk' H0 H l Lk Lk' L0. set (i := Z.min l l0). pose proof (pow_pos (l - i) ltac:(lia)) as P. pose proof (pow_pos (l0 - i) ltac:(lia)) as P0.
  assert (forall (a b : Z) j, l0 - i = j \/ l - i = j -> Z.abs (a - b) * 2 ^ j = Z.abs (a * 2 ^ j - b * 2 ^ j)) as A.
  { intros a b j Hj. assert (0 < 2 ^ j) by (apply pow_pos; lia). rewrite <- (Z.abs_eq (2 ^ j)) at 1 by lia. rewrite <- Z.abs_mul. f_equal. ring. }
  apply (Z.mul_le_mono_pos_r _ _ _ P). apply (Z.mul_le_mono_pos_r _ _ _ P0) in H. rewrite !A in H |- * by auto. rewrite <- (rescale0 N l0 i) in H by lia. rewrite <- (rescale0 N l i) by lia.
  assert (forall a b j, a * 2 ^ (b - j) * D * 2 ^ (j - i) = a * 2 ^ (b - j) * 2 ^ (j - i) * D) as C by (intros; ring). rewrite !C in H |- *. rewrite <- !(rescale _ _ l0 i) in H by lia. rewrite <- !(rescale _ _ l i) by lia. exact H.
Qed.

Lemma same_number_at : forall m k m' k' l, l <= k -> l <= k' -> m * 2 ^ (k - l) = m' * 2 ^ (k' - l) -> same_number (m, k) (m', k').
Proof.
  intros m k m' k' l Hk Hk' E. cbn [same_number]. set (i := Z.min k k'). rewrite (rescale m k i l), (rescale m' k' i l) in E by lia. apply Z.mul_reg_r in E; [exact E|]. pose proof (pow_pos (i - l) ltac:(lia)). lia.
Qed.

Section Round.
Variables (f : format) (N D : Z).
Hypothesis (Hf : format_ok f) (HN : 0 < N) (HD : 0 < D).
Let p := f_p f.
Let q := Z.max (f_kmin f) (flog N D - (p - 1)).
(** N/D in units of 2^q *)
Let num := N * 2 ^ pos (- q).
Let den := D * 2 ^ pos q.
Let fl := num / den.

Lemma den_pos : 0 < den.
Proof. apply Z.mul_pos_pos; [exact HD|apply pow_pos; unfold pos; lia]. Qed.
Lemma num_pos : 0 < num.
Proof. apply Z.mul_pos_pos; [exact HN|apply pow_pos; unfold pos; lia]. Qed.
(** N/D in units of 2^l/D, in terms of num and den *)
Lemma value_scale : forall l, l <= q -> l <= 0 -> exists u, 0 < u /\ N * 2 ^ (- l) = num * u /\ 2 ^ (q - l) * D = den * u.
Proof.
  intros l Hq H0. exists (2 ^ (- l - pos (- q))). assert (0 <= - l - pos (- q)) by (unfold pos; lia). split; [apply pow_pos; lia|]. unfold num, den. split.
  - rewrite <- Z.mul_assoc, <- Z.pow_add_r by (unfold pos; lia). f_equal. f_equal. lia.
  - rewrite <- Z.mul_assoc, <- Z.pow_add_r by (unfold pos; lia). rewrite Z.mul_comm. f_equal. f_equal. unfold pos. lia.
Qed.
Lemma fl_spec : den * fl <= num < den * (fl + 1).
Proof. unfold fl. pose proof den_pos. pose proof (Z.div_mod num den ltac:(lia)). pose proof (Z.mod_pos_bound num den ltac:(lia)). nia. Qed.
Lemma fl_bounds : 0 <= fl < 2 ^ p /\ (2 ^ (p - 1) <= fl \/ q = f_kmin f).
Proof.
  destruct Hf as (HE & Hp & Hpe). pose proof den_pos as Dp. pose proof num_pos as Np. pose proof fl_spec as FS. destruct (flog_spec N D HN HD) as [L1 L2].
  assert (0 <= fl) as F0 by (apply Z.div_pos; lia). split; [split; [exact F0|]|].
  - assert (num < den * 2 ^ p) as LT by (apply (below_power N D q p _ L2); [unfold q; lia|unfold p; lia|exact HD]). clear - LT FS Dp F0. destruct (Z_lt_le_dec fl (2 ^ p)) as [H|H]; [exact H|]. assert (den * 2 ^ p <= den * fl) by (apply Z.mul_le_mono_nonneg_l; lia). lia.
  - destruct (Z.le_gt_cases (flog N D - (p - 1)) (f_kmin f)) as [K|K]; [right; unfold q; lia|left]. assert (q = flog N D - (p - 1)) as Eq by (unfold q; lia).
    assert (den * 2 ^ (p - 1) <= num) as LE by (apply (above_power N D q (p - 1) _ L1); unfold p in *; lia). clear - LE FS Dp F0. destruct (Z_lt_le_dec fl (2 ^ (p - 1))) as [H|H]; [|exact H]. assert (den * (fl + 1) <= den * 2 ^ (p - 1)) by (apply Z.mul_le_mono_nonneg_l; lia). lia.
Qed.
(** No number of the format lies strictly between [fl] and [fl + 1]. *)
Lemma gap : forall m k l, grid f m k -> l <= k -> l <= q -> m * 2 ^ (k - l) <= fl * 2 ^ (q - l) \/ (fl + 1) * 2 ^ (q - l) <= m * 2 ^ (k - l).
Proof.
  intros m k l [Hm Hk] Lk Lq. destruct Hf as (HE & Hp & Hpe). pose proof (pow_pos (q - l) ltac:(lia)) as Pq. destruct (Z.le_gt_cases q k) as [K|K].
  - replace (k - l) with (k - q + (q - l)) by lia. rewrite Z.pow_add_r, Z.mul_assoc by lia. set (c := m * 2 ^ (k - q)). destruct (Z_lt_le_dec fl c); [right|left]; apply Z.mul_le_mono_nonneg_r; lia.
  - left. destruct fl_bounds as [_ [FB|FB]]; [|lia]. fold p in Hm. pose proof (pow_pos (k - l) ltac:(lia)) as Pk.
    assert (2 ^ p * 2 ^ (k - l) <= 2 ^ (p - 1) * 2 ^ (q - l)) as A by (rewrite <- !Z.pow_add_r by (unfold p in *; lia); apply Z.pow_le_mono_r; lia). nia.
Qed.

(** The neighbours as numbers of the format. *)
Definition as_grid (c : Z) : Z * Z := if c =? 2 ^ p then (2 ^ (p - 1), q + 1) else (c, q).
Lemma as_grid_spec : forall c, 0 <= c <= 2 ^ p -> let '(m, k) := as_grid c in grid f m k /\ q <= k /\ (forall l, l <= q -> m * 2 ^ (k - l) = c * 2 ^ (q - l)).
Proof.
  intros c Hc. destruct Hf as (HE & Hp & Hpe). assert (2 ^ p = 2 * 2 ^ (p - 1)) as EP by (rewrite <- Z.pow_succ_r by (unfold p; lia); f_equal; lia). pose proof (pow_pos (p - 1) ltac:(unfold p; lia)).
  assert (f_kmin f <= q) by (unfold q; lia). unfold as_grid. destruct (Z.eqb_spec c (2 ^ p)) as [E|E].
  - split; [unfold grid; fold p; lia|]. split; [lia|]. intros l Hl. rewrite E, EP. replace (q + 1 - l) with (Z.succ (q - l)) by lia. rewrite Z.pow_succ_r by lia. ring.
  - split; [unfold grid; fold p; lia|]. split; [lia|]. reflexivity.
Qed.

(** The chosen neighbour *)
Lemma cases_at : forall l, l <= q -> l <= 0 -> exists u, 0 < u /\ N * 2 ^ (- l) = fl * (den * u) + (num mod den) * u /\ 0 <= (num mod den) * u < den * u /\ 0 < den * u /\
  (forall c m k, (forall i, i <= q -> m * 2 ^ (k - i) = c * 2 ^ (q - i)) -> m * 2 ^ (k - l) * D = c * (den * u)) /\
  (forall m k, grid f m k -> l <= k -> m * 2 ^ (k - l) * D <= fl * (den * u) \/ fl * (den * u) + den * u <= m * 2 ^ (k - l) * D).
Proof.
  intros l Hq H0. destruct (value_scale l Hq H0) as (u & Hu & E1 & E2). pose proof den_pos as Dp. exists u. split; [exact Hu|]. pose proof (Z.mod_pos_bound num den Dp) as MB. split.
  { rewrite E1. rewrite (Z.div_mod num den) at 1 by lia. fold fl. ring. }
  split; [split; [nia|apply Z.mul_lt_mono_pos_r; lia]|]. split; [nia|]. split.
  - intros c m k E. rewrite (E l Hq), <- Z.mul_assoc, E2. reflexivity.
  - intros m k G Lk. destruct (gap m k l G Lk Hq) as [A|A]; [left|right]; apply (Z.mul_le_mono_nonneg_r _ _ D) in A; try lia; rewrite <- (Z.mul_assoc fl (2 ^ (q - l))) in * || rewrite <- (Z.mul_assoc (fl + 1) (2 ^ (q - l))) in A; rewrite E2 in A; lia.
Qed.
Lemma rounded_ok : forall rm neg, let '(m, k) := as_grid (round_int rm neg num den) in rounded f rm neg N D m k.
Proof.
  intros rm neg. set (c := round_int rm neg num den). pose proof den_pos as Dp. pose proof fl_bounds as [FB FN]. pose proof (round_int_bounds rm neg num den Dp) as RB. fold c fl in RB.
  pose proof (as_grid_spec c ltac:(lia)) as AG. destruct (as_grid c) as [m k] eqn:EG. destruct AG as (Gmk & Kq & Em).
  pose proof (Z.mod_pos_bound num den Dp) as MB. set (r := num mod den) in *.
  assert (c = fl -> r = 0 \/ round_up rm neg fl r den = false) as Cfl.
  { unfold c, round_int. fold fl r. destruct (round_up rm neg fl r den); [lia|auto]. }
  assert (c = fl + 1 -> round_up rm neg fl r den = true) as Cup.
  { unfold c, round_int. fold fl r. destruct (round_up rm neg fl r den); [auto|lia]. }
  assert (c = fl \/ c = fl + 1) as CC by lia.
  assert (forall m' k', grid f m' k' -> exists l, l <= q /\ l <= k /\ l <= k' /\ l <= 0) as SC by (intros m' k' _; exists (Z.min (Z.min q k) (Z.min k' 0)); lia).
  assert (r = 0 \/ c = fl + 1 -> least_above f N D m k) as LA.
  { intros Hc. split.
    - apply (above_at _ _ _ _ (Z.min q 0)); [lia|lia|]. destruct (cases_at (Z.min q 0) ltac:(lia) ltac:(lia)) as (u & Hu & EV & RB' & X0 & EC & _). fold r in EV, RB'. rewrite (EC c m k Em), EV. destruct Hc as [Hr|Hc]; [rewrite Hr; destruct CC as [-> | ->]; lia|rewrite Hc; lia].
    - intros m' k' G A. destruct (SC m' k' G) as (l & L1 & L2 & L3 & L4). apply (num_le_at _ _ _ _ l); [lia|lia|]. destruct (cases_at l L1 L4) as (u & Hu & EV & RB' & X0 & EC & GP). fold r in EV, RB'. specialize (A l L3 L4). specialize (GP m' k' G L3). rewrite EV in A.
      apply (Z.mul_le_mono_pos_r _ _ D HD). rewrite (EC c m k Em). destruct Hc as [Hr|Hc]; [|rewrite Hc; destruct GP as [GP|GP]; [|lia]]; [rewrite Hr in *|].
      + assert (c = fl) as -> by (destruct CC as [CC|CC]; [exact CC|]; pose proof (Cup CC) as U; rewrite ?Hr in U; clear - U Dp; destruct rm; cbn [round_up] in U; rewrite ?andb_false_r in U; try discriminate;
          [apply orb_prop in U; destruct U as [U|U]; [apply Z.ltb_lt in U; lia|apply andb_prop in U; destruct U as [U _]; apply Z.eqb_eq in U; lia]|apply Z.leb_le in U; lia]). lia.
      + assert (r * u = 0) as R0 by lia. assert (r = 0) as Hr by nia. pose proof (Cup Hc) as U. rewrite Hr in U. exfalso. clear - U Dp. destruct rm; cbn [round_up] in U; rewrite ?andb_false_r in U; try discriminate;
          [apply orb_prop in U; destruct U as [U|U]; [apply Z.ltb_lt in U; lia|apply andb_prop in U; destruct U as [U _]; apply Z.eqb_eq in U; lia]|apply Z.leb_le in U; lia]. }
  assert (c = fl -> greatest_below f N D m k) as GB.
  { intros Hc. split.
    - apply (below_at _ _ _ _ (Z.min q 0)); [lia|lia|]. destruct (cases_at (Z.min q 0) ltac:(lia) ltac:(lia)) as (u & Hu & EV & RB' & X0 & EC & _). fold r in EV, RB'. rewrite (EC c m k Em), EV, Hc. lia.
    - intros m' k' G A. destruct (SC m' k' G) as (l & L1 & L2 & L3 & L4). apply (num_le_at _ _ _ _ l); [lia|lia|]. destruct (cases_at l L1 L4) as (u & Hu & EV & RB' & X0 & EC & GP). fold r in EV, RB'. specialize (A l L3 L4). specialize (GP m' k' G L3). rewrite EV in A.
      apply (Z.mul_le_mono_pos_r _ _ D HD). rewrite (EC c m k Em), Hc. lia. }
  assert (forall tie : Prop, (c = fl -> 2 * r <= den) -> (c = fl + 1 -> den <= 2 * r) -> (den = 2 * r -> tie) -> nearest f N D m k tie) as NR.
  { intros tie H1 H2 Ht.
    assert (forall u, 0 < u -> (c = fl -> 2 * (r * u) <= den * u) /\ (c = fl + 1 -> den * u <= 2 * (r * u))) as HU by (intros u Hu; split; intros E; [specialize (H1 E)|specialize (H2 E)]; nia).
    split.
    - intros m' k' G. destruct (SC m' k' G) as (l & L1 & L2 & L3 & L4). apply (close_at _ _ _ _ _ _ l); [lia|lia|lia|]. destruct (cases_at l L1 L4) as (u & Hu & EV & RB' & X0 & EC & GP). fold r in EV, RB'. specialize (GP m' k' G L3). rewrite (EC c m k Em), EV.
      destruct (HU u Hu) as [U1 U2]. destruct CC as [CC|CC]; rewrite CC; [specialize (U1 CC)|specialize (U2 CC)]; lia.
    - intros (m' & k' & G & A & Ne). apply Ht. destruct (SC m' k' G) as (l & L1 & L2 & L3 & L4). destruct (cases_at l L1 L4) as (u & Hu & EV & RB' & X0 & EC & GP). fold r in EV, RB'. specialize (GP m' k' G L3). specialize (A l L3 L2 L4). rewrite (EC c m k Em), EV in A.
      assert (m * 2 ^ (k - l) <> m' * 2 ^ (k' - l)) as Ne'.
      { intros E. apply Ne. exact (same_number_at _ _ _ _ l L2 L3 E). }
      assert (m' * 2 ^ (k' - l) * D <> c * (den * u)) as Ne2 by (rewrite <- (EC c m k Em); intros E; apply Z.mul_reg_r in E; [congruence|lia]).
      destruct (HU u Hu) as [U1 U2]. assert (den * u = 2 * r * u) as Q by (destruct CC as [CC|CC]; rewrite CC in *; [specialize (U1 eq_refl)|specialize (U2 eq_refl)]; lia).
      apply Z.mul_reg_r in Q; [exact Q|lia]. }
  split; [exact Gmk|]. destruct rm; cbn [round_up] in Cfl, Cup.
  - apply NR.
    + intros E. destruct (Cfl E) as [H|H]; [lia|]. apply orb_false_elim in H. destruct H as [H _]. apply Z.ltb_ge in H. lia.
    + intros E. apply Cup in E. apply orb_prop in E. destruct E as [E|E]; [apply Z.ltb_lt in E; lia|apply andb_prop in E; destruct E as [E _]; apply Z.eqb_eq in E; lia].
    + intros Ht. assert (Z.even c = true) as Ev.
      { destruct CC as [CC|CC].
        - destruct (Cfl CC) as [H|H]; [lia|]. rewrite (proj2 (Z.eqb_eq den (2 * r)) Ht) in H. apply orb_false_elim in H. destruct H as [_ H]. cbn [andb] in H. rewrite CC, <- Z.negb_odd, H. reflexivity.
        - pose proof (Cup CC) as H. rewrite (proj2 (Z.ltb_ge den (2 * r))) in H by lia. apply andb_prop in H. destruct H as [_ H]. rewrite CC, Z.even_add, <- Z.negb_odd, H. reflexivity. }
      destruct Hf as (HE & Hp & Hpe). unfold as_grid in EG. destruct (Z.eqb_spec c (2 ^ p)) as [E|E]; injection EG as <- <-.
      * split; [left; apply Z.le_refl|]. fold p in Hp. replace (p - 1) with (Z.succ (p - 2)) by lia. rewrite Z.pow_succ_r, Z.even_mul by lia. reflexivity.
      * split; [|exact Ev]. destruct FN as [FN|FN]; [left; apply (Z.le_trans _ fl); [exact FN|apply RB]|right; exact FN].
  - apply NR.
    + intros E. destruct (Cfl E) as [H|H]; [lia|]. apply Z.leb_gt in H. lia.
    + intros E. apply Cup in E. apply Z.leb_le in E. exact E.
    + intros Ht. apply LA. destruct CC as [CC|CC]; [|right; exact CC]. left. destruct (Cfl CC) as [H|H]; [exact H|]. apply Z.leb_gt in H. lia.
  - destruct neg; cbn [negb andb] in *; [apply GB|apply LA].
    + destruct CC as [CC|CC]; [exact CC|]. apply Cup in CC. discriminate.
    + destruct CC as [CC|CC]; [|right; exact CC]. left. destruct (Cfl CC) as [H|H]; [exact H|]. apply Z.ltb_ge in H. lia.
  - destruct neg; cbn [negb andb] in *; [apply LA|apply GB].
    + destruct CC as [CC|CC]; [|right; exact CC]. left. destruct (Cfl CC) as [H|H]; [exact H|]. apply Z.ltb_ge in H. lia.
    + destruct CC as [CC|CC]; [exact CC|]. apply Cup in CC. discriminate.
  - apply GB. destruct CC as [CC|CC]; [exact CC|]. apply Cup in CC. discriminate.
Qed.
Lemma round_to_correct : forall rm neg, correctly_rounded f rm neg N D (round_to f rm neg N D).
Proof.
  intros rm neg. pose proof (rounded_ok rm neg) as R. set (c := round_int rm neg num den) in *. pose proof den_pos as Dp. pose proof fl_bounds as [FB FN]. pose proof (round_int_bounds rm neg num den Dp) as RB. fold c fl in RB.
  pose proof (as_grid_spec c ltac:(lia)) as AG. destruct (as_grid c) as [m k]. destruct AG as (Gmk & Kq & Em). exists m, k. split; [exact R|]. destruct Hf as (HE & Hp & Hpe). fold p in Hp, Hpe.
  assert (num_le 1 (f_emax f) m k <-> 2 ^ pos (f_emax f - q) <= c) as OV.
  { set (l := Z.min q (f_emax f)). assert (num_le 1 (f_emax f) m k <-> 2 ^ (f_emax f - l) <= c * 2 ^ (q - l)) as ->.
    { rewrite <- (Em l ltac:(lia)). split; [intros H; specialize (H l ltac:(lia) ltac:(lia)); lia|intros H; apply (num_le_at _ _ _ _ l); lia]. }
    unfold pos. destruct (Z.le_gt_cases q (f_emax f)) as [Q|Q].
    - replace (Z.max 0 (f_emax f - q)) with (f_emax f - l) by lia. replace (q - l) with 0 by lia. rewrite Z.pow_0_r, Z.mul_1_r. reflexivity.
    - replace (Z.max 0 (f_emax f - q)) with 0 by lia. replace (f_emax f - l) with 0 by lia. pose proof (pow_pos (q - l) ltac:(lia)). pose proof (pow_pos (p - 1) ltac:(lia)). assert (f_kmin f < q) as KQ by (unfold f_kmin, f_emax in *; pose proof (pow_pos (f_E f - 1) ltac:(lia)); lia). rewrite Z.pow_0_r. split; intros; nia. }
  unfold round_to. fold p. change (Z.max (f_kmin f) (flog N D - (p - 1))) with q. change (N * 2 ^ pos (- q)) with num. change (D * 2 ^ pos q) with den. fold c. split.
  - intros H. destruct (Z.leb_spec (2 ^ pos (f_emax f - q)) c) as [L|L]; [tauto|]. apply (same_fin _ _ _ _ _ _ q); [lia|lia|]. split; [reflexivity|]. rewrite (Em q ltac:(lia)). reflexivity.
  - intros H. apply OV in H. rewrite (proj2 (Z.leb_le _ _) H). unfold overflow. destruct rm, neg; reflexivity.
Qed.
End Round.
Lemma round_dyadic_correct : forall f rm zero n j, format_ok f -> rounds f rm zero n j (round_dyadic f rm zero n j).
Proof.
  intros f rm zero n j Hf. unfold rounds, round_dyadic. destruct (Z.eqb_spec n 0); [apply same_refl|]. apply round_to_correct; [exact Hf| |apply pow_pos'].
  apply Z.mul_pos_pos; [lia|apply pow_pos'].
Qed.

