(** Facts on the models of <math.h>: bits, exact remainders and differences. *)
From Coq Require Import ZArith List String Ascii Bool Lia.
From Verif.Spec Require Import TraceValues IEEE FloatArith CMath.
From Verif.Model Require Import Floats FloatOps MathLib.
From Verif.Proofs Require Import Rounding MathEval MathFacts.
Import ListNotations.
Open Scope string_scope.
Open Scope list_scope.
Open Scope Z_scope.

(** ** Bits *)
Lemma lxor_top : forall b n, 0 <= n -> 0 <= b < 2 ^ n -> Z.lxor b (2 ^ n) = b + 2 ^ n /\ Z.lxor (b + 2 ^ n) (2 ^ n) = b.
Proof.
  intros b n Hn Hb. assert (Z.lxor b (2 ^ n) = b + 2 ^ n) as E.
  { symmetry. apply Z.add_nocarry_lxor. apply Z.bits_inj'. intros i Hi. rewrite Z.land_spec, Z.bits_0, Z.pow2_bits_eqb by lia.
    destruct (Z.eqb_spec n i); [|apply andb_false_r]. subst i. rewrite andb_true_r. destruct (Z.eq_dec b 0) as [->|N]; [apply Z.bits_0|]. apply Z.bits_above_log2; [lia|]. apply Z.log2_lt_pow2; lia. }
  split; [exact E|]. rewrite <- E, Z.lxor_assoc, Z.lxor_nilpotent, Z.lxor_0_r. reflexivity.
Qed.
Lemma ieee_flip : forall E p b, 0 < E -> 0 < p -> 0 <= b < 2 ^ (E + p) ->
  ieee E p (Z.lxor b (2 ^ (E + p - 1))) = fp_neg (ieee E p b) /\ (ieee E p b <> NaN -> sign (ieee E p b) = negb ((b / 2 ^ (E + p - 1)) mod 2 =? 0)).
Proof.
  intros E p b HE Hp Hb. set (T := 2 ^ (E + p - 1)). assert (2 ^ (E + p) = 2 * T) as ET by (unfold T; rewrite <- Z.pow_succ_r by lia; f_equal; lia). rewrite ET in Hb.
  assert (T = 2 ^ E * 2 ^ (p - 1)) as TP by (unfold T; rewrite <- Z.pow_add_r by lia; f_equal; lia). pose proof (pow_pos E ltac:(lia)). pose proof (pow_pos (p - 1) ltac:(lia)).
  assert (forall c, 0 <= c < T -> ieee E p (c + T) = fp_neg (ieee E p c)) as A.
  { intros c Hc. unfold ieee. fold T.
    replace ((c + T) / T) with 1 by (apply (Z.div_unique _ _ 1 c); lia). rewrite (Z.div_small c T) by lia.
    replace ((c + T) / 2 ^ (p - 1)) with (c / 2 ^ (p - 1) + 2 ^ E) by (rewrite TP, Z.div_add by lia; reflexivity).
    replace ((c / 2 ^ (p - 1) + 2 ^ E) mod 2 ^ E) with (c / 2 ^ (p - 1) mod 2 ^ E) by (rewrite <- (Z.mod_add _ 1) by lia; f_equal; lia).
    replace ((c + T) mod 2 ^ (p - 1)) with (c mod 2 ^ (p - 1)) by (rewrite TP, Z.mod_add by lia; reflexivity).
    destruct (_ =? 2 ^ E - 1); [destruct (_ =? 0); reflexivity|]. destruct (_ =? 0); reflexivity. }
  split.
  - destruct (Z_lt_le_dec b T) as [L|L].
    + unfold T. destruct (lxor_top b (E + p - 1)) as [-> _]; [lia|fold T; lia|]. apply A. lia.
    + pose proof (lxor_top (b - T) (E + p - 1) ltac:(lia)) as Q. fold T in Q. destruct Q as [_ Q]; [lia|]. replace (b - T + T) with b in Q by lia. rewrite Q.
      specialize (A (b - T) ltac:(lia)). replace (b - T + T) with b in A by lia. rewrite A. destruct (ieee E p (b - T)); cbn [fp_neg]; rewrite ?negb_involutive; reflexivity.
  - intros N. assert (sign (ieee E p b) = Z.odd (b / T)) as ->.
    { unfold ieee in N |- *. fold T in N |- *. destruct (_ =? 2 ^ E - 1); [destruct (_ =? 0); [reflexivity|congruence]|]. destruct (_ =? 0); reflexivity. }
    rewrite Zmod_odd. destruct (Z.odd _); reflexivity.
Qed.

(** ** The library *)
Definition c_member (t : cty) (x : fpval) : Prop := member (layout (llvm t)) x.
Definition in_format (t : cty) (x : fpval) : Prop := exists y, c_member t y /\ same_datum x y.
Lemma layout_ok : forall t, format_ok (layout (llvm t)).
Proof. intros []; vm_compute; intuition congruence. Qed.
Lemma width_eq : forall t, f_E (layout (llvm t)) + f_p (layout (llvm t)) = fp_width (llvm t) /\ 0 < f_E (layout (llvm t)) /\ 0 < f_p (layout (llvm t)).
Proof. intros []; vm_compute; intuition congruence. Qed.
Lemma signbit_spec : forall o t x, bits_ok o (llvm t) -> in_format t x -> x <> NaN -> truth (c_signbit o t x) = sign x.
Proof.
  intros o t x Hb Hx N. destruct (Hb x Hx) as [B S]. destruct (width_eq t) as (W & W1 & W2). rewrite <- W in B.
  destruct (ieee_flip _ _ _ W1 W2 B) as [_ F]. unfold c_signbit, truth, top. rewrite <- W, <- F; [symmetry; apply same_sign; apply same_sym; exact S|].
  intros E. rewrite E in S. destruct x; cbn in S; congruence.
Qed.
Lemma signbit_range : forall o t x, c_signbit o t x = 0 \/ c_signbit o t x = 1.
Proof. intros. unfold c_signbit. pose proof (Z.mod_pos_bound (o_bits o (llvm t) x / top t) 2). lia. Qed.
Lemma signbit_eq : forall o t x y, (c_signbit o t x =? c_signbit o t y) = Bool.eqb (truth (c_signbit o t x)) (truth (c_signbit o t y)).
Proof. intros. destruct (signbit_range o t x) as [-> | ->], (signbit_range o t y) as [-> | ->]; reflexivity. Qed.
Lemma copysign_flip : forall o t x y, bits_ok o (llvm t) -> in_format t x -> same_datum (c_copysign o true t x y) (if negb (c_signbit o t x =? c_signbit o t y) then fp_neg x else x).
Proof.
  intros o t x y Hb Hx. unfold c_copysign. destruct (negb _); [|apply same_refl]. destruct (Hb x Hx) as [B S]. destruct (width_eq t) as (W & W1 & W2). unfold of_bits, top. rewrite <- W in *.
  destruct (ieee_flip _ _ _ W1 W2 B) as [-> _]. apply same_neg. exact S.
Qed.
Lemma copysign_spec : forall o t x y, bits_ok o (llvm t) -> in_format t x -> in_format t y -> x <> NaN -> y <> NaN ->
  same_datum (c_copysign o true t x y) (if Bool.eqb (sign x) (sign y) then x else fp_neg x).
Proof.
  intros o t x y Hb Hx Hy Nx Ny. pose proof (copysign_flip o t x y Hb Hx) as C. rewrite signbit_eq, (signbit_spec o t x), (signbit_spec o t y) in C by assumption.
  destruct (Bool.eqb _ _); exact C.
Qed.

Lemma less_units : forall s m k s' m' k' j, less (Fin s m k) (Fin s' m' k') -> j <= k -> j <= k' -> units j s m k < units j s' m' k'.
Proof. intros. apply less_fin; assumption. Qed.
Lemma equal_units : forall s m k s' m' k' j, equal (Fin s m k) (Fin s' m' k') -> j <= k -> j <= k' -> units j s m k = units j s' m' k'.
Proof. intros. apply equal_fin; assumption. Qed.
Lemma rint_unique : forall rm s m k n n', is_rint rm (Fin s m k) n -> is_rint rm (Fin s m k) n' -> n = n'.
Proof.
  intros rm s m k n n' H H'. set (j := Z.min k (-1)). set (X := units j s m k). set (h := 2 ^ (-1 - j)).
  assert (0 < h) as Hh by (apply pow_pos; lia). assert (2 ^ (0 - j) = 2 * h) as EU by (unfold h; rewrite <- Z.pow_succ_r by lia; f_equal; lia).
  assert (forall i, units j (i <? 0) (Z.abs i) 0 = 2 * i * h) as UI by (intros; unfold units; rewrite signed_abs, EU; ring).
  assert (forall i, units j (i <? 0) (Z.abs i) (-1) = i * h) as UH by (intros; unfold units; rewrite signed_abs; reflexivity).
  assert (forall i, is_floor (Fin s m k) i -> 2 * i * h <= X < 2 * (i + 1) * h) as FL.
  { intros i [A B]. apply (at_most_fin _ _ _ _ _ _ j) in A; [|lia|lia]. apply (less_units _ _ _ _ _ _ j) in B; [|lia|lia]. rewrite UI in A, B. fold X in A, B. lia. }
  assert (forall i, is_ceil (Fin s m k) i -> 2 * (i - 1) * h < X <= 2 * i * h) as CE.
  { intros i [A B]. apply (at_most_fin _ _ _ _ _ _ j) in B; [|lia|lia]. apply (less_units _ _ _ _ _ _ j) in A; [|lia|lia]. rewrite UI in A, B. fold X in A, B. lia. }
  assert (forall i, is_nearest (Fin s m k) i -> (2 * i - 1) * h <= X <= (2 * i + 1) * h) as NE.
  { intros i [A B]. apply (at_most_fin _ _ _ _ _ _ j) in B; [|lia|lia]. apply (at_most_fin _ _ _ _ _ _ j) in A; [|lia|lia]. rewrite UH in A, B. fold X in A, B. lia. }
  assert (forall i, X = i * h -> equal (Fin s m k) (half_datum i)) as EQ.
  { intros i E. apply (equal_fin _ _ _ _ _ _ j); [lia|lia|]. rewrite UH. exact E. }
  assert (is_floor (Fin s m k) n -> is_floor (Fin s m k) n' -> n = n') as UF by (intros A B; apply FL in A, B; nia).
  assert (is_ceil (Fin s m k) n -> is_ceil (Fin s m k) n' -> n = n') as UC by (intros A B; apply CE in A, B; nia).
  assert (forall a b, is_nearest (Fin s m k) a -> is_nearest (Fin s m k) b -> a < b -> b = a + 1 /\ X = (2 * a + 1) * h) as UN.
  { intros a b A B L. apply NE in A, B. assert (b = a + 1) by nia. subst b. split; [reflexivity|]. replace (2 * (a + 1) - 1) with (2 * a + 1) in B by ring. lia. }
  destruct rm; cbn [is_rint] in H, H'.
  - destruct H as [A E], H' as [A' E']. destruct (Z.lt_trichotomy n n') as [L|[L|L]]; [|exact L|].
    + destruct (UN _ _ A A' L) as [-> Ex]. assert (Z.even n = true) as E1 by (apply E; right; apply EQ; exact Ex). assert (Z.even (n + 1) = true) as E2 by (apply E'; left; apply EQ; replace (2 * (n + 1) - 1) with (2 * n + 1) by ring; exact Ex).
      rewrite Z.even_add, E1 in E2. discriminate.
    + destruct (UN _ _ A' A L) as [-> Ex]. assert (Z.even n' = true) as E1 by (apply E'; right; apply EQ; exact Ex). assert (Z.even (n' + 1) = true) as E2 by (apply E; left; apply EQ; replace (2 * (n' + 1) - 1) with (2 * n' + 1) by ring; exact Ex).
      rewrite Z.even_add, E1 in E2. discriminate.
  - destruct H as (A & E & F), H' as (A' & E' & F'). destruct (Z.lt_trichotomy n n') as [L|[L|L]]; [|exact L|].
    + destruct (UN _ _ A A' L) as [-> Ex]. rewrite E' in F; [|apply EQ; replace (2 * (n + 1) - 1) with (2 * n + 1) by ring; exact Ex]. discriminate F. apply EQ. exact Ex.
    + destruct (UN _ _ A' A L) as [-> Ex]. rewrite E in F'; [|apply EQ; replace (2 * (n' + 1) - 1) with (2 * n' + 1) by ring; exact Ex]. discriminate F'. apply EQ. exact Ex.
  - auto.
  - auto.
  - unfold is_trunc in *. destruct (sign _); auto.
Qed.

(** ** Exact differences *)
Lemma round_dyadic_exact : forall f rm zero n j, format_ok f -> n <> 0 -> Z.abs n < 2 ^ f_p f -> f_kmin f <= j <= f_emax f - f_p f -> same_datum (round_dyadic f rm zero n j) (Fin (n <? 0) (Z.abs n) j).
Proof.
  intros f rm zero n j Hf Hn Ha Hj. unfold round_dyadic. rewrite (proj2 (Z.eqb_neq n 0) Hn). pose proof Hf as (HE & Hp & Hpe).
  pose proof (pow_pos (pos j) ltac:(unfold pos; lia)) as P1. pose proof (pow_pos (pos (- j)) ltac:(unfold pos; lia)) as P2.
  apply round_to_exact; [exact Hf|nia|exact P2|lia|lia| |ring].
  assert (2 ^ f_p f * 2 ^ pos j <= 2 ^ f_emax f * 2 ^ pos (- j)).
  { rewrite <- !Z.pow_add_r; [|unfold f_emax; apply Z.pow_nonneg; lia|unfold pos; lia|lia|unfold pos; lia]. apply Z.pow_le_mono_r; [lia|]. unfold pos. lia. }
  nia.
Qed.
Lemma same_fwd : forall s m k s' m' k' j, same_datum (Fin s m k) (Fin s' m' k') -> j <= k -> j <= k' -> s = s' /\ m * 2 ^ (k - j) = m' * 2 ^ (k' - j).
Proof. intros. apply same_fin; assumption. Qed.
Lemma is_zero_same : forall x y, same_datum x y -> is_zero x = is_zero y.
Proof.
  intros [|s|s m k] [|s'|s' m' k'] H; try contradiction; try reflexivity. apply (same_fwd _ _ _ _ _ _ (Z.min k k')) in H; [|lia|lia]. destruct H as [_ E]. cbn [is_zero].
  pose proof (pow_pos (k - Z.min k k') ltac:(lia)). pose proof (pow_pos (k' - Z.min k k') ltac:(lia)). destruct (Z.eqb_spec m 0) as [->|], (Z.eqb_spec m' 0) as [->|]; try reflexivity; rewrite Z.mul_0_l in E; [symmetry in E|]; apply Z.mul_eq_0 in E; lia.
Qed.
Lemma same_fin_inv : forall r s m k, same_datum r (Fin s m k) -> exists m' k', r = Fin s m' k' /\ forall j, j <= k' -> j <= k -> m' * 2 ^ (k' - j) = m * 2 ^ (k - j).
Proof.
  intros [|s1|s1 m1 k1] s m k H; try contradiction. pose proof (same_sign _ _ H) as E. cbn in E. subst s1. exists m1, k1. split; [reflexivity|]. intros j Hj Hj'. apply (same_fwd _ _ _ _ _ _ j) in H; [|lia|lia]. apply H.
Qed.
Lemma fmod_result : forall s m k s' m' k' r, 0 <= m -> 0 < m' -> let j := Z.min k k' in
  same_datum r (Fin s ((m * 2 ^ (k - j)) mod (m' * 2 ^ (k' - j))) j) -> is_fmod (Fin s m k) (Fin s' m' k') r.
Proof.
  intros s m k s' m' k' r Hm Hm' j H. unfold is_fmod. rewrite (proj2 (Z.eqb_neq m' 0)) by lia. apply same_fin_inv in H. destruct H as (m1 & k1 & -> & E).
  set (a := m * 2 ^ (k - j)) in *. set (b := m' * 2 ^ (k' - j)) in *. set (l := Z.min j k1).
  assert (0 < b) as Hb by (apply Z.mul_pos_pos; [lia|apply pow_pos; lia]). pose proof (Z.mod_pos_bound a b Hb) as R. pose proof (Z.div_mod a b ltac:(lia)) as DM.
  specialize (E l ltac:(lia) ltac:(lia)). pose proof (pow_pos (j - l) ltac:(lia)) as PL.
  assert (m * 2 ^ (k - l) = a * 2 ^ (j - l)) as EA by (unfold a; rewrite <- Z.mul_assoc, <- Z.pow_add_r by lia; f_equal; f_equal; lia).
  assert (m' * 2 ^ (k' - l) = b * 2 ^ (j - l)) as EB by (unfold b; rewrite <- Z.mul_assoc, <- Z.pow_add_r by lia; f_equal; f_equal; lia).
  split; [eexists _, _, _; reflexivity|]. split; [reflexivity|]. split.
  - apply (less_fin _ _ _ _ _ _ l); [lia|lia|]. unfold units. cbn [signed_int]. rewrite E, EB. apply Z.mul_lt_mono_pos_r; [exact PL|lia].
  - exists (if xorb s s' then - (a / b) else a / b). apply (combination_at _ _ _ _ _ _ _ _ _ _ l); [lia|lia|lia|]. unfold units.
    replace (signed_int s m * 2 ^ (k - l)) with (signed_int s (m * 2 ^ (k - l))) by (destruct s; cbn [signed_int]; ring).
    replace (signed_int s' m' * 2 ^ (k' - l)) with (signed_int s' (m' * 2 ^ (k' - l))) by (destruct s'; cbn [signed_int]; ring).
    replace (signed_int s m1 * 2 ^ (k1 - l)) with (signed_int s (m1 * 2 ^ (k1 - l))) by (destruct s; cbn [signed_int]; ring).
    rewrite E, EA, EB. destruct s, s'; cbn [signed_int xorb]; rewrite DM at 1; ring.
Qed.
Lemma remainder_cases : forall a b s, 0 <= a -> 0 < b -> let r := a - b * round_int RNE s a b in
  (r = a mod b /\ 2 * r <= b) \/ (r = a mod b - b /\ b <= 2 * (a mod b) /\ r < 0).
Proof.
  intros a b s Ha Hb r. pose proof (Z.mod_pos_bound a b Hb). pose proof (Z.div_mod a b ltac:(lia)). unfold r, round_int. cbn [round_up].
  destruct (Z.ltb_spec b (2 * (a mod b))); cbn [orb]; [right; nia|]. destruct (Z.eqb_spec b (2 * (a mod b))); cbn [andb]; [|left; nia]. destruct (Z.odd _); [right; nia|left; nia].
Qed.
Lemma member_in : forall t x, c_member t x -> in_format t x.
Proof. intros t x H. exists x. split; [exact H|apply same_refl]. Qed.
Lemma same_in : forall t x y, same_datum x y -> c_member t y -> in_format t x.
Proof. intros t x y S H. exists y. split; assumption. Qed.
Lemma fmod_spec : forall o t rm x y, bits_ok o (llvm t) -> c_member t x -> c_member t y -> exists r, c_fmod o true t rm x y = Some r /\ is_fmod x y r.
Proof.
  intros o t rm x y Hb Hx Hy. unfold c_fmod. rewrite !isnan_eval, isinf_eval, iszero_eval, !fabs_eval. cbn [obind]. rewrite remainder_eval. cbn [obind].
  destruct x as [|sx|s m k]; [eexists; split; [reflexivity|reflexivity]|destruct y as [|sy|s' m' k']; (eexists; split; [cbn; rewrite ?orb_true_r; reflexivity|reflexivity])|].
  destruct y as [|sy|s' m' k']; [eexists; split; [reflexivity|reflexivity]| |].
  - cbn [is_nan is_inf is_zero truth Z.eqb negb orb fp_abs fp_remainder].
    change (truth 0 || truth 0 || truth 0 || truth 0) with false. cbn [obind].
    assert (c_member t (Fin false m k)) as Ha by exact Hx. rewrite (signbit_spec o t (Fin false m k)) by (try discriminate; auto using member_in). cbn [sign obind].
    eexists. split; [reflexivity|]. cbn [is_fmod]. eapply same_trans; [apply copysign_spec; auto using member_in; discriminate|]. destruct s; apply same_refl.
  - cbn [is_nan is_inf is_zero fp_abs fp_remainder]. destruct (Z.eqb_spec m' 0) as [E0|E0].
    { cbn. eexists. split; [reflexivity|]. rewrite E0. reflexivity. }
    change (truth 0 || truth 0 || truth 0 || truth 0) with false. cbn [obind].
    pose proof (layout_ok t) as Hf. unfold c_member in Hx, Hy. set (f := layout (llvm t)) in *. cbn [member] in Hx, Hy. destruct Hx as [Hm Hk], Hy as [Hm' Hk'].
    set (j := Z.min k k'). set (a := m * 2 ^ (k - j)). set (b := m' * 2 ^ (k' - j)).
    assert (0 <= a) as A0 by (apply Z.mul_nonneg_nonneg; [lia|apply Z.pow_nonneg; lia]). assert (0 < b) as B0 by (apply Z.mul_pos_pos; [lia|apply pow_pos; lia]).
    pose proof (Z.mod_pos_bound a b B0) as R. assert (a mod b <= a) as RA by (apply Z.mod_le; lia).
    assert (a < 2 ^ f_p f \/ b < 2 ^ f_p f) as AB.
    { unfold a, b. destruct (Z.le_ge_cases k k').
      - left. replace (k - j) with 0 by lia. rewrite Z.pow_0_r. lia.
      - right. replace (k' - j) with 0 by lia. rewrite Z.pow_0_r. lia. }
    assert (f_kmin f <= j <= f_emax f - f_p f) as Hj by lia.
    destruct (remainder_cases a b false A0 B0) as [[Er Hr]|(Er & Hr & Hneg)]; cbn zeta; fold a b; rewrite Er in *.
    + replace (if a mod b =? 0 then false else xorb false (a mod b <? 0)) with false by (destruct (_ =? 0); [reflexivity|]; destruct (Z.ltb_spec (a mod b) 0); [lia|reflexivity]).
      rewrite (Z.abs_eq (a mod b)) by lia.
      assert (c_member t (Fin false (a mod b) j)) as Hret by (unfold c_member; fold f; cbn [member]; lia).
      rewrite (signbit_spec o t (Fin false (a mod b) j)) by (try discriminate; auto using member_in). cbn [sign obind]. eexists. split; [reflexivity|].
      apply fmod_result; [lia|lia|]. fold j a b. eapply same_trans; [apply copysign_spec; try discriminate; auto; apply member_in; [exact Hret|unfold c_member; fold f; cbn [member]; lia]|].
      destruct s; apply same_refl.
    + replace (a mod b - b =? 0) with false by (symmetry; apply Z.eqb_neq; lia). replace (a mod b - b <? 0) with true by (symmetry; apply Z.ltb_lt; lia). cbn [xorb].
      rewrite (Z.abs_neq (a mod b - b)) by lia. set (r := - (a mod b - b)).
      assert (c_member t (Fin true r j)) as Hret by (unfold c_member; fold f; cbn [member]; unfold r; lia).
      rewrite (signbit_spec o t (Fin true r j)) by (try discriminate; auto using member_in). cbn [sign]. rewrite add_eval. cbn [obind]. fold f.
      assert (same_datum (fp_add f rm (Fin true r j) (Fin false m' k')) (Fin false (a mod b) j)) as Add.
      { cbn [fp_add Bool.eqb]. replace (Z.min j k') with j by lia. set (zero := match rm with RTN => true | _ => false end).
        replace (units j true r j + units j false m' k') with (a mod b) by (unfold units; cbn [signed_int]; rewrite Z.sub_diag, Z.pow_0_r; fold b; unfold r; lia).
        pose proof (round_dyadic_exact f rm zero (a mod b) j Hf ltac:(lia) ltac:(lia) Hj) as Q. rewrite Z.abs_eq in Q by lia. replace (a mod b <? 0) with false in Q by (symmetry; apply Z.ltb_ge; lia). exact Q. }
      eexists. split; [reflexivity|]. apply fmod_result; [lia|lia|]. fold j a b.
      assert (c_member t (Fin false (a mod b) j)) as Hd by (unfold c_member; fold f; cbn [member]; lia).
      assert (sign (fp_add f rm (Fin true r j) (Fin false m' k')) = false) as Sg by (apply (same_sign _ _ Add)).
      assert (fp_add f rm (Fin true r j) (Fin false m' k') <> NaN) as NN by (intros Q; rewrite Q in Add; contradiction).
      eapply same_trans; [apply copysign_spec; try discriminate; auto; [eapply same_in; eassumption|apply member_in; unfold c_member; fold f; cbn [member]; lia]|]. rewrite Sg.
      destruct s; cbn [sign Bool.eqb]; [|exact Add]. apply (same_neg _ (Fin false (a mod b) j)). exact Add.
Qed.
Lemma sub_self : forall f rm s m k, fp_sub f rm (Fin s m k) (Fin s m k) = Fin (match rm with RTN => true | _ => false end) 0 0.
Proof.
  intros. unfold fp_sub. cbn [fp_neg fp_add]. replace (Bool.eqb s (negb s)) with false by (destruct s; reflexivity). unfold units.
  replace (signed_int s m * 2 ^ (k - Z.min k k) + signed_int (negb s) m * 2 ^ (k - Z.min k k)) with 0 by (destruct s; cbn [signed_int negb]; ring). unfold round_dyadic. reflexivity.
Qed.
Lemma modf_spec : forall o t rm x, bits_ok o (llvm t) -> c_member t x -> exists i r, c_modf o true t rm x = Some (i, r) /\ is_modf x i r.
Proof.
  intros o t rm x Hb Hx. unfold c_modf. rewrite isinf_eval, trunc_eval. cbn [obind]. destruct x as [|sx|s m k].
  - cbn [is_inf truth Z.eqb negb fp_round_integral]. change (truth 0) with false. cbn match. rewrite sub_eval. cbn [obind fst snd]. rewrite iszero_eval. eexists _, _. split; [reflexivity|]. split; reflexivity.
  - cbn [is_inf]. change (truth 1) with true. cbn match. cbn [obind fst snd]. rewrite iszero_eval. cbn [is_zero Z.eqb obind]. change (truth 1) with true. cbn match.
    eexists _, _. split; [reflexivity|]. rewrite signbit_spec by (try discriminate; auto using member_in). split; [reflexivity|]. cbn [sign]. apply same_refl.
  - cbn [is_inf]. change (truth 0) with false. cbn match. rewrite sub_eval. cbn [obind fst snd]. rewrite iszero_eval. cbn [obind]. rewrite signbit_spec by (try discriminate; auto using member_in). cbn [sign].
    eexists _, _. split; [reflexivity|]. pose proof (layout_ok t) as Hf. pose proof Hx as Hx'. unfold c_member in Hx. set (f := layout (llvm t)) in *. cbn [member] in Hx. destruct Hx as [Hm Hk].
    split; [apply (integral_spec RTZ _ f Hx')|].
    assert (exists c j, fp_round_integral RTZ (Fin s m k) = Fin s c j /\ exists d, 0 <= d < 2 ^ f_p f /\ k <= j /\ m = c * 2 ^ (j - k) + d /\
              (same_datum (fp_sub f rm (Fin s m k) (Fin s c j)) (Fin s d k) \/ d = 0 /\ exists z, fp_sub f rm (Fin s m k) (Fin s c j) = Fin z 0 0)) as (c & j & Ec & d & Hd & Hj & Em & S).
    { cbn [fp_round_integral]. destruct (Z.leb_spec 0 k) as [K|K].
      - exists m, k. split; [reflexivity|]. exists 0. rewrite Z.sub_diag, Z.pow_0_r. split; [split; [lia|apply pow_pos; destruct Hf; lia]|]. split; [lia|]. split; [lia|]. right. split; [reflexivity|]. eexists. apply sub_self.
      - set (B := 2 ^ (- k)). assert (0 < B) as HB by (apply pow_pos; lia). assert (round_int RTZ s m B = m / B) as -> by reflexivity.
        exists (m / B), 0. split; [reflexivity|]. exists (m mod B). pose proof (Z.mod_pos_bound m B HB). pose proof (Z.div_mod m B ltac:(lia)) as DM. assert (m mod B <= m) by (apply Z.mod_le; lia).
        replace (0 - k) with (- k) by lia. fold B. split; [lia|]. split; [lia|]. split; [lia|]. unfold fp_sub. cbn [fp_neg fp_add]. replace (Z.min k 0) with k by lia.
        replace (Bool.eqb s (negb s)) with false by (destruct s; reflexivity). set (zero := match rm with RTN => true | _ => false end).
        replace (units k s m k + units k (negb s) (m / B) 0) with (signed_int s (m mod B)).
        2:{ unfold units. rewrite Z.sub_diag, Z.pow_0_r. replace (0 - k) with (- k) by lia. fold B. destruct s; cbn [signed_int negb]; lia. }
        destruct (Z.eq_dec (m mod B) 0) as [E0|E0]; [right; split; [exact E0|]; exists zero; rewrite E0; destruct s; reflexivity|]. left.
        pose proof (round_dyadic_exact f rm zero (signed_int s (m mod B)) k Hf ltac:(destruct s; cbn; lia) ltac:(destruct s; cbn [signed_int]; lia) Hk) as Q.
        replace (signed_int s (m mod B) <? 0) with s in Q by (destruct s; cbn [signed_int]; symmetry; [apply Z.ltb_lt|apply Z.ltb_ge]; lia).
        replace (Z.abs (signed_int s (m mod B))) with (m mod B) in Q by (destruct s; cbn [signed_int]; lia). exact Q. }
    rewrite Ec. set (D := fp_sub f rm (Fin s m k) (Fin s c j)) in *.
    assert (same_datum (if truth (if is_zero D then 1 else 0) then Fin s 0 0 else D) (Fin s d k)) as Res.
    { destruct S as [S|[-> [z Ez]]].
      - destruct (is_zero D) eqn:Z0; [|exact S]. change (truth 1) with true. cbn match. rewrite (is_zero_same _ _ S) in Z0. cbn in Z0. apply Z.eqb_eq in Z0. subst d. apply (same_fin _ _ _ _ _ _ (Z.min 0 k)); [lia|lia|]. split; [reflexivity|lia].
      - rewrite Ez. cbn [is_zero Z.eqb]. change (truth 1) with true. cbn match. apply (same_fin _ _ _ _ _ _ (Z.min 0 k)); [lia|lia|]. split; [reflexivity|lia]. }
    set (R := if truth (if is_zero D then 1 else 0) then Fin s 0 0 else D) in *. clearbody R. clear D S. apply same_fin_inv in Res. destruct Res as (m1 & k1 & -> & E).
    split; [eexists _, _, _; reflexivity|]. split; [reflexivity|]. set (l := Z.min k k1). apply (combination_at _ _ _ _ _ _ _ _ _ _ l); [lia|lia|lia|]. specialize (E l ltac:(lia) ltac:(lia)). unfold units.
    assert (m * 2 ^ (k - l) = c * 2 ^ (j - l) + m1 * 2 ^ (k1 - l)).
    { rewrite E, Em. rewrite Z.mul_add_distr_r, <- Z.mul_assoc, <- Z.pow_add_r by lia. replace (j - k + (k - l)) with (j - l) by lia. reflexivity. }
    destruct s; cbn [signed_int]; rewrite ?Z.mul_opp_l; lia.
Qed.
