(** Facts on the models of <math.h>: fdim, fmin, fmax, remainder, encodings. *)
From Coq Require Import ZArith List String Ascii Bool Lia.
From Verif.Spec Require Import TraceValues IEEE FloatArith CMath.
From Verif.Model Require Import Floats FloatOps MathLib.
From Verif.Proofs Require Import Rounding MathEval MathFacts MathLibFacts.
From Verif.Props Require FloatProps.
Import ListNotations.
Open Scope string_scope.
Open Scope list_scope.
Open Scope Z_scope.

Lemma lt_iff : forall a b, fp_lt a b = true <-> less a b.
Proof. exact FloatProps.fp_lt_less. Qed.
Lemma round_int_nonneg : forall rm neg num den, 0 <= num -> 0 < den -> 0 <= round_int rm neg num den.
Proof. intros. pose proof (round_int_bounds rm neg num den ltac:(assumption)). pose proof (Z.div_pos num den ltac:(lia) ltac:(lia)). lia. Qed.
Lemma round_to_shape : forall f rm neg N D, format_ok f -> 0 < N -> 0 < D -> round_to f rm neg N D = Inf neg \/ exists m k, round_to f rm neg N D = Fin neg m k /\ 0 <= m.
Proof.
  intros f rm neg N D (HE & Hp & Hpe) HN HD. unfold round_to. destruct (_ <=? _).
  - unfold overflow. destruct (match rm with RNE | RNA => true | RTP => negb neg | RTN => neg | RTZ => false end); [left; reflexivity|right; eexists _, _; split; [reflexivity|]]. pose proof (pow_pos (f_p f) ltac:(lia)). lia.
  - right. eexists _, _. split; [reflexivity|]. set (q := Z.max _ _). apply round_int_nonneg.
    + apply Z.mul_nonneg_nonneg; [lia|]. apply Z.pow_nonneg. lia.
    + apply Z.mul_pos_pos; [lia|]. apply pow_pos. unfold pos. lia.
Qed.
Lemma round_dyadic_nonzero : forall f rm zero n j, format_ok f -> n <> 0 -> f_kmin f <= j ->
  let r := round_dyadic f rm zero n j in is_zero r = false /\ (r = Inf (n <? 0) \/ exists m k, r = Fin (n <? 0) m k /\ 0 < m).
Proof.
  intros f rm zero n j Hf Hn Hj. unfold round_dyadic. rewrite (proj2 (Z.eqb_neq n 0) Hn). cbn zeta. set (r := round_to _ _ _ _ _).
  pose proof (pow_pos (pos j) ltac:(unfold pos; lia)) as P1. pose proof (pow_pos (pos (- j)) ltac:(unfold pos; lia)) as P2.
  assert (0 < Z.abs n * 2 ^ pos j) as HN by nia.
  assert (is_zero r = false) as NZ.
  { apply round_to_nonzero; [exact Hf|exact HN|exact P2|].
    assert (2 ^ pos (- j) * 2 ^ pos (f_kmin f) <= 2 ^ pos j * 2 ^ pos (- f_kmin f)) as H by (rewrite <- !Z.pow_add_r by (unfold pos; lia); apply Z.pow_le_mono_r; [lia|]; unfold pos; lia).
    pose proof (pow_pos (pos (- f_kmin f)) ltac:(unfold pos; lia)). nia. }
  split; [exact NZ|]. destruct (round_to_shape f rm (n <? 0) _ _ Hf HN P2) as [E|(m & k & E & Hm)]; [left; exact E|right]. exists m, k. split; [exact E|]. fold r in E. rewrite E in NZ. cbn in NZ. apply Z.eqb_neq in NZ. lia.
Qed.
Lemma lt_zero_pos : forall m k, 0 < m -> fp_lt (Fin false 0 0) (Fin false m k) = true.
Proof. intros m k H. apply lt_iff. apply (less_fin _ _ _ _ _ _ (Z.min 0 k)); [lia|lia|]. unfold units. cbn [signed_int]. pose proof (pow_pos (k - Z.min 0 k) ltac:(lia)). nia. Qed.
Lemma lt_zero_neg : forall m k, 0 <= m -> fp_lt (Fin false 0 0) (Fin true m k) = false.
Proof.
  intros m k H. destruct (fp_lt _ _) eqn:E; [|reflexivity]. apply lt_iff in E. apply (less_units _ _ _ _ _ _ (Z.min 0 k)) in E; [|lia|lia]. unfold units in E. cbn [signed_int] in E. pose proof (pow_pos (k - Z.min 0 k) ltac:(lia)). nia.
Qed.
Lemma select_pos : forall o t v, (v = Inf false \/ exists m k, v = Fin false m k /\ 0 < m) -> fp_select o "fp.max" t (Fin false 0 0) v (negb (fp_lt (Fin false 0 0) v)) = v.
Proof.
  intros o t v [-> |(m & k & -> & H)]; [reflexivity|]. cbn [fp_select is_zero]. replace (m =? 0) with false by (symmetry; apply Z.eqb_neq; lia). cbn [andb Z.eqb]. rewrite lt_zero_pos by exact H. reflexivity.
Qed.
Lemma select_neg : forall o t v, (v = NaN \/ v = Inf true \/ exists m k, v = Fin true m k /\ 0 < m) -> fp_select o "fp.max" t (Fin false 0 0) v (negb (fp_lt (Fin false 0 0) v)) = Fin false 0 0.
Proof.
  intros o t v [-> |[-> |(m & k & -> & H)]]; [reflexivity|reflexivity|]. cbn [fp_select is_zero]. replace (m =? 0) with false by (symmetry; apply Z.eqb_neq; lia). cbn [andb Z.eqb]. rewrite lt_zero_neg by lia. reflexivity.
Qed.
(** The sign of an exact zero difference *)
Definition minus_zero (rm : rounding) (x y : fpval) : Prop := if Bool.eqb (sign x) (sign y) then rm = RTN else sign x = true.
Lemma fdim_spec : forall o bp t rm x y, c_member t x -> c_member t y -> (equal x y -> minus_zero rm x y -> o_zero o "fp.max" (llvm t) false = false) ->
  exists r, c_fdim o bp t rm x y = Some r /\ is_fdim (layout (llvm t)) rm x y r.
Proof.
  intros o bp t rm x y Hx Hy Hz. unfold c_fdim. rewrite !isnan_eval, sub_eval. cbn [obind]. rewrite fmax_eval. pose proof (layout_ok t) as Hf. unfold c_member in *. set (f := layout (llvm t)) in *.
  assert (forall z : fpval, unordered NaN z /\ unordered z NaN) as UN by (intros; split; [left|right]; reflexivity).
  destruct x as [|s|s m k].
  { eexists. split; [reflexivity|]. split; [reflexivity|]. split; [intros L; destruct y; destruct L|intros [L|L]; destruct y; destruct L]. }
  - destruct y as [|s'|s' m' k'].
    + eexists. split; [reflexivity|]. split; [reflexivity|]. split; [intros L; destruct L|intros [L|L]; destruct L].
    + destruct s, s'; (eexists; split; [reflexivity|]; split; [intros [U|U]; discriminate U|split; [intros L; try reflexivity; cbn in L; intuition congruence|intros [L|L]; cbn in L; try (intuition congruence); apply same_refl]]).
    + destruct s; (eexists; split; [reflexivity|]; split; [intros [U|U]; discriminate U|split; [intros L; try reflexivity; cbn in L; intuition congruence|intros [L|L]; cbn in L; try (intuition congruence); apply same_refl]]).
  - destruct y as [|s'|s' m' k'].
    + eexists. split; [reflexivity|]. split; [reflexivity|]. split; [intros L; destruct L|intros [L|L]; destruct L].
    + destruct s'; (eexists; split; [reflexivity|]; split; [intros [U|U]; discriminate U|split; [intros L; try reflexivity; cbn in L; intuition congruence|intros [L|L]; cbn in L; try (intuition congruence); apply same_refl]]).
    + cbn [is_nan]. change (truth 0 || truth 0) with false. cbn match.
      eexists. split; [reflexivity|]. split; [intros [U|U]; discriminate U|]. cbn [member] in Hx, Hy. unfold fp_sub. cbn [fp_neg fp_add].
      set (j := Z.min k k'). set (n := units j s m k + units j (negb s') m' k').
      assert (n = units j s m k - units j s' m' k') as En by (unfold n, units; destruct s'; cbn [signed_int negb]; ring).
      match goal with |- context [round_dyadic f rm ?z n j] => set (zero := z) end.
      pose proof (round_dyadic_nonzero f rm zero n j Hf) as NZ. split.
      * intros L. apply (less_units _ _ _ _ _ _ j) in L; [|lia|lia]. specialize (NZ ltac:(lia) ltac:(lia)). cbn zeta in NZ. destruct NZ as [_ NZ]. rewrite (proj2 (Z.ltb_ge n 0)) in NZ by lia. apply select_pos. exact NZ.
      * intros A. assert (units j s m k <= units j s' m' k') as LE by (apply at_most_fin; [lia|lia|exact A]). destruct (Z.eq_dec n 0) as [N0|N0].
        -- rewrite N0. unfold round_dyadic. cbn [Z.eqb]. unfold fp_select. cbn [is_zero Z.eqb sign andb]. destruct zero eqn:EZ; cbn [xorb]; [|apply same_refl]. rewrite Hz; [apply same_refl|apply (equal_fin _ _ _ _ _ _ j); lia|].
           unfold minus_zero. cbn [sign]. subst zero. destruct s, s'; cbn [negb Bool.eqb] in *; try congruence; destruct rm; congruence.
        -- specialize (NZ N0 ltac:(lia)). cbn zeta in NZ. destruct NZ as [_ NZ]. rewrite (proj2 (Z.ltb_lt n 0)) in NZ by lia. rewrite select_neg by (right; exact NZ). apply same_refl.
Qed.
Lemma not_less : forall a b, a <> NaN -> b <> NaN -> fp_lt a b = false -> at_most b a.
Proof.
  intros a b Ha Hb H. destruct a as [|s|s m k], b as [|s'|s' m' k']; try congruence.
  - destruct s, s'; cbn in H; try discriminate; unfold at_most; cbn; auto.
  - cbn in H. subst s. left. reflexivity.
  - destruct s'; cbn in *; [left; reflexivity|discriminate].
  - apply (at_most_fin _ _ _ _ _ _ (Z.min k k')); [lia|lia|]. assert (~ units (Z.min k k') s m k < units (Z.min k k') s' m' k') as N.
    { intros L. assert (fp_lt (Fin s m k) (Fin s' m' k') = true) by (apply lt_iff; apply (less_fin _ _ _ _ _ _ (Z.min k k')); [lia|lia|exact L]). congruence. }
    lia.
Qed.
Lemma at_most_refl : forall a, a <> NaN -> at_most a a.
Proof. intros [|s|s m k] H; [congruence| |]; right; cbn; auto. Qed.
Lemma at_most_zeros : forall a b, is_zero a = true -> is_zero b = true -> at_most a b.
Proof. intros [|s|s m k] [|s'|s' m' k'] A B; try discriminate. cbn in A, B. apply Z.eqb_eq in A, B. subst. apply (at_most_fin _ _ _ _ _ _ (Z.min k k')); [lia|lia|]. unfold units. destruct s, s'; cbn [signed_int]; lia. Qed.
Lemma zero_same : forall a z, is_zero a = true -> sign a = z -> same_datum (Fin z 0 0) a.
Proof. intros [|s|s m k] z A <-; try discriminate. cbn in A. apply Z.eqb_eq in A. subst. apply (same_fin _ _ _ _ _ _ (Z.min 0 k)); [lia|lia|]. split; [reflexivity|lia]. Qed.
Lemma select_cases : forall o attr t x y first, x <> NaN -> y <> NaN -> let r := fp_select o attr t x y first in
  (r = (if first then x else y)) \/ (is_zero x = true /\ is_zero y = true /\ exists z, r = Fin z 0 0 /\ (same_datum r x \/ same_datum r y)).
Proof.
  intros o attr t x y first Hx Hy r. assert (r = if is_zero x && is_zero y && xorb (sign x) (sign y) then Fin (o_zero o attr t (sign x)) 0 0 else if first then x else y) as E by (unfold r, fp_select; destruct x, y; congruence).
  destruct (is_zero x && is_zero y && xorb (sign x) (sign y)) eqn:C; [right|left; exact E]. apply andb_prop in C. destruct C as [C S]. apply andb_prop in C. destruct C as [C1 C2]. split; [exact C1|]. split; [exact C2|].
  exists (o_zero o attr t (sign x)). split; [exact E|]. rewrite E. set (z := o_zero o attr t (sign x)). destruct (Bool.bool_dec z (sign x)) as [Z1|Z1]; [left|right]; apply zero_same; auto. destruct z, (sign x), (sign y); cbn in *; congruence.
Qed.
Lemma fmin_spec : forall o t x y, is_fmin x y (fp_select o "fp.min" t x y (negb (fp_lt y x))).
Proof.
  intros o t x y. destruct x as [|s|s m k] eqn:Ex; [reflexivity| |]; destruct y as [|s'|s' m' k'] eqn:Ey; try reflexivity; rewrite <- Ex, <- Ey; assert (x <> NaN) as Nx by congruence; assert (y <> NaN) as Ny by congruence;
    (replace (is_fmin x y) with (fun r => (same_datum r x \/ same_datum r y) /\ at_most r x /\ at_most r y) by (rewrite Ex, Ey; reflexivity)); cbn beta; clear Ex Ey;
    (destruct (select_cases o "fp.min" t x y (negb (fp_lt y x)) Nx Ny) as [E|(Zx & Zy & z & E & S)]; rewrite E in *;
      [destruct (fp_lt y x) eqn:L; cbn [negb];
        [split; [right; apply same_refl|split; [left; apply lt_iff; exact L|apply at_most_refl; exact Ny]]
        |split; [left; apply same_refl|split; [apply at_most_refl; exact Nx|apply not_less; assumption]]]
      |split; [exact S|split; apply at_most_zeros; auto]]).
Qed.
Lemma fmax_spec : forall o t x y, is_fmax x y (fp_select o "fp.max" t x y (negb (fp_lt x y))).
Proof.
  intros o t x y. destruct x as [|s|s m k] eqn:Ex; [reflexivity| |]; destruct y as [|s'|s' m' k'] eqn:Ey; try reflexivity; rewrite <- Ex, <- Ey; assert (x <> NaN) as Nx by congruence; assert (y <> NaN) as Ny by congruence;
    (replace (is_fmax x y) with (fun r => (same_datum r x \/ same_datum r y) /\ at_most x r /\ at_most y r) by (rewrite Ex, Ey; reflexivity)); cbn beta; clear Ex Ey;
    (destruct (select_cases o "fp.max" t x y (negb (fp_lt x y)) Nx Ny) as [E|(Zx & Zy & z & E & S)]; rewrite E in *;
      [destruct (fp_lt x y) eqn:L; cbn [negb];
        [split; [right; apply same_refl|split; [left; apply lt_iff; exact L|apply at_most_refl; exact Ny]]
        |split; [left; apply same_refl|split; [apply at_most_refl; exact Nx|apply not_less; assumption]]]
      |split; [exact S|split; apply at_most_zeros; auto]]).
Qed.
Lemma remainder_spec : forall f x y, member f x -> member f y -> is_remainder x y (fp_remainder x y).
Proof.
  intros f [|s|s m k] [|s'|s' m' k'] Hx Hy; try reflexivity; [apply same_refl|]. unfold is_remainder, fp_remainder. destruct (Z.eqb_spec m' 0) as [E0|E0]; [reflexivity|].
  cbn [member] in Hx, Hy. set (j := Z.min k k'). set (a := m * 2 ^ (k - j)). set (b := m' * 2 ^ (k' - j)).
  assert (0 <= a) as A0 by (apply Z.mul_nonneg_nonneg; [lia|apply Z.pow_nonneg; lia]). assert (0 < b) as B0 by (apply Z.mul_pos_pos; [lia|apply pow_pos; lia]).
  set (n := round_int RNE s a b). set (r := a - b * n).
  assert (2 * Z.abs r <= b /\ (2 * Z.abs r = b -> Z.even n = true)) as [HR HE].
  { unfold r, n, round_int. cbn [round_up]. destruct (div_facts a b B0) as (q & u & -> & -> & Ea & Hu).
    destruct (Z.ltb_spec b (2 * u)); cbn [orb]; [split; [|intros]; replace (a - b * (q + 1)) with (u - b) in * by (rewrite Ea; ring); lia|].
    destruct (Z.eqb_spec b (2 * u)); cbn [andb].
    - destruct (Z.odd q) eqn:O; [replace (a - b * (q + 1)) with (u - b) in * by (rewrite Ea; ring); split; [lia|]; intros _; rewrite Z.even_add, <- Z.negb_odd, O; reflexivity|].
      replace (a - b * q) with u in * by (rewrite Ea; ring). split; [lia|]. intros _. rewrite <- Z.negb_odd, O. reflexivity.
    - replace (a - b * q) with u in * by (rewrite Ea; ring). split; [lia|]. intros. lia. }
  assert (units (j - 1) false m' (k' - 1) = b) as UB by (unfold units, b; cbn [signed_int]; f_equal; f_equal; lia).
  assert (forall z, units (j - 1) z (Z.abs r) j = 2 * signed_int z (Z.abs r)) as UR by (intros; unfold units; replace (j - (j - 1)) with 1 by lia; rewrite Z.pow_1_r; lia).
  cbn [fp_abs is_zero sign]. split; [eexists _, _, _; reflexivity|]. split; [|split].
  - apply (at_most_fin _ _ _ _ _ _ (j - 1)); [lia|lia|]. rewrite UB, UR. cbn [signed_int]. lia.
  - intros Z0. apply Z.eqb_eq in Z0. rewrite (proj2 (Z.eqb_eq r 0)) by lia. reflexivity.
  - exists (if xorb s s' then - n else n). split.
    + apply (combination_at _ _ _ _ _ _ _ _ _ _ j); [lia|lia|lia|]. unfold units. rewrite Z.sub_diag, Z.pow_0_r, Z.mul_1_r.
      replace (signed_int s m * 2 ^ (k - j)) with (signed_int s a) by (unfold a; destruct s; cbn [signed_int]; ring). replace (signed_int s' m' * 2 ^ (k' - j)) with (signed_int s' b) by (unfold b; destruct s'; cbn [signed_int]; ring).
      assert (signed_int (if r =? 0 then s else xorb s (r <? 0)) (Z.abs r) = signed_int s r) as -> by (destruct (Z.eqb_spec r 0) as [-> |]; [destruct s; reflexivity|]; destruct (Z.ltb_spec r 0), s; cbn [signed_int xorb]; lia).
      unfold r. destruct s, s'; cbn [signed_int xorb]; ring.
    + intros E. apply (equal_units _ _ _ _ _ _ (j - 1)) in E; [|lia|lia]. rewrite UB, UR in E. cbn [signed_int] in E. destruct (xorb s s'); rewrite ?Z.even_opp; apply HE; lia.
Qed.

(** ** Encodings: [bits_ok] can be met. *)
Definition compose (E p : Z) (s : bool) (e fr : Z) : Z := (if s then 2 ^ (E + p - 1) else 0) + e * 2 ^ (p - 1) + fr.
Definition encode (f : format) (x : fpval) : Z :=
  match x with
  | NaN => compose (f_E f) (f_p f) false (2 ^ f_E f - 1) 1
  | Inf s => compose (f_E f) (f_p f) s (2 ^ f_E f - 1) 0
  | Fin s m k =>
      let M := m * 2 ^ pos (k - f_kmin f) / 2 ^ pos (f_kmin f - k) in
      if M <? 2 ^ (f_p f - 1) then compose (f_E f) (f_p f) s 0 M
      else let q := Z.log2 M - (f_p f - 1) in compose (f_E f) (f_p f) s (q + 1) (M / 2 ^ q - 2 ^ (f_p f - 1))
  end.
Lemma ieee_compose : forall E p s e fr, 0 < E -> 0 < p -> 0 <= e < 2 ^ E -> 0 <= fr < 2 ^ (p - 1) ->
  0 <= compose E p s e fr < 2 ^ (E + p) /\
  ieee E p (compose E p s e fr) = (if e =? 2 ^ E - 1 then (if fr =? 0 then Inf s else NaN) else if e =? 0 then Fin s fr (1 - (2 ^ (E - 1) - 1) - (p - 1)) else Fin s (2 ^ (p - 1) + fr) (e - (2 ^ (E - 1) - 1) - (p - 1))).
Proof.
  intros E p s e fr HE Hp He Hfr. pose proof (pow_pos E ltac:(lia)) as PE. pose proof (pow_pos (p - 1) ltac:(lia)) as PP. set (P := 2 ^ (p - 1)) in *.
  assert (2 ^ (E + p - 1) = 2 ^ E * P) as ET by (unfold P; rewrite <- Z.pow_add_r by lia; f_equal; lia). assert (2 ^ (E + p) = 2 * (2 ^ E * P)) as EW by (rewrite <- ET, <- Z.pow_succ_r by lia; f_equal; lia).
  assert (0 <= e * P + fr < 2 ^ E * P) as B by nia. set (b := compose E p s e fr). assert (b = (if s then 1 else 0) * (2 ^ E * P) + (e * P + fr)) as Eb by (unfold b, compose; rewrite ET; fold P; destruct s; ring).
  split; [rewrite EW, Eb; destruct s; lia|]. unfold ieee. fold P. rewrite ET.
  assert (b / (2 ^ E * P) = if s then 1 else 0) as -> by (symmetry; apply (Z.div_unique _ _ _ (e * P + fr)); [left; exact B|rewrite Eb; ring]).
  assert (b / P = (if s then 1 else 0) * 2 ^ E + e) as -> by (symmetry; apply (Z.div_unique _ _ _ fr); [left; exact Hfr|rewrite Eb; ring]).
  assert (b mod P = fr) as -> by (symmetry; apply (Z.mod_unique _ _ ((if s then 1 else 0) * 2 ^ E + e)); [left; exact Hfr|rewrite Eb; ring]).
  rewrite Z.add_comm, Z.mod_add, Z.mod_small by lia. destruct s; reflexivity.
Qed.
Lemma encode_spec : forall f x, format_ok f -> (exists y, member f y /\ same_datum x y) -> 0 <= encode f x < 2 ^ (f_E f + f_p f) /\ same_datum (ieee (f_E f) (f_p f) (encode f x)) x.
Proof.
  intros f x (HE & Hp & Hpe) (y & Hy & S). set (E := f_E f) in *. set (p := f_p f) in *.
  assert (4 <= 2 ^ E) as P4 by (change 4 with (2 ^ 2); apply Z.pow_le_mono_r; lia). pose proof (pow_pos (p - 1) ltac:(lia)) as PP. assert (2 <= 2 ^ (p - 1)) as P2 by (change 2 with (2 ^ 1) at 1; apply Z.pow_le_mono_r; lia).
  assert (2 ^ p = 2 * 2 ^ (p - 1)) as EP by (rewrite <- Z.pow_succ_r by lia; f_equal; lia). assert (2 ^ E = 2 * 2 ^ (E - 1)) as EE by (rewrite <- Z.pow_succ_r by lia; f_equal; lia).
  destruct x as [|s|s m k].
  - unfold encode. fold E p. destruct (ieee_compose E p false (2 ^ E - 1) 1) as [B ->]; [lia|lia|lia|lia|]. split; [exact B|]. rewrite Z.eqb_refl. exact I.
  - unfold encode. fold E p. destruct (ieee_compose E p s (2 ^ E - 1) 0) as [B ->]; [lia|lia|lia|lia|]. split; [exact B|]. rewrite Z.eqb_refl. reflexivity.
  - destruct y as [|s0|s0 m0 k0]; try contradiction. pose proof (same_sign _ _ S) as Es. cbn in Es. subst s0. cbn [member] in Hy. fold p in Hy. destruct Hy as [Hm Hk].
    assert (f_kmin f = 3 - 2 ^ (E - 1) - p) as KM by reflexivity. assert (f_emax f = 2 ^ (E - 1)) as KX by reflexivity. set (km := f_kmin f) in *. set (P0 := 2 ^ (k0 - km)). assert (0 < P0) as HP0 by (apply pow_pos; lia).
    assert (m * 2 ^ pos (k - km) / 2 ^ pos (km - k) = m0 * P0) as EM.
    { set (l := Z.min k km). apply (same_fwd _ _ _ _ _ _ l) in S; [|lia|lia]. destruct S as [_ S]. unfold pos. destruct (Z.le_ge_cases km k) as [L|L].
      - replace (Z.max 0 (km - k)) with 0 by lia. replace (Z.max 0 (k - km)) with (k - l) by lia. rewrite Z.pow_0_r, Z.div_1_r, S. unfold P0. f_equal. f_equal. lia.
      - replace (Z.max 0 (k - km)) with 0 by lia. replace (Z.max 0 (km - k)) with (km - l) by lia. rewrite Z.pow_0_r, Z.mul_1_r. replace (k - l) with 0 in S by lia. rewrite Z.pow_0_r, Z.mul_1_r in S. rewrite S.
        replace (k0 - l) with (k0 - km + (km - l)) by lia. rewrite Z.pow_add_r, Z.mul_assoc, Z.div_mul by (try lia; pose proof (pow_pos (km - l) ltac:(lia)); lia). reflexivity. }
    assert (same_datum (Fin s (m0 * P0) km) (Fin s m k)) as SM.
    { eapply same_trans; [|apply same_sym; exact S]. apply (same_fin _ _ _ _ _ _ km); [lia|lia|]. split; [reflexivity|]. rewrite Z.sub_diag, Z.pow_0_r. unfold P0. ring. }
    unfold encode. fold E p km. rewrite EM. set (M := m0 * P0) in *. destruct (Z.ltb_spec M (2 ^ (p - 1))) as [L|L].
    + assert (0 <= M) by (apply Z.mul_nonneg_nonneg; lia). destruct (ieee_compose E p s 0 M) as [B ->]; [lia|lia|lia|lia|]. split; [exact B|]. rewrite (proj2 (Z.eqb_neq 0 (2 ^ E - 1))) by lia. rewrite Z.eqb_refl.
      replace (1 - (2 ^ (E - 1) - 1) - (p - 1)) with km by lia. exact SM.
    + assert (0 < m0) as M0 by (destruct (Z.eq_dec m0 0) as [Z0|]; [exfalso; unfold M in L; rewrite Z0 in L; lia|lia]).
      assert (Z.log2 M = Z.log2 m0 + (k0 - km)) as LM by (unfold M, P0; rewrite Z.log2_mul_pow2 by lia; lia).
      assert (Z.log2 m0 < p) as LP by (apply Z.log2_lt_pow2; lia). assert (p - 1 <= Z.log2 M) as LL by (apply Z.log2_le_pow2; lia).
      set (q := Z.log2 M - (p - 1)). assert (0 <= q <= k0 - km) as Hq by lia. pose proof (pow_pos q ltac:(lia)) as PQ.
      set (c := m0 * 2 ^ (k0 - km - q)). assert (M = c * 2 ^ q) as MC by (unfold M, P0, c; rewrite <- Z.mul_assoc, <- Z.pow_add_r by lia; f_equal; f_equal; lia).
      pose proof (Z.log2_spec M ltac:(lia)) as LS. replace (Z.log2 M) with (p - 1 + q) in LS by lia. replace (Z.succ (p - 1 + q)) with (p + q) in LS by lia. rewrite !Z.pow_add_r in LS by lia.
      assert (M / 2 ^ q = c) as -> by (rewrite MC; apply Z.div_mul; lia). assert (2 ^ (p - 1) <= c < 2 ^ p) as Hc by (clear - MC LS PQ; rewrite MC in LS; split; [apply (Z.mul_le_mono_pos_r _ _ (2 ^ q)); lia|apply (Z.mul_lt_mono_pos_r (2 ^ q)); lia]).
      destruct (ieee_compose E p s (q + 1) (c - 2 ^ (p - 1))) as [B ->]; [lia|lia|lia|lia|]. split; [exact B|]. rewrite (proj2 (Z.eqb_neq (q + 1) (2 ^ E - 1))), (proj2 (Z.eqb_neq (q + 1) 0)) by lia.
      eapply same_trans; [|exact SM]. apply (same_fin _ _ _ _ _ _ km); [lia|lia|]. split; [reflexivity|]. rewrite MC, Z.sub_diag, Z.pow_0_r, Z.mul_1_r. f_equal; [lia|]. f_equal. lia.
Qed.
Definition encoder : solver :=
  Solver (fun _ _ s => s) (fun _ _ _ => 0) (fun _ _ x => x) (fun _ _ x _ _ => x) (fun t x => encode (layout t) x) (fun t b => NaN) (fun _ _ _ _ _ => 0) (fun _ _ _ _ _ => NaN).
Lemma encoder_ok : forall t, bits_ok encoder (llvm t).
Proof. intros t x H. destruct (width_eq t) as (W & _). rewrite <- W. apply (encode_spec (layout (llvm t)) x (layout_ok t) H). Qed.
