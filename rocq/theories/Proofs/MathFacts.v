(** Facts about data, their order and integral parts, for Props/MathProps.v. *)
From Coq Require Import ZArith List Bool Lia.
From Verif.Spec Require Import TraceValues IEEE FloatArith CMath.
From Verif.Proofs Require Import Rounding.
Open Scope Z_scope.

(** ** Units *)
Lemma units_split : forall j j' s m k, j <= j' -> j' <= k -> units j s m k = units j' s m k * 2 ^ (j' - j).
Proof. intros. unfold units. rewrite <- Z.mul_assoc, <- Z.pow_add_r by lia. f_equal. f_equal. lia. Qed.
Lemma less_fin : forall s m k s' m' k' j, j <= k -> j <= k' -> (less (Fin s m k) (Fin s' m' k') <-> units j s m k < units j s' m' k').
Proof.
  intros s m k s' m' k' j H H'. split; [intros L; apply (L j H H')|]. intros L i Hi Hi'. change (units i s m k < units i s' m' k').
  set (l := Z.min i j). assert (units l s m k < units l s' m' k') as Hl.
  { rewrite (units_split l j s m k), (units_split l j s' m' k') by lia. apply Z.mul_lt_mono_pos_r; [apply pow_pos; lia|exact L]. }
  rewrite (units_split l i s m k), (units_split l i s' m' k') in Hl by lia. apply Z.mul_lt_mono_pos_r in Hl; [exact Hl|apply pow_pos; lia].
Qed.
Lemma equal_fin : forall s m k s' m' k' j, j <= k -> j <= k' -> (equal (Fin s m k) (Fin s' m' k') <-> units j s m k = units j s' m' k').
Proof.
  intros s m k s' m' k' j H H'. split; [intros L; apply (L j H H')|]. intros L i Hi Hi'. change (units i s m k = units i s' m' k').
  set (l := Z.min i j). assert (units l s m k = units l s' m' k') as Hl.
  { rewrite (units_split l j s m k), (units_split l j s' m' k') by lia. rewrite L. reflexivity. }
  rewrite (units_split l i s m k), (units_split l i s' m' k') in Hl by lia. apply Z.mul_cancel_r in Hl; [exact Hl|]. pose proof (pow_pos (i - l) ltac:(lia)). lia.
Qed.
Lemma at_most_fin : forall s m k s' m' k' j, j <= k -> j <= k' -> (at_most (Fin s m k) (Fin s' m' k') <-> units j s m k <= units j s' m' k').
Proof. intros. unfold at_most. rewrite (less_fin _ _ _ _ _ _ j), (equal_fin _ _ _ _ _ _ j) by assumption. lia. Qed.
Lemma combination_at : forall s m k s' m' k' s'' m'' k'' n j, j <= k -> j <= k' -> j <= k'' ->
  units j s m k = n * units j s' m' k' + units j s'' m'' k'' -> combination (Fin s m k) (Fin s' m' k') (Fin s'' m'' k'') n.
Proof.
  intros s m k s' m' k' s'' m'' k'' n j H H' H'' E i Hi Hi' Hi''. set (l := Z.min i j).
  assert (units l s m k = n * units l s' m' k' + units l s'' m'' k'') as El.
  { rewrite (units_split l j s m k), (units_split l j s' m' k'), (units_split l j s'' m'' k'') by lia. rewrite E. ring. }
  rewrite (units_split l i s m k), (units_split l i s' m' k'), (units_split l i s'' m'' k'') in El by lia.
  apply (Z.mul_cancel_r _ _ (2 ^ (i - l))); [pose proof (pow_pos (i - l) ltac:(lia)); lia|]. rewrite El. ring.
Qed.
Lemma same_fin : forall s m k s' m' k' j, j <= k -> j <= k' -> (same_datum (Fin s m k) (Fin s' m' k') <-> s = s' /\ m * 2 ^ (k - j) = m' * 2 ^ (k' - j)).
Proof.
  intros s m k s' m' k' j H H'. cbn [same_datum same_number]. set (l := Z.min k k').
  assert (forall a b : Z, a * 2 ^ (k - j) = b * 2 ^ (k' - j) <-> a * 2 ^ (k - l) = b * 2 ^ (k' - l)) as E.
  { intros a b. replace (k - j) with ((k - l) + (l - j)) by lia. replace (k' - j) with ((k' - l) + (l - j)) by lia. rewrite !Z.pow_add_r by lia. rewrite !Z.mul_assoc.
    split; intros Q; [apply Z.mul_cancel_r in Q; [exact Q|pose proof (pow_pos (l - j) ltac:(lia)); lia]|rewrite Q; reflexivity]. }
  rewrite E. reflexivity.
Qed.
Lemma same_refl : forall x, same_datum x x.
Proof. intros [|s|s m k]; cbn; auto. Qed.
Lemma same_sym : forall x y, same_datum x y -> same_datum y x.
Proof.
  intros [|s|s m k] [|s'|s' m' k'] H; try exact H; try contradiction; [cbn in *; congruence|].
  apply (same_fin _ _ _ _ _ _ (Z.min k k')) in H; [|lia|lia]. apply (same_fin _ _ _ _ _ _ (Z.min k k')); [lia|lia|]. destruct H as [-> E]. split; [reflexivity|symmetry; exact E].
Qed.
Lemma same_trans : forall x y z, same_datum x y -> same_datum y z -> same_datum x z.
Proof.
  intros [|s|s m k] [|s'|s' m' k'] [|s''|s'' m'' k''] H H'; try contradiction; auto; [cbn in *; congruence|].
  set (j := Z.min k (Z.min k' k'')). apply (same_fin _ _ _ _ _ _ j) in H; [|lia|lia]. apply (same_fin _ _ _ _ _ _ j) in H'; [|lia|lia]. apply (same_fin _ _ _ _ _ _ j); [lia|lia|]. destruct H as [-> E], H' as [-> E']. split; [reflexivity|rewrite E; exact E'].
Qed.
Lemma same_sign : forall x y, same_datum x y -> sign x = sign y.
Proof. intros [|s|s m k] [|s'|s' m' k'] H; try contradiction; cbn in *; intuition congruence. Qed.
Lemma same_neg : forall x y, same_datum x y -> same_datum (fp_neg x) (fp_neg y).
Proof. intros [|s|s m k] [|s'|s' m' k'] H; try contradiction; cbn in *; intuition congruence. Qed.
Lemma same_abs : forall x y, same_datum x y -> same_datum (fp_abs x) (fp_abs y).
Proof. intros [|s|s m k] [|s'|s' m' k'] H; try contradiction; cbn in *; intuition congruence. Qed.
Lemma signed_abs : forall n, signed_int (n <? 0) (Z.abs n) = n.
Proof. intros. destruct (Z.ltb_spec n 0); cbn [signed_int]; lia. Qed.
Lemma units_same : forall s m k s' m' k' j, same_datum (Fin s m k) (Fin s' m' k') -> j <= k -> j <= k' -> units j s m k = units j s' m' k'.
Proof. intros s m k s' m' k' j H Hk Hk'. apply (same_fin _ _ _ _ _ _ j) in H; [|lia|lia]. destruct H as [-> E]. unfold units. destruct s'; cbn [signed_int]; [rewrite !Z.mul_opp_l, E|rewrite E]; reflexivity. Qed.

(** ** Integral values *)
Lemma div_facts : forall m B, 0 < B -> exists q r, m / B = q /\ m mod B = r /\ m = B * q + r /\ 0 <= r < B.
Proof. intros m B H. exists (m / B), (m mod B). pose proof (Z.div_mod m B ltac:(lia)). pose proof (Z.mod_pos_bound m B H). auto. Qed.
Lemma rint_spec : forall rm s m k, 0 <= m -> to_integral (is_rint rm) (Fin s m k) (fp_round_integral rm (Fin s m k)).
Proof.
  intros rm s m k Hm. cbn [fp_round_integral to_integral]. destruct (Z.leb_spec 0 k) as [Hk|Hk].
  - exists (signed_int s m * 2 ^ k). split; [|split; [eexists _, _, _; reflexivity|split; [apply (equal_fin _ _ _ _ _ _ 0); [lia|lia|]; unfold units; rewrite signed_abs, !Z.sub_0_r, Z.pow_0_r; ring|reflexivity]]].
    set (n := signed_int s m * 2 ^ k).
    assert (forall c, less (Fin s m k) (int_datum c) <-> n < c) as L1 by (intros c; unfold int_datum; rewrite (less_fin _ _ _ _ _ _ 0) by lia; unfold units; rewrite signed_abs, !Z.sub_0_r, Z.pow_0_r; fold n; lia).
    assert (forall c, less (int_datum c) (Fin s m k) <-> c < n) as L2 by (intros c; unfold int_datum; rewrite (less_fin _ _ _ _ _ _ 0) by lia; unfold units; rewrite signed_abs, !Z.sub_0_r, Z.pow_0_r; fold n; lia).
    assert (forall c, at_most (Fin s m k) (int_datum c) <-> n <= c) as L3 by (intros c; unfold int_datum; rewrite (at_most_fin _ _ _ _ _ _ 0) by lia; unfold units; rewrite signed_abs, !Z.sub_0_r, Z.pow_0_r; fold n; lia).
    assert (forall c, at_most (int_datum c) (Fin s m k) <-> c <= n) as L4 by (intros c; unfold int_datum; rewrite (at_most_fin _ _ _ _ _ _ 0) by lia; unfold units; rewrite signed_abs, !Z.sub_0_r, Z.pow_0_r; fold n; lia).
    assert (units (-1) s m k = 2 * n) as U by (unfold units, n; replace (k - -1) with (Z.succ k) by lia; rewrite Z.pow_succ_r by lia; ring).
    assert (forall c, units (-1) (c <? 0) (Z.abs c) (-1) = c) as Uc by (intros c; unfold units; rewrite signed_abs; cbn [Z.sub Z.opp Z.add Z.pos_sub]; rewrite Z.pow_0_r; ring).
    assert (forall c, at_most (Fin s m k) (half_datum c) <-> 2 * n <= c) as L5 by (intros c; unfold half_datum; rewrite (at_most_fin _ _ _ _ _ _ (-1)) by lia; rewrite U, Uc; lia).
    assert (forall c, at_most (half_datum c) (Fin s m k) <-> c <= 2 * n) as L6 by (intros c; unfold half_datum; rewrite (at_most_fin _ _ _ _ _ _ (-1)) by lia; rewrite U, Uc; lia).
    assert (forall c, equal (Fin s m k) (half_datum c) <-> 2 * n = c) as L7 by (intros c; unfold half_datum; rewrite (equal_fin _ _ _ _ _ _ (-1)) by lia; rewrite U, Uc; lia).
    destruct rm; unfold is_rint, is_round_even, is_round, is_ceil, is_floor, is_trunc, is_nearest; rewrite ?L1, ?L2, ?L3, ?L4, ?L5, ?L6, ?L7; try lia.
    cbn [sign]. destruct s; unfold is_ceil, is_floor; rewrite ?L1, ?L2, ?L3, ?L4; lia.
  - set (B := 2 ^ (- k)). assert (0 < B) as HB by (apply pow_pos; lia). set (i := round_int rm s m B). exists (signed_int s i).
    assert (0 <= i) as Hi by (unfold i; pose proof (round_int_bounds rm s m B HB); pose proof (Z.div_pos m B Hm HB); lia).
    split; [|split; [eexists _, _, _; reflexivity|split; [apply (equal_fin _ _ _ _ _ _ 0); [lia|lia|]; unfold units; rewrite signed_abs; reflexivity|reflexivity]]].
    set (X := signed_int s m). set (n := signed_int s i).
    assert (units k s m k = X) as UX by (unfold units, X; rewrite Z.sub_diag, Z.pow_0_r; ring).
    assert (forall c, units k (c <? 0) (Z.abs c) 0 = c * B) as Uc by (intros c; unfold units, B; rewrite signed_abs; reflexivity).
    assert (forall c, 2 * units k (c <? 0) (Z.abs c) (-1) = c * B) as Uh by (intros c; unfold units, B; rewrite signed_abs; replace (- k) with (Z.succ (-1 - k)) by lia; rewrite Z.pow_succ_r by lia; ring).
    assert (forall c, less (Fin s m k) (int_datum c) <-> X < c * B) as L1 by (intros c; unfold int_datum; rewrite (less_fin _ _ _ _ _ _ k) by lia; rewrite UX, Uc; lia).
    assert (forall c, less (int_datum c) (Fin s m k) <-> c * B < X) as L2 by (intros c; unfold int_datum; rewrite (less_fin _ _ _ _ _ _ k) by lia; rewrite UX, Uc; lia).
    assert (forall c, at_most (Fin s m k) (int_datum c) <-> X <= c * B) as L3 by (intros c; unfold int_datum; rewrite (at_most_fin _ _ _ _ _ _ k) by lia; rewrite UX, Uc; lia).
    assert (forall c, at_most (int_datum c) (Fin s m k) <-> c * B <= X) as L4 by (intros c; unfold int_datum; rewrite (at_most_fin _ _ _ _ _ _ k) by lia; rewrite UX, Uc; lia).
    assert (forall c, at_most (Fin s m k) (half_datum c) <-> 2 * X <= c * B) as L5 by (intros c; unfold half_datum; rewrite (at_most_fin _ _ _ _ _ _ k) by lia; rewrite UX; specialize (Uh c); lia).
    assert (forall c, at_most (half_datum c) (Fin s m k) <-> c * B <= 2 * X) as L6 by (intros c; unfold half_datum; rewrite (at_most_fin _ _ _ _ _ _ k) by lia; rewrite UX; specialize (Uh c); lia).
    assert (forall c, equal (Fin s m k) (half_datum c) <-> 2 * X = c * B) as L7 by (intros c; unfold half_datum; rewrite (equal_fin _ _ _ _ _ _ k) by lia; rewrite UX; specialize (Uh c); lia).
    clearbody B. clear UX Uc Uh. unfold n. clear n. unfold i, round_int in *. clear i. destruct (div_facts m B HB) as (q & r & Eq & Er & Em & Hr). rewrite Eq, Er in *.
    assert (Z.even (q + 1) = negb (Z.even q)) as Ev by (rewrite Z.even_add; destruct (Z.even q); reflexivity).
    assert (Z.odd q = negb (Z.even q)) as Od by (rewrite Z.negb_even; reflexivity).
    destruct rm; unfold is_rint, is_round_even, is_round, is_ceil, is_floor, is_trunc, is_nearest, round_up in *; rewrite ?L1, ?L2, ?L3, ?L4, ?L5, ?L6, ?L7; cbn [sign] in *.
    + destruct (Z.ltb_spec B (2 * r)); [|destruct (Z.eqb_spec B (2 * r)); [|]]; cbn [orb andb] in *; unfold X; destruct s; cbn [signed_int]; try (split; [nia|intros [?|?]; nia]).
      all: rewrite Od in *; destruct (Z.even q) eqn:Eq'; cbn [negb] in *; (split; [nia|intros _; rewrite ?Z.even_opp; congruence]).
    + destruct (Z.leb_spec B (2 * r)); unfold X; destruct s; cbn [signed_int]; (split; [nia|split; intros; (reflexivity || exfalso; nia)]).
    + unfold X; destruct s; cbn [signed_int negb andb]; [nia|]. destruct (Z.ltb_spec 0 r); nia.
    + unfold X; destruct s; cbn [signed_int negb andb]; [|nia]. destruct (Z.ltb_spec 0 r); nia.
    + unfold X; destruct s; cbn [signed_int]; unfold is_ceil, is_floor; rewrite ?L1, ?L2, ?L3, ?L4; unfold X; cbn [signed_int]; nia.
Qed.
Lemma integral_spec : forall rm x f, member f x -> to_integral (is_rint rm) x (fp_round_integral rm x).
Proof. intros rm [|s|s m k] f H; [reflexivity|reflexivity|]. apply rint_spec. cbn in H. lia. Qed.
