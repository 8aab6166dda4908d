From Coq Require Import ZArith List String Bool Lia ZifyBool.
From Verif.Base Require Import ZBits.
From Verif.Spec Require Import LLVMInt IR Encodings.
From Verif.Model Require Import Boogie PreludeInt SmackRepInt RewriteBitwise.
From Verif.Proofs Require Import Lookup PreludeCalls ExprSim IntEncodings IntMain.
Import ListNotations.
Open Scope string_scope.
Open Scope Z_scope.

(** ** Routines, machine reading *)
Section Wrap.
  Context (N : Z) (HN : 1 <= N).
  Notation w := (to_signed N).
  Definition srange (z : Z) : Prop := - 2 ^ (N - 1) <= z < 2 ^ (N - 1).

  Lemma w_range : forall z, srange (w z).
  Proof. intros z. apply signed_range; [exact HN|apply pat_range; lia]. Qed.
  Lemma w_pat : forall z, pat N (w z) = pat N z.
  Proof. intros z. unfold to_signed. apply signed_pat; [exact HN|apply pat_range; lia]. Qed.
  Lemma w_id : forall z, srange z -> w z = z.
  Proof. intros z H. apply pat_signed; assumption. Qed.
  Lemma neg_bit : forall a, srange a -> (a <? 0) = (2 ^ (N - 1) <=? pat N a).
  Proof.
    intros a Ha. unfold srange in Ha. pose proof (pow2_half N HN) as E. pose proof (pow2_half_pos N HN).
    destruct (Z.ltb_spec a 0).
    - assert (pat N a = a + 2 ^ N) as -> by (unfold pat; apply mod_unique_pos with (-1); lia). lia.
    - assert (pat N a = a) as -> by (apply pat_id; unfold is_iN; lia). lia.
  Qed.
  Lemma rem_pat : forall a, srange a -> pat N (Z.rem a (2 ^ (N - 1)) + Z.rem a (2 ^ (N - 1))) = pat N (2 * a).
  Proof.
    intros a Ha. unfold srange in Ha. pose proof (pow2_half N HN) as E. pose proof (pow2_half_pos N HN).
    destruct (Z.eq_dec a (- 2 ^ (N - 1))) as [->|Ne].
    - rewrite Z.rem_opp_l by lia. rewrite Z.rem_same by lia.
      replace (-0 + -0) with 0 by lia. unfold pat. replace (2 * - 2 ^ (N - 1)) with ((-1) * 2 ^ N) by lia.
      rewrite Z.mod_mul by lia. apply Z.mod_0_l. lia.
    - assert (Z.rem a (2 ^ (N - 1)) = a) as ->; [|f_equal; lia].
      destruct (Z.le_gt_cases 0 a); [apply Z.rem_small; lia|].
      rewrite <- (Z.opp_involutive a). rewrite Z.rem_opp_l by lia. rewrite Z.rem_small by lia. lia.
  Qed.

  (** shifting on bit patterns *)
  Lemma shl_bit : forall p k, 0 <= p < 2 ^ N -> 0 <= k < N ->
    (2 ^ (N - 1) <=? pat N (p * 2 ^ k)) = Z.testbit p (N - 1 - k).
  Proof.
    intros p k Hp Hk. set (q := pat N (p * 2 ^ k)).
    assert (0 <= q < 2 ^ N) as Hq by (apply pat_range; lia).
    assert (Z.testbit q (N - 1) = Z.testbit p (N - 1 - k)) as <-.
    { unfold q, pat. rewrite Z.mod_pow2_bits_low by lia. rewrite Z.mul_pow2_bits by lia. reflexivity. }
    pose proof (pow2_half N HN) as E. pose proof (pow2_half_pos N HN) as P.
    rewrite Z.testbit_eqb by lia.
    destruct (Z.leb_spec (2 ^ (N - 1)) q).
    - assert (q / 2 ^ (N - 1) = 1) as -> by (symmetry; apply Z.div_unique with (q - 2 ^ (N - 1)); lia). reflexivity.
    - rewrite Z.div_small by lia. reflexivity.
  Qed.

  (** state after [k] rounds *)
  Definition and_inv (pa pb : Z) (k : nat) (s : Z * Z * Z) : Prop :=
    let '(a, b, c) := s in
    srange a /\ srange b /\
    pat N a = pat N (pa * 2 ^ Z.of_nat k) /\ pat N b = pat N (pb * 2 ^ Z.of_nat k) /\
    pat N c = pat N (Z.land pa pb * 2 ^ Z.of_nat k / 2 ^ N).

  Lemma and_zero_shift : forall p k, 0 <= p -> N <= k -> pat N (p * 2 ^ k) = 0.
  Proof.
    intros p k Hp Hk. unfold pat. replace k with ((k - N) + N) by lia. rewrite Z.pow_add_r by lia.
    rewrite Z.mul_assoc. apply Z.mod_mul. pose proof (pow2_pos N ltac:(lia)). lia.
  Qed.

  Lemma div_step : forall x k, 0 <= x < 2 ^ N -> 0 <= k ->
    x * 2 ^ (k + 1) / 2 ^ N = 2 * (x * 2 ^ k / 2 ^ N) + (if 2 ^ (N - 1) <=? pat N (x * 2 ^ k) then 1 else 0).
  Proof.
    intros x k Hx Hk. rewrite Z.pow_add_r by lia. change (2 ^ 1) with 2.
    set (y := x * 2 ^ k). replace (x * (2 ^ k * 2)) with (2 * y) by (unfold y; lia).
    pose proof (pow2_half N HN) as E. pose proof (pow2_half_pos N HN) as P.
    pose proof (Z.div_mod y (2 ^ N) ltac:(lia)) as D. pose proof (Z.mod_pos_bound y (2 ^ N) ltac:(lia)) as B.
    unfold pat. destruct (Z.leb_spec (2 ^ (N - 1)) (y mod 2 ^ N)).
    - symmetry. apply Z.div_unique with (2 * (y mod 2 ^ N) - 2 ^ N); lia.
    - symmetry. apply Z.div_unique with (2 * (y mod 2 ^ N)); lia.
  Qed.

  Lemma and_round_inv : forall pa pb k s, 0 <= pa < 2 ^ N -> 0 <= pb < 2 ^ N ->
    and_inv pa pb k s -> and_inv pa pb (S k) (and_round w N s).
  Proof.
    intros pa pb k [[a b] c] Ha Hb (Ra & Rb & Ea & Eb & Ec). unfold and_round, and_inv.
    assert (forall z p, srange z -> pat N z = pat N (p * 2 ^ Z.of_nat k) ->
       let z1 := w (Z.rem z (2 ^ (N - 1))) in pat N (w (z1 + z1)) = pat N (p * 2 ^ Z.of_nat (S k))) as Hshift.
    { intros z p Hz Ez z1. rewrite w_pat. rewrite <- pat_add. unfold z1. rewrite w_pat, pat_add, rem_pat by exact Hz.
      rewrite <- pat_mul, Ez, pat_mul. f_equal. replace (Z.of_nat (S k)) with (Z.of_nat k + 1) by lia.
      rewrite Z.pow_add_r by lia. change (2 ^ 1) with 2. lia. }
    split; [apply w_range|]. split; [apply w_range|]. split; [apply Hshift; assumption|].
    split; [apply Hshift; assumption|].
    assert ((2 ^ (N - 1) - 1 <? b) = false) as -> by (unfold srange in Rb; lia). rewrite orb_false_r.
    assert (0 <= Z.land pa pb < 2 ^ N) as Hl.
    { apply (llvm_binop_range And N pa pb); auto. }
    replace (Z.of_nat (S k)) with (Z.of_nat k + 1) by lia. rewrite div_step by (assumption || lia).
    set (q := Z.land pa pb * 2 ^ Z.of_nat k / 2 ^ N) in *.
    assert (pat N (w (c + c)) = pat N (2 * q)) as Hc2.
    { rewrite w_pat. rewrite <- pat_add, Ec, pat_add. f_equal. lia. }
    assert ((2 ^ (N - 1) <=? pat N (Z.land pa pb * 2 ^ Z.of_nat k)) = ((a <? 0) && (b <? 0))) as ->.
    { rewrite !neg_bit by assumption. rewrite Ea, Eb.
      destruct (Z.lt_ge_cases (Z.of_nat k) N) as [Hk|Hk].
      - rewrite !shl_bit by (assumption || lia). apply Z.land_spec.
      - rewrite !and_zero_shift by lia. pose proof (pow2_half_pos N HN).
        destruct (Z.leb_spec (2 ^ (N - 1)) 0); [lia|reflexivity]. }
    destruct (a <? 0), (b <? 0); cbn [andb]; try (rewrite Hc2; f_equal; lia).
    rewrite w_pat. rewrite <- pat_add, Hc2, pat_add. reflexivity.
  Qed.

  Lemma and_run : forall rounds a b, srange a -> srange b ->
    and_inv (pat N a) (pat N b) rounds (Nat.iter rounds (and_round w N) (a, b, 0)).
  Proof.
    induction rounds as [|k IH]; intros a b Ha Hb.
    - cbn [Nat.iter]. unfold and_inv. change (Z.of_nat 0) with 0. rewrite !Z.mul_1_r, !pat_pat. repeat split; auto; try apply Ha; try apply Hb.
      rewrite Z.div_small; [reflexivity|]. apply (llvm_binop_range And N (pat N a) (pat N b)); auto; apply pat_range; lia.
    - change (Nat.iter (S k) (and_round w N) (a, b, 0)) with (and_round w N (Nat.iter k (and_round w N) (a, b, 0))).
      apply and_round_inv; try (apply pat_range; lia). now apply IH.
  Qed.

  (** as many rounds as bits: the bitwise and *)
  Lemma and_full : forall a b, srange a -> srange b ->
    pat N (and_routine w N (Z.to_nat N) a b) = Z.land (pat N a) (pat N b).
  Proof.
    intros a b Ha Hb. unfold and_routine. pose proof (and_run (Z.to_nat N) a b Ha Hb) as H.
    destruct (Nat.iter (Z.to_nat N) (and_round w N) (a, b, 0)) as [[a' b'] c]. destruct H as (_ & _ & _ & _ & H).
    cbn [snd]. rewrite H. rewrite Z2Nat.id by lia. rewrite Z.div_mul by (pose proof (pow2_pos N ltac:(lia)); lia).
    apply pat_id. apply (llvm_binop_range And N (pat N a) (pat N b)); auto; apply pat_range; lia.
  Qed.
  (** twice as many: zero *)
  Lemma and_twice : forall a b, srange a -> srange b ->
    pat N (and_routine w N (Z.to_nat (2 * N)) a b) = 0.
  Proof.
    intros a b Ha Hb. unfold and_routine. pose proof (and_run (Z.to_nat (2 * N)) a b Ha Hb) as H.
    destruct (Nat.iter (Z.to_nat (2 * N)) (and_round w N) (a, b, 0)) as [[a' b'] c]. destruct H as (_ & _ & _ & _ & H).
    cbn [snd]. rewrite H. rewrite Z2Nat.id by lia. replace (2 * N) with (N + N) by lia. rewrite Z.pow_add_r by lia.
    rewrite Z.mul_assoc. pose proof (pow2_pos N ltac:(lia)). rewrite Z.div_mul by lia. unfold pat at 1. apply Z.mod_mul. lia.
  Qed.
  Lemma round_range : forall rounds a b, srange 0 -> srange (and_routine w N rounds a b).
  Proof.
    intros rounds a b H0. unfold and_routine. destruct rounds as [|k]; [exact H0|].
    change (Nat.iter (S k) (and_round w N) (a, b, 0)) with (and_round w N (Nat.iter k (and_round w N) (a, b, 0))).
    destruct (Nat.iter k (and_round w N) (a, b, 0)) as [[a' b'] c]. unfold and_round. cbn [snd].
    destruct (a' <? 0); [destruct (_ || _)|]; apply w_range.
  Qed.

  (** ** or *)
  (** operand after [k] doubling steps: shifted, but 2^(N-1) has become 0 *)
  Definition shifted (p : Z) (k : Z) : Z :=
    let q := pat N (p * 2 ^ k) in if (0 <? k) && (q =? 2 ^ (N - 1)) then 0 else q.
  (** does bit [j] of [p] reach the sign position? *)
  Definition kept (p j : Z) : bool := Z.testbit p j && ((j =? N - 1) || negb (p mod 2 ^ j =? 0)).

  Lemma shifted_step : forall z p k, 0 <= k -> 0 <= p -> srange z -> pat N z = shifted p k ->
    pat N (w (Z.rem (w (z + z)) (2 ^ (N - 1)))) = shifted p (k + 1) /\ srange (w (Z.rem (w (z + z)) (2 ^ (N - 1)))).
  Proof.
    intros z p k Hk Hp Hz Ez. split; [|apply w_range].
    pose proof (pow2_half N HN) as E. pose proof (pow2_half_pos N HN) as P.
    rewrite w_pat. set (y := w (z + z)).
    assert (pat N y = pat N (p * 2 ^ (k + 1))) as Ey.
    { unfold y. rewrite w_pat. rewrite <- pat_add, Ez, Z.pow_add_r by lia. change (2 ^ 1) with 2. unfold shifted.
      destruct ((0 <? k) && (pat N (p * 2 ^ k) =? 2 ^ (N - 1))) eqn:Eb.
      - apply andb_prop in Eb. destruct Eb as [_ Eb]. apply Z.eqb_eq in Eb.
        replace (p * (2 ^ k * 2)) with (p * 2 ^ k + p * 2 ^ k) by lia. rewrite <- (pat_add N (p * 2 ^ k)), Eb.
        rewrite <- Z.add_diag in E. rewrite <- E. unfold pat. rewrite Z.mod_same by lia. apply Z.mod_0_l. lia.
      - rewrite pat_add. f_equal. lia. }
    assert (srange y) as Hy by apply w_range.
    unfold shifted. assert ((0 <? k + 1) = true) as -> by lia. cbn [andb]. rewrite <- Ey.
    destruct (Z.eq_dec y (- 2 ^ (N - 1))) as [Ey2|Ne].
    - rewrite Ey2. rewrite Z.rem_opp_l by lia. rewrite Z.rem_same by lia.
      assert (pat N (- 2 ^ (N - 1)) = 2 ^ (N - 1)) as -> by (unfold pat; apply mod_unique_pos with (-1); lia).
      rewrite Z.eqb_refl. unfold pat. apply Z.mod_0_l. lia.
    - unfold srange in Hy.
      assert (Z.rem y (2 ^ (N - 1)) = y) as ->.
      { destruct (Z.le_gt_cases 0 y); [apply Z.rem_small; lia|].
        rewrite <- (Z.opp_involutive y). rewrite Z.rem_opp_l by lia. rewrite Z.rem_small by lia. lia. }
      destruct (Z.eqb_spec (pat N y) (2 ^ (N - 1))) as [E2|]; [|reflexivity].
      exfalso. apply Ne. rewrite <- (w_id y Hy). unfold to_signed. rewrite E2.
      unfold signed. destruct (Z.ltb_spec (2 ^ (N - 1)) (2 ^ (N - 1))); lia.
  Qed.

  Lemma shifted_bit : forall p k, 0 <= p < 2 ^ N -> 0 <= k < N ->
    (2 ^ (N - 1) <=? shifted p k) = kept p (N - 1 - k).
  Proof.
    intros p k Hp Hk. unfold shifted, kept. pose proof (pow2_half_pos N HN) as P. pose proof (pow2_half N HN) as E.
    destruct (Z.ltb_spec 0 k) as [Hk0|Hk0].
    - cbn [andb]. assert ((N - 1 - k =? N - 1) = false) as -> by lia. cbn [orb].
      rewrite <- shl_bit by assumption. set (q := pat N (p * 2 ^ k)).
      assert (0 <= q < 2 ^ N) as Hq by (apply pat_range; lia).
      (* q = 2^(N-1) iff bit set and nothing below *)
      assert (q mod 2 ^ (N - 1) = (p mod 2 ^ (N - 1 - k)) * 2 ^ k) as Hm.
      { unfold q, pat. rewrite <- (Z.mul_mod_distr_r) by (apply Z.pow_nonzero; lia).
        replace (2 ^ (N - 1 - k) * 2 ^ k) with (2 ^ (N - 1)) by (rewrite <- Z.pow_add_r by lia; f_equal; lia).
        replace (2 ^ N) with (2 ^ (N - 1) * 2) by lia. rewrite Z.rem_mul_r by lia.
        rewrite Z.add_mod by lia. rewrite (Z.mul_comm (2 ^ (N - 1))), Z.mod_mul by lia.
        rewrite Z.add_0_r, !Z.mod_mod by lia. reflexivity. }
      pose proof (pow2_pos k ltac:(lia)) as Pk.
      destruct (Z.eqb_spec q (2 ^ (N - 1))) as [Eq|Nq].
      + assert (2 ^ (N - 1) <=? q = true) as -> by lia.
        rewrite Eq, Z.mod_same in Hm by lia. assert (p mod 2 ^ (N - 1 - k) = 0) as -> by nia.
        cbn. lia.
      + destruct (Z.leb_spec (2 ^ (N - 1)) q); [|reflexivity]. cbn [andb].
        assert (q mod 2 ^ (N - 1) = q - 2 ^ (N - 1)) as Hq2 by (apply mod_unique_pos with 1; lia).
        destruct (Z.eqb_spec (p mod 2 ^ (N - 1 - k)) 0); [nia|reflexivity].
    - assert (k = 0) as -> by lia. rewrite Z.sub_0_r, Z.eqb_refl. cbn [andb orb]. rewrite andb_true_r.
      rewrite <- (Z.sub_0_r (N - 1)) at 2. apply shl_bit; [assumption|lia].
  Qed.

  (** bits of the result accumulated after [k] rounds *)
  Fixpoint or_bits (pa pb : Z) (k : nat) : Z :=
    match k with
    | O => 0
    | S k' => 2 * or_bits pa pb k' +
              (if kept pa (N - 1 - Z.of_nat k') || kept pb (N - 1 - Z.of_nat k') then 1 else 0)
    end.
  Definition or_inv (pa pb : Z) (k : nat) (s : Z * Z * Z) : Prop :=
    let '(a, b, c) := s in
    srange a /\ srange b /\ pat N a = shifted pa (Z.of_nat k) /\ pat N b = shifted pb (Z.of_nat k) /\
    pat N c = pat N (or_bits pa pb k).
  Lemma or_round_inv : forall pa pb k s, 0 <= pa < 2 ^ N -> 0 <= pb < 2 ^ N -> Z.of_nat k < N ->
    or_inv pa pb k s -> or_inv pa pb (S k) (or_round w N s).
  Proof.
    intros pa pb k [[a b] c] Ha Hb Hk (Ra & Rb & Ea & Eb & Ec). unfold or_round, or_inv.
    replace (Z.of_nat (S k)) with (Z.of_nat k + 1) by lia.
    destruct (shifted_step a pa (Z.of_nat k) ltac:(lia) ltac:(lia) Ra Ea) as [H1 H2].
    destruct (shifted_step b pb (Z.of_nat k) ltac:(lia) ltac:(lia) Rb Eb) as [H3 H4].
    repeat split; try apply H2; try apply H4; auto.
    cbn [or_bits]. rewrite <- !shifted_bit by (assumption || lia). rewrite <- Ea, <- Eb, <- !neg_bit by assumption.
    set (q := or_bits pa pb k) in *.
    assert (pat N (w (c + c)) = pat N (2 * q)) as Hc2.
    { rewrite w_pat. rewrite <- pat_add, Ec, pat_add. f_equal. lia. }
    destruct (a <? 0), (b <? 0); cbn [orb]; try (rewrite Hc2; f_equal; lia);
      rewrite w_pat, <- pat_add, Hc2, pat_add; reflexivity.
  Qed.
  Lemma or_run : forall rounds a b, srange a -> srange b -> Z.of_nat rounds <= N ->
    or_inv (pat N a) (pat N b) rounds (Nat.iter rounds (or_round w N) (a, b, 0)).
  Proof.
    induction rounds as [|k IH]; intros a b Ha Hb Hk.
    - cbn [Nat.iter]. unfold or_inv, shifted. cbn [Z.ltb]. change (Z.of_nat 0) with 0. rewrite !Z.mul_1_r, !pat_pat.
      cbn. repeat split; auto; apply Ha || apply Hb.
    - change (Nat.iter (S k) (or_round w N) (a, b, 0)) with (or_round w N (Nat.iter k (or_round w N) (a, b, 0))).
      apply or_round_inv; try (apply pat_range; lia); try lia. apply IH; auto; lia.
  Qed.
  Lemma or_bits_range : forall pa pb k, 0 <= or_bits pa pb k < 2 ^ Z.of_nat k.
  Proof.
    intros pa pb k. induction k as [|k IH]; [cbn; lia|]. cbn [or_bits].
    replace (Z.of_nat (S k)) with (Z.of_nat k + 1) by lia. rewrite Z.pow_add_r by lia. change (2 ^ 1) with 2.
    destruct (_ || _); lia.
  Qed.
  Lemma or_bits_testbit : forall pa pb k i, 0 <= i < Z.of_nat k ->
    Z.testbit (or_bits pa pb k) i = kept pa (N - Z.of_nat k + i) || kept pb (N - Z.of_nat k + i).
  Proof.
    intros pa pb k. induction k as [|k IH]; intros i Hi; [lia|]. cbn [or_bits].
    destruct (Z.eq_dec i 0) as [->|Ne].
    - rewrite Z.add_0_r. replace (N - 1 - Z.of_nat k) with (N - Z.of_nat (S k)) by lia.
      destruct (_ || _).
      + apply Z.testbit_odd_0.
      + rewrite Z.add_0_r. apply Z.testbit_even_0.
    - replace i with (Z.succ (i - 1)) at 1 by lia.
      assert (Z.testbit (2 * or_bits pa pb k + (if kept pa (N - 1 - Z.of_nat k) || kept pb (N - 1 - Z.of_nat k) then 1 else 0)) (Z.succ (i - 1)) = Z.testbit (or_bits pa pb k) (i - 1)) as ->.
      { destruct (_ || _); [apply Z.testbit_odd_succ; lia|]. rewrite Z.add_0_r. apply Z.testbit_even_succ. lia. }
      rewrite IH by lia. f_equal; f_equal; lia.
  Qed.
  Lemma or_full : forall a b j, srange a -> srange b -> 0 <= j < N ->
    Z.testbit (pat N (or_routine w N (Z.to_nat N) a b)) j = kept (pat N a) j || kept (pat N b) j.
  Proof.
    intros a b j Ha Hb Hj. unfold or_routine. pose proof (or_run (Z.to_nat N) a b Ha Hb ltac:(lia)) as H.
    destruct (Nat.iter (Z.to_nat N) (or_round w N) (a, b, 0)) as [[a' b'] c]. destruct H as (_ & _ & _ & _ & H).
    cbn [snd]. rewrite H. unfold pat at 1. rewrite Z.mod_pow2_bits_low by lia.
    rewrite or_bits_testbit by lia. rewrite Z2Nat.id by lia. f_equal; f_equal; lia.
  Qed.
End Wrap.

(** ** Routines, unbounded reading *)
Lemma and_unbounded_nonneg : forall N rounds a b, 0 <= a -> and_routine (fun z => z) N rounds a b = 0.
Proof.
  intros N rounds a b Ha. unfold and_routine.
  assert (forall k, let '(a', _, c) := Nat.iter k (and_round (fun z => z) N) (a, b, 0) in 0 <= a' /\ c = 0) as H.
  { induction k as [|k IH]; [cbn; auto|].
    change (Nat.iter (S k) (and_round (fun z => z) N) (a, b, 0)) with (and_round (fun z => z) N (Nat.iter k (and_round (fun z => z) N) (a, b, 0))).
    destruct (Nat.iter k _ _) as [[a' b'] c]. destruct IH as [H1 ->]. unfold and_round.
    destruct (Z.ltb_spec a' 0); [lia|]. split; [|reflexivity].
    pose proof (Z.rem_nonneg a' (2 ^ (N - 1))) as H2.
    destruct (Z.eq_dec (2 ^ (N - 1)) 0) as [E|E].
    - rewrite E. assert (Z.rem a' 0 = a') as -> by (destruct a'; reflexivity). lia.
    - specialize (H2 E H1). lia. }
  specialize (H rounds). destruct (Nat.iter rounds _ _) as [[a' b'] c]. cbn [snd]. tauto.
Qed.
Lemma or_unbounded_nonneg : forall N rounds a b, 0 <= a -> 0 <= b -> or_routine (fun z => z) N rounds a b = 0.
Proof.
  intros N rounds a b Ha Hb. unfold or_routine.
  assert (forall x, 0 <= x -> 0 <= Z.rem (x + x) (2 ^ (N - 1))) as Hr.
  { intros x Hx. destruct (Z.eq_dec (2 ^ (N - 1)) 0) as [E|E].
    - rewrite E. assert (Z.rem (x + x) 0 = x + x) as -> by (destruct (x + x); reflexivity). lia.
    - apply Z.rem_nonneg; [exact E|lia]. }
  assert (forall k, let '(a', b', c) := Nat.iter k (or_round (fun z => z) N) (a, b, 0) in 0 <= a' /\ 0 <= b' /\ c = 0) as H.
  { induction k as [|k IH]; [cbn; auto|].
    change (Nat.iter (S k) (or_round (fun z => z) N) (a, b, 0)) with (or_round (fun z => z) N (Nat.iter k (or_round (fun z => z) N) (a, b, 0))).
    destruct (Nat.iter k _ _) as [[a' b'] c]. destruct IH as (H1 & H2 & ->). unfold or_round.
    destruct (Z.ltb_spec a' 0); [lia|]. destruct (Z.ltb_spec b' 0); [lia|]. auto. }
  specialize (H rounds). destruct (Nat.iter rounds _ _) as [[a' b'] c]. cbn [snd]. tauto.
Qed.
