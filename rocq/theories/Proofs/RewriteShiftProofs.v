From Coq Require Import ZArith List String Bool Lia ZifyBool.
From Verif.Base Require Import ZBits.
From Verif.Spec Require Import LLVMInt IR Encodings.
From Verif.Model Require Import Boogie PreludeInt SmackRepInt RewriteBitwise.
From Verif.Proofs Require Import Lookup PreludeCalls ExprSim IntEncodings IntMain RewriteBitwiseProofs.
Import ListNotations.
Open Scope string_scope.
Open Scope Z_scope.

Lemma is_pow2_spec : forall x, is_pow2 x = true -> exists k, 0 <= k /\ x = 2 ^ k.
Proof.
  intros x H. unfold is_pow2 in H. apply andb_prop in H. destruct H as [H1 H2].
  apply Z.eqb_eq in H2. assert (0 < x) as Hx by lia.
  exists (Z.log2 x). split; [apply Z.log2_nonneg|].
  destruct (Z.log2_spec x Hx) as [L1 L2]. rewrite Z.pow_succ_r in L2 by apply Z.log2_nonneg.
  destruct (Z.eq_dec x (2 ^ Z.log2 x)) as [|Ne]; [assumption|exfalso].
  assert (Z.log2 (x - 1) = Z.log2 x) as El.
  { apply Z.log2_unique; [apply Z.log2_nonneg|]. rewrite Z.pow_succ_r by apply Z.log2_nonneg. lia. }
  assert (Z.testbit (Z.land x (x - 1)) (Z.log2 x) = true) as T.
  { rewrite Z.land_spec. rewrite Z.bit_log2 by lia. rewrite <- El at 1.
    rewrite Z.bit_log2 by (pose proof (pow2_pos (Z.log2 x) (Z.log2_nonneg x)); lia). reflexivity. }
  rewrite H2, Z.bits_0 in T. discriminate.
Qed.
Lemma pow2_is_pow2 : forall k, 0 <= k -> is_pow2 (2 ^ k) = true.
Proof.
  intros k Hk. pose proof (pow2_pos k Hk). unfold is_pow2. apply andb_true_intro. split; [lia|].
  apply Z.eqb_eq.
  replace (2 ^ k - 1) with (Z.ones k) by (rewrite Z.ones_equiv; lia).
  rewrite Z.land_ones by lia. apply Z.mod_same. lia.
Qed.

(** ** On the machine *)
Section IRLevel.
  Context (n : Z) (Hn : 2 <= n).

  Lemma pat_pow2 : forall k, 0 <= k < n -> pat n (2 ^ k) = 2 ^ k.
  Proof. intros k Hk. apply pat_id. split; [pose proof (pow2_pos k); lia|apply pow2_lt; lia]. Qed.
  Lemma signed_pow2 : forall k, 0 <= k < n ->
    signed n (2 ^ k) = if k =? n - 1 then - 2 ^ (n - 1) else 2 ^ k.
  Proof.
    intros k Hk. unfold signed. pose proof (pow2_half n ltac:(lia)).
    destruct (Z.eqb_spec k (n - 1)) as [->|Ne].
    - destruct (Z.ltb_spec (2 ^ (n - 1)) (2 ^ (n - 1))); lia.
    - pose proof (pow2_lt k (n - 1) ltac:(lia) ltac:(lia)). destruct (Z.ltb_spec (2 ^ k) (2 ^ (n - 1))); lia.
  Qed.
  Lemma half_ge2 : 2 <= 2 ^ (n - 1).
  Proof. pose proof (pow2_le 1 (n - 1) ltac:(lia)). change (2 ^ 1) with 2 in *. lia. Qed.

  Lemma rw_shl : forall a k, 0 <= k < n ->
    llvm_binop Mul n a (pat n (2 ^ k)) = llvm_binop Shl n a k.
  Proof.
    intros a k Hk. cbn [llvm_binop]. assert ((k <? n) = true) as -> by lia.
    rewrite pat_pow2 by assumption. rewrite Z.shiftl_mul_pow2 by lia. reflexivity.
  Qed.
  Lemma rw_mask : forall b k, 0 <= k < n ->
    llvm_binop URem n b (pat n (2 ^ k - 1 + 1)) = llvm_binop And n (2 ^ k - 1) b.
  Proof.
    intros b k Hk. cbn [llvm_binop]. replace (2 ^ k - 1 + 1) with (2 ^ k) by lia. rewrite pat_pow2 by assumption.
    pose proof (pow2_pos k ltac:(lia)). destruct (Z.eqb_spec (2 ^ k) 0); [lia|].
    replace (2 ^ k - 1) with (Z.ones k) by (rewrite Z.ones_equiv; lia).
    rewrite Z.land_comm, Z.land_ones by lia. reflexivity.
  Qed.

  Lemma sdiv_pow2 : forall a k, is_iN n a -> 0 <= k < n ->
    llvm_binop SDiv n a (pat n (2 ^ k)) =
    Some (pat n (Z.quot (signed n a) (if k =? n - 1 then - 2 ^ (n - 1) else 2 ^ k))).
  Proof.
    intros a k Ha Hk. cbn [llvm_binop]. rewrite pat_pow2, signed_pow2 by assumption.
    pose proof (pow2_pos k ltac:(lia)). pose proof half_ge2. destruct (Z.eqb_spec (2 ^ k) 0); [lia|]. cbn [orb].
    destruct (k =? n - 1) eqn:E.
    - destruct (Z.eqb_spec (- 2 ^ (n - 1)) (-1)); [lia|]. rewrite andb_false_r. reflexivity.
    - destruct (Z.eqb_spec (2 ^ k) (-1)); [lia|]. rewrite andb_false_r. reflexivity.
  Qed.

  Lemma pat_inj_near : forall x y, x <> y -> - 2 ^ n < x - y < 2 ^ n -> pat n x <> pat n y.
  Proof.
    intros x y Ne H E. unfold pat in E. pose proof (pow2_pos n ltac:(lia)) as P.
    pose proof (Z.div_mod x (2 ^ n) ltac:(lia)) as D1. pose proof (Z.div_mod y (2 ^ n) ltac:(lia)) as D2.
    rewrite E in D1. set (m := 2 ^ n) in *. assert (x - y = m * (x / m - y / m)) as D by lia.
    set (t := x / m - y / m) in *. assert (t = 0 \/ 1 <= t \/ t <= -1) as [T|[T|T]] by lia; nia.
  Qed.

  Lemma quot_pow2_neg : forall S k, 0 <= k -> S < 0 -> Z.quot S (2 ^ k) = S / 2 ^ k <-> S mod 2 ^ k = 0.
  Proof.
    intros S k Hk HS. pose proof (pow2_pos k Hk) as P.
    pose proof (Z.quot_rem' S (2 ^ k)) as Q. pose proof (Z.div_mod S (2 ^ k) ltac:(lia)) as D.
    pose proof (Z.mod_pos_bound S (2 ^ k) P). pose proof (Z.rem_nonpos S (2 ^ k) ltac:(lia) ltac:(lia)).
    split; intros E; [rewrite E in Q; lia|].
    rewrite E in D. set (q := Z.quot S (2 ^ k)) in *. set (d := S / 2 ^ k) in *. clearbody q d.
    pose proof (Z.rem_bound_abs S (2 ^ k) ltac:(lia)) as B. set (r := Z.rem S (2 ^ k)) in *. clearbody r. nia.
  Qed.

  Lemma sdiv_range_neg : forall S k, 0 <= k < n - 1 -> - 2 ^ (n - 1) <= S < 0 ->
    - 2 ^ (n - 1) <= Z.quot S (2 ^ k) <= 0.
  Proof.
    intros S k Hk HS. pose proof (pow2_pos k ltac:(lia)) as P.
    assert (Z.quot S (2 ^ k) = - Z.quot (- S) (2 ^ k)) as ->.
    { rewrite <- (Z.opp_involutive S) at 1. apply Z.quot_opp_l. lia. }
    pose proof (Z.quot_pos (- S) (2 ^ k) ltac:(lia) P).
    pose proof (Z.quot_le_upper_bound (- S) (2 ^ k) (2 ^ (n - 1)) P ltac:(nia)). lia.
  Qed.
  Lemma div_range : forall S k, 0 <= k -> - 2 ^ (n - 1) <= S < 2 ^ (n - 1) ->
    - 2 ^ (n - 1) <= S / 2 ^ k < 2 ^ (n - 1).
  Proof.
    intros S k Hk HS. pose proof (pow2_pos k Hk) as P. pose proof (pow2_pos (n - 1) ltac:(lia)).
    split.
    - apply Z.div_le_lower_bound; [lia|]. nia.
    - apply Z.div_lt_upper_bound; [lia|]. nia.
  Qed.

  Lemma rw_ashr_iff : forall a k, is_iN n a -> 0 <= k < n ->
    (llvm_binop SDiv n a (pat n (2 ^ k)) = llvm_binop AShr n a k <->
     0 <= signed n a \/ (k < n - 1 /\ signed n a mod 2 ^ k = 0)).
  Proof.
    intros a k Ha Hk. rewrite sdiv_pow2 by assumption. cbn [llvm_binop]. assert ((k <? n) = true) as -> by lia.
    rewrite Z.shiftr_div_pow2 by lia. pose proof (signed_range n a ltac:(lia) Ha) as HS. set (S := signed n a) in *.
    pose proof (pow2_half n ltac:(lia)) as E. pose proof half_ge2 as H2. pose proof (pow2_pos k ltac:(lia)) as P.
    destruct (Z.eqb_spec k (n - 1)) as [->|Ne].
    - destruct (Z.le_gt_cases 0 S) as [Hp|Hneg].
      + rewrite Z.quot_opp_r by lia. rewrite Z.quot_small by lia. rewrite Z.div_small by lia.
        split; [left; exact Hp|reflexivity].
      + split; [|lia]. intros Eq. exfalso. injection Eq as Eq. revert Eq.
        assert (S / 2 ^ (n - 1) = -1) as -> by (symmetry; apply Z.div_unique with (S + 2 ^ (n - 1)); lia).
        assert (Z.quot S (- 2 ^ (n - 1)) = Z.quot (- S) (2 ^ (n - 1))) as ->.
        { rewrite <- (Z.opp_involutive S) at 1. apply Z.quot_opp_opp. lia. }
        pose proof (Z.quot_pos (- S) (2 ^ (n - 1)) ltac:(lia) ltac:(lia)).
        pose proof (Z.quot_le_upper_bound (- S) (2 ^ (n - 1)) 1 ltac:(lia) ltac:(lia)).
        apply pat_inj_near; lia.
    - destruct (Z.le_gt_cases 0 S) as [Hp|Hneg].
      + rewrite Z.quot_div_nonneg by lia. split; [left; exact Hp|reflexivity].
      + rewrite <- (quot_pow2_neg S k) by lia. split.
        * intros Eq. right. split; [lia|].
          destruct (Z.eq_dec (Z.quot S (2 ^ k)) (S / 2 ^ k)) as [|N]; [assumption|exfalso].
          injection Eq as Eq. revert Eq. apply pat_inj_near; [exact N|].
          pose proof (sdiv_range_neg S k ltac:(lia) ltac:(lia)). pose proof (div_range S k ltac:(lia) HS). lia.
        * intros [?|[_ ->]]; [lia|reflexivity].
  Qed.

  Lemma neg_unsigned : forall a, is_iN n a -> signed n a < 0 -> a = signed n a + 2 ^ n.
  Proof. intros a [H1 H2] H. unfold signed in *. destruct (Z.ltb_spec a (2 ^ (n - 1))); lia. Qed.

  Lemma lshr_neg_range : forall S k, 0 <= k < n -> - 2 ^ (n - 1) <= S < 0 ->
    2 ^ (n - 1 - k) <= (S + 2 ^ n) / 2 ^ k < 2 ^ (n - k).
  Proof.
    intros S k Hk HS. pose proof (pow2_pos k ltac:(lia)) as P. pose proof (pow2_half n ltac:(lia)).
    assert (2 ^ (n - 1) = 2 ^ k * 2 ^ (n - 1 - k)) by (rewrite <- Z.pow_add_r by lia; f_equal; lia).
    assert (2 ^ n = 2 ^ k * 2 ^ (n - k)) by (rewrite <- Z.pow_add_r by lia; f_equal; lia).
    split; [apply Z.div_le_lower_bound; lia|apply Z.div_lt_upper_bound; lia].
  Qed.

  Lemma rw_lshr_iff : forall a k, is_iN n a -> 0 <= k < n ->
    (llvm_binop SDiv n a (pat n (2 ^ k)) = llvm_binop LShr n a k <->
     0 <= signed n a \/ k = 0 \/ (k = n - 1 /\ a = 2 ^ (n - 1))).
  Proof.
    intros a k Ha Hk. rewrite sdiv_pow2 by assumption. cbn [llvm_binop]. assert ((k <? n) = true) as -> by lia.
    rewrite Z.shiftr_div_pow2 by lia. pose proof (signed_range n a ltac:(lia) Ha) as HS.
    pose proof (pow2_half n ltac:(lia)) as E. pose proof half_ge2 as H2. pose proof (pow2_pos k ltac:(lia)) as P.
    destruct (Z.le_gt_cases 0 (signed n a)) as [Hp|Hneg].
    - split; [auto|intros _]. pose proof (signed_nn n a Ha Hp) as Es. rewrite Es in HS, Hp |- *. f_equal.
      destruct (Z.eqb_spec k (n - 1)) as [->|Ne].
      + rewrite Z.quot_opp_r by lia. rewrite Z.quot_small by lia. rewrite Z.div_small by lia.
        unfold pat. apply Z.mod_0_l. lia.
      + rewrite Z.quot_div_nonneg by lia. apply pat_id. unfold is_iN in *.
        split; [apply Z.div_pos; lia|]. apply Z.div_lt_upper_bound; [lia|]. destruct Ha as [Ha1 Ha2].
        assert (1 * 2 ^ n <= 2 ^ k * 2 ^ n) by (apply Z.mul_le_mono_nonneg_r; lia). lia.
    - pose proof (neg_unsigned a Ha Hneg) as Ea. set (S := signed n a) in *. clearbody S.
      pose proof (lshr_neg_range S k Hk ltac:(lia)) as HL. rewrite <- Ea in HL.
      destruct (Z.eqb_spec k (n - 1)) as [->|Ne].
      + replace (n - 1 - (n - 1)) with 0 in HL by lia. replace (n - (n - 1)) with 1 in HL by lia.
        change (2 ^ 0) with 1 in HL. change (2 ^ 1) with 2 in HL. assert (a / 2 ^ (n - 1) = 1) as -> by lia.
        assert (Z.quot S (- 2 ^ (n - 1)) = Z.quot (- S) (2 ^ (n - 1))) as ->.
        { rewrite <- (Z.opp_involutive S) at 1. apply Z.quot_opp_opp. lia. }
        destruct (Z.eq_dec S (- 2 ^ (n - 1))) as [ES|NS].
        * rewrite ES, Z.opp_involutive, Z.quot_same by lia. split; [intros _|].
          -- right; right; split; lia.
          -- intros _. f_equal. apply pat_id. unfold is_iN. lia.
        * rewrite Z.quot_small by lia. unfold pat. rewrite Z.mod_0_l by lia.
          split; [discriminate|]. intros [?|[?|[_ ?]]]; lia.
      + destruct (Z.eq_dec k 0) as [->|K0].
        * split; [auto|intros _]. change (2 ^ 0) with 1. rewrite Z.quot_1_r, Z.div_1_r. f_equal.
          unfold pat. apply mod_unique_pos with (-1); lia.
        * split; [|intros [?|[?|[? _]]]; lia]. intros Eq. exfalso. injection Eq as Eq.
          pose proof (pow2_le (n - k) (n - 1) ltac:(lia)) as L1.
          pose proof (pow2_pos (n - 1 - k) ltac:(lia)) as L3.
          assert (- 2 ^ (n - 1 - k) <= Z.quot S (2 ^ k) <= 0) as [Q1 Q2].
          { assert (Z.quot S (2 ^ k) = - Z.quot (- S) (2 ^ k)) as ->.
            { rewrite <- (Z.opp_involutive S) at 1. apply Z.quot_opp_l. lia. }
            pose proof (Z.quot_pos (- S) (2 ^ k) ltac:(lia) P).
            assert (2 ^ (n - 1) = 2 ^ k * 2 ^ (n - 1 - k)) by (rewrite <- Z.pow_add_r by lia; f_equal; lia).
            pose proof (Z.quot_le_upper_bound (- S) (2 ^ k) (2 ^ (n - 1 - k)) P ltac:(lia)). lia. }
          pose proof (pow2_lt (n - 1 - k) (n - 1) ltac:(lia) ltac:(lia)) as L2.
          rewrite <- (pat_id n (a / 2 ^ k)) in Eq by (unfold is_iN; lia).
          revert Eq. apply pat_inj_near; lia.
  Qed.
End IRLevel.

(** ** In the integer encodings *)
Section IntLevel.
  Context (p nd : bool) (I : interp) (enc : encoding) (Henc : enc = WrappedInteger \/ enc = UnboundedInteger).
  Notation O := (flags enc p).
  Notation prog := (preludeInt (flags enc p)).
  Lemma Hbp : bitPrecise O = false.
  Proof. destruct Henc as [-> | ->]; reflexivity. Qed.

  (** value of a constant operand of a signed / an unsigned operation *)
  Lemma lit_signed : forall n c rb, supported n -> 2 <= n -> is_iN n c ->
    exists e, lit O nd n c false false = Some e /\ eval prog I 5 rb e = Some (VInt (signed n c)).
  Proof.
    intros n c rb Hn H2 Hc. unfold lit. assert ((1 <? n) = true) as -> by lia. rewrite Hbp.
    unfold APInt_abs, APInt_isNegative, signed, integerLitU, intType. rewrite Hbp.
    pose proof (pow2_half n ltac:(lia)). unfold is_iN in Hc.
    destruct (Z.leb_spec (2 ^ (n - 1)) c); destruct (Z.ltb_spec c (2 ^ (n - 1))); try lia; eexists; (split; [reflexivity|]).
    - unfold eval. cbn [eval_with].
      rewrite (c_sub O prog I (extends_refl _) Hbp 4 n 0 ((- c) mod 2 ^ n) Hn).
      replace ((- c) mod 2 ^ n) with (2 ^ n - c) by (symmetry; apply mod_unique_pos with (-1); lia).
      do 2 f_equal. lia.
    - reflexivity.
  Qed.
  Lemma lit_unsigned : forall n c rb ui, supported n -> 2 <= n -> is_iN n c ->
    (ui = true \/ (n <= 64 /\ c <> 2 ^ n - 1)) ->
    exists e, lit O nd n c true ui = Some e /\ eval prog I 5 rb e = Some (VInt c).
  Proof.
    intros n c rb ui Hn H2 Hc Hg. unfold lit. assert ((1 <? n) = true) as -> by lia. rewrite Hbp.
    destruct ui; [eexists; split; reflexivity|]. destruct Hg as [?|[H64 Hne]]; [discriminate|].
    unfold APInt_getSExtValue, APInt_isNegative. pose proof (pow2_half n ltac:(lia)). unfold is_iN in Hc.
    pose proof (pow2_le (n - 1) 63 ltac:(lia)).
    destruct (Z.leb_spec (2 ^ (n - 1)) c).
    - assert ((- 2 ^ 63 <=? c - 2 ^ n) && (c - 2 ^ n <? 2 ^ 63) = true) as -> by lia.
      assert ((c - 2 ^ n =? -1) = false) as -> by lia. eexists; split; reflexivity.
    - assert ((- 2 ^ 63 <=? c) && (c <? 2 ^ 63) = true) as -> by lia.
      assert ((c =? -1) = false) as -> by lia. eexists; split; reflexivity.
  Qed.

  (** what the operand variable contributes *)
  Lemma operand_signed : forall n v a, 1 <= n -> n <> 1 -> is_iN n a -> represents enc n v a ->
    exists z, v = VInt z /\ wrapS O n z = signed n a.
  Proof.
    intros n v a Hn1 Hn2 Ha H. unfold wrapS. destruct Henc as [-> | ->]; cbn [flags wrappedIntegerEncoding] in *.
    - destruct H as (z & -> & E). exists z. split; [reflexivity|]. rewrite E. reflexivity.
    - cbn [represents] in H. destruct (Z.eqb_spec n 1); [lia|]. eauto.
  Qed.
  Lemma operand_pat : forall n v a, 1 <= n -> n <> 1 -> is_iN n a -> represents enc n v a ->
    exists z, v = VInt z /\ pat n z = a.
  Proof.
    intros n v a Hn1 Hn2 Ha H. destruct Henc as [-> | ->].
    - exact H.
    - cbn [represents] in H. destruct (Z.eqb_spec n 1); [lia|]. eexists; split; [exact H|]. apply signed_pat; assumption.
  Qed.
  Lemma wrapS_range : forall n s, 1 <= n -> - 2 ^ (n - 1) <= s < 2 ^ (n - 1) -> wrapS O n s = s.
  Proof. intros n s Hn Hs. unfold wrapS. destruct (wrappedIntegerEncoding O); [|reflexivity]. apply pat_signed; assumption. Qed.

  (** the emitted term for a rewritten shift right *)
  Lemma shr_value : forall n a x k rb v op nsw, supported n -> 2 <= n -> is_iN n a -> 0 <= k < n ->
    rb x = Some v -> represents enc n v a -> (op = LShr \/ op = AShr) ->
    exists i e, rewrite_bitwise (IBin op nsw n (VReg n x) (VConst n k)) = RInst i /\
      inst_expr O nd i = Some e /\
      evaluates prog I rb e (VInt (if k =? n - 1 then - (signed n a / 2 ^ (n - 1)) else signed n a / 2 ^ k)).
  Proof.
    intros n a x k rb v op nsw Hn H2 Ha Hk Hx Hv Hop.
    set (d := pat n (2 ^ k)).
    assert (is_iN n d) as Hd by (apply pat_range; lia).
    destruct (lit_signed n d rb Hn H2 Hd) as (el & Hel & Hval).
    exists (IBin SDiv false n (VReg n x) (VConst n d)).
    eexists. split.
    { destruct Hop as [-> | ->]; cbn [rewrite_bitwise]; assert ((k <? n) = true) as -> by lia; reflexivity. }
    cbn [inst_expr bop_hints negb fst snd expr_of]. rewrite Hel. split; [reflexivity|].
    exists 5%nat. unfold eval in *. cbn [eval_with]. rewrite Hx, Hval.
    destruct (operand_signed n v a ltac:(lia) ltac:(lia) Ha Hv) as (z & -> & Ez).
    unfold intType. rewrite Hbp. cbn [INSTRUCTION_TABLE].
    rewrite (c_sdiv O prog I (extends_refl _) Hbp) by exact Hn.
    rewrite Ez. rewrite wrapS_range by (lia || apply signed_range; (lia || assumption)).
    unfold d. rewrite pat_pow2, signed_pow2 by lia. pose proof (pow2_pos k ltac:(lia)). pose proof (half_ge2 n H2).
    unfold smt_div. destruct (Z.eqb_spec k (n - 1)) as [->|Ne].
    - destruct (Z.eqb_spec (- 2 ^ (n - 1)) 0); [lia|]. destruct (Z.ltb_spec 0 (- 2 ^ (n - 1))); [lia|].
      rewrite Z.opp_involutive. reflexivity.
    - destruct (Z.eqb_spec (2 ^ k) 0); [lia|]. destruct (Z.ltb_spec 0 (2 ^ k)); [|lia]. reflexivity.
  Qed.

  Lemma represents_iff : forall n z c, 2 <= n -> is_iN n c -> - 2 ^ (n - 1) <= z < 2 ^ (n - 1) ->
    (represents enc n (VInt z) c <-> pat n z = c).
  Proof.
    intros n z c Hn Hc Hz. destruct Henc as [-> | ->]; cbn [represents].
    - split; [intros (z' & E & H); injection E as <-; exact H|intros H; eauto].
    - destruct (Z.eqb_spec n 1); [lia|]. split.
      + intros E. injection E as ->. apply signed_pat; [lia|assumption].
      + intros <-. rewrite pat_signed by (assumption || lia). reflexivity.
  Qed.

  Lemma shr_value_range : forall n a k, 2 <= n -> is_iN n a -> 0 <= k < n ->
    - 2 ^ (n - 1) <= (if k =? n - 1 then - (signed n a / 2 ^ (n - 1)) else signed n a / 2 ^ k) < 2 ^ (n - 1).
  Proof.
    intros n a k Hn Ha Hk. pose proof (signed_range n a ltac:(lia) Ha) as HS. pose proof (half_ge2 n Hn).
    destruct (Z.eqb_spec k (n - 1)) as [->|Ne]; [|apply div_range; lia || assumption].
    destruct (Z.le_gt_cases 0 (signed n a)).
    - rewrite Z.div_small by lia. lia.
    - assert (signed n a / 2 ^ (n - 1) = -1) as -> by (symmetry; apply Z.div_unique with (signed n a + 2 ^ (n - 1)); lia). lia.
  Qed.

  Lemma boogie_ashr_iff : forall n a x k rb v nsw i e w c, supported n -> 2 <= n -> is_iN n a -> 0 <= k < n ->
    rb x = Some v -> represents enc n v a ->
    rewrite_bitwise (IBin AShr nsw n (VReg n x) (VConst n k)) = RInst i ->
    inst_expr O nd i = Some e -> evaluates prog I rb e w ->
    llvm_binop AShr n a k = Some c ->
    (represents enc n w c <-> k < n - 1 \/ 0 <= signed n a).
  Proof.
    intros n a x k rb v nsw i e w c Hn H2 Ha Hk Hx Hv Hi He Hw Hc.
    destruct (shr_value n a x k rb v AShr nsw Hn H2 Ha Hk Hx Hv (or_intror eq_refl)) as (i' & e' & Hi' & He' & Hw').
    rewrite Hi in Hi'. injection Hi' as <-. rewrite He in He'. injection He' as <-.
    pose proof (evaluates_det _ _ _ _ _ _ Hw Hw') as ->.
    assert (is_iN n c) as Hcr by (eapply (llvm_binop_range AShr n a k); eauto; try lia;
      unfold is_iN; pose proof (Z.pow_gt_lin_r 2 n ltac:(lia) ltac:(lia)); lia).
    rewrite represents_iff by (assumption || apply shr_value_range; assumption).
    cbn [llvm_binop] in Hc. assert ((k <? n) = true) as E by lia. rewrite E in Hc. injection Hc as <-.
    rewrite Z.shiftr_div_pow2 by lia. pose proof (signed_range n a ltac:(lia) Ha) as HS. pose proof (half_ge2 n H2).
    pose proof (pow2_half n ltac:(lia)).
    destruct (Z.eqb_spec k (n - 1)) as [->|Ne]; [|split; [lia|reflexivity]].
    destruct (Z.le_gt_cases 0 (signed n a)).
    - rewrite Z.div_small by lia. tauto.
    - split; [|lia]. assert (signed n a / 2 ^ (n - 1) = -1) as -> by (symmetry; apply Z.div_unique with (signed n a + 2 ^ (n - 1)); lia).
      intros Eq. exfalso. revert Eq. apply pat_inj_near; lia.
  Qed.

  Lemma boogie_lshr_iff : forall n a x k rb v nsw i e w c, supported n -> 2 <= n -> is_iN n a -> 0 <= k < n ->
    rb x = Some v -> represents enc n v a ->
    rewrite_bitwise (IBin LShr nsw n (VReg n x) (VConst n k)) = RInst i ->
    inst_expr O nd i = Some e -> evaluates prog I rb e w ->
    llvm_binop LShr n a k = Some c ->
    (represents enc n w c <-> k = 0 \/ k = n - 1 \/ 0 <= signed n a).
  Proof.
    intros n a x k rb v nsw i e w c Hn H2 Ha Hk Hx Hv Hi He Hw Hc.
    destruct (shr_value n a x k rb v LShr nsw Hn H2 Ha Hk Hx Hv (or_introl eq_refl)) as (i' & e' & Hi' & He' & Hw').
    rewrite Hi in Hi'. injection Hi' as <-. rewrite He in He'. injection He' as <-.
    pose proof (evaluates_det _ _ _ _ _ _ Hw Hw') as ->.
    assert (is_iN n c) as Hcr by (eapply (llvm_binop_range LShr n a k); eauto; try lia;
      unfold is_iN; pose proof (Z.pow_gt_lin_r 2 n ltac:(lia) ltac:(lia)); lia).
    rewrite represents_iff by (assumption || apply shr_value_range; assumption).
    cbn [llvm_binop] in Hc. assert ((k <? n) = true) as E by lia. rewrite E in Hc. injection Hc as <-.
    rewrite Z.shiftr_div_pow2 by lia. rewrite Z.shiftr_div_pow2 in Hcr by lia.
    pose proof (signed_range n a ltac:(lia) Ha) as HS. pose proof (half_ge2 n H2).
    pose proof (pow2_half n ltac:(lia)). pose proof (pow2_pos k ltac:(lia)) as P.
    destruct (Z.le_gt_cases 0 (signed n a)) as [Hp|Hneg].
    - split; [auto|intros _]. pose proof (signed_nn n a Ha Hp) as Es. rewrite Es in HS, Hp |- *.
      destruct (Z.eqb_spec k (n - 1)) as [->|Ne].
      + rewrite Z.div_small by lia. unfold pat. apply Z.mod_0_l. lia.
      + apply pat_id, Hcr.
    - pose proof (neg_unsigned n a Ha Hneg) as Ea. set (S := signed n a) in *. clearbody S.
      pose proof (lshr_neg_range n H2 S k Hk ltac:(lia)) as HL. rewrite <- Ea in HL.
      destruct (Z.eqb_spec k (n - 1)) as [->|Ne].
      + replace (n - 1 - (n - 1)) with 0 in HL by lia. replace (n - (n - 1)) with 1 in HL by lia.
        change (2 ^ 0) with 1 in HL. change (2 ^ 1) with 2 in HL. assert (a / 2 ^ (n - 1) = 1) as -> by lia.
        assert (S / 2 ^ (n - 1) = -1) as -> by (symmetry; apply Z.div_unique with (S + 2 ^ (n - 1)); lia).
        split; [auto|intros _]. apply pat_id. unfold is_iN. lia.
      + destruct (Z.eq_dec k 0) as [->|K0].
        * split; [auto|intros _]. change (2 ^ 0) with 1. rewrite !Z.div_1_r. unfold pat. apply mod_unique_pos with (-1); lia.
        * split; [|lia]. intros Eq. exfalso. rewrite <- (pat_id n (a / 2 ^ k)) in Eq by exact Hcr. revert Eq.
          assert (a / 2 ^ k = S / 2 ^ k + 2 ^ (n - k)) as ->.
          { rewrite Ea. replace (2 ^ n) with (2 ^ (n - k) * 2 ^ k) by (rewrite <- Z.pow_add_r by lia; f_equal; lia).
            apply Z.div_add. lia. }
          pose proof (pow2_lt (n - k) n ltac:(lia) ltac:(lia)). pose proof (pow2_pos (n - k) ltac:(lia)).
          apply pat_inj_near; lia.
  Qed.

  Lemma boogie_shl_iff : forall n a x k rb v nsw i e w c, supported n -> 2 <= n <= 64 -> is_iN n a -> 0 <= k < n ->
    rb x = Some v -> represents enc n v a ->
    rewrite_bitwise (IBin Shl nsw n (VReg n x) (VConst n k)) = RInst i ->
    inst_expr O nd i = Some e -> evaluates prog I rb e w ->
    llvm_binop Shl n a k = Some c ->
    (represents enc n w c <-> enc = WrappedInteger \/ - 2 ^ (n - 1) <= signed n a * 2 ^ k < 2 ^ (n - 1)).
  Proof.
    intros n a x k rb v nsw i e w c Hn H2 Ha Hk Hx Hv Hi He Hw Hc.
    cbn [rewrite_bitwise] in Hi. assert ((k <? n) = true) as E by lia. rewrite E in Hi. injection Hi as <-.
    set (d := pat n (2 ^ k)) in *. assert (d = 2 ^ k) as Ed by (apply pat_pow2; lia).
    destruct (lit_unsigned n d rb false Hn ltac:(lia)) as (el & Hel & Hval).
    { rewrite Ed. split; [pose proof (pow2_pos k); lia|apply pow2_lt; lia]. }
    { right. split; [lia|]. rewrite Ed. pose proof (pow2_le k (n - 1) ltac:(lia)). pose proof (half_ge2 n ltac:(lia)).
      pose proof (pow2_half n ltac:(lia)). lia. }
    cbn [inst_expr bop_hints negb fst snd expr_of] in He. rewrite Hel in He. injection He as <-.
    destruct (operand_pat n v a ltac:(lia) ltac:(lia) Ha Hv) as (z & -> & Ez).
    assert (w = VInt (z * 2 ^ k)) as ->.
    { eapply evaluates_det; [exact Hw|]. exists 5%nat. unfold eval in *. cbn [eval_with]. rewrite Hx, Hval.
      unfold intType. rewrite Hbp. cbn [INSTRUCTION_TABLE].
      rewrite (c_mul O prog I (extends_refl _) Hbp) by exact Hn. rewrite Ed. reflexivity. }
    cbn [llvm_binop] in Hc. rewrite E in Hc. injection Hc as <-. rewrite Z.shiftl_mul_pow2 by lia.
    assert (pat n (z * 2 ^ k) = pat n (a * 2 ^ k)) as Ep.
    { rewrite <- pat_mul, Ez. rewrite <- (pat_id n a Ha) at 1. apply pat_mul. }
    destruct Henc as [He | He].
    - split; [auto|intros _]. rewrite He. cbn [represents]. eauto.
    - rewrite He in *. cbn [represents] in *. destruct (Z.eqb_spec n 1); [lia|]. injection Hv as Hz. subst z.
      split.
      + intros Eq. right. injection Eq as ->. apply signed_range; [lia|]. apply pat_range. lia.
      + intros [?|Hr]; [discriminate|]. rewrite <- Ep. rewrite pat_signed by (assumption || lia). reflexivity.
  Qed.

  Lemma boogie_mask : forall n b x k rb v nsw i, supported n -> 2 <= n -> is_iN n b -> 0 <= k < n ->
    rb x = Some v -> represents enc n v b ->
    rewrite_bitwise (IBin And nsw n (VConst n (2 ^ k - 1)) (VReg n x)) = RInst i ->
    exists e w, inst_expr O nd i = Some e /\ evaluates prog I rb e w /\ represents enc n w (Z.land (2 ^ k - 1) b).
  Proof.
    intros n b x k rb v nsw i Hn H2 Hb Hk Hx Hv Hi.
    assert (pat n (2 ^ k - 1 + 1) = 2 ^ k) as Ed by (replace (2 ^ k - 1 + 1) with (2 ^ k) by lia; apply pat_pow2; lia).
    cbn [rewrite_bitwise isConstantInt] in Hi. rewrite Ed, pow2_is_pow2 in Hi by lia. injection Hi as <-.
    assert (is_iN n (2 ^ k)) as Hd by (split; [pose proof (pow2_pos k); lia|apply pow2_lt; lia]).
    destruct (lit_unsigned n (2 ^ k) rb true Hn ltac:(lia) Hd (or_introl eq_refl)) as (el & Hel & Hval).
    eexists. exists (VInt (b mod 2 ^ k)). cbn [inst_expr bop_hints negb fst snd expr_of]. rewrite Hel.
    split; [reflexivity|]. pose proof (pow2_pos k ltac:(lia)) as P.
    destruct (operand_pat n v b ltac:(lia) ltac:(lia) Hb Hv) as (z & -> & Ez).
    assert (Z.land (2 ^ k - 1) b = b mod 2 ^ k) as ->.
    { replace (2 ^ k - 1) with (Z.ones k) by (rewrite Z.ones_equiv; lia). rewrite Z.land_comm. apply Z.land_ones. lia. }
    pose proof (Z.mod_pos_bound b (2 ^ k) P) as Bm. pose proof (pow2_le k (n - 1) ltac:(lia)).
    split.
    - exists 5%nat. unfold eval in *. cbn [eval_with]. rewrite Hx, Hval. unfold intType. rewrite Hbp. cbn [INSTRUCTION_TABLE].
      rewrite (c_urem O prog I (extends_refl _) Hbp) by exact Hn. unfold wrapU, smt_mod.
      assert ((if wrappedIntegerEncoding O then pat n (2 ^ k) else 2 ^ k) = 2 ^ k) as ->.
      { destruct (wrappedIntegerEncoding O); [apply pat_pow2; lia|reflexivity]. }
      destruct (Z.eqb_spec (2 ^ k) 0); [lia|]. cbn [option_map]. rewrite Z.abs_eq by lia. do 2 f_equal.
      rewrite <- Ez. destruct (wrappedIntegerEncoding O); [reflexivity|].
      symmetry. apply (pat_narrow n k z). lia.
    - apply represents_iff; [assumption| |pose proof (half_ge2 n H2); lia|].
      + unfold is_iN in *. pose proof (pow2_half n ltac:(lia)). lia.
      + apply pat_id. unfold is_iN in *. pose proof (pow2_half n ltac:(lia)). lia.
  Qed.
End IntLevel.
