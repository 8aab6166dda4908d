From Coq Require Import ZArith List String Bool Lia ZifyBool Arith.
From Verif.Base Require Import ZBits.
From Verif.Spec Require Import LLVMInt IR Encodings BitCount.
From Verif.Model Require Import Boogie PreludeInt SmackRepInt Intrinsics.
From Verif.Proofs Require Import Lookup PreludeCalls ExprSim IntEncodings IntMain.
Import ListNotations.
Open Scope string_scope.
Open Scope Z_scope.

(** ** Bits of extraction and concatenation *)
Lemma testbit_extract : forall z lo hi k, 0 <= lo -> lo <= hi -> 0 <= k < hi - lo ->
  Z.testbit ((z / 2 ^ lo) mod 2 ^ (hi - lo)) k = Z.testbit z (k + lo).
Proof.
  intros z lo hi k Hlo Hhi Hk. rewrite Z.mod_pow2_bits_low by lia. apply Z.div_pow2_bits; lia.
Qed.
Lemma testbit_concat_lo : forall x y w k, 0 <= w -> 0 <= y < 2 ^ w -> 0 <= k < w ->
  Z.testbit (x * 2 ^ w + y) k = Z.testbit y k.
Proof.
  intros x y w k Hw Hy Hk. rewrite <- (Z.mod_pow2_bits_low (x * 2 ^ w + y) w k) by lia.
  rewrite Z.add_comm, Z.mod_add by lia. rewrite Z.mod_small by lia. reflexivity.
Qed.
Lemma testbit_concat_hi : forall x y w k, 0 <= w -> 0 <= y < 2 ^ w -> w <= k ->
  Z.testbit (x * 2 ^ w + y) k = Z.testbit x (k - w).
Proof.
  intros x y w k Hw Hy Hk. replace k with ((k - w) + w) at 1 by lia.
  rewrite <- (Z.div_pow2_bits (x * 2 ^ w + y) w (k - w)) by lia.
  rewrite Z.div_add_l by lia. rewrite Z.div_small by lia. now rewrite Z.add_0_r.
Qed.

Section BV.
  Context (prog : list fdecl) (I : interp) (j : nat).
  Notation EV := (eval prog I j).

  (** [e] denotes the [w]-bit vector whose bits are given by [f]. *)
  Definition denotes_bits (rb : env) (e : expr) (w : Z) (f : Z -> bool) : Prop :=
    exists z, EV rb e = Some (VBv w z) /\ 0 <= z < 2 ^ w /\ forall k, 0 <= k < w -> Z.testbit z k = f k.

  Lemma bits_extract : forall rb e w z hi lo, EV rb e = Some (VBv w z) -> 0 <= lo -> lo <= hi -> hi <= w ->
    denotes_bits rb (EExtract e hi lo) (hi - lo) (fun k => Z.testbit z (k + lo)).
  Proof.
    intros rb e w z hi lo He H1 H2 H3. unfold denotes_bits, eval in *. cbn [eval_with]. rewrite He.
    destruct ((0 <=? lo) && (lo <=? hi) && (hi <=? w)) eqn:E; [|lia].
    eexists. split; [reflexivity|]. split; [apply Z.mod_pos_bound, pow2_pos; lia|].
    intros k Hk. apply testbit_extract; lia.
  Qed.
  Lemma bits_concat : forall rb a b w1 w2 f1 f2,
    denotes_bits rb a w1 f1 -> denotes_bits rb b w2 f2 -> 0 <= w1 -> 0 <= w2 ->
    denotes_bits rb (EConcat a b) (w1 + w2) (fun k => if k <? w2 then f2 k else f1 (k - w2)).
  Proof.
    intros rb a b w1 w2 f1 f2 (za & Ha & Ra & Fa) (zb & Hb & Rb & Fb) H1 H2.
    unfold denotes_bits, eval in *. cbn [eval_with]. rewrite Ha, Hb.
    eexists. split; [reflexivity|]. split.
    - rewrite Z.pow_add_r by lia. nia.
    - intros k Hk. destruct (k <? w2) eqn:E.
      + rewrite testbit_concat_lo by lia. apply Fb; lia.
      + rewrite testbit_concat_hi by lia. apply Fa; lia.
  Qed.
  Lemma bits_ext : forall rb e w w' f f', w = w' -> (forall k, 0 <= k < w -> f k = f' k) ->
    denotes_bits rb e w f -> denotes_bits rb e w' f'.
  Proof.
    intros rb e w w' f f' <- H (z & Hz & R & F). exists z. repeat split; try tauto.
    intros k Hk. rewrite F by lia. apply H, Hk.
  Qed.

  (** iterations preserve an invariant indexed by the loop counter *)
  Lemma iterate_inv : forall (P : Z -> expr -> Prop) F step n i b,
    (forall i b m, (m < n)%nat -> P (i + Z.of_nat m * step) b -> P (i + Z.of_nat m * step + step) (F (i + Z.of_nat m * step) b)) ->
    P i b -> P (i + Z.of_nat n * step) (iterate n i step F b).
  Proof.
    intros P F step n. induction n as [|n IH]; intros i b HF HP.
    - cbn. now replace (i + 0) with i by lia.
    - cbn [iterate]. replace (i + Z.of_nat (S n) * step) with ((i + step) + Z.of_nat n * step) by lia.
      apply IH.
      + intros i' b' m Hm. apply HF. lia.
      + pose proof (HF i b O ltac:(lia)) as H. cbn in H. rewrite Z.add_0_r in H. apply H, HP.
  Qed.
  Lemma for_up_inv : forall (P : Z -> expr -> Prop) F start bound b,
    start <= bound ->
    (forall i b, start <= i < bound -> P i b -> P (i + 1) (F i b)) ->
    P start b -> P bound (for_up start bound 1 F b).
  Proof.
    intros P F start bound b Hle HF HP. unfold for_up.
    replace ((bound - start + 1 - 1) / 1) with (bound - start) by (rewrite Z.div_1_r; lia).
    set (n := Z.to_nat (bound - start)).
    replace bound with (start + Z.of_nat n * 1) at 1 by lia.
    assert (forall m i b, Z.of_nat m + i = bound -> start <= i -> P i b -> P (i + Z.of_nat m * 1) (iterate m i 1 F b)) as H.
    { induction m as [|m IH]; intros i b' Hm Hi Hb; cbn [iterate].
      - now replace (i + Z.of_nat 0 * 1) with i by lia.
      - replace (i + Z.of_nat (S m) * 1) with ((i + 1) + Z.of_nat m * 1) by lia.
        apply IH; try lia. apply HF; [lia|assumption]. }
    apply H; try lia. exact HP.
  Qed.

  (** ** bitreverse *)
  Lemma bitreverse_ok : forall rb e w x, 1 <= w -> EV rb e = Some (VBv w x) -> 0 <= x < 2 ^ w ->
    exists r, EV rb (bitreverse w e) = Some (VBv w r) /\ is_bitreverse w x r.
  Proof.
    intros rb e w x Hw He Hx. unfold bitreverse.
    set (h := w / 2). set (o := w mod 2).
    assert (w = 2 * h + o) as Ew by (unfold h, o; apply Z.div_mod; lia).
    assert (0 <= o < 2) as Ho by (apply Z.mod_pos_bound; lia).
    assert (forall i b, denotes_bits rb b (2 * i + o) (fun k => Z.testbit x (w - 1 - (h - i) - k)) ->
      0 <= i < h ->
      denotes_bits rb (EConcat (EConcat (EExtract e (h - i) (h - i - 1)) b)
               (EExtract e (h + i + 1 + o) (h + i + o))) (2 * (i + 1) + o)
        (fun k => Z.testbit x (w - 1 - (h - (i + 1)) - k))) as Hstep.
    { intros i b Hb Hi.
      pose proof (bits_extract rb e w x (h - i) (h - i - 1) He ltac:(lia) ltac:(lia) ltac:(lia)) as H1.
      pose proof (bits_extract rb e w x (h + i + 1 + o) (h + i + o) He ltac:(lia) ltac:(lia) ltac:(lia)) as H2.
      eapply bits_ext; [| |exact (bits_concat _ _ _ _ _ _ _ (bits_concat _ _ _ _ _ _ _ H1 Hb ltac:(lia) ltac:(lia)) H2 ltac:(lia) ltac:(lia))].
      - lia.
      - intros k Hk. cbn beta.
        destruct (k <? h + i + 1 + o - (h + i + o)) eqn:E1; [f_equal; lia|].
        destruct (k - (h + i + 1 + o - (h + i + o)) <? 2 * i + o) eqn:E2; f_equal; lia. }
    assert (denotes_bits rb (for_up (if o =? 0 then 1 else 0) h 1
      (fun i b => EConcat (EConcat (EExtract e (h - i) (h - i - 1)) b)
               (EExtract e (h + i + 1 + o) (h + i + o)))
      (if o =? 0 then EConcat (EExtract e h (h - 1)) (EExtract e (h + 1) h) else EExtract e (h + 1) h))
      (2 * h + o) (fun k => Z.testbit x (w - 1 - (h - h) - k))) as (r & Hr & Rr & Fr).
    { apply (for_up_inv (fun i b => denotes_bits rb b (2 * i + o) (fun k => Z.testbit x (w - 1 - (h - i) - k)))).
      - destruct (o =? 0) eqn:?; lia.
      - intros i b Hi Hb. apply Hstep; [assumption|]. destruct (o =? 0) eqn:?; lia.
      - destruct (o =? 0) eqn:Eo.
        + pose proof (bits_extract rb e w x h (h - 1) He ltac:(lia) ltac:(lia) ltac:(lia)) as H1.
          pose proof (bits_extract rb e w x (h + 1) h He ltac:(lia) ltac:(lia) ltac:(lia)) as H2.
          eapply bits_ext; [| |exact (bits_concat _ _ _ _ _ _ _ H1 H2 ltac:(lia) ltac:(lia))]; [lia|].
          intros k Hk. cbn beta. destruct (k <? h + 1 - h) eqn:E1; f_equal; lia.
        + pose proof (bits_extract rb e w x (h + 1) h He ltac:(lia) ltac:(lia) ltac:(lia)) as H2.
          eapply bits_ext; [| |exact H2]; [lia|]. intros k Hk. cbn beta. f_equal. lia. }
    rewrite <- Ew in Hr, Rr, Fr. exists r. split; [exact Hr|]. split; [exact Rr|].
    intros k Hk. rewrite Fr by lia. f_equal. lia.
  Qed.

  (** ** bswap *)
  Lemma bswap_bits : forall rb e w x m, 1 <= m -> w = 16 * m -> EV rb e = Some (VBv w x) ->
    denotes_bits rb (bswap w e) w (fun k => Z.testbit x (8 * (w / 8 - 1 - k / 8) + k mod 8)).
  Proof.
    intros rb e w x m Hm Ew He. unfold bswap.
    assert (w / 2 = 8 * m) as Eh by (subst w; symmetry; apply Z.div_unique with 0; lia).
    assert (w / 8 = 2 * m) as E8 by (subst w; symmetry; apply Z.div_unique with 0; lia).
    rewrite Eh. unfold for_up.
    replace ((8 * m - 8 + 8 - 1) / 8) with (m - 1) by (apply Z.div_unique with 7; lia).
    set (n := Z.to_nat (m - 1)).
    (* invariant: b covers bytes m - t .. m + t of the result, loop counter i = 8 t *)
    set (P := fun t b => denotes_bits rb b (16 * t)
                 (fun k => Z.testbit x (8 * (m + t - 1 - k / 8) + k mod 8))).
    assert (forall c t b, Z.of_nat c + t = m -> 1 <= t -> P t b ->
      P m (iterate c (8 * t) 8 (fun i b => EConcat (EConcat (EExtract e (8 * m - i) (8 * m - i - 8)) b)
               (EExtract e (8 * m + i + 8) (8 * m + i))) b)) as H.
    { induction c as [|c IH]; intros t b Hc Ht HP; cbn [iterate].
      - now replace m with t by lia.
      - replace (8 * t + 8) with (8 * (t + 1)) by lia. apply IH; try lia. unfold P in HP |- *.
        pose proof (bits_extract rb e w x (8 * m - 8 * t) (8 * m - 8 * t - 8) He ltac:(lia) ltac:(lia) ltac:(lia)) as H1.
        pose proof (bits_extract rb e w x (8 * m + 8 * t + 8) (8 * m + 8 * t) He ltac:(lia) ltac:(lia) ltac:(lia)) as H2.
        eapply bits_ext; [| |exact (bits_concat _ _ _ _ _ _ _ (bits_concat _ _ _ _ _ _ _ H1 HP ltac:(lia) ltac:(lia)) H2 ltac:(lia) ltac:(lia))].
        + lia.
        + intros k Hk. cbn beta.
          replace (8 * m + 8 * t + 8 - (8 * m + 8 * t)) with 8 by lia.
          pose proof (Z.div_mod k 8 ltac:(lia)) as D. pose proof (Z.mod_pos_bound k 8 ltac:(lia)) as B.
          destruct (k <? 8) eqn:E1.
          * rewrite (Z.div_small k 8), (Z.mod_small k 8) by lia. f_equal. lia.
          * assert ((k - 8) / 8 = k / 8 - 1 /\ (k - 8) mod 8 = k mod 8) as [D1 D2].
            { replace (k - 8) with (k + (-1) * 8) by lia. rewrite Z.div_add, Z.mod_add by lia. lia. }
            destruct (k - 8 <? 16 * t) eqn:E2.
            -- rewrite D1, D2. f_equal. lia.
            -- f_equal. assert (k / 8 = 2 * t + 1) by lia. lia. }
    eapply bits_ext; [| |apply (H n 1)].
    - lia.
    - intros k Hk. cbn beta. f_equal. lia.
    - lia.
    - lia.
    - unfold P.
      pose proof (bits_extract rb e w x (8 * m) (8 * m - 8) He ltac:(lia) ltac:(lia) ltac:(lia)) as H1.
      pose proof (bits_extract rb e w x (8 * m + 8) (8 * m) He ltac:(lia) ltac:(lia) ltac:(lia)) as H2.
      eapply bits_ext; [| |exact (bits_concat _ _ _ _ _ _ _ H1 H2 ltac:(lia) ltac:(lia))]; [lia|].
      intros k Hk. cbn beta. replace (8 * m + 8 - 8 * m) with 8 by lia.
      pose proof (Z.div_mod k 8 ltac:(lia)) as D. pose proof (Z.mod_pos_bound k 8 ltac:(lia)) as B.
      destruct (k <? 8) eqn:E1.
      + rewrite (Z.div_small k 8), (Z.mod_small k 8) by lia. f_equal. lia.
      + f_equal. assert (k / 8 = 1) by lia. lia.
  Qed.

  Lemma byte_testbit : forall x b k, 0 <= b -> 0 <= k < 8 -> Z.testbit (byte_of x b) k = Z.testbit x (8 * b + k).
  Proof.
    intros x b k Hb Hk. unfold byte_of. change 256 with (2 ^ 8).
    rewrite Z.mod_pow2_bits_low by lia. rewrite Z.div_pow2_bits by lia. f_equal. lia.
  Qed.
  Lemma byte_range : forall x b, 0 <= byte_of x b < 2 ^ 8.
  Proof. intros. unfold byte_of. change (2 ^ 8) with 256. apply Z.mod_pos_bound. lia. Qed.
  Lemma bits_inj_range : forall w a b, 0 <= w -> 0 <= a < 2 ^ w -> 0 <= b < 2 ^ w ->
    (forall k, 0 <= k < w -> Z.testbit a k = Z.testbit b k) -> a = b.
  Proof.
    intros w a b Hw Ha Hb H. apply Z.bits_inj'. intros k Hk.
    destruct (Z.ltb_spec k w) as [E|E]; [apply H; lia|].
    rewrite <- (Z.mod_small a (2 ^ w)), <- (Z.mod_small b (2 ^ w)) by lia.
    now rewrite !Z.mod_pow2_bits_high by lia.
  Qed.

  Lemma bswap_ok : forall rb e w x m, 1 <= m -> w = 16 * m -> EV rb e = Some (VBv w x) -> 0 <= x < 2 ^ w ->
    exists r, EV rb (bswap w e) = Some (VBv w r) /\ is_bswap w x r.
  Proof.
    intros rb e w x m Hm Ew He Hx.
    destruct (bswap_bits rb e w x m Hm Ew He) as (r & Hr & Rr & Fr).
    exists r. split; [exact Hr|]. split; [exact Rr|]. intros b Hb.
    assert (w / 8 = 2 * m) as E8 by (subst w; symmetry; apply Z.div_unique with 0; lia).
    apply (bits_inj_range 8); try lia; try apply byte_range.
    intros k Hk. rewrite !byte_testbit by lia. rewrite Fr by lia.
    replace ((8 * b + k) / 8) with b by (apply Z.div_unique with k; lia).
    replace ((8 * b + k) mod 8) with k by (apply Z.mod_unique with b; lia). reflexivity.
  Qed.

  (** ** ctlz, cttz *)
  Lemma lit_bv : forall rb z w, 0 <= z < 2 ^ w -> EV rb (EBv z w) = Some (VBv w z).
  Proof. intros rb z w H. unfold eval. cbn [eval_with]. destruct ((0 <=? z) && (z <? 2 ^ w)) eqn:E; [reflexivity|lia]. Qed.
  Lemma test_bit_eval : forall rb e w x i, EV rb e = Some (VBv w x) -> 0 <= i < w ->
    EV rb (EBin BEq (EExtract e (i + 1) i) (EBv 1 1)) = Some (VBool (Z.testbit x i)).
  Proof.
    intros rb e w x i He Hi. unfold eval in *. cbn [eval_with]. rewrite He.
    destruct ((0 <=? i) && (i <=? i + 1) && (i + 1 <=? w)) eqn:E; [|lia].
    change ((0 <=? 1) && (1 <? 2 ^ 1)) with true. cbn iota. replace (i + 1 - i) with 1 by lia.
    cbn [eval_bin Z.eqb Pos.eqb]. do 2 f_equal.
    rewrite (Z.testbit_eqb x i) by lia. reflexivity.
  Qed.
  Lemma pow2_gt : forall w, 0 <= w -> w < 2 ^ w.
  Proof. intros w H. apply Z.pow_gt_lin_r; lia. Qed.

  Lemma eval_ite : forall rb c t e b, EV rb c = Some (VBool b) ->
    EV rb (EIte c t e) = if b then EV rb t else EV rb e.
  Proof. intros rb c t e b H. unfold eval in *. cbn [eval_with]. rewrite H. destruct b; reflexivity. Qed.

  (** the part of ctlz after [i] iterations: leading zeros of the low [i] bits *)
  Lemma ctlz_body : forall rb e w x, 1 <= w -> EV rb e = Some (VBv w x) ->
    exists c, EV rb (for_up 0 w 1
       (fun i b => EIte (EBin BEq (EExtract e (i + 1) i) (EBv 1 1)) (EBv (w - i - 1) w) b)
       (EBv w w)) = Some (VBv w c) /\ is_ctlz w x c.
  Proof.
    intros rb e w x Hw He. pose proof (pow2_gt w ltac:(lia)) as Hp.
    (* c is the answer for the low i bits of x *)
    set (P := fun i b => exists c, EV rb b = Some (VBv w c) /\ w - i <= c <= w /\
             (forall k, w - c <= k < i -> Z.testbit x k = false) /\ (c < w -> Z.testbit x (w - c - 1) = true)).
    assert (P w (for_up 0 w 1
       (fun i b => EIte (EBin BEq (EExtract e (i + 1) i) (EBv 1 1)) (EBv (w - i - 1) w) b)
       (EBv w w))) as (c & H1 & H2 & H3 & H4).
    { apply for_up_inv; [lia| |].
      - intros i b Hi (c & Hc & Rc & Zc & Oc). unfold P.
        rewrite (eval_ite _ _ _ _ _ (test_bit_eval rb e w x i He ltac:(lia))).
        destruct (Z.testbit x i) eqn:Eb.
        + exists (w - i - 1). split; [apply lit_bv; lia|]. split; [lia|]. split.
          * intros k Hk. lia.
          * intros _. now replace (w - (w - i - 1) - 1) with i by lia.
        + exists c. split; [exact Hc|]. split; [lia|]. split; [|exact Oc].
          intros k Hk. destruct (Z.eq_dec k i) as [->|]; [exact Eb|]. apply Zc. lia.
      - exists w. split; [apply lit_bv; lia|]. split; [lia|]. split; intros; lia. }
    exists c. split; [exact H1|]. split; [lia|]. split; assumption.
  Qed.

  Lemma cttz_body : forall rb e w x, 1 <= w -> EV rb e = Some (VBv w x) ->
    exists c, EV rb (for_down w
       (fun i b => EIte (EBin BEq (EExtract e i (i - 1)) (EBv 1 1)) (EBv (i - 1) w) b)
       (EBv w w)) = Some (VBv w c) /\ is_cttz w x c.
  Proof.
    intros rb e w x Hw He. pose proof (pow2_gt w ltac:(lia)) as Hp. unfold for_down.
    set (F := fun i b => EIte (EBin BEq (EExtract e i (i - 1)) (EBv 1 1)) (EBv (i - 1) w) b).
    (* with the loop counter at i, b answers for the bits >= i *)
    set (P := fun i b => exists c, EV rb b = Some (VBv w c) /\ i <= c <= w /\
             (forall k, i <= k < c -> Z.testbit x k = false) /\ (c < w -> Z.testbit x c = true)).
    assert (forall n i b, Z.of_nat n = i -> i <= w -> P i b -> P 0 (iterate n i (-1) F b)) as H.
    { induction n as [|n IH]; intros i b Hn Hi HP; cbn [iterate].
      - now replace 0 with i by lia.
      - apply IH; try lia. destruct HP as (c & Hc & Rc & Zc & Oc). unfold P, F.
        replace (i - 1) with (i + -1) by lia.
        pose proof (test_bit_eval rb e w x (i + -1) He ltac:(lia)) as Ht.
        replace (i + -1 + 1) with i in Ht by lia.
        rewrite (eval_ite _ _ _ _ _ Ht).
        destruct (Z.testbit x (i + -1)) eqn:Eb.
        + exists (i + -1). split; [apply lit_bv; lia|]. split; [lia|]. split; [intros; lia|]. auto.
        + exists c. split; [exact Hc|]. split; [lia|]. split; [|exact Oc].
          intros k Hk. destruct (Z.eq_dec k (i + -1)) as [->|]; [exact Eb|]. apply Zc. lia. }
    destruct (H (Z.to_nat w) w (EBv w w) ltac:(lia) ltac:(lia)) as (c & H1 & H2 & H3 & H4).
    - exists w. split; [apply lit_bv; lia|]. split; [lia|]. split; intros; lia.
    - exists c. split; [exact H1|]. split; [lia|]. split; assumption.
  Qed.

  Lemma zeroUndef_eval : forall rb e u res body w x f, EV rb e = Some (VBv w x) -> 0 <= w -> 0 <= x < 2 ^ w ->
    EV rb u = Some (VBv 1 f) ->
    EV rb (zeroUndef w e u res body) = if (f =? 1) && (x =? 0) then EV rb res else EV rb body.
  Proof.
    intros rb e u res body w x f He Hw Hx Hu. unfold zeroUndef. apply eval_ite.
    unfold eval in *. cbn [eval_with]. rewrite Hu, He. change ((0 <=? 1) && (1 <? 2 ^ 1)) with true.
    destruct ((0 <=? 0) && (0 <? 2 ^ w)) eqn:E; [|lia]. cbn [eval_bin]. rewrite !Z.eqb_refl. reflexivity.
  Qed.
End BV.

(** ** ctpop *)
Lemma popcount_S : forall n x, popcount (Z.of_nat (S n)) x =
  popcount (Z.of_nat n) x + (if Z.testbit x (Z.of_nat n) then 1 else 0).
Proof.
  intros n x. unfold popcount. rewrite !Nat2Z.id. rewrite seq_S, filter_app, app_length, Nat2Z.inj_add. f_equal.
  rewrite Nat.add_0_l. cbn [filter]. destruct (Z.testbit x (Z.of_nat n)); reflexivity.
Qed.
Lemma popcount_succ : forall i x, 0 <= i ->
  popcount (i + 1) x = popcount i x + (if Z.testbit x i then 1 else 0).
Proof.
  intros i x Hi. replace i with (Z.of_nat (Z.to_nat i)) by lia.
  replace (Z.of_nat (Z.to_nat i) + 1) with (Z.of_nat (S (Z.to_nat i))) by lia. apply popcount_S.
Qed.
Lemma popcount_bound : forall i x, 0 <= i -> 0 <= popcount i x <= i.
Proof.
  intros i x Hi. replace i with (Z.of_nat (Z.to_nat i)) by lia. induction (Z.to_nat i) as [|n IH].
  - cbn. lia.
  - rewrite popcount_S. destruct (Z.testbit x (Z.of_nat n)); lia.
Qed.

Lemma bit_as_mod : forall x i, 0 <= i -> (x / 2 ^ i) mod 2 = if Z.testbit x i then 1 else 0.
Proof.
  intros x i Hi. rewrite Z.testbit_eqb by lia. pose proof (Z.mod_pos_bound (x / 2 ^ i) 2 ltac:(lia)).
  destruct (_ =? 1) eqn:E1; lia.
Qed.

Lemma ctpop_bv : forall p I rb e w x, supported w -> 1 < w -> forall k,
  eval (preludeInt (flags BitVector p)) I (S k) rb e = Some (VBv w x) ->
  eval (preludeInt (flags BitVector p)) I (S k) rb (ctpop (flags BitVector p) w e) = Some (VBv w (popcount w x)).
Proof.
  intros p I rb e w x Hw Hw1 f He. unfold ctpop, intType. cbn [bitPrecise flags].
  pose proof (pow2_gt w ltac:(lia)) as Hp.
  assert (supported 1) as S1 by (cbv; tauto).
  apply (for_up_inv (fun i b => eval (preludeInt (flags BitVector p)) I (S f) rb b = Some (VBv w (popcount i x)))).
  - lia.
  - intros i b Hi Hb. unfold eval in *.
    assert (eval_with (eval_call (preludeInt (flags BitVector p)) I (S f)) rb (EExtract e (i + 1) i)
            = Some (VBv 1 ((x / 2 ^ i) mod 2))) as Hx.
    { cbn [eval_with]. rewrite He.
      destruct ((0 <=? i) && (i <=? i + 1) && (i + 1 <=? w)) eqn:E; [|lia].
      replace (i + 1 - i) with 1 by lia. reflexivity. }
    remember (EExtract e (i + 1) i) as ex eqn:Eex. clear Eex.
    cbn [eval_with]. rewrite Hx, Hb.
    change "$zext" with (if false then "$sext" else "$zext").
    rewrite (b_ext (flags BitVector p) _ I (extends_refl _) eq_refl eq_refl false) by (assumption || lia).
    change "$add" with ("$" ++ "add").
    rewrite (b_builtin (flags BitVector p) _ I (extends_refl _) eq_refl "add" (Some (OpInlined (intArithExpr Plus))) true); [|in_table|exact Hw].
    rewrite bit_as_mod by lia. rewrite popcount_succ by lia.
    pose proof (popcount_bound i x ltac:(lia)).
    unfold eval_bvbuiltin2. cbn. do 2 f_equal. unfold bvn.
    rewrite Z.mod_small; [lia|]. destruct (Z.testbit x i); lia.
  - apply lit_bv. cbn. lia.
Qed.

(** integer encodings: [z] is any integer; its low [w] bits are counted *)
Lemma ctpop_int : forall enc p I rb e w z, enc <> BitVector -> supported w -> 1 < w -> forall k,
  eval (preludeInt (flags enc p)) I (S (S (S k))) rb e = Some (VInt z) ->
  eval (preludeInt (flags enc p)) I (S (S (S k))) rb (ctpop (flags enc p) w e) = Some (VInt (popcount w z)).
Proof.
  intros enc p I rb e w z Henc Hw Hw1 f He.
  set (O := flags enc p) in *.
  assert (bitPrecise O = false) as Hbp by (destruct enc; [congruence|reflexivity|reflexivity]).
  unfold ctpop, intType. rewrite Hbp.
  apply (for_up_inv (fun i b => eval (preludeInt O) I (S (S (S f))) rb b = Some (VInt (popcount i z)))).
  - lia.
  - intros i b Hi Hb. unfold eval in *. cbn [eval_with]. rewrite He, Hb.
    rewrite (c_udiv O _ I (extends_refl _) Hbp) by exact Hw.
    pose proof (pow2_pos i ltac:(lia)) as P1.
    assert (2 ^ i < 2 ^ w) as P2 by (apply Z.pow_lt_mono_r; lia).
    assert (wrapU O w (2 ^ i) = 2 ^ i) as W1.
    { unfold wrapU. destruct (wrappedIntegerEncoding O); [|reflexivity]. apply pat_id. unfold is_iN. lia. }
    rewrite W1. unfold smt_div. destruct (2 ^ i =? 0) eqn:E0; [lia|]. destruct (0 <? 2 ^ i) eqn:E1; [|lia].
    cbn [option_map].
    rewrite (c_urem O _ I (extends_refl _) Hbp) by exact Hw.
    set (q := wrapU O w z / 2 ^ i).
    assert (q mod 2 = if Z.testbit z i then 1 else 0) as Hq.
    { unfold q. rewrite bit_as_mod by lia.
      assert (Z.testbit (wrapU O w z) i = Z.testbit z i) as ->; [|reflexivity].
      unfold wrapU. destruct (wrappedIntegerEncoding O); [|reflexivity]. unfold pat. apply Z.mod_pow2_bits_low. lia. }
    assert (4 <= 2 ^ w) as P4 by (change 4 with (2 ^ 2); apply pow2_le; lia).
    assert (wrapU O w 2 = 2) as W2.
    { unfold wrapU. destruct (wrappedIntegerEncoding O); [|reflexivity]. apply pat_id. unfold is_iN. lia. }
    assert (wrapU O w q = q) as W3.
    { unfold q, wrapU. destruct (wrappedIntegerEncoding O); [|reflexivity]. apply pat_id.
      pose proof (pat_range w z ltac:(lia)) as Hr. unfold is_iN in *.
      split; [apply Z.div_pos; lia|]. apply Z.le_lt_trans with (pat w z); [|lia].
      apply Z.div_le_upper_bound; nia. }
    rewrite W2, W3. unfold smt_mod. cbn [Z.eqb option_map Z.abs].
    rewrite (c_add O _ I (extends_refl _) Hbp) by exact Hw.
    rewrite Hq, popcount_succ by lia. do 2 f_equal. lia.
  - reflexivity.
Qed.
