(** C11, C12: --rewrite-bitwise-ops and the software and/or routines.
    Vocabulary: Spec/LLVMInt.v, Spec/IR.v, Spec/Encodings.v.  [rewrite_bitwise]
    is the pass on one instruction: [RInst] another instruction, [RCall] a call
    of a library routine. *)
From Coq Require Import ZArith List String Bool Lia ZifyBool.
From Verif.Base Require Import ZBits.
From Verif.Spec Require Import LLVMInt IR Encodings.
From Verif.Model Require Import Boogie PreludeInt SmackRepInt RewriteBitwise.
From Verif.Proofs Require Import ExprSim IntEncodings IntMain RewriteBitwiseProofs RewriteShiftProofs.
From Verif.Props Require Import IntProps.
Import ListNotations.
Open Scope string_scope.
Open Scope list_scope.
Open Scope Z_scope.

(** ** C11, on the machine *)
(** Shifts left by a constant, and masks with a constant 2^k-1 on the left,
    always keep their value. *)
Theorem C11_shl_preserved : forall r n nsw a k i' c, 2 <= n -> 0 <= k ->
  rewrite_bitwise (IBin Shl nsw n a (VConst n k)) = RInst i' ->
  inst_den r (IBin Shl nsw n a (VConst n k)) = Some c -> inst_den r i' = Some c.
Proof.
  intros r n nsw a k i' c Hn Hk Hi Hc. cbn [rewrite_bitwise] in Hi. injection Hi as <-.
  cbn [inst_den value_den opt2 nsw_ok negb andb] in *. destruct (value_den r a) as [x|]; cbn [opt2] in *; [|discriminate].
  rewrite andb_false_r in Hc. assert (k < n) as Hlt by (cbn in Hc; destruct (k <? n) eqn:E; [lia|discriminate]).
  assert ((k <? n) = true) as -> by lia. rewrite rw_shl by lia. exact Hc.
Qed.
Print Assumptions C11_shl_preserved.

Theorem C11_mask_preserved : forall r n nsw m b i' c, 2 <= n -> is_iN n m ->
  rewrite_bitwise (IBin And nsw n (VConst n m) b) = RInst i' ->
  inst_den r (IBin And nsw n (VConst n m) b) = Some c -> inst_den r i' = Some c.
Proof.
  intros r n nsw m b i' c Hn Hm Hi Hc. cbn [rewrite_bitwise isConstantInt] in Hi.
  destruct (is_pow2 (pat n (m + 1))) eqn:Ep.
  - injection Hi as <-. destruct (is_pow2_spec _ Ep) as (k & Hk & Ek).
    pose proof (pow2_pos k Hk). pose proof (pat_range n (m + 1) ltac:(lia)) as HR. rewrite Ek in HR.
    assert (k < n) as Hkn.
    { destruct (Z.lt_ge_cases k n); [assumption|]. pose proof (pow2_le n k ltac:(lia)). unfold is_iN in HR. lia. }
    assert (m = 2 ^ k - 1) as ->.
    { unfold pat in Ek. unfold is_iN in Hm. destruct (Z.eq_dec (m + 1) (2 ^ n)) as [E|E].
      - rewrite E, Z.mod_same in Ek by lia. lia.
      - rewrite Z.mod_small in Ek by lia. lia. }
    cbn [inst_den value_den] in *. destruct (value_den r b) as [y|]; cbn [opt2 nsw_ok negb andb] in *; [|discriminate].
    rewrite andb_false_r in Hc. rewrite rw_mask by lia. exact Hc.
  - destruct (routine "__SMACK_and" n); [discriminate|]. injection Hi as <-. exact Hc.
Qed.
Print Assumptions C11_mask_preserved.

(** Every other instruction is left alone or handed to a routine of its own width. *)
Theorem C11_rest_untouched : forall i,
  match i with
  | IBin (Shl | LShr | AShr) _ _ _ (VConst _ _) => True
  | IBin And _ n a b =>
      match rewrite_bitwise i with
      | RCall f a' b' => a' = a /\ b' = b /\ In (n, f) [(8, "__SMACK_and8"); (16, "__SMACK_and16"); (32, "__SMACK_and32"); (64, "__SMACK_and64")]
      | RInst i' => i' = i \/ exists m c, a = VConst m c
      end
  | IBin Or _ n a b =>
      match rewrite_bitwise i with
      | RCall f a' b' => a' = a /\ b' = b /\ In (n, f) [(8, "__SMACK_or8"); (16, "__SMACK_or16"); (32, "__SMACK_or32"); (64, "__SMACK_or64")]
      | RInst i' => i' = i
      end
  | _ => rewrite_bitwise i = RInst i
  end.
Proof.
  assert (forall base n f, routine base n = Some f ->
    In (n, f) [(8, base ++ "8"); (16, base ++ "16"); (32, base ++ "32"); (64, base ++ "64")]%string) as HR.
  { intros base n f. unfold routine. cbn [In].
    destruct (Z.eqb_spec n 64); [intros E; injection E as <-; subst; tauto|].
    destruct (Z.eqb_spec n 32); [intros E; injection E as <-; subst; tauto|].
    destruct (Z.eqb_spec n 16); [intros E; injection E as <-; subst; tauto|].
    destruct (Z.eqb_spec n 8); [intros E; injection E as <-; subst; tauto|discriminate]. }
  intros [op nsw n a b|q n a b|c n1 n2 a|n c a b]; try reflexivity.
  destruct op; try reflexivity; try (destruct b; reflexivity || exact Logic.I).
  - unfold rewrite_bitwise. destruct (isConstantInt a) eqn:E.
    + destruct a; try discriminate. right. eauto.
    + destruct (routine "__SMACK_and" n) as [f|] eqn:Ef; [|now left]. split; [reflexivity|]. split; [reflexivity|].
      exact (HR "__SMACK_and" n f Ef).
  - unfold rewrite_bitwise. destruct (routine "__SMACK_or" n) as [f|] eqn:Ef; [|reflexivity].
    split; [reflexivity|]. split; [reflexivity|]. exact (HR "__SMACK_or" n f Ef).
Qed.
Print Assumptions C11_rest_untouched.

(** Shifts right become signed divisions, which is right only in part.
    [signed] is the two's complement reading of the shifted operand. *)
Theorem C11_ashr_preserved_iff : forall r n nsw a x k i', 2 <= n -> 0 <= k < n ->
  value_den r a = Some x -> is_iN n x ->
  rewrite_bitwise (IBin AShr nsw n a (VConst n k)) = RInst i' ->
  (inst_den r i' = inst_den r (IBin AShr nsw n a (VConst n k)) <->
   0 <= signed n x \/ (k < n - 1 /\ signed n x mod 2 ^ k = 0)).
Proof.
  intros r n nsw a x k i' Hn Hk Ha Hx Hi. cbn [rewrite_bitwise] in Hi. injection Hi as <-.
  assert ((k <? n) = true) as -> by lia.
  cbn [inst_den value_den]. rewrite Ha. cbn [opt2 nsw_ok negb andb]. rewrite andb_false_r. apply rw_ashr_iff; assumption.
Qed.
Print Assumptions C11_ashr_preserved_iff.

Theorem C11_lshr_preserved_iff : forall r n nsw a x k i', 2 <= n -> 0 <= k < n ->
  value_den r a = Some x -> is_iN n x ->
  rewrite_bitwise (IBin LShr nsw n a (VConst n k)) = RInst i' ->
  (inst_den r i' = inst_den r (IBin LShr nsw n a (VConst n k)) <->
   0 <= signed n x \/ k = 0 \/ (k = n - 1 /\ x = 2 ^ (n - 1))).
Proof.
  intros r n nsw a x k i' Hn Hk Ha Hx Hi. cbn [rewrite_bitwise] in Hi. injection Hi as <-.
  assert ((k <? n) = true) as -> by lia.
  cbn [inst_den value_den]. rewrite Ha. cbn [opt2 nsw_ok negb andb]. rewrite andb_false_r. apply rw_lshr_iff; assumption.
Qed.
Print Assumptions C11_lshr_preserved_iff.

(** ** C11, in the emitted Boogie program (the two integer encodings), where
    division rounds towards minus infinity for positive divisors *)
Theorem C11_ashr_emitted_exact_iff :
  forall enc bvptr ndebug I n nsw a x k rb v i e w c,
    enc = WrappedInteger \/ enc = UnboundedInteger ->
    width_supported n -> 2 <= n -> is_iN n a -> 0 <= k < n ->
    rb x = Some v -> represents enc n v a ->
    rewrite_bitwise (IBin AShr nsw n (VReg n x) (VConst n k)) = RInst i ->
    translate_inst enc bvptr ndebug i = Some e -> evaluates (prelude_of enc bvptr) I rb e w ->
    llvm_binop AShr n a k = Some c ->
    (represents enc n w c <-> k < n - 1 \/ 0 <= signed n a).
Proof.
  intros enc bvptr ndebug I n nsw a x k rb v i e w c He Hn H2 Ha Hk Hx Hv Hi Het Hw Hc.
  exact (boogie_ashr_iff bvptr ndebug I enc He n a x k rb v nsw i e w c Hn H2 Ha Hk Hx Hv Hi Het Hw Hc).
Qed.
Print Assumptions C11_ashr_emitted_exact_iff.
Theorem C11_lshr_emitted_exact_iff :
  forall enc bvptr ndebug I n nsw a x k rb v i e w c,
    enc = WrappedInteger \/ enc = UnboundedInteger ->
    width_supported n -> 2 <= n -> is_iN n a -> 0 <= k < n ->
    rb x = Some v -> represents enc n v a ->
    rewrite_bitwise (IBin LShr nsw n (VReg n x) (VConst n k)) = RInst i ->
    translate_inst enc bvptr ndebug i = Some e -> evaluates (prelude_of enc bvptr) I rb e w ->
    llvm_binop LShr n a k = Some c ->
    (represents enc n w c <-> k = 0 \/ k = n - 1 \/ 0 <= signed n a).
Proof.
  intros enc bvptr ndebug I n nsw a x k rb v i e w c He Hn H2 Ha Hk Hx Hv Hi Het Hw Hc.
  exact (boogie_lshr_iff bvptr ndebug I enc He n a x k rb v nsw i e w c Hn H2 Ha Hk Hx Hv Hi Het Hw Hc).
Qed.
Print Assumptions C11_lshr_emitted_exact_iff.
(** ... and these terms do have a value. *)
Theorem C11_shr_emitted_defined :
  forall enc bvptr ndebug I n nsw a x k rb v op,
    enc = WrappedInteger \/ enc = UnboundedInteger ->
    width_supported n -> 2 <= n -> is_iN n a -> 0 <= k < n ->
    rb x = Some v -> represents enc n v a -> op = LShr \/ op = AShr ->
    exists i e w, rewrite_bitwise (IBin op nsw n (VReg n x) (VConst n k)) = RInst i /\
      translate_inst enc bvptr ndebug i = Some e /\ evaluates (prelude_of enc bvptr) I rb e w.
Proof.
  intros enc bvptr ndebug I n nsw a x k rb v op He Hn H2 Ha Hk Hx Hv Hop.
  destruct (shr_value bvptr ndebug I enc He n a x k rb v op nsw Hn H2 Ha Hk Hx Hv Hop) as (i & e & H1 & H3 & H4).
  exists i, e. eexists. eauto.
Qed.
Print Assumptions C11_shr_emitted_defined.
Theorem C11_shl_emitted_exact_iff :
  forall enc bvptr ndebug I n nsw a x k rb v i e w c,
    enc = WrappedInteger \/ enc = UnboundedInteger ->
    width_supported n -> 2 <= n <= 64 -> is_iN n a -> 0 <= k < n ->
    rb x = Some v -> represents enc n v a ->
    rewrite_bitwise (IBin Shl nsw n (VReg n x) (VConst n k)) = RInst i ->
    translate_inst enc bvptr ndebug i = Some e -> evaluates (prelude_of enc bvptr) I rb e w ->
    llvm_binop Shl n a k = Some c ->
    (represents enc n w c <->
     enc = WrappedInteger \/ - 2 ^ (n - 1) <= signed n a * 2 ^ k < 2 ^ (n - 1)).
Proof.
  intros enc bvptr ndebug I n nsw a x k rb v i e w c He Hn H2 Ha Hk Hx Hv Hi Het Hw Hc.
  exact (boogie_shl_iff bvptr ndebug I enc He n a x k rb v nsw i e w c Hn H2 Ha Hk Hx Hv Hi Het Hw Hc).
Qed.
Print Assumptions C11_shl_emitted_exact_iff.
Theorem C11_mask_emitted_exact :
  forall enc bvptr ndebug I n nsw b x k rb v i,
    enc = WrappedInteger \/ enc = UnboundedInteger ->
    width_supported n -> 2 <= n -> is_iN n b -> 0 <= k < n ->
    rb x = Some v -> represents enc n v b ->
    rewrite_bitwise (IBin And nsw n (VConst n (2 ^ k - 1)) (VReg n x)) = RInst i ->
    exists e w, translate_inst enc bvptr ndebug i = Some e /\
      evaluates (prelude_of enc bvptr) I rb e w /\ represents enc n w (Z.land (2 ^ k - 1) b).
Proof.
  intros enc bvptr ndebug I n nsw b x k rb v i He Hn H2 Hb Hk Hx Hv Hi.
  exact (boogie_mask bvptr ndebug I enc He n b x k rb v nsw i Hn H2 Hb Hk Hx Hv Hi).
Qed.
Print Assumptions C11_mask_emitted_exact.

Definition one_reg (x : Z) : regs := fun _ => Some x.
(** A logical shift right of a value with its top bit set changes, on the machine
    and in the emitted program; -1 ashr 31 becomes 1. *)
Theorem C11_lshr_refuted : exists i', rewrite_bitwise (IBin LShr false 32 (VReg 32 "x") (VConst 32 1)) = RInst i' /\
  inst_den (one_reg (2 ^ 31)) (IBin LShr false 32 (VReg 32 "x") (VConst 32 1)) = Some (2 ^ 30) /\
  inst_den (one_reg (2 ^ 31)) i' = Some (2 ^ 31 + 2 ^ 30) /\
  exists e, translate_inst WrappedInteger false true i' = Some e /\
    eval (prelude_of WrappedInteger false) no_interp 5 (env2 (VInt (2 ^ 31)) (VInt 0)) e = Some (VInt (- 2 ^ 30)).
Proof. eexists. split; [reflexivity|]. split; [reflexivity|]. split; [reflexivity|]. eexists. split; [reflexivity|]. vm_compute. reflexivity. Qed.
Print Assumptions C11_lshr_refuted.
Theorem C11_ashr_refuted : exists i', rewrite_bitwise (IBin AShr false 32 (VReg 32 "x") (VConst 32 31)) = RInst i' /\
  inst_den (one_reg (2 ^ 32 - 1)) (IBin AShr false 32 (VReg 32 "x") (VConst 32 31)) = Some (2 ^ 32 - 1) /\
  exists e, translate_inst WrappedInteger false true i' = Some e /\
    eval (prelude_of WrappedInteger false) no_interp 5 (env2 (VInt (-1)) (VInt 0)) e = Some (VInt 1).
Proof. eexists. split; [reflexivity|]. split; [reflexivity|]. eexists. split; [reflexivity|]. vm_compute. reflexivity. Qed.
Print Assumptions C11_ashr_refuted.
Example C11_nonvacuous :
  rewrite_bitwise (IBin Shl false 32 (VReg 32 "x") (VConst 32 4)) = RInst (IBin Mul false 32 (VReg 32 "x") (VConst 32 16)) /\
  rewrite_bitwise (IBin And false 32 (VConst 32 255) (VReg 32 "x")) = RInst (IBin URem false 32 (VReg 32 "x") (VConst 32 256)) /\
  inst_den (one_reg 4660) (IBin And false 32 (VConst 32 255) (VReg 32 "x")) = Some 52 /\
  inst_den (one_reg 4660) (IBin URem false 32 (VReg 32 "x") (VConst 32 256)) = Some 52 /\
  (exists e, translate_inst UnboundedInteger false true (IBin URem false 32 (VReg 32 "x") (VConst 32 256)) = Some e /\
     eval (prelude_of UnboundedInteger false) no_interp 5 (env2 (VInt (-1)) (VInt 0)) e = Some (VInt 255)) /\
  (* -8 >> 2 = -2 both ways; the guard of the iff holds with a negative operand *)
  signed 32 (2 ^ 32 - 8) mod 2 ^ 2 = 0.
Proof. repeat split; try reflexivity. eexists. split; [reflexivity|]. vm_compute. reflexivity. Qed.

(** ** C12: the routines.  Arguments and results are the signed values of the C
    types; [pat] takes their bit patterns. *)
Definition int8 (z : Z) : Prop := - 2 ^ 7 <= z < 2 ^ 7.
Definition int16 (z : Z) : Prop := - 2 ^ 15 <= z < 2 ^ 15.
Definition int32 (z : Z) : Prop := - 2 ^ 31 <= z < 2 ^ 31.
Definition int64 (z : Z) : Prop := - 2 ^ 63 <= z < 2 ^ 63.

(** With two's complement arithmetic the 8- and 16-bit and-routines are right. *)
Theorem C12_and8 : forall a b, int8 a -> int8 b ->
  int8 (and8 a b) /\ pat 8 (and8 a b) = Z.land (pat 8 a) (pat 8 b).
Proof.
  intros a b Ha Hb. split; [|exact (and_full 8 ltac:(lia) a b Ha Hb)].
  apply (round_range 8 ltac:(lia)). unfold srange. cbn. lia.
Qed.
Print Assumptions C12_and8.
Theorem C12_and16 : forall a b, int16 a -> int16 b ->
  int16 (and16 a b) /\ pat 16 (and16 a b) = Z.land (pat 16 a) (pat 16 b).
Proof.
  intros a b Ha Hb. split; [|exact (and_full 16 ltac:(lia) a b Ha Hb)].
  apply (round_range 16 ltac:(lia)). unfold srange. cbn. lia.
Qed.
Print Assumptions C12_and16.

(** The 32- and 64-bit and-routines run 64 rounds on 32-bit variables and return
    0 whatever their arguments. *)
Theorem C12_and32_always_zero : forall a b, int32 a -> int32 b -> and32 a b = 0.
Proof.
  intros a b Ha Hb.
  assert (srange 32 (and32 a b)) as HR by (apply (round_range 32 ltac:(lia)); unfold srange; cbn; lia).
  rewrite <- (w_id 32 ltac:(lia) _ HR). unfold to_signed.
  pose proof (and_twice 32 ltac:(lia) a b Ha Hb) as E. change (Z.to_nat (2 * 32)) with 64%nat in E.
  unfold and32. rewrite E. reflexivity.
Qed.
Print Assumptions C12_and32_always_zero.
Theorem C12_and64_always_zero : forall a b, int64 a -> int64 b -> and64 a b = 0.
Proof.
  intros a b Ha Hb. unfold and64. apply C12_and32_always_zero; apply (w_range 32 ltac:(lia)).
Qed.
Print Assumptions C12_and64_always_zero.
Theorem C12_and32_refuted : exists a b, int32 a /\ int32 b /\ pat 32 (and32 a b) <> Z.land (pat 32 a) (pat 32 b).
Proof. exists 1, 1. unfold int32. repeat split; try lia. vm_compute. discriminate. Qed.
Print Assumptions C12_and32_refuted.

(** The or-routines lose the lowest set bit of each operand, except that the top
    bit always counts.  [survives N p j]: bit [j] of operand [p] is taken over. *)
Definition survives (N p j : Z) : Prop :=
  Z.testbit p j = true /\ (j = N - 1 \/ exists i, 0 <= i < j /\ Z.testbit p i = true).
Lemma kept_survives : forall N p j, 0 <= j -> kept N p j = true <-> survives N p j.
Proof.
  intros N p j Hj. unfold kept, survives. rewrite andb_true_iff, orb_true_iff, negb_true_iff, Z.eqb_eq.
  pose proof (pow2_pos j Hj) as P.
  assert ((p mod 2 ^ j =? 0) = false <-> exists i, 0 <= i < j /\ Z.testbit p i = true) as ->; [|tauto].
  rewrite Z.eqb_neq. split.
  - intros Hne. pose proof (Z.mod_pos_bound p (2 ^ j) P) as B. set (q := p mod 2 ^ j) in *.
    assert (0 < q) as Hq by lia. exists (Z.log2 q). pose proof (Z.log2_nonneg q).
    assert (Z.log2 q < j) by (apply Z.log2_lt_pow2; lia).
    split; [lia|]. rewrite <- (Z.mod_pow2_bits_low p j) by lia. fold q. apply Z.bit_log2. exact Hq.
  - intros (i & Hi & Ht) E. rewrite <- (Z.mod_pow2_bits_low p j) in Ht by lia. rewrite E, Z.bits_0 in Ht. discriminate.
Qed.
Theorem C12_or32_bits : forall a b j, int32 a -> int32 b -> 0 <= j < 32 ->
  (Z.testbit (pat 32 (or32 a b)) j = true <-> survives 32 (pat 32 a) j \/ survives 32 (pat 32 b) j).
Proof.
  intros a b j Ha Hb Hj. unfold or32. replace 32%nat with (Z.to_nat 32) by reflexivity.
  rewrite (or_full 32 ltac:(lia) a b j Ha Hb Hj).
  rewrite orb_true_iff, !kept_survives by lia. tauto.
Qed.
Print Assumptions C12_or32_bits.
(** Hence 32-bit or is right exactly when every bit of the true result survives. *)
Theorem C12_or32_exact_iff : forall a b, int32 a -> int32 b ->
  (pat 32 (or32 a b) = Z.lor (pat 32 a) (pat 32 b) <->
   forall j, 0 <= j < 32 -> Z.testbit (pat 32 a) j = true \/ Z.testbit (pat 32 b) j = true ->
     survives 32 (pat 32 a) j \/ survives 32 (pat 32 b) j).
Proof.
  intros a b Ha Hb. split.
  - intros E j Hj H. apply C12_or32_bits; auto. rewrite E, Z.lor_spec. apply orb_true_iff. exact H.
  - intros H. apply Z.bits_inj'. intros j Hj. destruct (Z.lt_ge_cases j 32) as [Hl|Hl].
    + rewrite Z.lor_spec. apply eq_true_iff_eq. rewrite C12_or32_bits by (auto; lia). rewrite orb_true_iff.
      split; [|apply H; lia]. unfold survives. tauto.
    + rewrite Z.lor_spec. unfold pat. rewrite !Z.mod_pow2_bits_high by lia. reflexivity.
Qed.
Print Assumptions C12_or32_exact_iff.
Lemma or16_eq : forall a b, or16 a b = to_signed 16 (or32 a b). Proof. reflexivity. Qed.
Lemma or8_eq : forall a b, or8 a b = to_signed 8 (or32 a b). Proof. reflexivity. Qed.
Lemma or64_eq : forall a b, or64 a b = or32 (to_signed 32 a) (to_signed 32 b). Proof. reflexivity. Qed.
Lemma pat_bit : forall m x j, 0 <= j < m -> Z.testbit (pat m x) j = Z.testbit x j.
Proof. intros m x j Hj. unfold pat. apply Z.mod_pow2_bits_low. lia. Qed.
Theorem C12_or16_or8_or64_bits :
  (forall a b j, int16 a -> int16 b -> 0 <= j < 16 ->
     (Z.testbit (pat 16 (or16 a b)) j = true <-> survives 32 (pat 32 a) j \/ survives 32 (pat 32 b) j)) /\
  (forall a b j, int8 a -> int8 b -> 0 <= j < 8 ->
     (Z.testbit (pat 8 (or8 a b)) j = true <-> survives 32 (pat 32 a) j \/ survives 32 (pat 32 b) j)) /\
  (forall a b j, int64 a -> int64 b -> 0 <= j < 32 ->
     (Z.testbit (pat 64 (or64 a b)) j = true <-> survives 32 (pat 32 a) j \/ survives 32 (pat 32 b) j)).
Proof.
  assert (forall m x j, 0 <= j < m -> m <= 32 -> Z.testbit (pat m (to_signed m x)) j = Z.testbit (pat 32 x) j) as HT.
  { intros m x j Hj Hm. rewrite (w_pat m ltac:(lia)). unfold pat. rewrite !Z.mod_pow2_bits_low by lia. reflexivity. }
  split; [|split]; intros a b j Ha Hb Hj; split.
  - intros H1. rewrite <- C12_or32_bits by (unfold int16, int32 in *; lia). rewrite or16_eq in H1. rewrite HT in H1 by lia. exact H1.
  - intros H1. rewrite or16_eq. rewrite HT by lia. apply C12_or32_bits; unfold int16, int32 in *; lia || assumption.
  - intros H1. rewrite <- C12_or32_bits by (unfold int8, int32 in *; lia). rewrite or8_eq in H1. rewrite HT in H1 by lia. exact H1.
  - intros H1. rewrite or8_eq. rewrite HT by lia. apply C12_or32_bits; unfold int8, int32 in *; lia || assumption.
  - intros H1. rewrite or64_eq in H1. rewrite <- (w_pat 32 ltac:(lia) a), <- (w_pat 32 ltac:(lia) b).
    apply C12_or32_bits; try apply (w_range 32 ltac:(lia)); try lia.
    rewrite <- H1. rewrite !pat_bit by lia. reflexivity.
  - intros H1. rewrite <- (w_pat 32 ltac:(lia) a), <- (w_pat 32 ltac:(lia) b) in H1.
    apply C12_or32_bits in H1; try apply (w_range 32 ltac:(lia)); try lia.
    rewrite or64_eq. rewrite <- H1. rewrite !pat_bit by lia. reflexivity.
Qed.
Print Assumptions C12_or16_or8_or64_bits.
Theorem C12_or32_refuted : exists a b, int32 a /\ int32 b /\ pat 32 (or32 a b) <> Z.lor (pat 32 a) (pat 32 b).
Proof. exists 1, 0. unfold int32. repeat split; try lia. vm_compute. discriminate. Qed.
Print Assumptions C12_or32_refuted.

(** With unbounded integers (the default encoding) nothing ever becomes negative
    and the routines return 0 for non-negative arguments. *)
Theorem C12_unbounded_always_zero : forall a b, 0 <= a -> 0 <= b ->
  and8_unbounded a b = 0 /\ and16_unbounded a b = 0 /\ and32_unbounded a b = 0 /\ or32_unbounded a b = 0.
Proof.
  intros a b Ha Hb. repeat split; [apply and_unbounded_nonneg|apply and_unbounded_nonneg|apply and_unbounded_nonneg|apply or_unbounded_nonneg]; assumption.
Qed.
Print Assumptions C12_unbounded_always_zero.

Example C12_nonvacuous :
  int8 (-128) /\ int8 127 /\ and8 (-128) (-1) = -128 /\ and8 93 (-86) = 8 /\ and16 (-21846) 13107 = 8738 /\
  or32 6 5 = 4 + 4 - 4 /\ or32 (-2147483648) 7 = -2147483642 /\ or32 7 7 = 6 /\ or32 7 3 = 6 /\ or32 12 6 = 12.
Proof. unfold int8. repeat split; try lia; vm_compute; reflexivity. Qed.
