(** C08: bit-manipulation intrinsics.  Specification: Spec/BitCount.v. *)
From Coq Require Import ZArith List String Bool Lia.
From Verif.Spec Require Import LLVMInt IR Encodings BitCount.
From Verif.Model Require Import Boogie PreludeInt SmackRepInt Intrinsics.
From Verif.Proofs Require Import ExprSim IntrinsicsProofs.
From Verif.Props Require Import IntProps.
Import ListNotations.
Open Scope string_scope.
Open Scope Z_scope.

(** Operands are the value of the Boogie variable [x]; any width, not only the
    ones the prelude declares. *)
Theorem C08_bitreverse :
  forall prog I rb x w a, 1 <= w -> is_iN w a -> rb x = Some (VBv w a) ->
    exists r, evaluates prog I rb (bitreverse w (EVar x)) (VBv w r) /\ is_bitreverse w a r.
Proof.
  intros prog I rb x w a Hw Ha Hx.
  destruct (bitreverse_ok prog I 0 rb (EVar x) w a Hw Hx Ha) as (r & H & S).
  exists r. split; [exists 0%nat; exact H|exact S].
Qed.
Print Assumptions C08_bitreverse.

(** llvm.bswap is defined for whole numbers of byte pairs. *)
Theorem C08_bswap :
  forall prog I rb x w a, 1 <= w -> w mod 16 = 0 -> is_iN w a -> rb x = Some (VBv w a) ->
    exists r, evaluates prog I rb (bswap w (EVar x)) (VBv w r) /\ is_bswap w a r.
Proof.
  intros prog I rb x w a Hw Hm Ha Hx.
  assert (w = 16 * (w / 16)) as E by (pose proof (Z.div_mod w 16 ltac:(lia)); lia).
  destruct (bswap_ok prog I 0 rb (EVar x) w a (w / 16) ltac:(lia) E Hx Ha) as (r & H & S).
  exists r. split; [exists 0%nat; exact H|exact S].
Qed.
Print Assumptions C08_bswap.

(** ctlz/cttz: [u] is the is_zero_undef operand, [y] the result variable, which
    holds an arbitrary value (it has just been havocked). *)
Theorem C08_ctlz :
  forall prog I rb x u y w a f, 1 <= w -> is_iN w a ->
    rb x = Some (VBv w a) -> rb u = Some (VBv 1 f) -> ~ (f = 1 /\ a = 0) ->
    exists c, evaluates prog I rb (ctlz w (EVar x) (EVar u) (EVar y)) (VBv w c) /\ is_ctlz w a c.
Proof.
  intros prog I rb x u y w a f Hw Ha Hx Hu Hz.
  destruct (ctlz_body prog I 0 rb (EVar x) w a Hw Hx) as (c & H & S).
  exists c. split; [exists 0%nat|exact S]. unfold ctlz.
  rewrite (zeroUndef_eval prog I 0 rb (EVar x) (EVar u) (EVar y) _ w a f Hx ltac:(lia) Ha Hu).
  destruct (Z.eqb_spec f 1), (Z.eqb_spec a 0); cbn [andb]; try exact H. tauto.
Qed.
Print Assumptions C08_ctlz.

Theorem C08_cttz :
  forall prog I rb x u y w a f, 1 <= w -> is_iN w a ->
    rb x = Some (VBv w a) -> rb u = Some (VBv 1 f) -> ~ (f = 1 /\ a = 0) ->
    exists c, evaluates prog I rb (cttz w (EVar x) (EVar u) (EVar y)) (VBv w c) /\ is_cttz w a c.
Proof.
  intros prog I rb x u y w a f Hw Ha Hx Hu Hz.
  destruct (cttz_body prog I 0 rb (EVar x) w a Hw Hx) as (c & H & S).
  exists c. split; [exists 0%nat|exact S]. unfold cttz.
  rewrite (zeroUndef_eval prog I 0 rb (EVar x) (EVar u) (EVar y) _ w a f Hx ltac:(lia) Ha Hu).
  destruct (Z.eqb_spec f 1), (Z.eqb_spec a 0); cbn [andb]; try exact H. tauto.
Qed.
Print Assumptions C08_cttz.

(** With is_zero_undef and operand zero the result is the arbitrary value: every outcome is covered. *)
Theorem C08_zero_undef :
  forall prog I rb x u y w, 1 <= w -> rb x = Some (VBv w 0) -> rb u = Some (VBv 1 1) ->
  forall v, rb y = Some v ->
    evaluates prog I rb (ctlz w (EVar x) (EVar u) (EVar y)) v /\
    evaluates prog I rb (cttz w (EVar x) (EVar u) (EVar y)) v.
Proof.
  intros prog I rb x u y w Hw Hx Hu v Hy.
  assert (0 <= 0 < 2 ^ w) as Hr by (pose proof (Z.pow_pos_nonneg 2 w ltac:(lia) ltac:(lia)); lia).
  split; exists 0%nat; unfold ctlz, cttz;
    rewrite (zeroUndef_eval prog I 0 rb (EVar x) (EVar u) (EVar y) _ w 0 1 Hx ltac:(lia) Hr Hu); exact Hy.
Qed.
Print Assumptions C08_zero_undef.

(** The specifications determine the result. *)
Theorem C08_specs_deterministic :
  forall w a, 1 <= w ->
    (forall r s, is_bitreverse w a r -> is_bitreverse w a s -> r = s) /\
    (forall r s, is_ctlz w a r -> is_ctlz w a s -> r = s) /\
    (forall r s, is_cttz w a r -> is_cttz w a s -> r = s).
Proof.
  intros w a Hw. repeat split.
  - intros r s [R1 R2] [S1 S2]. apply (bits_inj_range w); try lia. intros k Hk. now rewrite R2, S2.
  - intros r s (R1 & R2 & R3) (S1 & S2 & S3). destruct (Z.lt_trichotomy r s) as [H|[H|H]]; [|exact H|].
    + rewrite S2 in R3 by lia. discriminate R3. lia.
    + rewrite R2 in S3 by lia. discriminate S3. lia.
  - intros r s (R1 & R2 & R3) (S1 & S2 & S3). destruct (Z.lt_trichotomy r s) as [H|[H|H]]; [|exact H|].
    + rewrite S2 in R3 by lia. discriminate R3. lia.
    + rewrite R2 in S3 by lia. discriminate S3. lia.
Qed.
Print Assumptions C08_specs_deterministic.

Theorem C08_ctpop_bitvector :
  forall bvptr I rb x w a, width_supported w -> 1 < w -> rb x = Some (VBv w a) ->
    evaluates (prelude_of BitVector bvptr) I rb (ctpop (flags BitVector bvptr) w (EVar x)) (VBv w (popcount w a)).
Proof.
  intros bvptr I rb x w a Hw H1 Hx. exists 1%nat.
  exact (ctpop_bv bvptr I rb (EVar x) w a Hw H1 0 Hx).
Qed.
Print Assumptions C08_ctpop_bitvector.

(** Integer encodings with --rewrite-bitwise-ops; the width bound is the one of
    [1ull << i] in the translator. *)
Theorem C08_ctpop_integers :
  forall enc bvptr I rb x w z, enc <> BitVector -> width_supported w -> 1 < w <= 64 -> rb x = Some (VInt z) ->
    evaluates (prelude_of enc bvptr) I rb (ctpop (flags enc bvptr) w (EVar x)) (VInt (popcount w z)).
Proof.
  intros enc bvptr I rb x w z He Hw [H1 H2] Hx. exists 3%nat.
  exact (ctpop_int enc bvptr I rb (EVar x) w z He Hw H1 0 Hx).
Qed.
Print Assumptions C08_ctpop_integers.
(** whatever integer represents the operand, its own ones are counted *)
Theorem C08_popcount_mod :
  forall w z, 0 <= w -> popcount w z = popcount w (pat w z).
Proof.
  intros w z Hw. unfold popcount. f_equal. f_equal. apply filter_ext_in. intros k Hk.
  apply in_seq in Hk. unfold pat. rewrite Z.mod_pow2_bits_low; [reflexivity|lia].
Qed.
Print Assumptions C08_popcount_mod.

(** i1: the bit-vector body calls a conversion the prelude does not declare. *)
Theorem C08_ctpop_i1_refuted :
  exists a, is_iN 1 a /\ forall I v,
    ~ evaluates (prelude_of BitVector false) I (fun _ => Some (VBv 1 a)) (ctpop (flags BitVector false) 1 (EVar "x")) v.
Proof.
  exists 1. split; [unfold is_iN; lia|]. intros I v [k H].
  assert (forall k, eval_call (prelude_of BitVector false) I k (indexedName "$zext" [NBv 1; NBv 1]) [VBv 1 1] = None) as E.
  { intros [|j]; [reflexivity|]. cbn [eval_call].
    assert (lookup (prelude_of BitVector false) (indexedName "$zext" [NBv 1; NBv 1]) = None) as -> by (vm_compute; reflexivity).
    reflexivity. }
  change (ctpop (flags BitVector false) 1 (EVar "x")) with
    (EFun (indexedName "$add" [NBv 1])
       [EFun (indexedName "$zext" [NBv 1; NBv 1]) [EExtract (EVar "x") 1 0]; EBv 0 1]) in H.
  unfold eval in H. cbn [eval_with] in H.
  change ((0 <=? 0) && (0 <=? 1) && (1 <=? 1)) with true in H. cbn iota in H.
  change (1 - 0) with 1 in H. change ((1 / 2 ^ 0) mod 2 ^ 1) with 1 in H. rewrite E in H. discriminate H.
Qed.
Print Assumptions C08_ctpop_i1_refuted.

Example C08_nonvacuous :
  let rb := upd_env (upd_env (upd_env (fun _ => None) "x" (VBv 32 (2^31 + 0x1234))) "u" (VBv 1 1)) "y" (VBv 32 77) in
  eval [] no_interp 1 rb (bitreverse 32 (EVar "x")) = Some (VBv 32 0x2c480001) /\
  eval [] no_interp 1 rb (bswap 32 (EVar "x")) = Some (VBv 32 0x34120080) /\
  eval [] no_interp 1 rb (ctlz 32 (EVar "x") (EVar "u") (EVar "y")) = Some (VBv 32 0) /\
  eval [] no_interp 1 rb (cttz 32 (EVar "x") (EVar "u") (EVar "y")) = Some (VBv 32 2) /\
  eval (prelude_of BitVector false) no_interp 1 rb (ctpop (flags BitVector false) 32 (EVar "x")) = Some (VBv 32 6) /\
  popcount 32 (2^31 + 0x1234) = 6.
Proof. repeat split; vm_compute; reflexivity. Qed.
