(** Memory accesses and pointer arithmetic: properties C17, C23, C49, C50. *)
From Coq Require Import ZArith List String Bool Lia.
From Verif.Base Require Import ZBits.
From Verif.Spec Require Import LLVMInt IR ByteMemory Encodings Pointers.
From Verif.Model Require Import Boogie PreludeInt SmackRepInt PreludeMem.
From Verif.Proofs Require Import Lookup PreludeCalls ExprSim EvalCompose MemCalls ByteMem PtrProofs MemMain PtrCmp.
Import ListNotations.
Open Scope string_scope.
Open Scope list_scope.
Open Scope Z_scope.

(** * C17: stored values read back, other bytes keep their contents.

    [prog] is any Boogie program that contains the generated prelude, [I] any
    interpretation of its uninterpreted functions, [r] any state. *)

(** Byte-addressed regions (bit-vector encoding): the store emitted for an iN
    writes exactly the bytes of the value, least significant first. *)
Theorem C17_store_bytes : forall bvptr P prog I,
  extends prog (preludeMem (flags BitVector bvptr) P) -> P = 32 \/ P = 64 ->
  forall R r n p v a m x, bytewise R = true -> singleton R = false ->
    In n INTEGER_SIZES -> n < 8 \/ n mod 8 = 0 ->
    address bvptr P a -> is_iN n x ->
    r (reg R) = Some (memory_map bvptr P (Some 8) m) ->
    evaluates prog I r p (pointer bvptr P a) -> evaluates prog I r v (VBv n x) ->
    exists m', evaluates prog I r (snd (store R (NBv n) p v)) (memory_map bvptr P (Some 8) m') /\
      written (byte_addr bvptr P a) (bytes_needed n) x m m'.
Proof.
  intros bvptr P prog I Hext HP R r n p v a m x.
  exact (store_bytes BitVector bvptr P prog I Hext HP R r n p v a m x eq_refl).
Qed.
Print Assumptions C17_store_bytes.

(** The load returns the number made of the bytes at the address (its low bits
    for an integer of fewer than eight bits). *)
Theorem C17_load_bytes : forall bvptr P prog I,
  extends prog (preludeMem (flags BitVector bvptr) P) -> P = 32 \/ P = 64 ->
  forall R r n p a m, bytewise R = true -> singleton R = false ->
    In n INTEGER_SIZES -> n < 8 \/ n mod 8 = 0 ->
    address bvptr P a -> byte_memory m ->
    r (reg R) = Some (memory_map bvptr P (Some 8) m) ->
    evaluates prog I r p (pointer bvptr P a) ->
    exists v, evaluates prog I r (load R (NBv n) p) (VBv n (pat n v)) /\
      reads_as (byte_addr bvptr P a) (bytes_needed n) m v.
Proof.
  intros bvptr P prog I Hext HP R r n p a m.
  exact (load_bytes BitVector bvptr P prog I Hext HP R r n p a m eq_refl).
Qed.
Print Assumptions C17_load_bytes.

(** After the store assignment, a load from the same address returns the value. *)
Theorem C17_store_then_load : forall bvptr P prog I,
  extends prog (preludeMem (flags BitVector bvptr) P) -> P = 32 \/ P = 64 ->
  forall R r n p v a m x, bytewise R = true -> singleton R = false ->
    In n INTEGER_SIZES -> n < 8 \/ n mod 8 = 0 ->
    address bvptr P a -> is_iN n x -> byte_memory m ->
    r (reg R) = Some (memory_map bvptr P (Some 8) m) ->
    evaluates prog I r p (pointer bvptr P a) -> evaluates prog I r v (VBv n x) ->
    exists M', evaluates prog I r (snd (store R (NBv n) p v)) M' /\
      forall p', evaluates prog I (upd_env r (fst (store R (NBv n) p v)) M') p' (pointer bvptr P a) ->
        evaluates prog I (upd_env r (fst (store R (NBv n) p v)) M') (load R (NBv n) p') (VBv n x).
Proof.
  intros bvptr P prog I Hext HP R r n p v a m x.
  exact (store_load_bytes BitVector bvptr P prog I Hext HP R r n p v a m x eq_refl).
Qed.
Print Assumptions C17_store_then_load.

(** Pointers stored bytewise.  With integer pointers the value read back is the
    signed reading of the low P bits, equal to the stored pointer exactly when
    that pointer is in the signed P-bit range. *)
Theorem C17_pointer_bytes : forall bvptr P prog I,
  extends prog (preludeMem (flags BitVector bvptr) P) -> P = 32 \/ P = 64 ->
  forall R r p v a z m, bytewise R = true -> singleton R = false ->
    address bvptr P a -> address bvptr P z -> byte_memory m ->
    r (reg R) = Some (memory_map bvptr P (Some 8) m) ->
    evaluates prog I r p (pointer bvptr P a) -> evaluates prog I r v (pointer bvptr P z) ->
    exists m', evaluates prog I r (snd (store R NRef p v)) (memory_map bvptr P (Some 8) m') /\
      written (byte_addr bvptr P a) (P / 8) (pat P z) m m' /\
      forall p' r', r' (reg R) = Some (memory_map bvptr P (Some 8) m') ->
        evaluates prog I r' p' (pointer bvptr P a) ->
        evaluates prog I r' (load R NRef p') (pointer bvptr P (if bvptr then z else signed P (pat P z))).
Proof.
  intros bvptr P prog I Hext HP R r p v a z m.
  exact (ptr_store_load BitVector bvptr P prog I Hext HP R r p v a z m eq_refl).
Qed.
Print Assumptions C17_pointer_bytes.

Theorem C17_pointer_range : forall P z, P = 32 \/ P = 64 ->
  signed P (pat P z) = z <-> - 2 ^ (P - 1) <= z < 2 ^ (P - 1).
Proof.
  intros P z HP. assert (1 <= P) as H by (destruct HP as [->| ->]; lia). split; intros E.
  - rewrite <- E. apply signed_range; [assumption|apply pat_range; lia].
  - now apply pat_signed.
Qed.
Print Assumptions C17_pointer_range.

(** Typed regions (every encoding): a load reads the cell of its address and a
    store changes that cell only. *)
Theorem C17_typed_regions : forall enc bvptr P prog I,
  extends prog (preludeMem (flags enc bvptr) P) -> P = 32 \/ P = 64 ->
  forall R r t p a c m, bytewise R = false -> singleton R = false ->
    (t = NRef \/ exists n, In n INTEGER_SIZES /\ t = intType (flags enc bvptr) n) ->
    address bvptr P a -> r (reg R) = Some (memory_map bvptr P c m) ->
    evaluates prog I r p (pointer bvptr P a) ->
    evaluates prog I r (load R t p) (scalar_of c (m a)) /\
    forall v x y, evaluates prog I r v x -> to_scalar c x = Some y ->
      evaluates prog I r (snd (store R t p v)) (memory_map bvptr P c (fun q => if q =? a then y else m q)).
Proof.
  intros enc bvptr P prog I Hext HP R r t p a c m Hb Hs Ht Ha HR Hp. split.
  - exact (load_typed enc bvptr P prog I Hext HP R r t p a c m Hb Hs Ht Ha HR Hp).
  - intros v x y Hv Hy. exact (store_typed enc bvptr P prog I Hext HP R r t p v a c m x y Hb Hs Ht Ha HR Hp Hv Hy).
Qed.
Print Assumptions C17_typed_regions.

(** A singleton region is the variable itself. *)
Theorem C17_singleton_regions : forall prog I R r t p v x y,
  singleton R = true -> r (reg R) = Some y -> evaluates prog I r v x ->
  evaluates prog I r (load R t p) y /\
  evaluates prog I r (snd (store R t p v)) x /\ fst (store R t p v) = reg R.
Proof.
  intros prog I R r t p v x y Hs Hr Hv. unfold load, store. rewrite Hs. cbn [fst snd].
  split; [now apply ev_var|]. split; [exact Hv|reflexivity].
Qed.
Print Assumptions C17_singleton_regions.

(** Where it stops: an integer of more than eight bits whose width is not a
    multiple of eight (for instance i33) is read as a bit-vector of the wrong
    width, so no stored value reads back. *)
Theorem C17_ragged_width_refuted : forall bvptr P prog I,
  extends prog (preludeMem (flags BitVector bvptr) P) -> P = 32 \/ P = 64 ->
  forall R r n p a m, bytewise R = true -> singleton R = false ->
    In n INTEGER_SIZES -> 8 < n -> n mod 8 <> 0 ->
    address bvptr P a -> byte_memory m ->
    r (reg R) = Some (memory_map bvptr P (Some 8) m) ->
    evaluates prog I r p (pointer bvptr P a) ->
    forall x, ~ evaluates prog I r (load R (NBv n) p) (VBv n x).
Proof.
  intros bvptr P prog I Hext HP R r n p a m Hb Hs Hn H8 Hm Ha Hbm HR Hp x Hx.
  destruct (load_bytes_short BitVector bvptr P prog I Hext HP R r n p a m eq_refl Hb Hs Hn H8 Hm Ha Hbm HR Hp) as (v & Hv & _).
  pose proof (evaluates_det prog I r _ _ _ Hv Hx) as E. assert (8 * (n / 8) = n) as E' by congruence.
  pose proof (Z.div_mod n 8 ltac:(lia)). lia.
Qed.
Print Assumptions C17_ragged_width_refuted.

Example C17_ragged_width_exists : exists n, In n INTEGER_SIZES /\ 8 < n /\ n mod 8 <> 0.
Proof. exists 33. split; [cbn; tauto|]. split; cbv; [reflexivity|discriminate]. Qed.

(** A concrete store of 0x01020304 at address 100 of a zeroed memory. *)
Definition demo_prog : list fdecl := preludeMem (flags BitVector false) 64.
Definition demo_region : region := Region true false "$M.0".
Definition demo_state : env := upd_env empty_env "$M.0" (memory_map false 64 (Some 8) (fun _ => 0)).
Definition no_interp : interp := fun _ _ => None.
Example C17_nonvacuous :
  (exists m', eval demo_prog no_interp 3 demo_state
     (snd (store demo_region (NBv 32) (EInt 100) (EBv 16909060 32))) = Some (memory_map false 64 (Some 8) m') /\
   map m' [99; 100; 101; 102; 103; 104] = [0; 4; 3; 2; 1; 0]) /\
  address false 64 100 /\ is_iN 32 16909060 /\ byte_memory (fun _ => 0) /\
  extends demo_prog (preludeMem (flags BitVector false) 64).
Proof.
  split.
  - eexists. split; [vm_compute; reflexivity|]. vm_compute. reflexivity.
  - repeat split; try (cbv; discriminate); try lia. intros f d H. exact H.
Qed.

(** * C23: pointer arithmetic computes the element address.

    [index_of ... l ss] relates each translated index to the LLVM index with
    its data-layout facts: field offsets and element sizes below 2^P, constant
    indices below 2^P in magnitude, variable indices given by an expression that
    stands for the LLVM value.  A variable index narrower than a pointer must be
    non-negative in the bit-vector and wrapped encodings ([index_ok]). *)
Theorem C23_gep_address : forall enc bvptr P prog I,
  extends prog (preludeMem (flags enc bvptr) P) -> P = 32 \/ P = 64 ->
  forall r e v a l ss, is_iN P a -> evaluates prog I r e v -> points_to bvptr P v a ->
    Forall2 (index_of enc P prog I r) l ss ->
    exists v', evaluates prog I r (ptrArith (flags enc bvptr) P e l) v' /\
      points_to bvptr P v' (llvm_gep P a ss).
Proof.
  intros enc bvptr P prog I Hext HP r e v a l ss Ha He Hv Hl.
  exact (gep_points enc bvptr P prog I Hext HP r e v a l ss Ha He Hv Hl).
Qed.
Print Assumptions C23_gep_address.

(** With integer pointers and the bit-vector or unbounded encoding the emitted
    address is the base plus the offset as integers, without wrap-around, for
    index types no wider than a pointer. *)
Theorem C23_gep_exact_integer : forall enc P prog I,
  extends prog (preludeMem (flags enc false) P) -> P = 32 \/ P = 64 -> enc <> WrappedInteger ->
  forall r e z l ss, evaluates prog I r e (VInt z) ->
    Forall2 (index_of enc P prog I r) l ss ->
    (forall w x s, In (Index w x s) ss -> w <= P) ->
    evaluates prog I r (ptrArith (flags enc false) P e l) (VInt (z + gep_offset ss)).
Proof.
  intros enc P prog I Hext HP Hne r e z l ss He Hl Hw.
  exact (gep_integer enc P prog I Hext HP Hne r e z l ss He Hl Hw).
Qed.
Print Assumptions C23_gep_exact_integer.

(** A negative variable index narrower than a pointer is zero-extended, so the
    emitted address is 2^w elements too high. *)
Theorem C23_narrow_negative_index : forall enc bvptr P prog I,
  extends prog (preludeMem (flags enc bvptr) P) -> P = 32 \/ P = 64 -> exact_encoding enc ->
  forall r e v a w i vi x size, is_iN P a -> evaluates prog I r e v -> points_to bvptr P v a ->
    In w INTEGER_SIZES -> w < P -> is_iN w x -> signed w x < 0 -> 0 <= size < 2 ^ P ->
    evaluates prog I r i vi -> represents enc w vi x ->
    exists v', evaluates prog I r (ptrArith (flags enc bvptr) P e [GVar w i size]) v' /\
      points_to bvptr P v' (pat P (llvm_gep P a [Index w x size] + 2 ^ w * size)).
Proof.
  intros enc bvptr P prog I Hext HP Henc r e v a w i vi x size Ha He Hv Hw Hlt Hx Hneg Hs Hi Hr.
  exact (gep_negative enc bvptr P prog I Hext HP Henc r e v a w i vi x size Ha He Hv Hw Hlt Hx Hneg Hs Hi Hr).
Qed.
Print Assumptions C23_narrow_negative_index.

(** ... for instance p[-1] with an i32 index into i32 elements, 64-bit pointers. *)
Theorem C23_narrow_negative_index_refuted :
  exists r e i v, evaluates demo_prog no_interp r e (VInt 1000) /\
    evaluates demo_prog no_interp r i (VBv 32 (pat 32 (-1))) /\
    evaluates demo_prog no_interp r (ptrArith (flags BitVector false) 64 e [GVar 32 i 4]) v /\
    ~ points_to false 64 v (llvm_gep 64 1000 [Index 32 (pat 32 (-1)) 4]).
Proof.
  exists (upd_env empty_env "i" (VBv 32 (pat 32 (-1)))), (EInt 1000), (EVar "i").
  eexists. split; [exists 0%nat; reflexivity|]. split; [exists 0%nat; reflexivity|].
  split; [exists 4%nat; vm_compute; reflexivity|].
  intros (z & Hz & E). injection Hz as <-. vm_compute in E. discriminate.
Qed.
Print Assumptions C23_narrow_negative_index_refuted.

(** The element size used is LLVM's store size; for a type whose allocation size
    is larger (x86_fp80, i24, <3 x i32>) the second element's address is wrong. *)
Theorem C23_store_size_refuted :
  exists r e v, evaluates demo_prog no_interp r e (VInt 1000) /\
    evaluates demo_prog no_interp r (ptrArith (flags BitVector false) 64 e [GConst 1 10]) v /\
    ~ points_to false 64 v (llvm_gep 64 1000 [Index 32 1 16]).
Proof.
  exists empty_env, (EInt 1000). eexists. split; [exists 0%nat; reflexivity|].
  split; [exists 4%nat; vm_compute; reflexivity|].
  intros (z & Hz & E). injection Hz as <-. vm_compute in E. discriminate.
Qed.
Print Assumptions C23_store_size_refuted.

(** &p->f[i] with field offset 8, constant index -2 and a variable index. *)
Example C23_nonvacuous :
  let r := upd_env empty_env "i" (VBv 64 7) in
  Forall2 (index_of BitVector 64 demo_prog no_interp r)
    [GConst (-2) 24; GField 8; GVar 64 (EVar "i") 4]
    [Index 32 (pat 32 (-2)) 24; Field 8; Index 64 7 4] /\
  evaluates demo_prog no_interp r
    (ptrArith (flags BitVector false) 64 (EInt 1000) [GConst (-2) 24; GField 8; GVar 64 (EVar "i") 4]) (VInt 988).
Proof.
  intros r. split.
  - constructor; [|constructor; [|constructor; [|constructor]]].
    + change (-2) with (signed 32 (pat 32 (-2))) at 1. apply io_const; [apply pat_range; lia|vm_compute; reflexivity|cbv; split; congruence].
    + apply io_field. cbv; split; congruence.
    + apply io_var with (VBv 64 7); [cbn; tauto|cbv; split; congruence|cbv; split; congruence|exists 0%nat; reflexivity|reflexivity|].
      intros H. lia.
  - exists 4%nat. vm_compute. reflexivity.
Qed.

(** * C49: conversions between pointers and integers preserve the address. *)
Theorem C49_ptrtoint : forall enc bvptr P prog I,
  extends prog (preludeMem (flags enc bvptr) P) -> P = 32 \/ P = 64 -> exact_encoding enc ->
  forall r e w v a, In w INTEGER_SIZES -> is_iN P a -> evaluates prog I r e v -> points_to bvptr P v a ->
    exists v', evaluates prog I r (pointerToInteger (flags enc bvptr) P e w) v' /\
      represents enc w v' (llvm_ptrtoint P w a).
Proof.
  intros enc bvptr P prog I Hext HP Henc r e w v a Hw Ha He Hv.
  exact (ev_pointerToInteger enc bvptr P prog I Hext HP r e w v a Henc Hw He Ha Hv).
Qed.
Print Assumptions C49_ptrtoint.

Theorem C49_inttoptr : forall enc bvptr P prog I,
  extends prog (preludeMem (flags enc bvptr) P) -> P = 32 \/ P = 64 -> exact_encoding enc ->
  forall r e w v x, In w INTEGER_SIZES -> is_iN w x -> evaluates prog I r e v -> represents enc w v x ->
    exists v', evaluates prog I r (integerToPointer (flags enc bvptr) P e w) v' /\
      points_to bvptr P v' (llvm_inttoptr P w x).
Proof.
  intros enc bvptr P prog I Hext HP Henc r e w v x Hw Hx He Hr.
  exact (ev_inttoptr enc bvptr P prog I Hext HP r e w v x Henc Hw Hx He Hr).
Qed.
Print Assumptions C49_inttoptr.

(** The prelude functions $p2i and $i2p have exactly these bodies. *)
Theorem C49_functions : forall enc bvptr P prog,
  extends prog (preludeMem (flags enc bvptr) P) -> forall w, In w [8; 16; 32; 64] ->
  let O := flags enc bvptr in
  (exists d, lookup prog (indexedName "$p2i" [NRef; intType O w]) = Some d /\ fd_attr d = AInline /\
     fd_params d = [("p", NRef)] /\ fd_body d = Some (pointerToInteger O P (EVar "p") w)) /\
  (exists d, lookup prog (indexedName "$i2p" [intType O w; NRef]) = Some d /\ fd_attr d = AInline /\
     fd_params d = [("i", intType O w)] /\ fd_body d = Some (integerToPointer O P (EVar "i") w)).
Proof.
  intros enc bvptr P prog Hext w Hw O. split; eexists; (split; [|split; [|split]]).
  1: exact (lookup_p2i O P prog Hext w Hw). 4: exact (lookup_i2p O P prog Hext w Hw). all: reflexivity.
Qed.
Print Assumptions C49_functions.

(** A round trip through an integer as wide as a pointer returns a pointer to
    the same address. *)
Theorem C49_round_trip : forall enc bvptr P prog I,
  extends prog (preludeMem (flags enc bvptr) P) -> P = 32 \/ P = 64 -> exact_encoding enc ->
  forall r e w v a, In w INTEGER_SIZES -> P <= w -> is_iN P a -> evaluates prog I r e v -> points_to bvptr P v a ->
    exists v', evaluates prog I r
        (integerToPointer (flags enc bvptr) P (pointerToInteger (flags enc bvptr) P e w) w) v' /\
      points_to bvptr P v' a.
Proof.
  intros enc bvptr P prog I Hext HP Henc r e w v a Hw Hle Ha He Hv.
  assert (1 <= P) as HP1 by (destruct HP as [->| ->]; lia).
  destruct (ev_pointerToInteger enc bvptr P prog I Hext HP r e w v a Henc Hw He Ha Hv) as (v1 & H1 & R1).
  unfold llvm_ptrtoint in R1. rewrite pat_id in R1 by (apply is_iN_widen with P; assumption).
  destruct (ev_inttoptr enc bvptr P prog I Hext HP r _ w v1 a Henc Hw (is_iN_widen _ _ _ Hle Ha) H1 R1) as (v2 & H2 & R2).
  unfold llvm_inttoptr in R2. rewrite pat_id in R2 by assumption. now exists v2.
Qed.
Print Assumptions C49_round_trip.

Example C49_nonvacuous :
  let r := upd_env empty_env "p" (VInt (-1024)) in
  evaluates demo_prog no_interp r (pointerToInteger (flags BitVector false) 64 (EVar "p") 32) (VBv 32 4294966272) /\
  evaluates demo_prog no_interp r (pointerToInteger (flags BitVector false) 64 (EVar "p") 128) (VBv 128 18446744073709550592) /\
  evaluates demo_prog no_interp r (integerToPointer (flags BitVector false) 64 (EBv 18446744073709550592 64) 64) (VInt (-1024)) /\
  points_to false 64 (VInt (-1024)) (2 ^ 64 - 1024).
Proof.
  intros r. split; [exists 4%nat; vm_compute; reflexivity|]. split; [exists 4%nat; vm_compute; reflexivity|].
  split; [exists 4%nat; vm_compute; reflexivity|]. exists (-1024). split; reflexivity.
Qed.

(** * C50: pointer comparisons. *)
(** Bit-vector pointers: the address comparison, except that with wrapped
    integers (dis)equality is not covered (see below). *)
Theorem C50_bit_vector_pointers : forall enc P prog I,
  extends prog (preludeMem (flags enc true) P) -> P = 32 \/ P = 64 ->
  forall r e1 e2 p a b, (enc = WrappedInteger -> p <> EQ /\ p <> NE) ->
    evaluates prog I r e1 (VBv P a) -> evaluates prog I r e2 (VBv P b) ->
    evaluates prog I r (EFun (indexedName (CMPINST_TABLE p) [NRef]) [e1; e2]) (truth enc (llvm_icmp p P a b)).
Proof.
  intros enc P prog I Hext HP r e1 e2 p a b Hp H1 H2.
  apply ev_fun with [VBv P a; VBv P b]; [constructor; [exact H1|]; constructor; [exact H2|constructor]|].
  exact (calls_cmp_bv enc true P prog I Hext HP p a b eq_refl Hp).
Qed.
Print Assumptions C50_bit_vector_pointers.

(** Integer pointers in the signed P-bit range: equality and signed comparisons
    are the machine's; unsigned ones are when both addresses are on the same side
    of 2^(P-1). *)
Theorem C50_integer_pointers : forall enc P prog I,
  extends prog (preludeMem (flags enc false) P) -> P = 32 \/ P = 64 ->
  forall r e1 e2 p a b,
    - 2 ^ (P - 1) <= a < 2 ^ (P - 1) -> - 2 ^ (P - 1) <= b < 2 ^ (P - 1) ->
    (In p [UGT; UGE; ULT; ULE] -> (0 <= a <-> 0 <= b)) ->
    evaluates prog I r e1 (VInt a) -> evaluates prog I r e2 (VInt b) ->
    evaluates prog I r (EFun (indexedName (CMPINST_TABLE p) [NRef]) [e1; e2])
      (truth enc (llvm_icmp p P (pat P a) (pat P b))).
Proof.
  intros enc P prog I Hext HP r e1 e2 p a b Ha Hb Hp H1 H2.
  exact (cmp_integer enc P prog I Hext HP r e1 e2 p a b Ha Hb Hp H1 H2).
Qed.
Print Assumptions C50_integer_pointers.

Theorem C50_unsigned_refuted :
  exists v, evaluates demo_prog no_interp empty_env (EFun (indexedName "$ult" [NRef]) [EInt (-1024); EInt 8]) v /\
    v <> truth BitVector (llvm_icmp ULT 64 (pat 64 (-1024)) (pat 64 8)).
Proof. exists (VBv 1 1). split; [exists 3%nat; vm_compute; reflexivity|]. vm_compute. discriminate. Qed.
Print Assumptions C50_unsigned_refuted.

(** Wrapped integers with bit-vector pointers: pointer equality is ill-typed. *)
Theorem C50_wrapped_equality_refuted : forall P prog I,
  extends prog (preludeMem (flags WrappedInteger true) P) -> P = 32 \/ P = 64 ->
  forall a b k, eval_call prog I k (indexedName "$eq" [NRef]) [VBv P a; VBv P b] = None.
Proof.
  intros P prog I Hext HP a b k. exact (cmp_eq_ill_typed WrappedInteger true P prog I Hext HP a b k eq_refl eq_refl).
Qed.
Print Assumptions C50_wrapped_equality_refuted.

Example C50_nonvacuous :
  evaluates demo_prog no_interp empty_env (EFun (indexedName "$slt" [NRef]) [EInt (-1024); EInt 8]) (truth BitVector true) /\
  evaluates (preludeMem (flags UnboundedInteger true) 64) no_interp empty_env
    (EFun (indexedName "$ult" [NRef]) [EBv (2 ^ 64 - 1024) 64; EBv 8 64]) (truth UnboundedInteger false).
Proof. split; exists 3%nat; vm_compute; reflexivity. Qed.
