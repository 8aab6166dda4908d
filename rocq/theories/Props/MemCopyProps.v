(** C19: memcpy and memset. *)
From Coq Require Import ZArith List String Bool Lia ZifyBool.
From Verif.Base Require Import ZBits.
From Verif.Spec Require Import LLVMInt IR Encodings Pointers ByteMemory.
From Verif.Model Require Import Boogie PreludeInt SmackRepInt PreludeMem Globals MemIntrinsics.
From Verif.Proofs Require Import Lookup PreludeCalls ExprSim EvalCompose MemCalls PtrProofs PtrCmp MemMain MemIntrinsicsProofs.
Import ListNotations.
Open Scope string_scope.
Open Scope list_scope.
Open Scope Z_scope.

(** The destination does not cross the middle of the address space (no object
    SMACK allocates does).  Integer pointers: always. *)
Definition destination_ok (bvptr : bool) (P d n : Z) : Prop :=
  bvptr = true -> 0 <= n /\ signed P d + n < 2 ^ (P - 1).
(** A length known at translation time; a positive multiple of 4 GiB is excluded. *)
Definition length_ok (len : option Z) (n : Z) : Prop :=
  match len with Some k => k = n /\ 0 <= k /\ (k = 0 \/ k mod 2 ^ 32 <> 0) | None => True end.

(** memcpy/memmove: the result holds in the destination range what the source
    range held before, and elsewhere what the destination map held.  Source and
    destination may overlap and may lie in the same map. *)
Theorem C19_memcpy : forall enc bvptr P prog I,
  extends prog (preludeMem (flags enc bvptr) P) -> P = 32 \/ P = 64 ->
  forall len r c d s n md ms mr,
    address bvptr P d -> destination_ok bvptr P d n -> length_ok len n ->
    r "dst" = Some (pointer bvptr P d) -> r "src" = Some (pointer bvptr P s) -> r "len" = Some (pointer bvptr P n) ->
    r "M.dst" = Some (memory_map bvptr P c md) -> r "M.src" = Some (memory_map bvptr P c ms) ->
    r "M.ret" = Some (memory_map bvptr P c mr) ->
    returns prog I bvptr P r (memcpyProc (intrinsic_length len)) ->
    (forall i, 0 <= i < n -> mr (byte_addr bvptr P d i) = ms (byte_addr bvptr P s i)) /\
    (forall a, address bvptr P a -> (forall i, 0 <= i < n -> a <> byte_addr bvptr P d i) -> mr a = md a).
Proof.
  intros enc bvptr P prog I Hext HP len r c d s n md ms mr Hd Hok Hl Rd Rs Rn Rmd Rms Rmr Hret.
  assert (0 < intrinsic_length len \/ (intrinsic_length len = 0 /\ n = 0)) as [HL|[HL ->]].
  { unfold intrinsic_length, length_ok, u32 in *. destruct len as [k|]; [|left; lia].
    pose proof (Z.mod_pos_bound k (2 ^ 32) ltac:(lia)). destruct Hl as (-> & H0 & [->|Hm]); [right; split; reflexivity|left; lia]. }
  - exact (proj1 (memcpy_clauses enc bvptr P prog I Hext HP r c d s n md ms mr Hd Hok Rd Rs Rn Rmd Rms Rmr _ HL) Hret).
  - rewrite HL in Hret. rewrite (assign_map prog I bvptr P r "M.dst" c md mr Rmd Rmr Hret).
    split; [intros; lia|reflexivity].
Qed.
Print Assumptions C19_memcpy.

Theorem C19_memset : forall enc bvptr P prog I,
  extends prog (preludeMem (flags enc bvptr) P) -> P = 32 \/ P = 64 ->
  forall len r c d n y m mr,
    address bvptr P d -> destination_ok bvptr P d n -> length_ok len n ->
    r "dst" = Some (pointer bvptr P d) -> r "len" = Some (pointer bvptr P n) ->
    r "val" = Some (scalar_of c y) -> r "M" = Some (memory_map bvptr P c m) ->
    r "M.ret" = Some (memory_map bvptr P c mr) ->
    returns prog I bvptr P r (memsetProc (intrinsic_length len)) ->
    (forall i, 0 <= i < n -> mr (byte_addr bvptr P d i) = y) /\
    (forall a, address bvptr P a -> (forall i, 0 <= i < n -> a <> byte_addr bvptr P d i) -> mr a = m a).
Proof.
  intros enc bvptr P prog I Hext HP len r c d n y m mr Hd Hok Hl Rd Rn Rv Rm Rmr Hret.
  assert (0 < intrinsic_length len \/ (intrinsic_length len = 0 /\ n = 0)) as [HL|[HL ->]].
  { unfold intrinsic_length, length_ok, u32 in *. destruct len as [k|]; [|left; lia].
    pose proof (Z.mod_pos_bound k (2 ^ 32) ltac:(lia)). destruct Hl as (-> & H0 & [->|Hm]); [right; split; reflexivity|left; lia]. }
  - exact (proj1 (memset_clauses enc bvptr P prog I Hext HP r c d n _ y m mr Hd Hok Rd Rn Rv eq_refl Rm Rmr _ HL) Hret).
  - rewrite HL in Hret. rewrite (assign_map prog I bvptr P r "M" c m mr Rm Rmr Hret).
    split; [intros; lia|reflexivity].
Qed.
Print Assumptions C19_memset.

(** The calls never block: some result satisfies the contract. *)
Theorem C19_memcpy_feasible : forall enc bvptr P prog I,
  extends prog (preludeMem (flags enc bvptr) P) -> P = 32 \/ P = 64 ->
  forall len r c d s n md ms,
    address bvptr P d -> destination_ok bvptr P d n ->
    r "dst" = Some (pointer bvptr P d) -> r "src" = Some (pointer bvptr P s) -> r "len" = Some (pointer bvptr P n) ->
    r "M.dst" = Some (memory_map bvptr P c md) -> r "M.src" = Some (memory_map bvptr P c ms) ->
    exists mr, returns prog I bvptr P (upd_env r "M.ret" (memory_map bvptr P c mr)) (memcpyProc (intrinsic_length len)).
Proof.
  intros enc bvptr P prog I Hext HP len r c d s n md ms Hd Hok Rd Rs Rn Rmd Rms.
  assert (0 <= intrinsic_length len) as HL0 by (destruct len; cbn [intrinsic_length]; [apply Z.mod_pos_bound|]; lia).
  destruct (Z.eq_dec (intrinsic_length len) 0) as [HL|HL].
  - exists md. rewrite HL. exists (memory_map bvptr P c md). split; [reflexivity|]. apply ev_var. exact Rmd.
  - destruct (set_exists enc bvptr P prog Hext HP d n (fun i => ms (byte_addr bvptr P s i)) md Hd Hok) as (mr & Hmr).
    exists mr. apply (memcpy_clauses enc bvptr P prog I Hext HP _ c d s n md ms mr); try assumption; [reflexivity|lia].
Qed.
Print Assumptions C19_memcpy_feasible.
Theorem C19_memset_feasible : forall enc bvptr P prog I,
  extends prog (preludeMem (flags enc bvptr) P) -> P = 32 \/ P = 64 ->
  forall len r c d n y m,
    address bvptr P d -> destination_ok bvptr P d n ->
    r "dst" = Some (pointer bvptr P d) -> r "len" = Some (pointer bvptr P n) ->
    r "val" = Some (scalar_of c y) -> r "M" = Some (memory_map bvptr P c m) ->
    exists mr, returns prog I bvptr P (upd_env r "M.ret" (memory_map bvptr P c mr)) (memsetProc (intrinsic_length len)).
Proof.
  intros enc bvptr P prog I Hext HP len r c d n y m Hd Hok Rd Rn Rv Rm.
  assert (0 <= intrinsic_length len) as HL0 by (destruct len; cbn [intrinsic_length]; [apply Z.mod_pos_bound|]; lia).
  destruct (Z.eq_dec (intrinsic_length len) 0) as [HL|HL].
  - exists m. rewrite HL. exists (memory_map bvptr P c m). split; [reflexivity|]. apply ev_var. exact Rm.
  - destruct (set_exists enc bvptr P prog Hext HP d n (fun _ => y) m Hd Hok) as (mr & Hmr).
    exists mr. apply (memset_clauses enc bvptr P prog I Hext HP _ c d n (scalar_of c y) y m mr); try assumption; try reflexivity. lia.
Qed.
Print Assumptions C19_memset_feasible.

(** The length argument passed is the number of bytes, if it is below half the
    address space (and, unbounded integers, non-negative as a signed number). *)
Theorem C19_length_argument : forall enc bvptr P prog I,
  extends prog (preludeMem (flags enc bvptr) P) -> P = 32 \/ P = 64 ->
  forall r e w v x, In w INTEGER_SIZES -> is_iN w x -> x < 2 ^ (P - 1) ->
    enc = BitVector \/ enc = UnboundedInteger /\ x < 2 ^ (w - 1) ->
    evaluates prog I r e v -> represents enc w v x ->
    evaluates prog I r (integerToPointer (flags enc bvptr) P e w) (pointer bvptr P x).
Proof.
  intros enc bvptr P prog I Hext HP r e w v x Hw Hx Hlt Henc He Hr.
  assert (1 <= P) as HP1 by (destruct HP as [->| ->]; lia).
  assert (2 ^ P = 2 * 2 ^ (P - 1)) as Hpow by now apply pow2_half.
  unfold is_iN in Hx.
  destruct (ev_integerToPointer enc bvptr P prog I Hext HP r e w v x Hw Hx He Hr) as (z & Hz & Hs).
  assert (z = x) as ->.
  { destruct Henc as [-> | [-> Hlw]].
    - assert (pat P x = x) as Ex by (apply pat_id; unfold is_iN; lia). rewrite Ex in Hs. destruct bvptr; [exact Hs|].
      rewrite Hs. rewrite <- Ex at 1. apply pat_signed; lia.
    - rewrite Hs. assert (1 <= w) by (now apply size_pos).
      unfold int_value. destruct (w =? 1) eqn:E; [reflexivity|].
      rewrite <- (pat_id w x Hx) at 1. apply pat_signed; lia. }
  replace (pointer bvptr P x) with (if bvptr then VBv P (pat P x) else VInt x); [exact Hz|].
  unfold pointer. destruct bvptr; [|reflexivity]. rewrite pat_id by (unfold is_iN; lia). reflexivity.
Qed.
Print Assumptions C19_length_argument.

(** A constant length that is a positive multiple of 4 GiB is truncated to 0:
    the call copies nothing. *)
Theorem C19_4GiB_refuted : forall enc bvptr P prog I,
  extends prog (preludeMem (flags enc bvptr) P) -> P = 32 \/ P = 64 ->
  forall k r c md mr, k mod 2 ^ 32 = 0 ->
    r "M.dst" = Some (memory_map bvptr P c md) -> r "M.ret" = Some (memory_map bvptr P c mr) ->
    returns prog I bvptr P r (memcpyProc (intrinsic_length (Some k))) -> forall a, mr a = md a.
Proof.
  intros enc bvptr P prog I Hext HP k r c md mr Hk Rmd Rmr Hret a.
  assert (intrinsic_length (Some k) = 0) as HL by exact Hk. rewrite HL in Hret.
  rewrite (assign_map prog I bvptr P r "M.dst" c md mr Rmd Rmr Hret). reflexivity.
Qed.
Print Assumptions C19_4GiB_refuted.

(** With integer cells a memset byte is not replicated: after memset(p, 1, 4) an
    i32 read at p is 1 instead of 0x01010101. *)
Definition copy_prog : list fdecl := preludeMem (flags UnboundedInteger false) 64.
Definition copy_interp : interp := fun _ _ => None.
Definition set_state (mr : Z -> Z) : env :=
  upd_env (upd_env (upd_env (upd_env (upd_env empty_env "M" (memory_map false 64 None (fun _ => 0)))
    "dst" (VInt 100)) "len" (VInt 4)) "val" (VInt 1)) "M.ret" (memory_map false 64 None mr).
Lemma copy_ext : extends copy_prog (preludeMem (flags UnboundedInteger false) 64).
Proof. intros f d H. exact H. Qed.
Theorem C19_memset_words_refuted : forall mr,
  returns copy_prog copy_interp false 64 (set_state mr) (memsetProc (intrinsic_length (Some 4))) ->
  evaluates copy_prog copy_interp (set_state mr) (load (Region false false "M.ret") (NInt 32) (EInt 100)) (VInt 1) /\
  1 <> 16843009.
Proof.
  intros mr H. split; [|lia].
  destruct (C19_memset UnboundedInteger false 64 copy_prog copy_interp copy_ext (or_intror eq_refl)
    (Some 4) (set_state mr) None 100 4 1 (fun _ => 0) mr) as [H1 _]; try reflexivity; try exact H.
  - discriminate.
  - discriminate.
  - cbn. split; [reflexivity|]. split; [lia|]. right. discriminate.
  - specialize (H1 0 ltac:(lia)). cbn in H1.
    change (VInt 1) with (scalar_of None 1). rewrite <- H1.
    apply (load_typed UnboundedInteger false 64 copy_prog copy_interp copy_ext (or_intror eq_refl)); try reflexivity.
    + right. exists 32. split; [cbn; tauto|reflexivity].
    + discriminate.
    + apply ev_int.
Qed.
Print Assumptions C19_memset_words_refuted.

(** An overlapping copy of four bytes from 100 to 102 in one map. *)
Example C19_nonvacuous :
  let m := fun a => a in
  let mr := fun a => if (102 <=? a) && (a <? 106) then a - 2 else a in
  let r := upd_env (upd_env (upd_env (upd_env (upd_env (upd_env empty_env "M.dst" (memory_map false 64 None m))
    "M.src" (memory_map false 64 None m)) "dst" (VInt 102)) "src" (VInt 100)) "len" (VInt 4)) "M.ret" (memory_map false 64 None mr) in
  returns copy_prog copy_interp false 64 r (memcpyProc (intrinsic_length (Some 4))) /\ length_ok (Some 4) 4 /\
  mr 105 = 103.
Proof.
  intros m mr r. split; [|split; [cbn; split; [reflexivity|]; split; [lia|]; right; discriminate|reflexivity]].
  apply (memcpy_clauses UnboundedInteger false 64 copy_prog copy_interp copy_ext (or_intror eq_refl) r None 102 100 4 m m mr);
    try reflexivity; try discriminate.
  split.
  - intros i Hi. unfold byte_addr, mr, m. replace ((102 <=? 102 + i) && (102 + i <? 106))%bool with true by lia. lia.
  - intros a _ Hno. unfold mr, m. destruct ((102 <=? a) && (a <? 106))%bool eqn:E; [|reflexivity].
    exfalso. apply (Hno (a - 102)); unfold byte_addr; lia.
Qed.
