(** Specification: the LLVM read-modify-write and compare-exchange instructions
    on n-bit integers (LLVM Language Reference, "atomicrmw" and "cmpxchg").
    Nothing here refers to SMACK except, in the second half, the values of the
    Boogie encodings (Spec/Encodings.v). *)
From Coq Require Import ZArith List String Bool.
From Verif.Spec Require Import LLVMInt IR Encodings ByteMemory Pointers.
From Verif.Model Require Import Boogie PreludeInt PreludeMem.
Import ListNotations.
Open Scope Z_scope.

Inductive rmw := RXchg | RAdd | RSub | RAnd | RNand | ROr | RXor | RMax | RMin | RUMax | RUMin.

(** The value written back, given the value [old] in memory and the operand. *)
Definition rmw_result (op : rmw) (n old v : Z) : Z :=
  match op with
  | RXchg => v
  | RAdd => pat n (old + v)
  | RSub => pat n (old - v)
  | RAnd => Z.land old v
  | RNand => 2 ^ n - 1 - Z.land old v
  | ROr => Z.lor old v
  | RXor => Z.lxor old v
  | RMax => if signed n v <? signed n old then old else v
  | RMin => if signed n old <? signed n v then old else v
  | RUMax => Z.max old v
  | RUMin => Z.min old v
  end.

(** cmpxchg: what is written back, and the success flag. *)
Definition cmpxchg_result (old expected new : Z) : Z := if old =? expected then new else old.
Definition cmpxchg_success (old expected : Z) : bool := old =? expected.

(** In which cases an encoding can be exact: always for bit-vectors; the bitwise
    operations are uninterpreted over the integers, so they are right when the
    interpretation [I] is; unbounded integers do not wrap around. *)
Definition is_bitwise_rmw (op : rmw) : bool :=
  match op with RAnd | RNand | ROr | RXor => true | _ => false end.
Definition bitwise_name (op : rmw) : string :=
  match op with RAnd => "$and" | RNand => "$nand" | ROr => "$or" | _ => "$xor" end%string.
Definition rmw_exact (enc : encoding) (I : interp) (op : rmw) (n old v : Z) : Prop :=
  match enc with
  | BitVector => True
  | _ =>
    if is_bitwise_rmw op
    then forall va vb, represents enc n va old -> represents enc n vb v ->
           exists w, I (indexedName (bitwise_name op) [NInt n]) [va; vb] = Some w /\
                     represents enc n w (rmw_result op n old v)
    else match enc, op with
         | UnboundedInteger, RAdd => in_range n (signed n old + signed n v)
         | UnboundedInteger, RSub => in_range n (signed n old - signed n v)
         | UnboundedInteger, (RUMax | RUMin) => 0 <= signed n old /\ 0 <= signed n v
         | _, _ => True
         end
  end.

(** The integer of [n] bits at address [a] in the region variable of [R] stands
    for [x].  Typed regions have one cell per address, bytewise regions (bit
    vectors only) hold bytes, a singleton region is one variable. *)
Definition cell_type (enc : encoding) (n : Z) : option Z :=
  match enc with BitVector => Some n | _ => None end.
Definition region_ok (enc : encoding) (n : Z) (R : region) : Prop :=
  bytewise R = true -> singleton R = false -> enc = BitVector /\ n mod 8 = 0.
Definition cell_at (enc : encoding) (bvptr : bool) (P n : Z) (R : region) (v : val) (a x : Z) : Prop :=
  if singleton R then represents enc n v x
  else if bytewise R then
    exists m, v = memory_map bvptr P (Some 8) m /\ byte_memory m /\
      reads_as (byte_addr bvptr P a) (bytes_needed n) m x
  else exists m, v = memory_map bvptr P (cell_type enc n) m /\ represents enc n (scalar_of (cell_type enc n) (m a)) x.
(** The two contents of the region agree outside the cell at [a]. *)
Definition same_elsewhere (bvptr : bool) (P n : Z) (R : region) (a : Z) (v v' : val) : Prop :=
  if singleton R then True
  else exists c m m', v = memory_map bvptr P c m /\ v' = memory_map bvptr P c m' /\
    if bytewise R
    then forall q, (forall i, 0 <= i < bytes_needed n -> q <> byte_addr bvptr P a i) -> m' q = m q
    else forall q, q <> a -> m' q = m q.

(** What the instruction has to do, seen from the state of the Boogie program: the
    result register stands for the old value, the cell for the new one, the rest of
    the region and all other variables are as before. *)
Definition updates_cell (enc : encoding) (bvptr : bool) (P n : Z) (R : region) (res : string) (a old new : Z) (r r' : env) : Prop :=
  (exists v, r' res = Some v /\ represents enc n v old) /\
  (exists V V', r (reg R) = Some V /\ r' (reg R) = Some V' /\ cell_at enc bvptr P n R V' a new /\
     same_elsewhere bvptr P n R a V V') /\
  forall z, z <> res -> z <> reg R -> r' z = r z.

(** An interleaving of the statements of two threads. *)
Inductive interleaves {A} : list A -> list A -> list A -> Prop :=
| il_nil : interleaves [] [] []
| il_left : forall x l1 l2 l, interleaves l1 l2 l -> interleaves (x :: l1) l2 (x :: l)
| il_right : forall x l1 l2 l, interleaves l1 l2 l -> interleaves l1 (x :: l2) (x :: l).
