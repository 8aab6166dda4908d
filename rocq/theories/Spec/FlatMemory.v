(** Specification: a flat little-endian byte memory with 2^P addresses, sequences of
    loads and stores, and what it means for the Boogie program, which keeps one
    variable per region, to return what the flat memory returns.  Nothing in the
    first half refers to SMACK. *)
From Coq Require Import ZArith List String Bool.
From Verif.Spec Require Import LLVMInt IR Encodings ByteMemory Pointers Atomics.
From Verif.Model Require Import Boogie PreludeInt SmackRepInt PreludeMem.
Import ListNotations.
Open Scope Z_scope.

(** What is accessed: an integer of so many bits, or a pointer. *)
Inductive atype := AInt (n : Z) | APtr.
Definition width (P : Z) (t : atype) : Z := match t with AInt n => n | APtr => P end.
Definition size (P : Z) (t : atype) : Z := bytes_needed (width P t).

(** Byte [i] of something at address [a]. *)
Definition byte_at (P a i : Z) : Z := (a + i) mod 2 ^ P.

(** A load returns the low bits of the number in its bytes, a store writes all bytes. *)
Definition flat_load (P : Z) (m : Z -> Z) (t : atype) (a x : Z) : Prop :=
  exists v, reads_as (byte_at P a) (size P t) m v /\ x = pat (width P t) v.
Definition flat_store (P : Z) (t : atype) (a x : Z) (m m' : Z -> Z) : Prop :=
  written (byte_at P a) (size P t) x m m'.

(** One access: the region the translator chose for it, the type, the address,
    and the value if it is a store. *)
Record acc := Acc { a_reg : region; a_ty : atype; a_addr : Z; a_val : option Z }.

(** Two accesses have a byte in common. *)
Definition meet (P : Z) (x y : acc) : Prop :=
  exists i j, 0 <= i < size P (a_ty x) /\ 0 <= j < size P (a_ty y) /\
    byte_at P (a_addr x) i = byte_at P (a_addr y) j.

(** ** The Boogie side *)

(** A pointer to address [a]: that bit-vector, or its signed reading as integer. *)
Definition index (bvptr : bool) (P a : Z) : Z := if bvptr then a else signed P a.
Definition stands_for (enc : encoding) (bvptr : bool) (P : Z) (t : atype) (v : val) (x : Z) : Prop :=
  match t with
  | AInt n => represents enc n v x
  | APtr => v = pointer bvptr P (index bvptr P x)
  end.
Definition tyname_of (enc : encoding) (bvptr : bool) (t : atype) : tyname :=
  match t with AInt n => intType (flags enc bvptr) n | APtr => NRef end.
(** The cells of a map with values of type [t]. *)
Definition cell_kind (enc : encoding) (bvptr : bool) (P : Z) (t : atype) : option Z :=
  match t with AInt n => cell_type enc n | APtr => if bvptr then Some P else None end.

(** An access the translation supports. *)
Definition acc_ok (enc : encoding) (bvptr : bool) (P : Z) (x : acc) : Prop :=
  is_iN P (a_addr x) /\
  (forall n, a_ty x = AInt n -> In n INTEGER_SIZES) /\
  (forall v, a_val x = Some v -> is_iN (width P (a_ty x)) v) /\
  (* bytewise regions exist with bit-vectors only, and hold whole bytes *)
  (bytewise (a_reg x) = true -> singleton (a_reg x) = false ->
     enc = BitVector /\ (width P (a_ty x) < 8 \/ width P (a_ty x) mod 8 = 0)) /\
  (* an integer pointer does not step over the end of the address space *)
  (bvptr = false -> signed P (a_addr x) + size P (a_ty x) <= 2 ^ (P - 1)).

(** The region assignment separates non-overlapping data. *)
Record separated (enc : encoding) (bvptr : bool) (P : Z) (tr : list acc) : Prop := {
  sep_region : forall x y, In x tr -> In y tr -> meet P x y -> a_reg x = a_reg y;
  sep_name : forall x y, In x tr -> In y tr -> reg (a_reg x) = reg (a_reg y) -> a_reg x = a_reg y;
  sep_singleton : forall x y, In x tr -> In y tr -> a_reg x = a_reg y -> singleton (a_reg x) = true ->
    a_addr x = a_addr y /\ a_ty x = a_ty y;
  sep_typed : forall x y, In x tr -> In y tr -> a_reg x = a_reg y ->
    singleton (a_reg x) = false -> bytewise (a_reg x) = false ->
    cell_kind enc bvptr P (a_ty x) = cell_kind enc bvptr P (a_ty y) /\
    (meet P x y -> a_addr x = a_addr y /\ a_ty x = a_ty y) }.

Section Agreement.
  Context (enc : encoding) (bvptr : bool) (P : Z) (prog : list fdecl) (I : interp).

  (** The Boogie expression [e] has the value [v] in state [r]. *)
  Definition has_value (r : env) (e : expr) (v : val) : Prop := exists k, eval prog I k r e = Some v.

  (** [r'] is [r] except for variables other than those of the regions of [tr]. *)
  Definition same_memory (tr : list acc) (r r' : env) : Prop :=
    forall x, In x tr -> r' (reg (a_reg x)) = r (reg (a_reg x)).

  (** Executing the accesses [tr] one after the other on the Boogie state [r] and on
      the flat memory [m].  Between two accesses the program may do anything to its
      other variables.  Every load has a value and it stands for the flat one. *)
  Fixpoint agrees (r : env) (m : Z -> Z) (tr : list acc) : Prop :=
    match tr with
    | [] => True
    | x :: tr' =>
        forall r1 p, same_memory tr r r1 ->
          has_value r1 p (pointer bvptr P (index bvptr P (a_addr x))) ->
          let t := tyname_of enc bvptr (a_ty x) in
          match a_val x with
          | None =>
              (exists v y, has_value r1 (load (a_reg x) t p) v /\
                 flat_load P m (a_ty x) (a_addr x) y /\ stands_for enc bvptr P (a_ty x) v y) /\
              agrees r1 m tr'
          | Some y =>
              forall e v, has_value r1 e v -> stands_for enc bvptr P (a_ty x) v y ->
              exists M', has_value r1 (snd (store (a_reg x) t p e)) M' /\
                forall m', flat_store P (a_ty x) (a_addr x) y m m' ->
                  agrees (upd_env r1 (fst (store (a_reg x) t p e)) M') m' tr'
          end
    end.

  (** What the region variables may contain: bytes, or values of the accessed types. *)
  Definition content_ok (x : acc) (V : val) : Prop :=
    if singleton (a_reg x) then exists y, is_iN (width P (a_ty x)) y /\ stands_for enc bvptr P (a_ty x) V y
    else if bytewise (a_reg x) then exists mm, V = memory_map bvptr P (Some 8) mm /\ byte_memory mm
    else exists mm, V = memory_map bvptr P (cell_kind enc bvptr P (a_ty x)) mm /\
           exists y, is_iN (width P (a_ty x)) y /\
             stands_for enc bvptr P (a_ty x)
               (scalar_of (cell_kind enc bvptr P (a_ty x)) (mm (index bvptr P (a_addr x)))) y.
  Definition contents_ok (tr : list acc) (r : env) : Prop :=
    forall x, In x tr -> exists V, r (reg (a_reg x)) = Some V /\ content_ok x V.
End Agreement.
