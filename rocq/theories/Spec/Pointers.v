(** Specification: pointers.  Addresses are [P]-bit patterns; a getelementptr
    adds, for each index, a field offset or a sign-extended index times the
    element's allocation size, modulo 2^P (LLVM Language Reference). *)
From Coq Require Import ZArith List String Bool.
From Verif.Spec Require Import LLVMInt IR.
From Verif.Model Require Import Boogie.
Import ListNotations.
Open Scope Z_scope.

Inductive gep_step :=
| Field (off : Z)                    (* byte offset of a struct field *)
| Index (w x stride : Z).            (* index: bit pattern x of width w; element allocation size *)

Definition step_offset (s : gep_step) : Z :=
  match s with
  | Field off => off
  | Index w x stride => signed w x * stride
  end.
Fixpoint gep_offset (l : list gep_step) : Z :=
  match l with [] => 0 | s :: l' => step_offset s + gep_offset l' end.
Definition llvm_gep (P base : Z) (l : list gep_step) : Z := pat P (base + gep_offset l).

(** [v] is a pointer value with address [a]: a bit-vector, or an integer equal
    to [a] modulo 2^P. *)
Definition points_to (bvptr : bool) (P : Z) (v : val) (a : Z) : Prop :=
  if bvptr then v = VBv P a else exists z, v = VInt z /\ pat P z = a.

(** ptrtoint and inttoptr: zero extension or truncation. *)
Definition llvm_ptrtoint (P n a : Z) : Z := pat n a.
Definition llvm_inttoptr (P n x : Z) : Z := pat P x.

(** The pointer value with address [a], the addresses it may have, and a memory
    map indexed by pointers whose cells are [cell] ([Some w]: bit-vectors of
    width [w], [None]: integers). *)
Definition pointer (bvptr : bool) (P a : Z) : val := if bvptr then VBv P a else VInt a.
Definition address (bvptr : bool) (P a : Z) : Prop := bvptr = true -> 0 <= a < 2 ^ P.
Definition memory_map (bvptr : bool) (P : Z) (cell : option Z) (m : Z -> Z) : val :=
  VMap (if bvptr then Some P else None) cell m.
