(** The Boogie variable of a memory region: lib/smack/SmackRep.cpp:260-274 memReg,
    memType, and the region of an operand: Regions.cpp idx as asked by load and store. *)
From Coq Require Import ZArith List String Bool DecimalString.
From Verif.Model Require Import Boogie PreludeMem Regions.
Import ListNotations.
Open Scope string_scope.
Open Scope Z_scope.

(** SmackRep.cpp:260-262: "$M." followed by the index *)
Definition memReg (i : nat) : string := ("$M." ++ NilEmpty.string_of_uint (Nat.to_uint i))%string.

(** SmackRep.cpp:264-272: whether the variable is declared as a map *)
Definition memIsMap (bitPrecise noByteAccessInference : bool) (g : reg) : bool :=
  negb (rsingleton g) || (bitPrecise && noByteAccessInference).

(** SmackRep.cpp:505-507, 532-533: what load and store ask about the region of the
    operand [a], after all accesses [l] have been visited. *)
Definition region_var (bp nb : bool) (dsa : nat -> node_info) (l : list access) (a : access) : region :=
  let '(i, regs) := idx bp (visit bp nb dsa [] l) (init bp nb dsa a) in
  match nth_error regs i with
  | Some g => Region (rbytewise g) (rsingleton g) (memReg i)
  | None => Region false false (memReg i)
  end.
