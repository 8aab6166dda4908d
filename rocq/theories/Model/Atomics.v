(** Translation of the atomic instructions:
    lib/smack/SmackInstGenerator.cpp:546-573, Naming.cpp:149-154, and the
    reading of their results by extractvalue (SmackInstGenerator.cpp:417-429,
    Prelude.cpp:249-260).  The memory orderings, volatility and the "weak" flag
    of cmpxchg are not read by the translation. *)
From Coq Require Import ZArith List String Bool.
From Verif.Spec Require Import Atomics.
From Verif.Model Require Import Boogie PreludeInt PreludeMem.
Import ListNotations.
Open Scope string_scope.
Open Scope list_scope.
Open Scope Z_scope.

(** Naming.cpp:149-154 ATOMICRMWINST_TABLE; Xchg is not in the table (and the
    floating-point operations raise std::out_of_range). *)
Definition ATOMICRMWINST_TABLE (op : rmw) : option string :=
  match op with
  | RXchg => None
  | RAdd => Some "$add" | RSub => Some "$sub"
  | RAnd => Some "$and" | RNand => Some "$nand"
  | ROr => Some "$or" | RXor => Some "$xor"
  | RMax => Some "$smax" | RMin => Some "$smin"
  | RUMax => Some "$umax" | RUMin => Some "$umin"
  end.

(** SmackInstGenerator.cpp:557-573 visitAtomicRMWInst: the two assignments it
    emits.  [t] is the Boogie type of the operand, [R] the region of [p]. *)
Definition visitAtomicRMWInst (op : rmw) (R : region) (t : tyname) (res : string) (p val : expr)
  : list (string * expr) :=
  let mem := load R t p in
  [ (res, mem);
    store R t p
      match ATOMICRMWINST_TABLE op with
      | None => val
      | Some f => EFun (indexedName f [t]) [mem; val]
      end ].

(** SmackInstGenerator.cpp:546-555 visitAtomicCmpXchgInst. *)
Definition visitAtomicCmpXchgInst (R : region) (t : tyname) (res : string) (p cmp swp : expr)
  : list (string * expr) :=
  let mem := load R t p in
  [ (res, mem); store R t p (EIte (EBin BEq mem cmp) swp mem) ].

(** SmackInstGenerator.cpp:417-429 visitExtractValueInst, one index: the result
    of a cmpxchg has type { iN, i1 }; index 1 reads the success flag.  [t] is the
    Boogie type of the component (SmackRep.cpp:174-181 opName). *)
Definition visitExtractValueInst (res : string) (agg : expr) (t : tyname) (idx : Z) : list (string * expr) :=
  [ (res, EFun (indexedName "$extractvalue" [t]) [agg; EInt idx]) ].

(** Prelude.cpp:249-260, 1002-1005: function $extractvalue.T(p: ref, i: int) returns (T),
    without body or axiom. *)
Definition extractValue (t : tyname) : fdecl :=
  uninterpretedOp "$extractvalue" [t] [("p", NRef); ("i", NInt 0)] t.
