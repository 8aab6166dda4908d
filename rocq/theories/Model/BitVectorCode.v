(** Boogie expressions emitted for integer operands and instructions in
    bit-vector mode, and their values: SmackRep.cpp:796-1004 through
    Model/SmackRepInt.v, with the prelude of Model/PreludeInt.v. *)
From Coq Require Import ZArith List String Bool.
From Verif.Spec Require Import LLVMInt IR CFG BitVectorIR Encodings.
From Verif.Model Require Import Boogie PreludeInt SmackRepInt.
Import ListNotations.
Open Scope Z_scope.

(** SmackInstGenerator.cpp:339-378, 583-632 (instructions), SmackRep::expr
    (operands); [None]: an assertion inside LLVM fails. *)
Definition trans_operand (bvptr ndebug : bool) (o : operand) : option expr :=
  match o with
  | Op v => expr_of (flags BitVector bvptr) ndebug v false false
  | Instr i => inst_expr (flags BitVector bvptr) ndebug i
  end.
Definition trans_typed {G W} (bvptr ndebug : bool) (e : typed G W) : option expr :=
  trans_operand bvptr ndebug (proj1_sig e).
(** The value of an emitted expression.  The fuel (nesting of prelude function
    calls) is a constant; more changes nothing (Proofs/ExprSim.v). *)
Definition eval_emitted (bvptr : bool) (I : interp) (r : string -> val) (t : option expr) : option val :=
  match t with
  | Some e => eval (preludeInt (flags BitVector bvptr)) I 5 (fun x => Some (r x)) e
  | None => None
  end.
