(** Specification: the three integer encodings a user can ask for, and what it
    means for a Boogie value to stand for a machine integer in each. *)
From Coq Require Import ZArith List String Bool.
From Verif.Spec Require Import LLVMInt IR.
From Verif.Model Require Import Boogie PreludeInt SmackRepInt.
Import ListNotations.
Open Scope string_scope.
Open Scope Z_scope.

(** share/smack/top.py:440-450: choices of --integer-encoding. *)
Inductive encoding := BitVector | WrappedInteger | UnboundedInteger.

(** share/smack/top.py:736-744 llvm_to_bpl: the flags passed to llvm2bpl;
    [bvptr] is --pointer-encoding=bit-vector. *)
Definition flags (enc : encoding) (bvptr : bool) : opts :=
  match enc with
  | BitVector => Opts true bvptr false
  | WrappedInteger => Opts false bvptr true
  | UnboundedInteger => Opts false bvptr false
  end.

(** The two encodings meant to model wrap-around. *)
Definition exact_encoding (enc : encoding) : Prop := enc = BitVector \/ enc = WrappedInteger.

(** [v] stands for the bit pattern [x] of width [n].
    - bit-vectors: [v] is that bit-vector;
    - wrapped integers: [v] is some integer congruent to [x] modulo 2^n;
    - unbounded integers: [v] is the signed value of [x] (0 or 1 for an i1). *)
Definition represents (enc : encoding) (n : Z) (v : val) (x : Z) : Prop :=
  match enc with
  | BitVector => v = VBv n x
  | WrappedInteger => exists z, v = VInt z /\ pat n z = x
  | UnboundedInteger => v = VInt (if n =? 1 then x else signed n x)
  end.

(** The two truth values of a comparison. *)
Definition truth (enc : encoding) (b : bool) : val :=
  match enc with BitVector => VBv 1 (b2z b) | _ => VInt (b2z b) end.

(** A Boogie interpretation of the uninterpreted bitwise functions that agrees
    with the machine.  The verifier must consider it (it meets the emitted
    axioms), so whatever fails on the machine fails in this interpretation. *)
Definition bitwise_named (s : string) : option binop :=
  if String.eqb s "$shl" then Some Shl else if String.eqb s "$lshr" then Some LShr
  else if String.eqb s "$ashr" then Some AShr else if String.eqb s "$and" then Some And
  else if String.eqb s "$or" then Some Or else if String.eqb s "$xor" then Some Xor else None.
Definition machine_interp (enc : encoding) : interp := fun f vs =>
  match f, vs with
  | indexedName s [NInt n], [VInt x; VInt y] =>
      match bitwise_named s with
      | Some op =>
          match llvm_binop op n (pat n x) (pat n y) with
          | Some c => Some (VInt (match enc with
                                  | UnboundedInteger => if n =? 1 then c else signed n c
                                  | _ => c end))
          | None => Some (VInt 0)
          end
      | None => None
      end
  | _, _ => None
  end.

(** ** Where the integer encodings are exact *)

(** wrapped-integer: which operations, on which operands.  [bw]: the bitwise
    operations whose interpretation is right. *)
Definition wrapped_exact (bw : binop -> Z -> Prop) (e : event) : Prop :=
  match e with
  | EvBin (Add | Sub) n x y => n <> 1
  | EvBin SDiv n x y => 0 <= signed n x \/ Z.rem (signed n x) (signed n y) = 0
  | EvBin ((Shl | LShr | AShr | And | Or | Xor) as op) n x y => bw op n
  | _ => True
  end.

(** unbounded-integer: no operation leaves the signed range of its width,
    unsigned operations see non-negative operands, signed comparison and sign
    extension are not applied to i1. *)
Definition in_range (n z : Z) : Prop :=
  if n =? 1 then 0 <= z <= 1 else - 2 ^ (n - 1) <= z < 2 ^ (n - 1).
Definition int_value (n x : Z) : Z := if n =? 1 then x else signed n x.
Definition unbounded_exact (bw : binop -> Z -> Prop) (e : event) : Prop :=
  match e with
  | EvBin Add n x y => in_range n (int_value n x + int_value n y)
  | EvBin Sub n x y => in_range n (int_value n x - int_value n y)
  | EvBin Mul n x y => in_range n (int_value n x * int_value n y)
  | EvBin (UDiv | URem) n x y => 0 <= int_value n x /\ 0 <= int_value n y
  | EvBin SDiv n x y => 0 <= signed n x \/ Z.rem (signed n x) (signed n y) = 0
  | EvBin SRem _ _ _ => True
  | EvBin ((Shl | LShr | AShr | And | Or | Xor) as op) n x y => bw op n
  | EvCmp (EQ | NE) _ _ _ => True
  | EvCmp (UGT | UGE | ULT | ULE) n x y => 0 <= int_value n x /\ 0 <= int_value n y
  | EvCmp (SGT | SGE | SLT | SLE) n _ _ => n <> 1
  | EvCast Trunc n1 n2 x => in_range n2 (int_value n1 x)
  | EvCast ZExt n1 n2 x => 0 <= int_value n1 x
  | EvCast SExt n1 n2 x => n1 = 1 -> x = 0
  end.
(** ... and no negative constant stands where the translation reads constants
    as unsigned (except -1 under add, mul, shl, and, ... without nsw). *)
Definition unbounded_const_exact (t : place * Z * Z) : Prop :=
  let '(pl, n, c) := t in
  let nonneg := c < 2 ^ (n - 1) \/ n = 1 in
  match pl with
  | InBin (SDiv | SRem) _ => True
  | InBin (UDiv | URem | Sub) _ => nonneg
  | InBin _ nsw => nsw = true \/ nonneg \/ c = 2 ^ n - 1
  | InConstBin (UDiv | URem | Sub) => nonneg
  | InConstBin _ => True
  | InCmp (UGT | UGE | ULT | ULE) => nonneg
  | InCmp _ => True
  | InCast | InSelectCond => True
  | InSelectArm => nonneg
  end.

(** Bitwise operations fixed by the axioms of the emitted prelude. *)
Definition axiomatised (op : binop) (n : Z) : Prop := n = 1 /\ (op = And \/ op = Or \/ op = Xor).
Definition all_bitwise (op : binop) (n : Z) : Prop := True.
(** [bw] describes what interpretation [I] is known to satisfy. *)
Definition bitwise_knowledge (enc : encoding) (bvptr : bool) (I : interp) (bw : binop -> Z -> Prop) : Prop :=
  (bw = axiomatised /\ meets_axioms (flags enc bvptr) I) \/
  (bw = all_bitwise /\ I = machine_interp enc).

(** Initial stores correspond; i1 registers hold exactly 0 or 1. *)
Definition stores_correspond (enc : encoding) (G : string -> option Z) (r : regs) (rb : env) : Prop :=
  forall x n a, G x = Some n -> r x = Some a ->
    is_iN n a /\ exists v, rb x = Some v /\ represents enc n v a /\ (n = 1 -> v = truth enc (a =? 1)).
