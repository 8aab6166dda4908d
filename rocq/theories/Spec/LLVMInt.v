(** Specification: the integer instructions of LLVM IR, written from the LLVM
    Language Reference.  Nothing here refers to SMACK.

    An [iN] value is a bit pattern, represented by the integer in [0, 2^N) with
    that binary expansion.  [None] stands for undefined behaviour / poison. *)
From Coq Require Import ZArith Bool.
Open Scope Z_scope.

(** A bit pattern of width [n]. *)
Definition is_iN (n x : Z) : Prop := 0 <= x < 2 ^ n.

(** Bit pattern of a mathematical integer. *)
Definition pat (n x : Z) : Z := x mod 2 ^ n.

(** Two's complement reading of a bit pattern. *)
Definition signed (n x : Z) : Z := if x <? 2 ^ (n - 1) then x else x - 2 ^ n.

Inductive binop :=
| Add | Sub | Mul | UDiv | SDiv | URem | SRem
| Shl | LShr | AShr | And | Or | Xor.

Inductive icmp_pred := EQ | NE | UGT | UGE | ULT | ULE | SGT | SGE | SLT | SLE.

Inductive castop := Trunc | ZExt | SExt.

Definition llvm_binop (op : binop) (n a b : Z) : option Z :=
  match op with
  | Add => Some (pat n (a + b))
  | Sub => Some (pat n (a - b))
  | Mul => Some (pat n (a * b))
  | UDiv => if b =? 0 then None else Some (a / b)
  | URem => if b =? 0 then None else Some (a mod b)
  | SDiv => if (b =? 0) || ((signed n a =? - 2 ^ (n - 1)) && (signed n b =? -1))
            then None else Some (pat n (Z.quot (signed n a) (signed n b)))
  | SRem => if (b =? 0) || ((signed n a =? - 2 ^ (n - 1)) && (signed n b =? -1))
            then None else Some (pat n (Z.rem (signed n a) (signed n b)))
  | Shl => if b <? n then Some (pat n (Z.shiftl a b)) else None
  | LShr => if b <? n then Some (Z.shiftr a b) else None
  | AShr => if b <? n then Some (pat n (Z.shiftr (signed n a) b)) else None
  | And => Some (Z.land a b)
  | Or => Some (Z.lor a b)
  | Xor => Some (Z.lxor a b)
  end.

Definition llvm_icmp (p : icmp_pred) (n a b : Z) : bool :=
  match p with
  | EQ => a =? b
  | NE => negb (a =? b)
  | UGT => b <? a
  | UGE => b <=? a
  | ULT => a <? b
  | ULE => a <=? b
  | SGT => signed n b <? signed n a
  | SGE => signed n b <=? signed n a
  | SLT => signed n a <? signed n b
  | SLE => signed n a <=? signed n b
  end.

(** Conversion from width [n1] to width [n2]. *)
Definition llvm_cast (c : castop) (n1 n2 a : Z) : Z :=
  match c with
  | Trunc => pat n2 a
  | ZExt => a
  | SExt => pat n2 (signed n1 a)
  end.
