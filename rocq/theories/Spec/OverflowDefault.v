(** Specification: executions of programs with checked arithmetic
    (Spec/OverflowProgram.v) that the default encoding – unbounded integers, memory
    as cells of one type each – can be expected to get right.

    As in Spec/DefaultMode.v, with one difference: a signed checked operation that
    overflows where this is to be reported does not leave what the encoding
    describes. *)
From Coq Require Import ZArith List String Bool.
From Verif.Spec Require Import LLVMInt IR CFG BitVectorIR ByteMemory Encodings Program DefaultMode OverflowProgram.
From Verif.Spec Require Overflow.
From Verif.Model Require Import Boogie PreludeInt.
Import ListNotations.
Open Scope list_scope.
Open Scope Z_scope.

(** The meaning of an operand; none if an operation in it is inexact. *)
Definition oexp_exact (all : bool) (W : string -> option Z) (r : string -> option val) (e : oexp) : bool :=
  match e with Plain o => operand_exact all (bits W r) o | Part _ _ _ => true end.
Definition oexact_den (all : bool) (W : string -> option Z) (r : string -> option val) (e : oexp) : option val :=
  if oexp_exact all W r e then oexp_den W r e else None.

(** Which instructions are described.  A signed checked operation that overflows
    is if this is reported, not if the wrapped result is used.  An unsigned one is
    if operands and result are the same number read as signed. *)
Definition described (ly : layout) (report : bool) (o : oop) (vs : list val) : Prop :=
  match o, vs with
  | OBase o, vs => typed_access ly o vs
  | With true op n, [VBv _ a; VBv _ b] => report = true \/ Overflow.overflows true op n a b = false
  | With false op n, [VBv _ a; VBv _ b] =>
      0 <= signed n a /\ 0 <= signed n b /\ 0 <= Overflow.math_result false op n a b < 2 ^ (n - 1)
  | Handler, [] => True
  | _, _ => False
  end.
Inductive exact_oop (ly : layout) (report : bool) (call : string -> oeffect) : oop -> oeffect :=
| EO_exact : forall o vs m t v m', exec_oop report call o vs m t v m' -> described ly report o vs -> exact_oop ly report call o vs m t v m'
| EO_inexact : forall o vs m v m', ~ described ly report o vs -> exact_oop ly report call o vs m [OUndefined] v m'.

(** ** Executions, with [OUndefined] wherever the encoding is inexact *)
Section Executions.
  Context (all : bool) (ly : layout) (reported : string -> bool) (p : oprogram).
  Definition exact_oruns (call : string -> oeffect) (f : string) (F : ofn) :=
    behaves (oexact_den all (owidths F)) (exact_oop ly (reported f) call) no_oinvoke bv_true bv_eq (ocode F).
  Definition exact_oundefined (call : string -> oeffect) (f : string) (F : ofn) :=
    undefined_after (oexact_den all (owidths F)) (exact_oop ly (reported f) call) no_oinvoke bv_true bv_eq (ocode F).
  Fixpoint exact_ocalls (n : nat) (f : string) (args : list val) (m : mem) (t : list oevent) (v : val) (m' : mem) : Prop :=
    match n with
    | O => False
    | S n => exists F, find_ofn p f = Some F /\ List.length args = List.length (params (ocode F)) /\
        ((exists r, exact_oruns (exact_ocalls n) f F args m t (Some (Returned r, m')) /\ returns r v) \/
         (exact_oruns (exact_ocalls n) f F args m t None /\ t <> []) \/
         (exists t0, t = t0 ++ [OUndefined] /\ exact_oundefined (exact_ocalls n) f F args m t0))
    end.
  (** Some execution leaves what the encoding describes, and nothing is reported
      before. *)
  Definition ocan_be_inexact (f : string) (args : list val) (m : mem) : Prop :=
    exists n v m', exact_ocalls n f args m [OUndefined] v m'.
End Executions.

(** Conditions of branches are of type i1; there is no i0. *)
Definition oexp_width (e : oexp) : Z :=
  match e with Plain o => operand_width o | Part _ n true => 1 | Part _ n false => n end.
Record owell_typed (p : oprogram) : Prop := {
  owt_conditions : forall f F l b e l1 l2, In (f, F) p -> block_of (ocode F) l = Some b -> bterm b = TCond e l1 l2 -> oexp_width e = 1;
  owt_registers : forall f F x n, In (f, F) p -> owidths F x = Some n -> 1 <= n }.
