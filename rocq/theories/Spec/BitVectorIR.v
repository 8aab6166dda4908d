(** Specification: the integer fragment of LLVM IR (Spec/IR.v) as the operands
    and side-effect free instructions of control-flow graphs (Spec/CFG.v).
    Register contents are bit patterns tagged with their width, written [VBv n
    a] (the [val] of Model/Boogie.v); nothing else here refers to SMACK. *)
From Coq Require Import ZArith List String Bool.
From Verif.Spec Require Import LLVMInt IR CFG.
From Verif.Model Require Import Boogie.
Import ListNotations.
Open Scope Z_scope.

Inductive operand := Op (v : value) | Instr (i : inst).

Fixpoint value_regs (v : value) : list string :=
  match v with
  | VReg _ x => [x]
  | VConst _ _ => []
  | CBin _ _ a b | CIcmp _ _ a b => value_regs a ++ value_regs b
  | CCast _ _ _ a => value_regs a
  | CSelect _ c a b => value_regs c ++ value_regs a ++ value_regs b
  end.
Definition inst_regs (i : inst) : list string :=
  match i with
  | IBin _ _ _ a b | IIcmp _ _ a b => value_regs a ++ value_regs b
  | ICast _ _ _ a => value_regs a
  | ISelect _ c a b => value_regs c ++ value_regs a ++ value_regs b
  end.

Section Typed.
  (** [G]: register widths; [W]: available widths. *)
  Context (G : string -> option Z) (W : Z -> Prop).
  Definition wt_operand (o : operand) : Prop :=
    match o with Op v => wt_value G W v | Instr i => wt_inst G W i end.
  Definition typed : Type := { o : operand | wt_operand o }.
  Definition typed_regs (e : typed) : list string :=
    match proj1_sig e with Op v => value_regs v | Instr i => inst_regs i end.

  (** A register that holds a value of its type. *)
  Definition bits (r : string -> option val) : IR.regs := fun x =>
    match G x, r x with
    | Some n, Some (VBv m a) => if (m =? n) && (0 <=? a) && (a <? 2 ^ n) then Some a else None
    | _, _ => None
    end.
  Definition typed_den (r : string -> option val) (e : typed) : option val :=
    match proj1_sig e with
    | Op v => match value_den (bits r) v with Some a => Some (VBv (vwidth v) a) | None => None end
    | Instr i => match inst_den (bits r) i with Some a => Some (VBv (iwidth i) a) | None => None end
    end.
End Typed.

(** Equality of bit vectors; the truth value 1 of type i1. *)
Definition bv_eq (a b : val) : bool :=
  match a, b with VBv n x, VBv m y => (n =? m) && (x =? y) | _, _ => false end.
Definition bv_true : val := VBv 1 1.
