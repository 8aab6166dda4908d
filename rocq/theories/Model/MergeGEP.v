(** lib/utils/MergeGEP.cpp: a getelementptr of a getelementptr becomes one. *)
From Coq Require Import ZArith List Bool.
From Verif.Spec Require Import Aggregates Gep LLVMInt.
Import ListNotations.
Open Scope list_scope.
Open Scope Z_scope.

(** An index operand: an integer constant, a value, or the "add" this pass
    creates – all of a width. *)
Inductive index := IConst (w z : Z) | IValue (w : Z) (x : nat) | ISum (a b : index).
Fixpoint width (i : index) : Z := match i with IConst w _ => w | IValue w _ => w | ISum a _ => width a end.

(** A getelementptr: source element type, pointer operand, indices.  [GInst]: an
    instruction, [GExpr]: a constant expression (both are GEPOperators). *)
Inductive pointer := PValue (x : nat) | GInst (g : gep) | GExpr (g : gep)
with gep := Gep (src : ty) (base : pointer) (idxs : list index).
Definition g_src (g : gep) : ty := match g with Gep t _ _ => t end.
Definition g_base (g : gep) : pointer := match g with Gep _ b _ => b end.
Definition g_idxs (g : gep) : list index := match g with Gep _ _ l => l end.

(** The width of a constant is irrelevant for being null. *)
Definition isNull (i : index) : bool := match i with IConst _ z => z =? 0 | _ => false end.

(** gep_type_iterator::isStruct for the last index – :93-96.  The first index is
    always sequential. *)
Fixpoint ends_seq (t : ty) (acc : bool) (p : list Z) : bool :=
  match p with
  | [] => acc
  | i :: p' =>
      match step_in t i with
      | Some (_, t') => ends_seq t' (match t with TStruct _ _ => false | _ => true end) p'
      | None => acc
      end
  end.

(** The number of a constant index: only struct indices matter for types. *)
Definition static (i : index) : Z := match i with IConst _ z => z | _ => 0 end.

Definition source (p : pointer) : option gep :=
  match p with GInst g | GExpr g => Some g | PValue _ => None end.

(** simplifyGEP – :79-152; [None]: nothing is done.  The flag inbounds only makes
    more computations undefined and is not modelled. *)
Definition simplifyGEP (g : gep) : option gep :=
  match g with
  | Gep T P J =>
      match source P with
      | None => None
      | Some (Gep T1 P1 Is) =>
          (* :87-90 wait until the source is folded *)
          let wait := match P1 with GInst g1 => (length (g_idxs g1) =? 1)%nat | _ => false end in
          if wait then None
          else
            match J with
            | [] => None
            | GO1 :: J' =>
                if ends_seq T1 true (map static (tl Is)) then
                  match rev Is with
                  | [] => None
                  | SO1 :: _ =>
                      let sum :=
                        if isNull SO1 then Some GO1
                        else if isNull GO1 then Some SO1
                        else if width SO1 =? width GO1 then Some (ISum SO1 GO1)
                        else None in
                      match sum with
                      | None => None
                      | Some sum =>
                          (* :124-129 in place: the source element type is that of GEP *)
                          if (length Is =? 1)%nat then Some (Gep T P1 (sum :: J'))
                          else Some (Gep T1 P1 (removelast Is ++ sum :: J'))
                      end
                  end
                else if isNull GO1 then Some (Gep T1 P1 (Is ++ J'))
                else None
            end
      end
  end.

(** *** Values *)
Fixpoint ival (env : nat -> Z) (i : index) : Z :=
  match i with
  | IConst w z => signed w (pat w z)
  | IValue w x => signed w (pat w (env x))
  | ISum a b => signed (width a) (pat (width a) (ival env a + ival env b))
  end.
Fixpoint pval (P : Z) (env : nat -> Z) (p : pointer) : option Z :=
  match p with
  | PValue x => Some (env x)
  | GInst g | GExpr g => gval P env g
  end
with gval (P : Z) (env : nat -> Z) (g : gep) : option Z :=
  match g with
  | Gep t b l => match pval P env b with Some a => gep_address P a t (map (ival env) l) | None => None end
  end.
