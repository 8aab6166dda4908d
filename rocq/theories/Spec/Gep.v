(** Specification: getelementptr as address arithmetic.  The first index steps over
    whole objects; an array index may be any number; nothing refers to SMACK. *)
From Coq Require Import ZArith List Bool.
From Verif.Spec Require Import Aggregates LLVMInt.
Import ListNotations.
Open Scope list_scope.
Open Scope Z_scope.

(** One step into an object of type [t]: the distance and the type reached. *)
Definition step_in (t : ty) (i : Z) : option (Z * ty) :=
  match t with
  | TScalar _ _ => None
  | TArray _ t => Some (i * asize t, t)
  | TStruct _ _ => child t i
  end.

Fixpoint walk (t : ty) (p : list Z) : option (Z * ty) :=
  match p with
  | [] => Some (0, t)
  | i :: p' =>
      match step_in t i with
      | Some (o, t') => match walk t' p' with Some (o', s) => Some (o + o', s) | None => None end
      | None => None
      end
  end.

(** Distance from the base, and the type of the object there. *)
Definition gep_walk (t : ty) (idxs : list Z) : option (Z * ty) :=
  match idxs with
  | [] => None
  | k :: p => match walk t p with Some (o, s) => Some (k * asize t + o, s) | None => None end
  end.

(** The address, in pointers of [P] bits. *)
Definition gep_address (P base : Z) (t : ty) (idxs : list Z) : option Z :=
  match gep_walk t idxs with Some (o, _) => Some (pat P (base + o)) | None => None end.
