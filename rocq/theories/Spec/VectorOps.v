(** Specification: the vector instructions of LLVM IR on integer lanes, written from
    the LLVM Language Reference.  A vector is the list of its lanes' bit patterns.
    Nothing here refers to SMACK. *)
From Coq Require Import ZArith List Bool.
From Verif.Spec Require Import LLVMInt.
Import ListNotations.
Open Scope Z_scope.

(** An integer of so many bits, or a vector of so many of them. *)
Inductive lty := LI (w : Z) | LV (n : nat) (w : Z).

(** Lane by lane; no value if some lane has none. *)
Fixpoint lanes {A B C} (f : A -> B -> option C) (xs : list A) (ys : list B) : option (list C) :=
  match xs, ys with
  | [], [] => Some []
  | x :: xs', y :: ys' =>
      match f x y, lanes f xs' ys' with Some z, Some zs => Some (z :: zs) | _, _ => None end
  | _, _ => None
  end.
Definition vec_binop (op : binop) (w : Z) : list Z -> list Z -> option (list Z) := lanes (llvm_binop op w).
Definition vec_icmp (p : icmp_pred) (w : Z) : list Z -> list Z -> option (list Z) :=
  lanes (fun a b => Some (if llvm_icmp p w a b then 1 else 0)).

(** extractelement, insertelement: an index past the end gives poison. *)
Definition extractelement (xs : list Z) (i : Z) : option Z :=
  if (0 <=? i) && (i <? Z.of_nat (length xs)) then nth_error xs (Z.to_nat i) else None.
Definition insertelement (xs : list Z) (x i : Z) : option (list Z) :=
  if (0 <=? i) && (i <? Z.of_nat (length xs))
  then Some (firstn (Z.to_nat i) xs ++ x :: skipn (S (Z.to_nat i)) xs) else None.

(** shufflevector: the mask selects among the lanes of both operands. *)
Fixpoint shufflevector (xs ys : list Z) (mask : list Z) : option (list Z) :=
  match mask with
  | [] => Some []
  | m :: mask' =>
      match extractelement (xs ++ ys) m, shufflevector xs ys mask' with
      | Some z, Some zs => Some (z :: zs)
      | _, _ => None
      end
  end.

(** trunc, zext, sext *)
Definition vec_cast (c : castop) (w1 w2 : Z) (xs : list Z) : list Z := map (llvm_cast c w1 w2) xs.
