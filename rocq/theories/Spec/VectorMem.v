(** Loads and stores of vectors, in memory that is kept in cells. *)
From Coq Require Import ZArith List.
Import ListNotations.

(** Types of cells and of what is loaded or stored. *)
Inductive ty := Int (w : Z) | Vector (n : nat) (w : Z) | Pointer.
Definition ty_dec (a b : ty) : {a = b} + {a <> b}.
Proof. repeat (decide equality). Defined.
Definition is_vector (t : ty) : Prop := match t with Vector _ _ => True | _ => False end.
(** A value is the list of its lanes. *)
Definition val := list Z.
(** A part of memory: many cells, or one. *)
Inductive mem := Cells (f : Z -> val) | Cell (v : val).

(** The machine: what a load and a store of type [et] do in memory whose cells are of type [mt].  All that is assumed of it
    is that if the types are the same it is the cell that is read or written, and no other. *)
Record machine := Machine { ld : ty -> ty -> mem -> Z -> val; st : ty -> ty -> mem -> Z -> val -> mem }.
Definition upd (f : Z -> val) (p : Z) (v : val) : Z -> val := fun q => if Z.eqb q p then v else f q.
Definition cellwise (m : machine) : Prop :=
  forall t f p, ld m t t (Cells f) p = f p /\ forall v, st m t t (Cells f) p v = Cells (upd f p v).

(** A program: loads and stores of type [et] at address [p] in part [r] of memory. *)
Inductive access := Load (r : nat) (et : ty) (p : Z) | Store (r : nat) (et : ty) (p : Z) (v : val).
Definition part (a : access) : nat := match a with Load r _ _ | Store r _ _ _ => r end.
Definition atype (a : access) : ty := match a with Load _ et _ | Store _ et _ _ => et end.
Definition same_kind (a b : access) : Prop := match a, b with Load _ _ _, Load _ _ _ | Store _ _ _ _, Store _ _ _ _ => True | _, _ => False end.
Definition of_vectors (l : list access) : Prop := forall a, In a l -> is_vector (atype a).
Definition set_mem (ms : nat -> mem) (r : nat) (m : mem) : nat -> mem := fun r' => if Nat.eqb r' r then m else ms r'.
(** Its run: what is loaded, and the memory at the end; [cell] gives the type of the cells of each part. *)
Fixpoint runs (m : machine) (cell : nat -> ty) (l : list access) (ms : nat -> mem) : list val * (nat -> mem) :=
  match l with
  | [] => ([], ms)
  | Load r et p :: l' => let (o, ms') := runs m cell l' ms in (ld m et (cell r) (ms r) p :: o, ms')
  | Store r et p v :: l' => runs m cell l' (set_mem ms r (st m et (cell r) (ms r) p v))
  end.
