(** Functions with contracts: requires, ensures and invariant are calls in the code of
    the function, with a truth value as argument. *)
From Coq Require Import List Bool Arith.
Import ListNotations.

(** A function is a list of blocks; the first is the entry.  Instructions, conditions and
    arguments of contracts are numbers, with a meaning below. *)
Inductive kind := Requires | Ensures | Invariant.
Inductive item := Do (o : nat) | Contract (k : kind) (e : nat).
Inductive term := Jump (t : nat) | Branch (c t e : nat) | Return.
Definition block := (list item * term)%type.
Definition function := list block.

(** A state: the arguments of the function (which do not change), its local values, and
    memory (with the result of the function). *)
Section Meaning.
  Context {A T M : Type}.
  Record meaning := Meaning {
    act : nat -> A -> T -> M -> option (T * M);        (* None: an assertion fails *)
    test : nat -> A -> T -> M -> bool;                 (* conditions, and arguments of contracts *)
    edge : nat -> nat -> A -> T -> M -> T;             (* the phi nodes of a block *)
    undef : T                                          (* local values before anything is computed *)
  }.
  Context (E : meaning) (F : function) (a : A).

  (** A position: a block and the index of an item ([length]: the end of the block). *)
  Inductive outcome := At (l i : nat) (t : T) (m : M) | Done (m : M) | Failed.
  Definition goto (l d : nat) (t : T) (m : M) : outcome := At d 0 (edge E l d a t m) m.
  Definition step (l i : nat) (t : T) (m : M) : outcome :=
    match nth_error F l with
    | None => Failed
    | Some (items, tm) =>
        match nth_error items i with
        | Some (Do o) => match act E o a t m with Some (t', m') => At l (S i) t' m' | None => Failed end
        | Some (Contract _ _) => At l (S i) t m
        | None =>
            match tm with
            | Jump d => goto l d t m
            | Branch c d e => if test E c a t m then goto l d t m else goto l e t m
            | Return => Done m
            end
        end
    end.

  (** The execution as long as it stays at positions in [P], and where it gets then. *)
  Inductive upto (P : nat -> nat -> Prop) : outcome -> outcome -> Prop :=
  | up_out l i t m : ~ P l i -> upto P (At l i t m) (At l i t m)
  | up_in l i t m o : P l i -> upto P (step l i t m) o -> upto P (At l i t m) o
  | up_done m : upto P (Done m) (Done m)
  | up_failed : upto P Failed Failed.

  Definition contract_at (l i : nat) (k : kind) (e : nat) : Prop := exists items tm, nth_error F l = Some (items, tm) /\ nth_error items i = Some (Contract k e).

  (** The value of the contract at a position, seen from the start of a region of code:
      the value of its argument when the execution gets there; true if it leaves the region
      first. *)
  Definition value_from (P : nat -> nat -> Prop) (start : outcome) (l i : nat) (v : bool) : Prop :=
    exists k e o, contract_at l i k e /\ upto (fun l' i' => P l' i' /\ ~ (l' = l /\ i' = i)) start o /\
      match o with
      | At l' i' t m => if (l' =? l) && (i' =? i) then v = test E e a t m else v = true
      | Done _ => v = true
      | Failed => False
      end.
End Meaning.
Arguments meaning : clear implicits.
Arguments outcome : clear implicits.

(** The code of the contracts of a function: everything up to its last contract. *)
Definition before (L I l i : nat) : Prop := l < L \/ l = L /\ i <= I.
Definition last_contract (F : function) (L I : nat) : Prop :=
  (exists k e, contract_at F L I k e) /\ forall l i k e, contract_at F l i k e -> before L I l i.

Section Correctness.
  Context {A T M : Type} (E : meaning A T M) (F : function) (L I : nat).
  (** The value of a contract of the function in a memory. *)
  Definition contract_value (a : A) (m : M) (l i : nat) (v : bool) : Prop :=
    value_from E F a (before L I) (At 0 0 (undef E) m) l i v.
  (** The function meets its contract: started in a memory in which what it requires holds,
      it fails no assertion, and if it returns, what it ensures holds then. *)
  Definition all_hold (k : kind) (a : A) (m : M) : Prop := forall l i e, contract_at F l i k e -> contract_value a m l i true.
  Definition meets : Prop :=
    forall a m o, all_hold Requires a m -> upto E F a (fun _ _ => True) (At 0 0 (undef E) m) o ->
      exists m', o = Done m' /\ all_hold Ensures a m'.

  (** The code of the contracts only computes local values, which the rest of the function
      does not use. *)
  Definition pure_prefix : Prop :=
    (forall a m, exists t, upto E F a (before L I) (At 0 0 (undef E) m) (At L (S I) t m)) /\
    (forall a m t t' o, upto E F a (fun _ _ => True) (At L (S I) t m) o -> upto E F a (fun _ _ => True) (At L (S I) t' m) o).
End Correctness.
