(** Specification: the memory blocks of a program, from the history of its
    allocation calls alone. *)
From Coq Require Import ZArith List Bool.
From Verif.Model Require Import Allocator.
Import ListNotations.
Open Scope list_scope.
Open Scope Z_scope.

Inductive kind := Global | Heap | Stack.
Record block := Block { bk : kind; start : Z; size : Z }.

(** All blocks ever allocated: the global variables (address, size), and one for
    every allocation of at least one byte; the last call is first. *)
Fixpoint blocks (G : list (Z * Z)) (h : list event) : list block :=
  match h with
  | [] => map (fun g => Block Global (fst g) (snd g)) G
  | Malloc n p :: h' => if 0 <? n then Block Heap p n :: blocks G h' else blocks G h'
  | Alloca n p :: h' => if 0 <? n then Block Stack p n :: blocks G h' else blocks G h'
  | Free _ :: h' => blocks G h'
  end.

(** Those that have not been freed. *)
Fixpoint live (G : list (Z * Z)) (h : list event) : list block :=
  match h with
  | [] => map (fun g => Block Global (fst g) (snd g)) G
  | Malloc n p :: h' => if 0 <? n then Block Heap p n :: live G h' else live G h'
  | Alloca n p :: h' => if 0 <? n then Block Stack p n :: live G h' else live G h'
  | Free p :: h' => filter (fun b => negb (start b =? p)) (live G h')
  end.

Definition inside (a : Z) (b : block) : Prop := start b <= a < start b + size b.
Definition disjoint (a b : block) : Prop := forall x, ~ (inside x a /\ inside x b).

(** The bytes [p, p+n), at least one, are all in one live block. *)
Definition in_bounds (G : list (Z * Z)) (h : list event) (p n : Z) : Prop :=
  exists b, In b (live G h) /\ inside p b /\ p + n <= start b + size b.

(** [p] is what free accepts in C: null or the start of a live heap block. *)
Definition starts_live (G : list (Z * Z)) (h : list event) (k : kind) (p : Z) : Prop :=
  exists b, In b (live G h) /\ bk b = k /\ start b = p.

(** All calls of free so far were for null or for the start of a live heap or
    stack block. *)
Fixpoint frees_ok (G : list (Z * Z)) (h : list event) : Prop :=
  match h with
  | [] => True
  | Free p :: h' => (p = 0 \/ starts_live G h' Heap p \/ starts_live G h' Stack p) /\ frees_ok G h'
  | _ :: h' => frees_ok G h'
  end.

(** Null has not been passed to free. *)
Definition no_null_free (h : list event) : Prop := ~ In (Free 0) h.

(** Global variables: non-empty, below address 0, pairwise disjoint with a gap,
    and representable (C18_disjoint). *)
Definition good_globals (bvptr : bool) (P : Z) (G : list (Z * Z)) : Prop :=
  (forall b n, In (b, n) G -> 0 < n /\ b + n < 0 /\ (bvptr = true -> - 2 ^ (P - 1) <= b)) /\
  ForallOrdPairs (fun x y => fst x + snd x < fst y \/ fst y + snd y < fst x) G.
