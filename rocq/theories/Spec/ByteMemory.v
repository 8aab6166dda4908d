(** Specification: little-endian byte memory.  Nothing here refers to SMACK. *)
From Coq Require Import ZArith.
Open Scope Z_scope.

(** Byte [i] (from the least significant) of [v]. *)
Definition byte_of (v i : Z) : Z := (v / 2 ^ (8 * i)) mod 2 ^ 8.

(** Bytes needed for an [n]-bit integer. *)
Definition bytes_needed (n : Z) : Z := (n + 7) / 8.

(** Every cell holds a byte. *)
Definition byte_memory (m : Z -> Z) : Prop := forall a, 0 <= m a < 2 ^ 8.

(** [m'] is [m] after writing the [k] low bytes of [v], least significant first,
    to the addresses [A 0], ..., [A (k-1)]. *)
Definition written (A : Z -> Z) (k v : Z) (m m' : Z -> Z) : Prop :=
  (forall i, 0 <= i < k -> m' (A i) = byte_of v i) /\
  (forall q, (forall i, 0 <= i < k -> q <> A i) -> m' q = m q).

(** [v] is the number whose [k] bytes are at [A 0], ..., [A (k-1)]. *)
Definition reads_as (A : Z -> Z) (k : Z) (m : Z -> Z) (v : Z) : Prop :=
  0 <= v < 2 ^ (8 * k) /\ forall i, 0 <= i < k -> byte_of v i = m (A i).

(** Address of byte [i] of an object at [p]: addresses of a [P]-bit bit-vector
    pointer wrap around, integer pointers do not. *)
Definition byte_addr (bvptr : bool) (P p i : Z) : Z := if bvptr then (p + i) mod 2 ^ P else p + i.

(** [m'] is [m] with the [n] cells at [D 0], ..., [D (n-1)] replaced by [f 0], ...,
    [f (n-1)]; only the cells whose address satisfies [ok] exist. *)
Definition cells_set (ok : Z -> Prop) (D : Z -> Z) (n : Z) (f : Z -> Z) (m m' : Z -> Z) : Prop :=
  (forall i, 0 <= i < n -> m' (D i) = f i) /\
  (forall a, ok a -> (forall i, 0 <= i < n -> a <> D i) -> m' a = m a).
