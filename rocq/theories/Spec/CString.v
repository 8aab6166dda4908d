(** The string functions of the C standard (C11 7.24), over lists of bytes. *)
From Coq Require Import ZArith List Bool.
Import ListNotations.
Open Scope Z_scope.

(** Memory: allocated bytes and their contents, as unsigned values. *)
Definition mem := Z -> option Z.
Definition is_mem (m : mem) : Prop := forall a v, m a = Some v -> 0 < a < 2 ^ 64 /\ 0 <= v < 256.

(** The string at an address: non-zero bytes and a terminating zero. *)
Fixpoint string_at (m : mem) (p : Z) (l : list Z) : Prop :=
  match l with
  | [] => m p = Some 0
  | c :: l' => c <> 0 /\ m p = Some c /\ string_at m (p + 1) l'
  end.
Fixpoint bytes_at (m : mem) (p : Z) (l : list Z) : Prop :=
  match l with [] => True | c :: l' => m p = Some c /\ bytes_at m (p + 1) l' end.
Definition allocated (m : mem) (p n : Z) : Prop := forall a, p <= a < p + n -> m a <> None.
Definition apart (p n q k : Z) : Prop := p + n <= q \/ q + k <= p.

Definition len (l : list Z) : Z := Z.of_nat (length l).

(** The memory after [l] is written at [p]. *)
Definition written (m m' : mem) (p : Z) (l : list Z) : Prop :=
  bytes_at m' p l /\ forall a, ~ p <= a < p + len l -> m' a = m a.

(** 7.24.4: the order of strings is that of the first bytes that differ, compared as
    unsigned char. *)
Fixpoint order (a b : list Z) : comparison :=
  match a, b with
  | [], [] => Eq
  | [], _ => Lt
  | _, [] => Gt
  | x :: a', y :: b' => match x ?= y with Eq => order a' b' | c => c end
  end.
Definition has_sign (r : Z) (c : comparison) : Prop := match c with Lt => r < 0 | Eq => r = 0 | Gt => 0 < r end.

(** 7.24.5.2, 7.24.5.5: first and last occurrence (the terminating zero belongs to the
    string). *)
Definition first_at (l : list Z) (P : Z -> Prop) (i : nat) : Prop :=
  (exists c, nth_error l i = Some c /\ P c) /\ forall j c, (j < i)%nat -> nth_error l j = Some c -> ~ P c.
Definition last_at (l : list Z) (P : Z -> Prop) (i : nat) : Prop :=
  (exists c, nth_error l i = Some c /\ P c) /\ forall j c, (i < j)%nat -> nth_error l j = Some c -> ~ P c.
Definition nowhere (l : list Z) (P : Z -> Prop) : Prop := forall c, In c l -> ~ P c.

(** 7.24.5.6, 7.24.5.3: the length of the longest prefix of characters that satisfy
    something. *)
Definition span (l : list Z) (P : Z -> Prop) (n : nat) : Prop :=
  Forall P (firstn n l) /\ (n = length l \/ exists c, nth_error l n = Some c /\ ~ P c).

(** 7.24.5.7: the first place where all of [needle] occurs. *)
Definition prefix (a b : list Z) : Prop := exists r, b = a ++ r.
Definition first_sub (hay needle : list Z) (i : nat) : Prop :=
  (i <= length hay)%nat /\ prefix needle (skipn i hay) /\ forall j, (j < i)%nat -> ~ prefix needle (skipn j hay).
Definition no_sub (hay needle : list Z) : Prop := forall i, (i <= length hay)%nat -> ~ prefix needle (skipn i hay).
