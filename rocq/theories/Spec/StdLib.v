(** The functions of C11 7.22 that stdlib.c provides: numbers in strings (7.22.1),
    calloc and realloc (7.22.3), exit, abort and getenv (7.22.4). *)
From Coq Require Import ZArith List Bool.
From Verif.Spec Require Import CString.
Import ListNotations.
Open Scope list_scope.
Open Scope Z_scope.

(** A store: the heap blocks (address, length), the other objects, and the contents of
    all bytes. *)
Record store := Store { bytes : Z -> Z; heap : list (Z * Z); objects : list (Z * Z) }.
Definition within (b : Z * Z) (p n : Z) : Prop := fst b <= p /\ p + n <= fst b + snd b.
(** The [n] bytes from [p] belong to one object. *)
Definition accessible (s : store) (p n : Z) : Prop := exists b, In b (heap s ++ objects s) /\ within b p n.
Definition fresh (s : store) (p n : Z) : Prop := forall b, In b (heap s ++ objects s) -> apart (fst b) (snd b) p n.
(** Objects have an address and a length, and do not overlap. *)
Definition good (s : store) : Prop :=
  (forall b, In b (heap s ++ objects s) -> 0 < fst b /\ 0 < snd b /\ fst b + snd b < 2 ^ 63) /\
  (forall a, 0 <= bytes s a < 256) /\
  ForallOrdPairs (fun b c => apart (fst b) (snd b) (fst c) (snd c)) (heap s ++ objects s).
(** Nothing but the bytes [p .. p+n-1] changes. *)
Definition only_bytes (s s' : store) (p n : Z) : Prop :=
  heap s' = heap s /\ objects s' = objects s /\ forall a, ~ p <= a < p + n -> bytes s' a = bytes s a.

(** 7.22.3.2: calloc gives a new block of [num * size] zero bytes (below the end of the
    addresses SMACK hands out). *)
Definition calloced (s s' : store) (p n : Z) : Prop :=
  heap s' = (p, n) :: heap s /\ objects s' = objects s /\ 0 < p /\ p + n < 2 ^ 63 - 1 /\ fresh s p n /\
  (forall a, p <= a < p + n -> bytes s' a = 0) /\ (forall a, ~ p <= a < p + n -> bytes s' a = bytes s a).
(** 7.22.3.5: realloc releases the old block and gives a new one ... *)
Definition replaced (s s' : store) (old : list (Z * Z)) (q n : Z) : Prop :=
  objects s' = objects s /\ 0 < q /\ q + n < 2 ^ 63 - 1 /\ (forall a, ~ q <= a < q + n -> bytes s' a = bytes s a) /\
  exists l r, heap s = l ++ old ++ r /\ heap s' = (q, n) :: l ++ r /\
    forall b, In b (l ++ r ++ objects s) -> apart (fst b) (snd b) q n.
(** ... with the contents of the old one, up to the lesser of the lengths. *)
Definition kept (s s' : store) (p m q n : Z) : Prop := forall i, 0 <= i < Z.min m n -> bytes s' (q + i) = bytes s (p + i).

(** 7.22.1.4: white space, a sign, a prefix, digits. *)
Definition space (c : Z) : bool := (c =? 32) || ((9 <=? c) && (c <=? 13)).
Definition digit (c : Z) : Z :=
  if (48 <=? c) && (c <=? 57) then c - 48
  else if (97 <=? c) && (c <=? 122) then c - 87
  else if (65 <=? c) && (c <=? 90) then c - 55 else 99.
Fixpoint skip (f : Z -> bool) (l : list Z) : nat := match l with c :: l' => if f c then S (skip f l') else O | [] => O end.
Definition signs (l : list Z) : nat * Z := match l with c :: _ => if c =? 45 then (1%nat, -1) else if c =? 43 then (1%nat, 1) else (0%nat, 1) | [] => (0%nat, 1) end.
Definition prefixed (l : list Z) : bool :=
  match l with a :: b :: c :: _ => (a =? 48) && ((b =? 120) || (b =? 88)) && (digit c <? 16) | _ => false end.
Definition radix (base : Z) (l : list Z) : nat * Z :=
  if ((base =? 0) || (base =? 16)) && prefixed l then (2%nat, 16)
  else if base =? 0 then (0%nat, match l with c :: _ => if c =? 48 then 8 else 10 | [] => 10 end) else (0%nat, base).
Definition number (b : Z) (l : list Z) : Z := fold_left (fun v c => v * b + digit c) l 0.
(** The number of characters that are part of the number, and the number. *)
Definition parse_number (base : Z) (l : list Z) : nat * Z :=
  let w := skip space l in
  let l1 := skipn w l in
  let (g, sg) := signs l1 in
  let l2 := skipn g l1 in
  let (x, b) := radix base l2 in
  let l3 := skipn x l2 in
  let d := skip (fun c => digit c <? b) l3 in
  if (d =? 0)%nat then (0%nat, 0) else ((w + g + x + d)%nat, sg * number b (firstn d l3)).
(** strtol: out of range values become LONG_MIN and LONG_MAX; strtoul and strtoull: they
    become ULONG_MAX, and a minus sign negates in the type of the result. *)
Definition c_strtol (base : Z) (l : list Z) : nat * Z :=
  let (k, v) := parse_number base l in (k, Z.max (- 2 ^ 63) (Z.min v (2 ^ 63 - 1))).
Definition c_strtoul (base : Z) (l : list Z) : nat * Z :=
  let (k, v) := parse_number base l in (k, if 2 ^ 64 <=? Z.abs v then 2 ^ 64 - 1 else v mod 2 ^ 64).

(** Stores that differ in nothing. *)
Definition same (s s' : store) : Prop := heap s = heap s' /\ objects s = objects s' /\ forall a, bytes s a = bytes s' a.
(** A pointer in memory: eight bytes, the least significant first. *)
Definition holds (s : store) (p v : Z) : Prop := forall i, 0 <= i < 8 -> bytes s (p + i) = (v / 2 ^ (8 * i)) mod 256.
