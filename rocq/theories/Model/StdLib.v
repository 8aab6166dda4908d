(** share/smack/lib/stdlib.c, function by function, with memory safety checks.  A value
    of a nondet function, the address $$alloc picks and the contents of new memory are
    arguments; [Blocked]: an assumption is false; [UB]: a check of memory safety fails;
    [Out]: a loop needs more fuel.  malloc and free are those of
    share/smack/lib/smack.c:1651-1707 (C24-C27); pointers are 64 bits. *)
From Coq Require Import ZArith List Bool.
From Verif.Spec Require Import CString StdLib.
From Verif.Model Require Import StringLib.
Import ListNotations.
Open Scope list_scope.
Open Scope Z_scope.

(** An access of [n] bytes at [p]: the check of MemorySafetyChecker.cpp ($base and $Size). *)
Definition inb (p n : Z) (b : Z * Z) : bool := (fst b <=? p) && (p + n <=? fst b + snd b).
Definition valid (s : store) (p n : Z) : bool := existsb (inb p n) (heap s ++ objects s).
(** The memory string.c sees. *)
Definition view (s : store) : mem := fun a => if valid s a 1 then Some (bytes s a) else None.

Definition disjoint (p n : Z) (b : Z * Z) : bool := (fst b + snd b <=? p) || (p + n <=? fst b).
(** $malloc – smack.c:1651-1660, 1680-1693; for n = 0 no statement assigns to p, so it is
    arbitrary.  [a]: the address; [junk]: what memory holds there.  Simplified: an address
    that overlaps an object is not considered (C24). *)
Definition malloc (a : Z) (junk : Z -> Z) (n : Z) (s : store) : res (Z * store) :=
  if (n <? 0) || (2 ^ 63 <=? n) then Blocked
  else if n =? 0 then Ret (a, s)
  else if (0 <? a) && (a + n <? 2 ^ 63 - 1) && forallb (disjoint a n) (heap s ++ objects s) then
    Ret (a, Store (fun x => if (a <=? x) && (x <? a + n) then junk x else bytes s x) ((a, n) :: heap s) (objects s))
  else Blocked.
(** $free – smack.c:1695-1707 *)
Fixpoint release (p : Z) (l : list (Z * Z)) : option (list (Z * Z)) :=
  match l with
  | [] => None
  | b :: l => if fst b =? p then Some l else match release p l with Some l => Some (b :: l) | None => None end
  end.
Definition free (p : Z) (s : store) : res store :=
  if p =? 0 then Ret s
  else match release p (heap s) with Some h => Ret (Store (bytes s) h (objects s)) | None => UB end.
(** memset: the call of the intrinsic (C19) after its check. *)
Definition memset (p c n : Z) (s : store) : res store :=
  if n =? 0 then Ret s
  else if valid s p n then Ret (Store (fun x => if (p <=? x) && (x <? p + n) then c else bytes s x) (heap s) (objects s))
  else UB.
(** The store of a pointer. *)
Definition store_ptr (p v : Z) (s : store) : res store :=
  if valid s p 8 then
    Ret (Store (fun x => if (p <=? x) && (x <? p + 8) then (v / 2 ^ (8 * (x - p))) mod 256 else bytes s x) (heap s) (objects s))
  else UB.
Definition store_byte (p v : Z) (s : store) : res store :=
  if valid s p 1 then Ret (Store (fun x => if x =? p then v mod 256 else bytes s x) (heap s) (objects s)) else UB.

(** num * size: modulo 2^64 with bit vectors or --wrapped-integer-encoding; a product of
    mathematical integers otherwise (SmackRep.cpp, $mul.i64). *)
Definition mul_size (wraps : bool) (a b : Z) : Z := if wraps then (a * b) mod 2 ^ 64 else a * b.

(** calloc – :26-37 *)
Definition calloc (wraps : bool) (nd a : Z) (junk : Z -> Z) (num size : Z) (s : store) : res (Z * store) :=
  if negb (nd =? 0) then Ret (0, s)
  else
    r <- malloc a junk (mul_size wraps num size) s ;;
    s' <- memset (fst r) 0 (mul_size wraps num size) (snd r) ;; Ret (fst r, s').

(** realloc – :39-46 *)
Definition realloc (a : Z) (junk : Z -> Z) (ptr size : Z) (s : store) : res (Z * store) :=
  s1 <- free ptr s ;; malloc a junk size s1.

(** :50-54, :60-64, :70-74, :80-84: the same statements in the four functions *)
Definition set_endptr (k : nat) (nd nptr endptr : Z) (s : store) : res store :=
  if negb (endptr =? 0) then
    size <- strlen k (view s) nptr ;;
    if nd <=? size then store_ptr endptr (nptr + nd) s else Blocked
  else Ret s.
(** __VERIFIER_nondet_unsigned_int, _long, _unsigned_long, _unsigned_long_long, _double
    (C42): a value of the type; doubles as bit patterns *)
Definition nondet (lo hi v : Z) : res Z := if (lo <=? v) && (v <=? hi) then Ret v else Blocked.
Definition nondet_unsigned (v : Z) := nondet 0 (2 ^ 32 - 1) v.
Definition nondet_long (v : Z) := nondet (- 2 ^ 63) (2 ^ 63 - 1) v.
Definition nondet_unsigned_long (v : Z) := nondet 0 (2 ^ 64 - 1) v.
Definition nondet_double (v : Z) := nondet 0 (2 ^ 64 - 1) v.
(** strtol – :48-56; [nd], [v]: the nondet values *)
Definition strtol (k : nat) (nd v nptr endptr base : Z) (s : store) : res (Z * store) :=
  n <- nondet_unsigned nd ;; s' <- set_endptr k n nptr endptr s ;; r <- nondet_long v ;; Ret (r, s').
(** strtoul – :58-66 *)
Definition strtoul (k : nat) (nd v nptr endptr base : Z) (s : store) : res (Z * store) :=
  n <- nondet_unsigned nd ;; s' <- set_endptr k n nptr endptr s ;; r <- nondet_unsigned_long v ;; Ret (r, s').
(** strtoull – :68-76 *)
Definition strtoull (k : nat) (nd v nptr endptr base : Z) (s : store) : res (Z * store) :=
  n <- nondet_unsigned nd ;; s' <- set_endptr k n nptr endptr s ;; r <- nondet_unsigned_long v ;; Ret (r, s').
(** strtod – :78-86 *)
Definition strtod (k : nat) (nd v nptr endptr : Z) (s : store) : res (Z * store) :=
  n <- nondet_unsigned nd ;; s' <- set_endptr k n nptr endptr s ;; r <- nondet_double v ;; Ret (r, s').

(** getenv – :88-97; [env]: the value of env_value_str, the address of three bytes "xx" *)
Definition getenv (env nd c0 c1 : Z) (s : store) : res (Z * store) :=
  if negb (nd =? 0) then Ret (0, s)
  else s1 <- store_byte env c0 s ;; s2 <- store_byte (env + 1) c1 s1 ;; Ret (env, s2).

(** exit, abort – :8-24; $allocatedCounter is the number of heap blocks (C27) *)
Inductive ended := Leak | Stopped | Returned.
Definition exit (safety : bool) (s : store) : ended :=
  if safety && negb (Z.of_nat (length (heap s)) =? 0) then Leak else Stopped.
Definition abort (safety : bool) (s : store) : ended :=
  if safety && negb (Z.of_nat (length (heap s)) =? 0) then Leak else Stopped.
