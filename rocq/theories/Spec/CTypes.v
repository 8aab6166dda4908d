(** Specification: ranges of the integer types of C on the LP64 target SMACK
    compiles for, the type each __VERIFIER_nondet_* function is documented to
    return, and which Boogie values stand for a number of that type.
    Nothing here refers to the model of these functions. *)
From Coq Require Import ZArith List String Bool.
From Verif.Spec Require Import LLVMInt Encodings.
From Verif.Model Require Import Boogie.
Import ListNotations.
Open Scope string_scope.
Open Scope list_scope.
Open Scope Z_scope.

Inductive ctype := CSigned (bits : Z) | CUnsigned (bits : Z).
Definition bits (t : ctype) : Z := match t with CSigned n | CUnsigned n => n end.

(** The numbers of a type (C11 5.2.4.2.1, two's complement). *)
Definition of_ctype (t : ctype) (c : Z) : Prop :=
  match t with
  | CSigned n => - 2 ^ (n - 1) <= c <= 2 ^ (n - 1) - 1
  | CUnsigned n => 0 <= c <= 2 ^ n - 1
  end.

(** Names after "__VERIFIER_nondet_", with the type they return. *)
Definition documented : list (string * ctype) :=
  [ ("char", CSigned 8); ("signed_char", CSigned 8); ("unsigned_char", CUnsigned 8);
    ("short", CSigned 16); ("signed_short", CSigned 16); ("signed_short_int", CSigned 16);
    ("unsigned_short", CUnsigned 16); ("unsigned_short_int", CUnsigned 16);
    ("int", CSigned 32); ("signed_int", CSigned 32);
    ("unsigned", CUnsigned 32); ("unsigned_int", CUnsigned 32);
    ("long", CSigned 64); ("long_int", CSigned 64); ("signed_long", CSigned 64);
    ("signed_long_int", CSigned 64); ("unsigned_long", CUnsigned 64); ("unsigned_long_int", CUnsigned 64);
    ("long_long", CSigned 64); ("long_long_int", CSigned 64); ("signed_long_long", CSigned 64);
    ("signed_long_long_int", CSigned 64); ("unsigned_long_long", CUnsigned 64);
    ("unsigned_long_long_int", CUnsigned 64);
    ("bool", CUnsigned 1); ("uchar", CUnsigned 8); ("ushort", CUnsigned 16);
    ("uint", CUnsigned 32); ("ulong", CUnsigned 64) ].

(** [v] stands for the number [c] of type [t]: the bit-vector that is its
    representation; an integer congruent to it; that integer itself. *)
Definition stands_for (enc : encoding) (t : ctype) (v : val) (c : Z) : Prop :=
  match enc with
  | BitVector => v = VBv (bits t) (c mod 2 ^ bits t)
  | WrappedInteger => exists z, v = VInt z /\ z mod 2 ^ bits t = c mod 2 ^ bits t
  | UnboundedInteger => v = VInt c
  end.
