(** Specification: the LLVM bit-manipulation intrinsics (LLVM Language
    Reference, "Bit Manipulation Intrinsics"). *)
From Coq Require Import ZArith List Bool.
Import ListNotations.
Open Scope Z_scope.

(** bit [k] of the result is bit [w-1-k] of the operand *)
Definition is_bitreverse (w x r : Z) : Prop :=
  0 <= r < 2 ^ w /\ forall k, 0 <= k < w -> Z.testbit r k = Z.testbit x (w - 1 - k).
(** byte [k] of the result is byte [w/8-1-k] of the operand *)
Definition byte_of (x k : Z) : Z := (x / 2 ^ (8 * k)) mod 256.
Definition is_bswap (w x r : Z) : Prop :=
  0 <= r < 2 ^ w /\ forall k, 0 <= k < w / 8 -> byte_of r k = byte_of x (w / 8 - 1 - k).
(** [c] zeros from the most significant bit down, then a one (if any bit is left) *)
Definition is_ctlz (w x c : Z) : Prop :=
  0 <= c <= w /\ (forall k, w - c <= k < w -> Z.testbit x k = false) /\
  (c < w -> Z.testbit x (w - c - 1) = true).
Definition is_cttz (w x c : Z) : Prop :=
  0 <= c <= w /\ (forall k, 0 <= k < c -> Z.testbit x k = false) /\
  (c < w -> Z.testbit x c = true).
(** number of ones among bits 0..w-1 *)
Definition popcount (w x : Z) : Z :=
  Z.of_nat (length (filter (fun k => Z.testbit x (Z.of_nat k)) (seq 0 (Z.to_nat w)))).
