(** lib/smack/RewriteBitwiseOps.cpp and the routines it calls
    (share/smack/lib/smack.c:57-1405). *)
From Coq Require Import ZArith List String Bool.
From Verif.Spec Require Import LLVMInt IR.
Import ListNotations.
Open Scope string_scope.
Open Scope Z_scope.

Inductive rewritten := RInst (i : inst) | RCall (routine : string) (a b : value).

(** 41-44 isConstantInt: a constant whose successor is a power of two
    (APInt::isPowerOf2 is false for 0). *)
Definition is_pow2 (x : Z) : bool := (0 <? x) && (Z.land x (x - 1) =? 0).
Definition isConstantInt (v : value) : bool :=
  match v with VConst n c => is_pow2 (pat n (c + 1)) | _ => false end.

(** routine names by width; other widths are left alone (96-106, 134-144) *)
Definition routine (base : string) (n : Z) : option string :=
  if n =? 64 then Some (base ++ "64") else if n =? 32 then Some (base ++ "32")
  else if n =? 16 then Some (base ++ "16") else if n =? 8 then Some (base ++ "8") else None.

(** 46-158 runOnModule, on one instruction.  APInt's [<<=] yields 0 for amounts
    not below the width. *)
Definition rewrite_bitwise (i : inst) : rewritten :=
  match i with
  | IBin ((Shl | LShr | AShr) as op) nsw n a (VConst m k) =>
      let rhs := VConst m (if k <? n then pat n (2 ^ k) else 0) in
      RInst (IBin (match op with Shl => Mul | _ => SDiv end) false n a rhs)
  | IBin And nsw n a b =>
      if isConstantInt a then
        match a with
        | VConst m c => RInst (IBin URem false n b (VConst m (pat m (c + 1))))
        | _ => RInst i
        end
      else match routine "__SMACK_and" n with Some f => RCall f a b | None => RInst i end
  | IBin Or nsw n a b =>
      match routine "__SMACK_or" n with Some f => RCall f a b | None => RInst i end
  | _ => RInst i
  end.

(** ** The routines.  [w]: what storing a value into a variable of the routine's
    type does to it; C remainder is [Z.rem].  The intermediate results of the
    usual arithmetic conversions are exact (the operands fit a wider type). *)
Section Routines.
  Context (w : Z -> Z) (N : Z).
  (** one of the identical groups of statements, e.g. smack.c:60-69 *)
  Definition and_round (s : Z * Z * Z) : Z * Z * Z :=
    let '(a, b, c) := s in
    let c := w (c + c) in
    let c := if a <? 0 then (if (b <? 0) || (2 ^ (N - 1) - 1 <? b) then w (c + 1) else c) else c in
    let a := w (Z.rem a (2 ^ (N - 1))) in
    let a := w (a + a) in
    let b := w (Z.rem b (2 ^ (N - 1))) in
    let b := w (b + b) in
    (a, b, c).
  (** smack.c:1048-1056 *)
  Definition or_round (s : Z * Z * Z) : Z * Z * Z :=
    let '(a, b, c) := s in
    let c := w (c + c) in
    let c := if a <? 0 then w (c + 1) else if b <? 0 then w (c + 1) else c in
    let a := w (a + a) in
    let a := w (Z.rem a (2 ^ (N - 1))) in
    let b := w (b + b) in
    let b := w (Z.rem b (2 ^ (N - 1))) in
    (a, b, c).
  Definition and_routine (rounds : nat) (a b : Z) : Z := snd (Nat.iter rounds and_round (a, b, 0)).
  Definition or_routine (rounds : nat) (a b : Z) : Z := snd (Nat.iter rounds or_round (a, b, 0)).
End Routines.

(** two's complement conversion to an N-bit signed type *)
Definition to_signed (N z : Z) : Z := signed N (pat N z).

(** Machine reading.  smack.c:57-765 (64 groups), 769-949 (16), 951-1043 (8),
    1045-1401 (32). *)
Definition and32 (a b : Z) : Z := and_routine (to_signed 32) 32 64 a b.
Definition and16 (a b : Z) : Z := and_routine (to_signed 16) 16 16 a b.
Definition and8 (a b : Z) : Z := and_routine (to_signed 8) 8 8 a b.
Definition and64 (a b : Z) : Z := and32 (to_signed 32 a) (to_signed 32 b).      (* smack.c:767 *)
Definition or32 (a b : Z) : Z := or_routine (to_signed 32) 32 32 a b.
Definition or64 (a b : Z) : Z := or32 (to_signed 32 a) (to_signed 32 b).        (* smack.c:1403 *)
Definition or16 (a b : Z) : Z := to_signed 16 (or32 a b).                       (* smack.c:1404 *)
Definition or8 (a b : Z) : Z := to_signed 8 (or32 a b).                         (* smack.c:1405 *)

(** Unbounded reading: no conversion ever changes a value. *)
Definition and8_unbounded (a b : Z) : Z := and_routine (fun z => z) 8 8 a b.
Definition and16_unbounded (a b : Z) : Z := and_routine (fun z => z) 16 16 a b.
Definition and32_unbounded (a b : Z) : Z := and_routine (fun z => z) 32 64 a b.
Definition or32_unbounded (a b : Z) : Z := or_routine (fun z => z) 32 32 a b.
