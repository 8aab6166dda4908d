(** Specification: floating-point numbers and their formats (IEEE 754 and the x87
    extended format), comparisons of the LLVM language, and Boogie's literals.
    Nothing here refers to SMACK. *)
From Coq Require Import ZArith List String Ascii Bool.
From Verif.Spec Require Import TraceValues.
Import ListNotations.
Open Scope string_scope.
Open Scope Z_scope.

(** (-1)^neg * m * 2^k *)
Inductive fpval := NaN | Inf (neg : bool) | Fin (neg : bool) (m k : Z).

(** The interchange format with exponents of [E] bits and significands of [p] bits, one
    of them hidden. *)
Definition ieee (E p bits : Z) : fpval :=
  let neg := Z.odd (bits / 2 ^ (E + p - 1)) in
  let e := (bits / 2 ^ (p - 1)) mod 2 ^ E in
  let f := bits mod 2 ^ (p - 1) in
  let bias := 2 ^ (E - 1) - 1 in
  if e =? 2 ^ E - 1 then (if f =? 0 then Inf neg else NaN)
  else if e =? 0 then Fin neg f (1 - bias - (p - 1))
  else Fin neg (2 ^ (p - 1) + f) (e - bias - (p - 1)).
(** The x87 extended format: 64 bits of significand, none hidden. *)
Definition x87 (bits : Z) : fpval :=
  let neg := Z.odd (bits / 2 ^ 79) in
  let e := (bits / 2 ^ 64) mod 2 ^ 15 in
  let s := bits mod 2 ^ 64 in
  if e =? 2 ^ 15 - 1 then (if s mod 2 ^ 63 =? 0 then Inf neg else NaN)
  else Fin neg s (Z.max e 1 - 16383 - 63).

(** The same datum. *)
Definition same_datum (a b : fpval) : Prop :=
  match a, b with
  | NaN, NaN => True
  | Inf s, Inf s' => s = s'
  | Fin s m k, Fin s' m' k' => s = s' /\ same_number (m, k) (m', k')
  | _, _ => False
  end.

(** What a literal of Boogie's type float<p>e<E> denotes. *)
Definition sizes (p E : Z) (ps es : string) : Prop := is_numeral Regex.digit ps /\ is_numeral Regex.digit es /\ numeral 10 ps = p /\ numeral 10 es = E.
Inductive literal (p E : Z) : string -> fpval -> Prop :=
| l_nan : forall ps es, sizes p E ps es -> literal p E ("0NaN" ++ ps ++ "e" ++ es) NaN
| l_pinf : forall ps es, sizes p E ps es -> literal p E ("0+oo" ++ ps ++ "e" ++ es) (Inf false)
| l_minf : forall ps es, sizes p E ps es -> literal p E ("0-oo" ++ ps ++ "e" ++ es) (Inf true)
| l_fin : forall n i f en e ps es m k, sizes p E ps es -> constant_ok (Fp n i f en e ps es) ->
    fp_magnitude i f en e = (m, k) -> literal p E (printed (Fp n i f en e ps es)) (Fin n m k).

(** Order *)
Definition signed_int (neg : bool) (m : Z) : Z := if neg then - m else m.
(** Numbers are compared at any exponent below both. *)
Definition less (a b : fpval) : Prop :=
  match a, b with
  | NaN, _ | _, NaN => False
  | Inf s, Inf s' => s = true /\ s' = false
  | Inf s, Fin _ _ _ => s = true
  | Fin _ _ _, Inf s => s = false
  | Fin s m k, Fin s' m' k' => forall j, j <= k -> j <= k' -> signed_int s m * 2 ^ (k - j) < signed_int s' m' * 2 ^ (k' - j)
  end.
Definition equal (a b : fpval) : Prop :=
  match a, b with
  | NaN, _ | _, NaN => False
  | Inf s, Inf s' => s = s'
  | Fin s m k, Fin s' m' k' => forall j, j <= k -> j <= k' -> signed_int s m * 2 ^ (k - j) = signed_int s' m' * 2 ^ (k' - j)
  | _, _ => False
  end.
Definition unordered (a b : fpval) : Prop := a = NaN \/ b = NaN.

(** LLVM's fcmp *)
Inductive fpred := FCMP_FALSE | FCMP_OEQ | FCMP_OGT | FCMP_OGE | FCMP_OLT | FCMP_OLE | FCMP_ONE | FCMP_ORD | FCMP_UEQ | FCMP_UGT | FCMP_UGE | FCMP_ULT | FCMP_ULE | FCMP_UNE | FCMP_UNO | FCMP_TRUE.
Definition fcmp (p : fpred) (a b : fpval) : Prop :=
  match p with
  | FCMP_FALSE => False
  | FCMP_OEQ => ~ unordered a b /\ equal a b
  | FCMP_OGT => ~ unordered a b /\ less b a
  | FCMP_OGE => ~ unordered a b /\ (less b a \/ equal a b)
  | FCMP_OLT => ~ unordered a b /\ less a b
  | FCMP_OLE => ~ unordered a b /\ (less a b \/ equal a b)
  | FCMP_ONE => ~ unordered a b /\ ~ equal a b
  | FCMP_ORD => ~ unordered a b
  | FCMP_UEQ => unordered a b \/ equal a b
  | FCMP_UGT => unordered a b \/ less b a
  | FCMP_UGE => unordered a b \/ less b a \/ equal a b
  | FCMP_ULT => unordered a b \/ less a b
  | FCMP_ULE => unordered a b \/ less a b \/ equal a b
  | FCMP_UNE => unordered a b \/ ~ equal a b
  | FCMP_UNO => unordered a b
  | FCMP_TRUE => True
  end.
