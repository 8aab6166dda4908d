(** Specification: arithmetic of IEEE 754 on the data of Spec/IEEE.v, and the functions
    of C's <math.h> on them.  Nothing here refers to SMACK. *)
From Coq Require Import ZArith List String Bool.
From Verif.Spec Require Import TraceValues IEEE.
Import ListNotations.
Open Scope Z_scope.

(** ** Formats and rounding *)
(** Exponents of [f_E] bits, significands of [f_p] bits. *)
Record format := Format { f_E : Z; f_p : Z }.
Definition format_ok (f : format) : Prop := 2 <= f_E f /\ 2 <= f_p f /\ f_p f < 2 ^ (f_E f - 1).
(** Exponent of the smallest positive number; all numbers are below 2 ^ [f_emax]. *)
Definition f_kmin (f : format) : Z := 3 - 2 ^ (f_E f - 1) - f_p f.
Definition f_emax (f : format) : Z := 2 ^ (f_E f - 1).
(** The data of a format. *)
Definition member (f : format) (x : fpval) : Prop :=
  match x with
  | NaN | Inf _ => True
  | Fin _ m k => 0 <= m < 2 ^ f_p f /\ f_kmin f <= k <= f_emax f - f_p f
  end.

Inductive rounding := RNE | RNA | RTP | RTN | RTZ.

(** The integer closest to [num] / [den] in the direction of the mode, for the
    magnitude of a number with sign [neg]. *)
Definition round_up (rm : rounding) (neg : bool) (s r den : Z) : bool :=
  match rm with
  | RNE => (den <? 2 * r) || ((den =? 2 * r) && Z.odd s)
  | RNA => den <=? 2 * r
  | RTP => negb neg && (0 <? r)
  | RTN => neg && (0 <? r)
  | RTZ => false
  end.
Definition round_int (rm : rounding) (neg : bool) (num den : Z) : Z :=
  let s := num / den in if round_up rm neg s (num mod den) den then s + 1 else s.

(** The exponent e with 2^e <= N/D < 2^(e+1). *)
Definition pos (z : Z) : Z := Z.max 0 z.
Definition flog (N D : Z) : Z :=
  let a := Z.log2 N - Z.log2 D in if N * 2 ^ pos (- a) <? D * 2 ^ pos a then a - 1 else a.
Definition overflow (f : format) (rm : rounding) (neg : bool) : fpval :=
  let away := match rm with RNE | RNA => true | RTP => negb neg | RTN => neg | RTZ => false end in
  if away then Inf neg else Fin neg (2 ^ f_p f - 1) (f_emax f - f_p f).
(** The number N/D > 0, with sign [neg], rounded to the format. *)
Definition round_to (f : format) (rm : rounding) (neg : bool) (N D : Z) : fpval :=
  let q := Z.max (f_kmin f) (flog N D - (f_p f - 1)) in
  let s := round_int rm neg (N * 2 ^ pos (- q)) (D * 2 ^ pos q) in
  if 2 ^ pos (f_emax f - q) <=? s then overflow f rm neg else Fin neg s q.

(** The number n * 2^j rounded; an exact zero gets the sign [zero]. *)
Definition round_dyadic (f : format) (rm : rounding) (zero : bool) (n j : Z) : fpval :=
  if n =? 0 then Fin zero 0 0 else round_to f rm (n <? 0) (Z.abs n * 2 ^ pos j) (2 ^ pos (- j)).

(** ** Operations *)
(** The number of a finite datum, in units of 2^j. *)
Definition units (j : Z) (s : bool) (m k : Z) : Z := signed_int s m * 2 ^ (k - j).
Definition fp_neg (x : fpval) : fpval := match x with NaN => NaN | Inf s => Inf (negb s) | Fin s m k => Fin (negb s) m k end.
Definition fp_abs (x : fpval) : fpval := match x with NaN => NaN | Inf _ => Inf false | Fin _ m k => Fin false m k end.
Definition fp_add (f : format) (rm : rounding) (x y : fpval) : fpval :=
  match x, y with
  | NaN, _ | _, NaN => NaN
  | Inf s, Inf s' => if Bool.eqb s s' then Inf s else NaN
  | Inf s, Fin _ _ _ => Inf s
  | Fin _ _ _, Inf s => Inf s
  | Fin s m k, Fin s' m' k' =>
      let j := Z.min k k' in
      let zero := if Bool.eqb s s' then s else match rm with RTN => true | _ => false end in
      round_dyadic f rm zero (units j s m k + units j s' m' k') j
  end.
Definition fp_sub (f : format) (rm : rounding) (x y : fpval) : fpval := fp_add f rm x (fp_neg y).
Definition fp_mul (f : format) (rm : rounding) (x y : fpval) : fpval :=
  match x, y with
  | NaN, _ | _, NaN => NaN
  | Inf s, Inf s' => Inf (xorb s s')
  | Inf s, Fin s' m _ | Fin s m _, Inf s' => if m =? 0 then NaN else Inf (xorb s s')
  | Fin s m k, Fin s' m' k' => round_dyadic f rm (xorb s s') (signed_int (xorb s s') (m * m')) (k + k')
  end.
Definition fp_div (f : format) (rm : rounding) (x y : fpval) : fpval :=
  match x, y with
  | NaN, _ | _, NaN => NaN
  | Inf _, Inf _ => NaN
  | Inf s, Fin s' _ _ => Inf (xorb s s')
  | Fin s _ _, Inf s' => Fin (xorb s s') 0 0
  | Fin s m k, Fin s' m' k' =>
      if m' =? 0 then (if m =? 0 then NaN else Inf (xorb s s'))
      else if m =? 0 then Fin (xorb s s') 0 0
      else round_to f rm (xorb s s') (m * 2 ^ pos (k - k')) (m' * 2 ^ pos (k' - k))
  end.
(** The integer nearest to the quotient, the even one of two. *)
Definition fp_remainder (x y : fpval) : fpval :=
  match x, y with
  | NaN, _ | _, NaN | Inf _, _ => NaN
  | Fin _ _ _, Inf _ => x
  | Fin s m k, Fin _ m' k' =>
      if m' =? 0 then NaN else
      let j := Z.min k k' in
      let a := m * 2 ^ (k - j) in let b := m' * 2 ^ (k' - j) in
      let r := a - b * round_int RNE s a b in
      Fin (if r =? 0 then s else xorb s (r <? 0)) (Z.abs r) j
  end.
Definition fp_round_integral (rm : rounding) (x : fpval) : fpval :=
  match x with
  | Fin s m k => if 0 <=? k then x else Fin s (round_int rm s m (2 ^ (- k))) 0
  | _ => x
  end.
(** To another format *)
Definition fp_convert (f : format) (rm : rounding) (x : fpval) : fpval :=
  match x with Fin s m k => round_dyadic f rm s (signed_int s m) k | _ => x end.
Definition fp_of_int (f : format) (rm : rounding) (n : Z) : fpval := round_dyadic f rm false n 0.
(** The integer for a finite datum. *)
Definition fp_to_int (rm : rounding) (x : fpval) : option Z :=
  match fp_round_integral rm x with Fin s m k => Some (signed_int s (m * 2 ^ k)) | _ => None end.

(** ** Classes *)
Definition sign (x : fpval) : bool := match x with NaN => false | Inf s | Fin s _ _ => s end.
Definition is_zero (x : fpval) : bool := match x with Fin _ m _ => m =? 0 | _ => false end.
Definition is_inf (x : fpval) : bool := match x with Inf _ => true | _ => false end.
Definition is_nan (x : fpval) : bool := match x with NaN => true | _ => false end.
(** Below the smallest number with a full significand *)
Definition is_subnormal (f : format) (x : fpval) : bool :=
  match x with Fin _ m k => (0 <? m) && (m * 2 ^ (k - f_kmin f) <? 2 ^ (f_p f - 1)) | _ => false end.
Definition is_normal (f : format) (x : fpval) : bool := negb (is_nan x || is_inf x || is_zero x || is_subnormal f x).
