(** Specification: the functions of <math.h> and <fenv.h> on the data of Spec/IEEE.v
    (C11 7.6, 7.12, Annex F).  Nothing here refers to SMACK. *)
From Coq Require Import ZArith List Bool.
From Verif.Spec Require Import TraceValues IEEE FloatArith.
Open Scope Z_scope.

Definition at_most (a b : fpval) : Prop := less a b \/ equal a b.
Definition int_datum (n : Z) : fpval := Fin (n <? 0) (Z.abs n) 0.
(** n / 2 *)
Definition half_datum (n : Z) : fpval := Fin (n <? 0) (Z.abs n) (-1).
Definition finite (x : fpval) : Prop := exists s m k, x = Fin s m k.

(** ** Integers *)
Definition is_floor (x : fpval) (n : Z) : Prop := at_most (int_datum n) x /\ less x (int_datum (n + 1)).
Definition is_ceil (x : fpval) (n : Z) : Prop := less (int_datum (n - 1)) x /\ at_most x (int_datum n).
Definition is_trunc (x : fpval) (n : Z) : Prop := if sign x then is_ceil x n else is_floor x n.
Definition is_nearest (x : fpval) (n : Z) : Prop := at_most (half_datum (2 * n - 1)) x /\ at_most x (half_datum (2 * n + 1)).
(** Halfway cases away from zero *)
Definition is_round (x : fpval) (n : Z) : Prop :=
  is_nearest x n /\ (equal x (half_datum (2 * n - 1)) -> sign x = false) /\ (equal x (half_datum (2 * n + 1)) -> sign x = true).
Definition is_round_even (x : fpval) (n : Z) : Prop :=
  is_nearest x n /\ (equal x (half_datum (2 * n - 1)) \/ equal x (half_datum (2 * n + 1)) -> Z.even n = true).
Definition is_rint (rm : rounding) (x : fpval) (n : Z) : Prop :=
  match rm with RNE => is_round_even x n | RNA => is_round x n | RTP => is_ceil x n | RTN => is_floor x n | RTZ => is_trunc x n end.
(** The result is that integer, with the sign of [x]; NaN and infinities stay. *)
Definition to_integral (is : fpval -> Z -> Prop) (x r : fpval) : Prop :=
  match x with
  | Fin s _ _ => exists n, is x n /\ finite r /\ equal r (int_datum n) /\ sign r = s
  | _ => r = x
  end.

(** ** Remainders *)
(** x = n * y + r, for finite data *)
Definition combination (x y r : fpval) (n : Z) : Prop :=
  match x, y, r with
  | Fin s m k, Fin s' m' k', Fin s'' m'' k'' =>
      forall j, j <= k -> j <= k' -> j <= k'' -> units j s m k = n * units j s' m' k' + units j s'' m'' k''
  | _, _, _ => False
  end.
Definition is_fmod (x y r : fpval) : Prop :=
  match x, y with
  | NaN, _ | _, NaN | Inf _, _ => r = NaN
  | Fin _ _ _, Inf _ => same_datum r x
  | Fin s _ _, Fin _ m' _ =>
      if m' =? 0 then r = NaN
      else finite r /\ sign r = s /\ less (fp_abs r) (fp_abs y) /\ exists n, combination x y r n
  end.
(** The quotient rounded to the nearest integer, halfway cases to the even one: |r| is
    at most half of |y|. *)
Definition is_remainder (x y r : fpval) : Prop :=
  match x, y with
  | NaN, _ | _, NaN | Inf _, _ => r = NaN
  | Fin _ _ _, Inf _ => same_datum r x
  | Fin s _ _, Fin _ m' k' =>
      if m' =? 0 then r = NaN
      else finite r /\ at_most (fp_abs r) (Fin false m' (k' - 1)) /\ (is_zero r = true -> sign r = s) /\
           exists n, combination x y r n /\ (equal (fp_abs r) (Fin false m' (k' - 1)) -> Z.even n = true)
  end.
(** Integral part [i] and fractional part [r], both with the sign of [x]. *)
Definition is_modf (x i r : fpval) : Prop :=
  match x with
  | NaN => i = NaN /\ r = NaN
  | Inf s => i = Inf s /\ same_datum r (Fin s 0 0)
  | Fin s _ _ => to_integral is_trunc x i /\ finite r /\ sign r = s /\ combination x i r 1
  end.

(** ** Others *)
Definition is_fmin (x y r : fpval) : Prop :=
  match x, y with
  | NaN, _ => r = y
  | _, NaN => r = x
  | _, _ => (same_datum r x \/ same_datum r y) /\ at_most r x /\ at_most r y
  end.
Definition is_fmax (x y r : fpval) : Prop :=
  match x, y with
  | NaN, _ => r = y
  | _, NaN => r = x
  | _, _ => (same_datum r x \/ same_datum r y) /\ at_most x r /\ at_most y r
  end.
(** The positive difference, rounded. *)
Definition is_fdim (f : format) (rm : rounding) (x y r : fpval) : Prop :=
  (unordered x y -> r = NaN) /\ (less y x -> r = fp_sub f rm x y) /\ (at_most x y -> same_datum r (Fin false 0 0)).
Definition is_copysign (x y r : fpval) : Prop := same_datum (fp_abs r) (fp_abs x) /\ (x <> NaN -> y <> NaN -> sign r = sign y).
(** The classes, as numbered by FP_NAN, FP_INFINITE, FP_ZERO, FP_SUBNORMAL, FP_NORMAL *)
Definition is_class (f : format) (x : fpval) (c : Z) : Prop :=
  match x with
  | NaN => c = 0
  | Inf _ => c = 1
  | Fin _ m k => (m = 0 /\ c = 2) \/ (0 < m * 2 ^ (k - f_kmin f) < 2 ^ (f_p f - 1) /\ c = 3) \/ (2 ^ (f_p f - 1) <= m * 2 ^ (k - f_kmin f) /\ c = 4)
  end.
(** FE_TONEAREST, FE_DOWNWARD, FE_UPWARD, FE_TOWARDZERO *)
Definition fe_mode (v : Z) : option rounding :=
  if v =? 0 then Some RNE else if v =? 1024 then Some RTN else if v =? 2048 then Some RTP else if v =? 3072 then Some RTZ else None.
