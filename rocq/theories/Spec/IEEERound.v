(** Specification: correct rounding (IEEE 754-2008, clause 4.3) and the operations that
    round (clause 5.4), by comparison with all numbers of the format; and what LLVM's
    instructions mean.  Nothing here refers to SMACK, and nothing computes a result. *)
From Coq Require Import ZArith List Bool.
From Verif.Spec Require Import TraceValues IEEE FloatArith CMath.
Open Scope Z_scope.

(** Numbers of the format, with exponents unbounded above: m * 2^k *)
Definition grid (f : format) (m k : Z) : Prop := 0 <= m < 2 ^ f_p f /\ f_kmin f <= k.
(** N/D <= m * 2^k, m * 2^k <= N/D, m * 2^k <= m' * 2^k', and distances from N/D, compared in
    units of any small enough 2^l / D. *)
Definition at_or_above (N D m k : Z) : Prop := forall l, l <= k -> l <= 0 -> N * 2 ^ (- l) <= m * 2 ^ (k - l) * D.
Definition at_or_below (N D m k : Z) : Prop := forall l, l <= k -> l <= 0 -> m * 2 ^ (k - l) * D <= N * 2 ^ (- l).
Definition num_le (m k m' k' : Z) : Prop := forall l, l <= k -> l <= k' -> m * 2 ^ (k - l) <= m' * 2 ^ (k' - l).
Definition as_close (N D m k m' k' : Z) : Prop :=
  forall l, l <= k -> l <= k' -> l <= 0 -> Z.abs (N * 2 ^ (- l) - m * 2 ^ (k - l) * D) <= Z.abs (N * 2 ^ (- l) - m' * 2 ^ (k' - l) * D).
(** The least number not below, the greatest not above *)
Definition least_above (f : format) (N D m k : Z) : Prop := at_or_above N D m k /\ forall m' k', grid f m' k' -> at_or_above N D m' k' -> num_le m k m' k'.
Definition greatest_below (f : format) (N D m k : Z) : Prop := at_or_below N D m k /\ forall m' k', grid f m' k' -> at_or_below N D m' k' -> num_le m' k' m k.
(** None is closer, and if another one is as close, [tie]. *)
Definition nearest (f : format) (N D m k : Z) (tie : Prop) : Prop :=
  (forall m' k', grid f m' k' -> as_close N D m k m' k') /\
  ((exists m' k', grid f m' k' /\ as_close N D m' k' m k /\ ~ same_number (m, k) (m', k')) -> tie).
(** The significand, of full size unless the exponent is the least, is even. *)
Definition even_significand (f : format) (m k : Z) : Prop := (2 ^ (f_p f - 1) <= m \/ k = f_kmin f) /\ Z.even m = true.
(** The magnitude N/D of a number with sign [neg], rounded with unbounded exponents *)
Definition rounded (f : format) (rm : rounding) (neg : bool) (N D m k : Z) : Prop :=
  grid f m k /\
  match rm with
  | RNE => nearest f N D m k (even_significand f m k)
  | RNA => nearest f N D m k (at_or_above N D m k)
  | RTP => if neg then greatest_below f N D m k else least_above f N D m k
  | RTN => if neg then least_above f N D m k else greatest_below f N D m k
  | RTZ => greatest_below f N D m k
  end.
(** If that is too large: infinity or the largest number. *)
Definition correctly_rounded (f : format) (rm : rounding) (neg : bool) (N D : Z) (r : fpval) : Prop :=
  exists m k, rounded f rm neg N D m k /\
    (~ num_le 1 (f_emax f) m k -> same_datum r (Fin neg m k)) /\
    (num_le 1 (f_emax f) m k ->
       match rm with
       | RNE | RNA => r = Inf neg
       | RTP => r = if neg then Fin neg (2 ^ f_p f - 1) (f_emax f - f_p f) else Inf neg
       | RTN => r = if neg then Inf neg else Fin neg (2 ^ f_p f - 1) (f_emax f - f_p f)
       | RTZ => r = Fin neg (2 ^ f_p f - 1) (f_emax f - f_p f)
       end).
(** n * 2^j rounded; an exact zero has the sign [zero]. *)
Definition rounds (f : format) (rm : rounding) (zero : bool) (n j : Z) (r : fpval) : Prop :=
  if n =? 0 then same_datum r (Fin zero 0 0)
  else correctly_rounded f rm (n <? 0) (Z.abs n * 2 ^ Z.max 0 j) (2 ^ Z.max 0 (- j)) r.

(** ** Operations *)
(** The sign of a sum that is zero *)
Definition zero_sign (rm : rounding) (s s' : bool) : bool := match s, s' with true, true => true | false, false => false | _, _ => match rm with RTN => true | _ => false end end.
Definition is_sum (f : format) (rm : rounding) (x y r : fpval) : Prop :=
  match x, y with
  | NaN, _ | _, NaN => r = NaN
  | Inf s, Inf s' => r = if Bool.eqb s s' then Inf s else NaN
  | Inf s, Fin _ _ _ | Fin _ _ _, Inf s => r = Inf s
  | Fin s m k, Fin s' m' k' => let j := Z.min k k' in rounds f rm (zero_sign rm s s') (units j s m k + units j s' m' k') j r
  end.
Definition is_difference (f : format) (rm : rounding) (x y r : fpval) : Prop := is_sum f rm x (fp_neg y) r.
Definition is_product (f : format) (rm : rounding) (x y r : fpval) : Prop :=
  match x, y with
  | NaN, _ | _, NaN => r = NaN
  | Inf s, Inf s' => r = Inf (xorb s s')
  | Inf s, Fin s' m _ | Fin s m _, Inf s' => r = if m =? 0 then NaN else Inf (xorb s s')
  | Fin s m k, Fin s' m' k' => rounds f rm (xorb s s') (signed_int (xorb s s') (m * m')) (k + k') r
  end.
Definition is_quotient (f : format) (rm : rounding) (x y r : fpval) : Prop :=
  match x, y with
  | NaN, _ | _, NaN | Inf _, Inf _ => r = NaN
  | Inf s, Fin s' _ _ => r = Inf (xorb s s')
  | Fin s _ _, Inf s' => same_datum r (Fin (xorb s s') 0 0)
  | Fin s m k, Fin s' m' k' =>
      if m' =? 0 then r = (if m =? 0 then NaN else Inf (xorb s s'))
      else if m =? 0 then same_datum r (Fin (xorb s s') 0 0)
      else correctly_rounded f rm (xorb s s') (m * 2 ^ Z.max 0 (k - k')) (m' * 2 ^ Z.max 0 (k' - k)) r
  end.
(** To another format; an integer to a format *)
Definition is_conversion (f : format) (rm : rounding) (x r : fpval) : Prop :=
  match x with Fin s m k => rounds f rm s (signed_int s m) k r | _ => r = x end.
Definition is_of_int (f : format) (rm : rounding) (n : Z) (r : fpval) : Prop := rounds f rm false n 0 r.
