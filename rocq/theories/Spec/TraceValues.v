(** Specification: constants as the verifier prints them in traces, the numbers they
    denote, and merging of trace steps.  Nothing here refers to SMACK. *)
From Coq Require Import ZArith List String Ascii Bool.
From Verif.Spec Require Import Regex.
Import ListNotations.
Open Scope string_scope.
Open Scope Z_scope.

(** Numerals *)
Definition hexdigit (c : ascii) : bool := digit c || between "a" "f" c || between "A" "F" c.
Definition digit_value (c : ascii) : Z :=
  let n := Z.of_nat (nat_of_ascii c) in
  if digit c then n - 48 else if between "a" "f" c then n - 87 else n - 55.
Fixpoint numeral_from (base acc : Z) (s : string) : Z :=
  match s with EmptyString => acc | String c s' => numeral_from base (acc * base + digit_value c) s' end.
Definition numeral (base : Z) (s : string) : Z := numeral_from base 0 s.
Fixpoint all (p : ascii -> bool) (s : string) : Prop := match s with EmptyString => True | String c s' => p c = true /\ all p s' end.

(** The constants: a bit-vector, 5bv32; a floating-point number, sign, hexadecimal
    significand, exponent of 16, sizes of significand and exponent: -0x1.8e-3f53e11. *)
Inductive constant :=
| Bv (value width : string)
| Fp (neg : bool) (int frac : string) (eneg : bool) (exp sigsize expsize : string).
Definition minus (b : bool) : string := if b then "-" else "".
Definition printed (c : constant) : string :=
  match c with
  | Bv v w => v ++ "bv" ++ w
  | Fp n i f en e ss es => minus n ++ "0x" ++ i ++ "." ++ f ++ "e" ++ minus en ++ e ++ "f" ++ ss ++ "e" ++ es
  end.
Definition is_numeral (p : ascii -> bool) (s : string) : Prop := s <> "" /\ all p s.
Definition constant_ok (c : constant) : Prop :=
  match c with
  | Bv v w => is_numeral digit v /\ is_numeral digit w
  | Fp n i f en e ss es => is_numeral hexdigit i /\ is_numeral hexdigit f /\ is_numeral digit e /\ is_numeral digit ss /\ is_numeral digit es
  end.

(** Dyadic numbers (m, k), for m * 2^k. *)
Definition same_number (a b : Z * Z) : Prop :=
  let '(m, k) := a in let '(m', k') := b in m * 2 ^ (k - Z.min k k') = m' * 2 ^ (k' - Z.min k k').
(** The magnitude a floating-point constant denotes. *)
Definition exponent (eneg : bool) (e : string) : Z := if eneg then - numeral 10 e else numeral 10 e.
Definition fp_magnitude (i f : string) (eneg : bool) (e : string) : Z * Z :=
  (numeral 16 (i ++ f), 4 * (exponent eneg e - Z.of_nat (String.length f))).
(** IEEE 754 binary64: the finite magnitudes. *)
Definition binary64 (a : Z * Z) : Prop := exists m k, 0 <= m < 2 ^ 53 /\ -1074 <= k <= 971 /\ same_number a (m, k).

(** Text that has constants in it.  Between constants there is other text without "bv"
    and "0x"; it is set off from the constants by characters that are not letters,
    digits or signs. *)
Definition apart (c : ascii) : bool := negb (digit c || between "a" "z" c || between "A" "Z" c || Ascii.eqb c "-").
Definition starts_apart (s : string) : Prop := match s with EmptyString => True | String c _ => apart c = true end.
Definition ends_apart (s : string) : Prop := s = "" \/ exists s' c, s = s' ++ String c "" /\ apart c = true.
Definition plain (s : string) : Prop := ~ occurs "bv" s /\ ~ occurs "0x" s.
Fixpoint interleave (l : list (string * string)) (tail : string) : string :=
  match l with [] => tail | (s, x) :: l' => s ++ x ++ interleave l' tail end.
Definition text_of (l : list (string * constant)) (tail : string) : string :=
  interleave (map (fun sc => (fst sc, printed (snd sc))) l) tail.
Fixpoint text_rest (l : list (string * constant)) (tail : string) : Prop :=
  match l with
  | [] => plain tail /\ starts_apart tail
  | (s, c) :: l' => plain s /\ s <> "" /\ starts_apart s /\ ends_apart s /\ constant_ok c /\ text_rest l' tail
  end.
Definition text_ok (l : list (string * constant)) (tail : string) : Prop :=
  match l with
  | [] => plain tail
  | (s, c) :: l' => plain s /\ ends_apart s /\ constant_ok c /\ text_rest l' tail
  end.

(** White space around a text *)
Definition space (c : ascii) : bool := Ascii.eqb c " " || between "009" "013" c || between "028" "031" c.
Definition trimmed (s : string) : Prop :=
  (forall c s', s = String c s' -> space c = false) /\ (forall s' c, s = s' ++ String c "" -> space c = false).
Definition padded (s p : string) : Prop := exists a b, p = a ++ s ++ b /\ all space a /\ all space b.

(** Steps of a trace: where, and what is said. *)
Record entry := Entry { e_file : string; e_line : string; e_column : string; e_thread : string; e_description : string; e_assumption : string }.
Definition same_place (a b : entry) : Prop := e_file a = e_file b /\ e_line a = e_line b /\ e_column a = e_column b.
Fixpoint join (sep : string) (l : list string) : string :=
  match l with [] => "" | [x] => x | x :: l' => x ++ sep ++ join sep l' end.
Definition says (l : list entry) : list string := filter (fun s => negb (String.eqb s "")) (map e_description l).
(** One entry [o] for the entries [l] of one place. *)
Definition stands_for (l : list entry) (o : entry) : Prop :=
  exists first others, l = first :: others /\ Forall (same_place first) others /\ same_place first o /\
    e_description o = join ", " (says l).
(** Adjacent entries of the result are at different places. *)
Fixpoint places_change (l : list entry) : Prop :=
  match l with a :: ((b :: _) as l') => ~ same_place a b /\ places_change l' | _ => True end.
Definition merged (input output : list entry) : Prop :=
  exists groups, List.concat groups = input /\ Forall2 stands_for groups output /\ places_change output.

(** Notes of a step that say nothing about the user's program: calls of and returns from
    functions whose names begin with $ or __SMACK, and the words Done and ASSERTION. *)
Definition internal_note (s : string) : Prop :=
  occurs "Done" s \/ occurs "ASSERTION" s \/
  exists what gap name, (what = "CALL" \/ what = "RETURN from") /\ gap <> "" /\ all space gap /\ (name = "$" \/ name = "__SMACK") /\ occurs (what ++ gap ++ name) s.
Inductive without_internal : list string -> list string -> Prop :=
| wi_nil : without_internal [] []
| wi_skip : forall n l k, internal_note n -> without_internal l k -> without_internal (n :: l) k
| wi_keep : forall n l k, ~ internal_note n -> without_internal l k -> without_internal (n :: l) (n :: k).
