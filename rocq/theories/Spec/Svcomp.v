(** Specification: runs for the competition on software verification.  Nothing here refers
    to SMACK's code. *)
From Coq Require Import ZArith List String Ascii Bool.
From Verif.Spec Require Import Regex TraceValues.
Open Scope string_scope.

(** Corral's output has phases; in the last one it says which recursion bounds it has
    exhausted. *)
Definition phase : string := "Verifying program while tracking".
Definition reached (out : string) (k : Z) : Prop :=
  exists before last n, out = before ++ phase ++ last /\ ~ occurs phase last /\
    positive_numeral n /\ occurs ("Exhausted recursion bound of " ++ n) last /\ numeral 10 n = k.

(** [inserted what before s t]: [t] is [s] with [before] put before every [what]. *)
Inductive inserted (what before : string) : string -> string -> Prop :=
| ins_none : forall s, ~ occurs what s -> inserted what before s s
| ins_one : forall p s t, ~ occurs what p -> inserted what before s t -> inserted what before (p ++ what ++ s) (p ++ before ++ what ++ t).
