(** Specification: regular expressions and the strings they denote.  Nothing here
    refers to SMACK. *)
From Coq Require Import List String Ascii Bool.
Import ListNotations.
Open Scope string_scope.

(** [Grp] marks a group whose text is remembered. *)
Inductive re :=
| Chr (p : ascii -> bool) | Eps | Cat (a b : re) | Alt (a b : re) | Star (a : re) | Grp (n : nat) (a : re).

Inductive lang : re -> string -> Prop :=
| l_chr : forall p c, p c = true -> lang (Chr p) (String c "")
| l_eps : lang Eps ""
| l_cat : forall a b x y, lang a x -> lang b y -> lang (Cat a b) (x ++ y)
| l_alt1 : forall a b x, lang a x -> lang (Alt a b) x
| l_alt2 : forall a b x, lang b x -> lang (Alt a b) x
| l_star0 : forall a, lang (Star a) ""
| l_star1 : forall a x y, lang a x -> lang (Star a) y -> lang (Star a) (x ++ y)
| l_grp : forall n a x, lang a x -> lang (Grp n a) x.

(** Some part of the text is in the language. *)
Definition found (r : re) (s : string) : Prop := exists a x b, s = a ++ x ++ b /\ lang r x.

(** The word [p] occurs in the text. *)
Definition occurs (p s : string) : Prop := exists a b, s = a ++ p ++ b.

(** Usual abbreviations *)
Definition is (c : ascii) : re := Chr (Ascii.eqb c).
Fixpoint word (s : string) : re := match s with EmptyString => Eps | String c s' => Cat (is c) (word s') end.
Definition Plus (a : re) : re := Cat a (Star a).
Definition Opt (a : re) : re := Alt a Eps.
Definition between (a b c : ascii) : bool := Nat.leb (nat_of_ascii a) (nat_of_ascii c) && Nat.leb (nat_of_ascii c) (nat_of_ascii b).
Definition digit : ascii -> bool := between "0" "9".
Definition newline : ascii := "010".
Definition any : re := Chr (fun c => negb (Ascii.eqb c newline)).

(** Decimal numerals: of any number, and of a positive number (starting with one of
    1 … 9). *)
Fixpoint digits (s : string) : Prop := match s with EmptyString => True | String c s' => digit c = true /\ digits s' end.
Definition positive_numeral (s : string) : Prop := exists c s', s = String c s' /\ between "1" "9" c = true /\ digits s'.
