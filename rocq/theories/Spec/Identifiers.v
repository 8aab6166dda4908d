(** Identifiers of Boogie, identifiers of C, and when two source names clash. *)
From Coq Require Import List Bool String Ascii NArith.
Import ListNotations.
Open Scope string_scope.
Open Scope list_scope.

Definition code (c : ascii) : N := N_of_ascii c.
Definition digit (c : ascii) : bool := ((48 <=? code c) && (code c <=? 57))%N.
Definition letter (c : ascii) : bool := ((65 <=? code c) && (code c <=? 90) || (97 <=? code c) && (code c <=? 122))%N.
(** Boogie: letters, digits (not first) and ' ~ # $ ^ _ . ? ` \ *)
Definition special (c : ascii) : bool := existsb (Ascii.eqb c) ["'"; "~"; "#"; "$"; "^"; "_"; "."; "?"; "`"; "\"]%char.
Definition nondigit (c : ascii) : bool := letter c || special c.
Fixpoint all (P : ascii -> bool) (s : string) : bool := match s with EmptyString => true | String c s' => P c && all P s' end.
Definition keywords : list string :=
  ["bool"; "int"; "real"; "false"; "true"; "old"; "forall"; "exists"; "requires"; "modifies"; "ensures"; "invariant"; "free"; "unique"; "finite"; "complete";
   "type"; "const"; "function"; "axiom"; "var"; "procedure"; "implementation"; "where"; "returns"; "assume"; "assert"; "havoc"; "call"; "return"; "while";
   "break"; "goto"; "if"; "then"; "else"; "div"; "mod"; "yield"; "par"; "async"; "lambda"].
(** A legal identifier that is not reserved. *)
Definition identifier (s : string) : Prop :=
  match s with EmptyString => False | String c s' => nondigit c = true /\ all (fun c => nondigit c || digit c) s' = true end /\ ~ In s keywords.

(** Identifiers of C. *)
Definition c_char (c : ascii) : bool := letter c || digit c || Ascii.eqb c "_"%char.
Definition c_name (s : string) : Prop := all c_char s = true.

(** The characters SMACK turns into '_'. *)
Definition blank (c : ascii) : bool :=
  existsb (Ascii.eqb c) [Ascii.ascii_of_N 1; "\"; ":"; " "; "("; ")"; "["; "]"; "{"; "}"; "<"; ">"; "|"; """"; "-"; ";"]%char.
Definition under (c : ascii) : bool := blank c || Ascii.eqb c "_"%char.
Definition dot (c : ascii) : bool := Ascii.eqb c "@"%char || Ascii.eqb c "."%char.
Definition same (a b : ascii) : Prop := a = b \/ under a = true /\ under b = true \/ dot a = true /\ dot b = true.
Definition alike (s t : string) : Prop := Forall2 same (list_ascii_of_string s) (list_ascii_of_string t).
(** [s] is reserved and [t] is [s] with one more character that becomes '_'. *)
Definition reserved_clash (s t : string) : Prop := In s keywords /\ exists c, under c = true /\ t = (s ++ String c "")%string.
Definition clash (s t : string) : Prop := alike s t \/ reserved_clash s t \/ reserved_clash t s.

(** Names the translator invents: '$', letters, a number. *)
Definition invented (s : string) : Prop := exists p d, In p ["$g"; "$bb"; "$u"; "$f"; "$i"; "$v"; "$p"] /\ s = (p ++ d)%string /\ d <> ""%string /\ all digit d = true.
