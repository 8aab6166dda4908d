(** Command lines as text. *)
From Coq Require Import List String Ascii Bool Arith.
Import ListNotations.
Open Scope string_scope.

(** Letters, digits and _ make up words. *)
Definition word_char (c : ascii) : bool :=
  let n := nat_of_ascii c in
  ((48 <=? n) && (n <=? 57) || (65 <=? n) && (n <=? 90) || (97 <=? n) && (n <=? 122) || (n =? 95))%nat.
(** No word goes on in [s]. *)
Definition word_ends (s : string) : Prop := match s with EmptyString => True | String c _ => word_char c = false end.
(** -O1 to -O9 is in [s]. *)
Definition optimizes (s : string) : Prop :=
  exists a d b, s = (a ++ "-O" ++ String d b)%string /\ (49 <= nat_of_ascii d <= 57)%nat /\ word_ends b.
Definition no_blank (s : string) : Prop := forall a b, s <> (a ++ " " ++ b)%string.
(** [a] has no -o before its end. *)
Definition no_output (a : string) : Prop := forall x y, a = (x ++ y)%string -> y <> "" -> forall z, (y ++ "-o ")%string <> ("-o " ++ z)%string.
(** An argument ends here. *)
Definition arg_ends (s : string) : Prop := match s with EmptyString => True | String c _ => c = " "%char end.
(** A compilation database: how files are compiled, where, and which are linked. *)
Inductive entry := Compile (command directory : string) | Link (objects : list string).
