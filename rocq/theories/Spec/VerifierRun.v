(** Command lines of verifiers. *)
From Coq Require Import List String Ascii Bool.
Import ListNotations.
Open Scope string_scope.
Open Scope list_scope.

(** An option like /k:3 is on the command line with the text [v], and with no other. *)
Definition sets (c : list string) (option v : string) : Prop :=
  In (option ++ v)%string c /\ forall u, In (option ++ u)%string c -> u = v.
Definition unset (c : list string) (option : string) : Prop := forall u, ~ In (option ++ u)%string c.
