(** share/smack/frontend.py: cargo_frontend, the choice of the bitcode files. *)
From Coq Require Import List String Ascii Bool.
From Verif.Spec Require Import Cargo.
Import ListNotations.
Open Scope string_scope.

(** str.replace('-', '_') – frontend.py:332 *)
Fixpoint replace_dash (s : string) : string :=
  match s with EmptyString => EmptyString | String c s' => String (if Ascii.eqb c "-" then "_"%char else c) (replace_dash s') end.
(** find_target – :325-332, always called without options – :346. *)
Definition find_target (m : manifest) : string := replace_dash (match library m with Some n => n | None => package m end).
(** str.startswith, str.endswith *)
Fixpoint startswith (s p : string) : bool :=
  match p, s with
  | EmptyString, _ => true
  | String a p', String b s' => Ascii.eqb a b && startswith s' p'
  | _, EmptyString => false
  end.
Fixpoint endswith (s p : string) : bool :=
  (String.eqb s p || match s with EmptyString => false | String _ s' => endswith s' p end)%bool.
(** The files of the directory that are linked – :348-355. *)
Definition linked_files (m : manifest) (entries : list string) : list string :=
  filter (fun e => startswith e (find_target m ++ "-") && endswith e ".bc") entries.
