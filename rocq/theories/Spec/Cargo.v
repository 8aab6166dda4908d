(** Crates and the bitcode files rustc writes for them. *)
From Coq Require Import List String Ascii Bool.
Import ListNotations.
Open Scope string_scope.

(** A manifest: the name of the package, that of its library if there is one with a name, and those of its binaries. *)
Record manifest := Manifest { package : string; library : option string; binaries : list string }.
(** The name of a crate is that of its target, with _ for -. *)
Fixpoint crate_name (s : string) : string :=
  match s with EmptyString => EmptyString | String c s' => String (if Ascii.eqb c "-" then "_"%char else c) (crate_name s') end.
Definition no_dash (s : string) : Prop := forall a b, s <> (a ++ "-" ++ b)%string.
(** [f] is the bitcode of this crate: its name, -, a hash (and for parts of a crate a suffix), and .bc *)
Definition bitcode_of (crate f : string) : Prop := no_dash crate /\ exists hash, f = (crate ++ "-" ++ hash ++ ".bc")%string.
