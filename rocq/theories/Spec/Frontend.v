(** What compilers, linkers and SMACK's tools make of files. *)
From Coq Require Import List String Ascii Bool Permutation.
Import ListNotations.
Open Scope string_scope.
Open Scope list_scope.

(** What a file holds, by how it came about: something given, a new empty file, the result of
    a compiler with its options, bitcode with its entry points made visible, bitcode linked
    together, a Boogie program translated from bitcode with the options of the translator. *)
Inductive content :=
| Given (file : string)
| Empty
| Compiled (compiler : string) (options : list string) (c : content)
| Visible (entry_points : list string) (c : content)
| Linked (l : list content)
| Boogie (options : list string) (c : content).

Fixpoint absent (c : ascii) (s : string) : Prop := match s with "" => True | String x r => x <> c /\ absent c r end.
(** The file name ends in . and [e]: an optional directory, a name not only of dots. *)
Definition extension (file e : string) : Prop := exists d b,
  file = (d ++ b ++ "." ++ e)%string /\ (d = "" \/ exists d', d = (d' ++ "/")%string) /\
  absent "/" b /\ absent "/" e /\ absent "." e /\ (exists u x v, b = (u ++ String x v)%string /\ x <> "."%char).
(** The languages by file extension. *)
Definition language_of (e l : string) : Prop :=
  (l = "c" /\ In e ["c"; "i"]) \/ (l = "cxx" /\ In e ["cc"; "cpp"]) \/ (l = "objc" /\ e = "m") \/ (l = "d" /\ e = "d") \/
  (l = "llvm" /\ In e ["bc"; "ll"]) \/ (l = "rust" /\ e = "rs").
