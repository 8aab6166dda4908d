(** Specification for C56: the cost of a run of Boogie code, the sum of its
    {:smack.InstTimingCost.Int64 n} annotations. *)
From Coq Require Import ZArith List String.
From Verif.Spec Require Import BoogieSyntax.
Import ListNotations.
Open Scope string_scope.
Open Scope list_scope.
Open Scope Z_scope.

Definition sum (l : list Z) : Z := fold_right Z.add 0 l.
Definition attr_cost (a : attr) : Z :=
  if String.eqb (at_name a) "smack.InstTimingCost.Int64" then match at_vals a with [AExpr (Num n)] => n | _ => 0 end else 0.
Definition stmt_attrs (s : stmt) : list attr :=
  match s with Assert a _ | Assume a _ | Call a _ _ _ => a | _ => [] end.
Definition run_cost (l : list stmt) : Z := sum (map attr_cost (flat_map stmt_attrs l)).
(** Code without such annotations *)
Definition uncosted (l : list stmt) : Prop :=
  forall s a, In s l -> In a (stmt_attrs s) -> at_name a <> "smack.InstTimingCost.Int64".
