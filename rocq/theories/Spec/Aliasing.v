(** Specification: when two pointer operands may refer to common bytes according
    to a points-to graph. *)
From Coq Require Import ZArith List Bool.
From Verif.Model Require Import Regions.
Import ListNotations.
Open Scope Z_scope.

Section Aliasing.
  Context (dsa : nat -> node_info).

  (** Facts about the object an operand refers to.  An operand without a node
      may refer to anything. *)
  Definition is_incomplete (a : access) : Prop :=
    match ac_node a with Some k => nd_incomplete (dsa k) = true | None => True end.
  Definition is_complicated (a : access) : Prop :=
    match ac_node a with
    | Some k => nd_inttoptr (dsa k) = true \/ nd_ptrtoint (dsa k) = true \/
                nd_external (dsa k) = true \/ nd_unknown (dsa k) = true
    | None => True end.

  (** Two operands may alias: both refer to incompletely known objects, or both
      to objects whose address escapes the analysis, or to the same object and
      either its fields are not distinguished or they have a byte in common. *)
  Definition may_alias (a b : access) : Prop :=
    (is_incomplete a /\ is_incomplete b) \/ (is_complicated a /\ is_complicated b) \/
    (ac_node a = ac_node b /\
     ((exists k, ac_node a = Some k /\ nd_collapsed (dsa k) = true) \/
      exists o, ac_off a <= o < ac_off a + ac_len a /\ ac_off b <= o < ac_off b + ac_len b)).
End Aliasing.
