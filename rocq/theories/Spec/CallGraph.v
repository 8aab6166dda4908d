(** Specification: a module as functions and global variables that refer to each
    other.  Nothing here refers to SMACK. *)
From Coq Require Import List String Bool.
Import ListNotations.
Open Scope string_scope.
Open Scope list_scope.

(** How a body or initializer refers to a function: as an operand, inside a constant
    expression (a cast of it, say), or only to the address of one of its blocks. *)
Inductive ref := Direct (f : string) | InConstant (f : string) | BlockOf (f : string).
Definition ref_name (r : ref) : string := match r with Direct f => f | InConstant f => f | BlockOf f => f end.

(** A function: its name, whether its linkage lets it be dropped when unused (local,
    link-once, available externally), what it refers to, and its code. *)
Record func := Func { f_name : string; f_droppable : bool; f_refs : list ref; f_code : nat }.

(** A module: functions and the references of global initializers. *)
Record module := Mod { funcs : list func; globals : list ref }.

(** [r] refers to the function named [f], so that it may be called. *)
Definition names (f : string) (r : ref) : Prop := r = Direct f \/ r = InConstant f.

(** The function [f] may be executed when those satisfying [root] may be. *)
Inductive reachable (M : module) (root : string -> Prop) : string -> Prop :=
| reach_root : forall f, In f (map f_name (funcs M)) -> root f -> reachable M root f
| reach_global : forall f r, In r (globals M) -> names f r -> reachable M root f
| reach_ref : forall g f r, In g (funcs M) -> reachable M root (f_name g) -> In r (f_refs g) -> names f r -> reachable M root f.

(** [a] occurs in [b]. *)
Definition occurs (a b : string) : Prop := exists x y : string, (b = x ++ a ++ y)%string.
