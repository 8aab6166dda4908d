(** Specification: functions, their addresses, and calls through a pointer.  Nothing
    here refers to SMACK. *)
From Coq Require Import ZArith List Bool String.
Import ListNotations.
Open Scope string_scope.
Open Scope list_scope.
Open Scope Z_scope.

(** First-class types; pointee types and aggregates are identified by a number. *)
Inductive ty := TVoid | TInt (bits : Z) | TFloat (bits : Z) | TPtr (pointee : Z) | TAgg (id : Z).
Record fty := Fty { ret : ty; params : list ty; vararg : bool }.
Record func := Func { f_name : string; f_type : fty; f_address_taken : bool }.

(** A typed operand; its value is given by its bits. *)
Record arg := Arg { a_type : ty; a_bits : Z }.

(** A zero extension or a bit cast: both keep the bits. *)
Definition zext_ok (a b : ty) : Prop := match a, b with TInt x, TInt y => x < y | _, _ => False end.
Definition bitcast_ok (a b : ty) : Prop :=
  match a, b with
  | TPtr _, TPtr _ => True
  | (TInt x | TFloat x), (TInt y | TFloat y) => x = y
  | _, _ => False
  end.
Definition convertible (a b : ty) : Prop := a = b \/ zext_ok a b \/ bitcast_ok a b.

(** The arguments can be passed to [F]: as many as it has parameters (at least as many
    if it is variadic), each convertible to the type of the parameter. *)
Definition fits (args : list arg) (F : func) : Prop :=
  (List.length args = List.length (params (f_type F)) \/ (vararg (f_type F) = true /\ (List.length args >= List.length (params (f_type F)))%nat)) /\
  forall i a t, nth_error args i = Some a -> nth_error (params (f_type F)) i = Some t -> convertible (a_type a) t.

(** The result of [F] can be used as a [t]. *)
Definition returns (F : func) (t : ty) : Prop := ret (f_type F) = t \/ bitcast_ok (ret (f_type F)) t.

(** Arguments of these types can be passed in a call of a function of type [T]. *)
Definition call_ok (T : fty) (args : list ty) : Prop :=
  exists extra, args = params T ++ extra /\ (vararg T = false -> extra = []).
