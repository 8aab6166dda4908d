(** Templates of inline Boogie code: text and holes.  A hole is '@', possibly with a
    format character that says with which type the argument is meant. *)
From Coq Require Import List Bool String Ascii.
Import ListNotations.
Open Scope string_scope.
Open Scope list_scope.
Infix "+++" := String.append (at level 60, right associativity).

Definition at_sign : ascii := "@"%char.
Fixpoint no_at (s : string) : Prop := match s with EmptyString => True | String c s' => c <> at_sign /\ no_at s' end.

(** Types, as far as format characters tell: i8, i16, i32, float, or another one. *)
Inductive aty := I8 | I16 | I32 | Float | OtherTy (n : nat).
Definition format (c : ascii) : option aty :=
  match c with
  | "c" | "b" | "B" => Some I8
  | "f" => Some Float
  | "h" | "H" => Some I16
  | "i" | "I" => Some I32
  | _ => None
  end%char.

Inductive piece := Text (s : string) | Hole | TypedHole (c : ascii).
Definition render1 (p : piece) : string := match p with Text s => s | Hole => "@" | TypedHole c => String at_sign (String c "") end.
Fixpoint render (l : list piece) : string := match l with [] => "" | p :: l' => render1 p +++ render l' end.
(** An untyped hole is not followed by a format character. *)
Definition starts_format (s : string) : bool := match s with String c _ => match format c with Some _ => true | None => false end | EmptyString => false end.
Fixpoint well_formed (l : list piece) : Prop :=
  match l with
  | [] => True
  | Text s :: l' => no_at s /\ well_formed l'
  | Hole :: l' => starts_format (render l') = false /\ well_formed l'
  | TypedHole c :: l' => format c <> None /\ well_formed l'
  end.

(** An argument: its type and expression; if it is a conversion, also type and
    expression of what is converted (C promotes float to double, char to int). *)
Record argument := Arg { a_ty : aty; a_text : string; a_src : option (aty * string) }.
Definition aty_dec : forall a b : aty, {a = b} + {a <> b}.
Proof. repeat decide equality. Defined.
(** The expression of an argument that is meant with type [t]. *)
Definition unpromoted (t : aty) (a : argument) : option string :=
  if aty_dec (a_ty a) t then Some (a_text a)
  else match a_src a with Some (t', x) => if aty_dec t' t then Some x else None | None => None end.
Definition hole_text (p : piece) (a : argument) : option string :=
  match p with TypedHole c => match format c with Some t => unpromoted t a | None => None end | _ => Some (a_text a) end.
(** The k-th hole is replaced by the k-th argument; holes without one stay; [None]: an
    argument has the wrong type, or there are too many. *)
Fixpoint fill (l : list piece) (args : list argument) : option string :=
  match l, args with
  | [], [] => Some ""
  | [], _ :: _ => None
  | Text s :: l', _ => option_map (String.append s) (fill l' args)
  | p :: l', [] => Some (render (p :: l'))
  | p :: l', a :: args' => match hole_text p a with Some x => option_map (String.append x) (fill l' args') | None => None end
  end.
