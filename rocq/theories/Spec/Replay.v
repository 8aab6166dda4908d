(** Specification: programs with inputs, their executions, and what a verifier prints
    about one.  Nothing here refers to SMACK's code. *)
From Coq Require Import ZArith List String Ascii Bool.
From Verif.Spec Require Import Regex TraceValues.
Import ListNotations.
Open Scope string_scope.
Open Scope list_scope.
Open Scope Z_scope.

(** A deterministic program, but for its inputs: results of functions it calls and does
    not define.  [Enter]: the entry point is called again, with these arguments. *)
Inductive act (S : Type) :=
| Input (f : string) (k : Z -> S)
| Assume (b : bool) (s : S)
| Assert (b : bool) (s : S)
| Print (t : string) (s : S)
| Enter (args : list Z) (s : S)
| Return.
Arguments Input {S} f k. Arguments Assume {S} b s. Arguments Assert {S} b s. Arguments Print {S} t s. Arguments Enter {S} args s. Arguments Return {S}.

Inductive event := Answer (f : string) (v : Z) | Entered (args : list Z).

Section Executions.
  Context {S : Type} (step : S -> act S).
  (** From this state, with these inputs, an assertion fails. *)
  Inductive fails : S -> list event -> Prop :=
  | f_input : forall s f k v l, step s = Input f k -> fails (k v) l -> fails s (Answer f v :: l)
  | f_assume : forall s s' l, step s = Assume true s' -> fails s' l -> fails s l
  | f_assert : forall s s' l, step s = Assert true s' -> fails s' l -> fails s l
  | f_print : forall s t s' l, step s = Print t s' -> fails s' l -> fails s l
  | f_enter : forall s a s' l, step s = Enter a s' -> fails s' l -> fails s (Entered a :: l)
  | f_now : forall s s', step s = Assert false s' -> fails s [].
  (** ... the program returns and has printed the text. *)
  Inductive returns : S -> string -> Prop :=
  | r_input : forall s f k v t, step s = Input f k -> returns (k v) t -> returns s t
  | r_assume : forall s s' t, step s = Assume true s' -> returns s' t -> returns s t
  | r_assert : forall s s' t, step s = Assert true s' -> returns s' t -> returns s t
  | r_print : forall s x s' t, step s = Print x s' -> returns s' t -> returns s (x ++ t)%string
  | r_enter : forall s a s' t, step s = Enter a s' -> returns s' t -> returns s t
  | r_now : forall s, step s = Return -> returns s "".
End Executions.

(** Integer types: signed, number of bits. *)
Definition in_type (ty : bool * Z) (v : Z) : Prop :=
  if fst ty then - 2 ^ (snd ty - 1) <= v < 2 ^ (snd ty - 1) else 0 <= v < 2 ^ snd ty.

(** Decimal constants. *)
Definition decimal (t : string) (v : Z) : Prop :=
  exists neg d, t = (minus neg ++ d)%string /\ is_numeral digit d /\ v = if neg then - numeral 10 d else numeral 10 d.

(** What a verifier prints about an execution: lines with one record each, among others. *)
Inductive record := Ext (f t : string) | Entry (fn t : string) | Arg (fn x t : string).
Definition key (r : record) : string :=
  (match r with Ext f _ => "smack:ext:" ++ f | Entry fn _ => "smack:entry:" ++ fn | Arg fn x _ => "smack:arg:" ++ fn ++ ":" ++ x end)%string.
Definition value (r : record) : string := match r with Ext _ t | Entry _ t | Arg _ _ t => t end.
(** Names without colons, and lines in which one can tell where key and value end. *)
Definition without (c : ascii) (s : string) : Prop := all (fun x => negb (Ascii.eqb c x)) s.
Definition names_ok (r : record) : Prop :=
  match r with Ext f _ => without ":" f | Entry fn _ => without ":" fn | Arg fn x _ => without ":" fn /\ without ":" x end.
Definition shows (r : record) (line : string) : Prop :=
  exists pre post, line = (pre ++ "(" ++ key r ++ " = " ++ value r ++ ")" ++ post)%string /\ without newline line /\
    ~ occurs "(smack:" (key r ++ " = " ++ value r ++ ")" ++ post) /\ ~ occurs " = " ("= " ++ value r ++ ")" ++ post) /\ without ")" post.
Definition other_line (line : string) : Prop := ~ occurs "(smack:" line /\ without newline line.
Inductive prints : list record -> list string -> Prop :=
| p_end : prints [] []
| p_record : forall r l line ls, names_ok r -> shows r line -> prints l ls -> prints (r :: l) (line :: ls)
| p_other : forall l line ls, other_line line -> prints l ls -> prints l (line :: ls).
Fixpoint text (lines : list string) : string :=
  match lines with [] => "" | [x] => x | x :: l => (x ++ String newline (text l))%string end.

(** What a linker prints about functions that are missing: lines that name one, among
    others. *)
Definition complaint : string := "undefined reference to `".
Definition reports (name line : string) : Prop :=
  exists pre post, line = (pre ++ complaint ++ name ++ "'" ++ post)%string /\ without "`" pre /\ without "'" post.
Definition linker_line (line : string) : Prop := without newline line /\ without "034" line /\ without "\" line.
Inductive linker_says : list string -> list string -> Prop :=
| s_end : linker_says [] []
| s_missing : forall name l line ls, linker_line line -> reports name line -> linker_says l ls -> linker_says (name :: l) (line :: ls)
| s_other : forall l line ls, linker_line line -> ~ occurs complaint line -> linker_says l ls -> linker_says l (line :: ls).

(** The values recorded for a function's results, and for the arguments of an entry
    point: those of its last call. *)
Definition values_of (f : string) (l : list record) : list string :=
  flat_map (fun r => match r with Ext g t => if String.eqb g f then [t] else [] | _ => [] end) l.
Definition args_of (fn : string) (l : list record) : option (list string) :=
  fold_left (fun a r =>
    match r with
    | Entry g _ => if String.eqb g fn then Some [] else a
    | Arg g _ t => if String.eqb g fn then match a with Some v => Some (v ++ [t]) | None => None end else a
    | _ => a
    end) l None.
(** Arguments are recorded after the call. *)
Definition in_order (l : list record) : Prop :=
  forall a fn x t b, l = a ++ Arg fn x t :: b -> exists v, In (Entry fn v) a.
