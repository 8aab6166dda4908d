(** SmackRep::code – lib/smack/SmackRep.cpp:1129-1184: the text of __SMACK_code,
    __SMACK_mod, __SMACK_decl and __SMACK_top_decl.  [None]: a failing assertion. *)
From Coq Require Import List Bool String Ascii.
From Verif.Spec Require Import Template.
Import ListNotations.
Open Scope string_scope.

(** s.find('@'): what is before and what is behind it. *)
Fixpoint find_at (s : string) : option (string * string) :=
  match s with
  | EmptyString => None
  | String c s' => if Ascii.eqb c "@" then Some ("", s') else match find_at s' with Some (a, b) => Some (String c a, b) | None => None end
  end.

(** :1146-1170: the type a format character asks for *)
Definition target (c : ascii) : option aty :=
  if existsb (Ascii.eqb c) ["c"; "b"; "B"]%char then Some I8
  else if Ascii.eqb c "f" then Some Float
  else if existsb (Ascii.eqb c) ["h"; "H"]%char then Some I16
  else if existsb (Ascii.eqb c) ["i"; "I"]%char then Some I32
  else None.

(** One argument – :1138-1182 *)
Definition code1 (s : string) (a : argument) : option string :=
  match find_at s with
  | None => None                                                   (* too many arguments *)
  | Some (before, behind) =>
      let cast := match behind with String c r => match target c with Some t => Some (t, r) | None => None end | EmptyString => None end in
      let targetType := match cast with Some (t, _) => t | None => a_ty a end in
      let rest := match cast with Some (_, r) => r | None => behind end in
      let text :=
        if aty_dec (a_ty a) targetType then Some (a_text a)
        else match a_src a with
             | Some (t', x) => if aty_dec t' targetType then Some x else None      (* :1171-1177 *)
             | None => None
             end in
      match text with Some x => Some (before +++ x +++ rest) | None => None end
  end.
Fixpoint code_args (s : string) (args : list argument) : option string :=
  match args with [] => Some s | a :: args' => match code1 s a with Some s' => code_args s' args' | None => None end end.
Definition code (fmt : string) (args : list argument) : option string :=
  if String.eqb fmt "" then None else code_args fmt args.
