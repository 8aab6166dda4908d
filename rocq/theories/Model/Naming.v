(** lib/smack/Naming.cpp: names of values. *)
From Coq Require Import List Bool String Ascii Arith DecimalString.
Import ListNotations.
Open Scope string_scope.
Open Scope list_scope.

(** escape – :181-213 *)
Definition escape_char (c : ascii) : ascii :=
  if Ascii.eqb c "@" then "."%char
  else if existsb (Ascii.eqb c) [Ascii.ascii_of_nat 1; "\"; ":"; " "; "("; ")"; "["; "]"; "{"; "}"; "<"; ">"; "|"; """"; "-"; ";"]%char then "_"%char
  else c.
Fixpoint escape (s : string) : string := match s with EmptyString => "" | String c s' => String (escape_char c) (escape s') end.

(** BPL_KW – :156-161: the whole string is one of these. *)
Definition BPL_KW : list string :=
  ["bool"; "int"; "real"; "false"; "true"; "old"; "forall"; "exists"; "requires"; "modifies"; "ensures"; "invariant"; "free"; "unique"; "finite"; "complete";
   "type"; "const"; "function"; "axiom"; "var"; "procedure"; "implementation"; "where"; "returns"; "assume"; "assert"; "havoc"; "call"; "return"; "while";
   "break"; "goto"; "if"; "then"; "else"; "div"; "mod"; "yield"; "par"; "async"; "lambda"].
Definition isBplKeyword (s : string) : bool := existsb (String.eqb s) BPL_KW.

(** What get looks at: the kind and the type of a value and its name ("": hasName is
    false).  [owner]: the function a local value belongs to. *)
Inductive kind := KGlobal | KBlock | KUndef | KInst | KArg | KOther.
Inductive tykind := TFloat | TInt | TVector | TElse.
Record value := Value { v_kind : kind; v_ty : tykind; v_name : string; owner : option nat }.

(** The object: names, globalNum, blockNum, undefNum, varNum – include/smack/Naming.h *)
Record naming := Naming { names : nat -> option string; globalNum : nat; blockNum : nat; undefNum : nat; varNum : nat }.
Definition fresh_naming : naming := Naming (fun _ => None) 0 0 0 0.

Definition dec (n : nat) : string := NilZero.string_of_uint (Nat.to_uint n).
(** freshVarName – :272-290 *)
Definition var_prefix (t : tykind) : string := match t with TFloat => "$f" | TInt => "$i" | TVector => "$v" | TElse => "$p" end.
(** freshGlobalName, freshBlockName, freshUndefName – :254-270 *)
Definition freshBlockName (n : naming) : string * naming :=
  (("$bb" ++ dec (blockNum n))%string, Naming (names n) (globalNum n) (S (blockNum n)) (undefNum n) (varNum n)).

(** reset – :215-218 *)
Definition reset (n : naming) : naming := Naming (names n) (globalNum n) 0 (undefNum n) 0.

(** The name of a named value – :227-230 *)
Definition base (s : string) : string := let name := escape s in if isBplKeyword name then (name ++ "_")%string else name.

(** get – :220-252; values are the numbers of [env] *)
Definition get (env : nat -> value) (n : naming) (v : nat) : string * naming :=
  match names n v with
  | Some s => (s, n)
  | None =>
      let V := env v in
      let has := negb (String.eqb (v_name V) "") in
      let inst := match v_kind V with KInst => true | _ => false end in
      let '(s, g, b, u, x) :=
        if has && negb inst then (base (v_name V), globalNum n, blockNum n, undefNum n, varNum n)
        else
          match v_kind V with
          | KGlobal => (("$g" ++ dec (globalNum n))%string, S (globalNum n), blockNum n, undefNum n, varNum n)
          | KBlock => (("$bb" ++ dec (blockNum n))%string, globalNum n, S (blockNum n), undefNum n, varNum n)
          | KUndef => (("$u" ++ dec (undefNum n))%string, globalNum n, blockNum n, S (undefNum n), varNum n)
          | KInst | KArg => ((var_prefix (v_ty V) ++ dec (varNum n))%string, globalNum n, blockNum n, undefNum n, S (varNum n))
          | KOther => ("", globalNum n, blockNum n, undefNum n, varNum n)
          end in
      (s, Naming (fun y => if Nat.eqb y v then Some s else names n y) g b u x)
  end.

(** The uses of the object during the translation of a program: generateProgram resets
    it before each function (lib/smack/SmackModuleGenerator.cpp:50-53), createBlock asks
    for labels (lib/smack/SmackInstGenerator.cpp:75). *)
Inductive op := OReset (f : nat) | OGet (v : nat) | OBlock.
Definition do (env : nat -> value) (n : naming) (o : op) : option string * naming :=
  match o with
  | OReset _ => (None, reset n)
  | OGet v => let '(s, n') := get env n v in (Some s, n')
  | OBlock => let '(s, n') := freshBlockName n in (Some s, n')
  end.
Fixpoint run (env : nat -> value) (n : naming) (l : list op) : naming :=
  match l with [] => n | o :: l' => run env (snd (do env n o)) l' end.
