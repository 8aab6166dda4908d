(** share/smack/replay.py, and the records the translation emits for it
    (SmackInstGenerator.cpp:161-171, 811-817).

    The harness is a list of C definitions instead of text; what clang makes of them, and
    the run of the executable, are modelled for harnesses of integers.  Simplifications:
    the order of a Python set is that of the first occurrences; the executable's entry
    point returns to a caller that exits with 0; warnings are not modelled. *)
From Coq Require Import ZArith List String Ascii Bool.
From Verif.Spec Require Import Regex TraceValues Replay.
From Verif.Model Require Import PyRegex ErrTrace.
Import ListNotations.
Open Scope string_scope.
Open Scope list_scope.
Open Scope Z_scope.

(** ** The records of an execution *)
(** naming->get( *f).find("__SMACK") == 0 or "__VERIFIER" – SmackInstGenerator.cpp:811-812 *)
Definition is_recorded (f : string) : bool := prefix "__SMACK" f || prefix "__VERIFIER" f.
(** The entry block of an entry point – SmackInstGenerator.cpp:161-171; [params]: the names
    of its parameters. *)
Fixpoint args_recorded (fn : string) (params : list string) (args : list Z) (l : list record) : Prop :=
  match params, args with
  | [], [] => l = []
  | x :: ps, v :: vs => exists t l', l = Arg fn x t :: l' /\ decimal t v /\ args_recorded fn ps vs l'
  | _, _ => False
  end.
Definition entry_recorded (fn : string) (params : list string) (args : list Z) (l : list record) : Prop :=
  exists t l', l = Entry fn t :: l' /\ args_recorded fn params args l'.
(** A call of a function – SmackInstGenerator.cpp:811-817: first what the function itself
    calls is recorded ([inside]; the models of library functions call __SMACK_ and
    __VERIFIER_ functions), then its result. *)
Section Emit.
  Variables (fn : string) (params : list string) (inside : string -> Z -> list record -> Prop).
  Inductive emits : list event -> list record -> Prop :=
  | e_end : emits [] []
  | e_answer : forall f v t i l r, inside f v i -> decimal t v -> emits l r ->
      emits (Answer f v :: l) (i ++ (if is_recorded f then [Ext f t] else []) ++ r)
  | e_enter : forall args e l r, entry_recorded fn params args e -> emits l r -> emits (Entered args :: l) (e ++ r).
End Emit.

(** ** replay.py *)
(** extract – :67-69: .*\((smack:.* ) = (.* )\).* *)
Definition record_re : re :=
  Cat (Star any) (Cat (is "(") (Cat (Grp 1 (Cat (word "smack:") (Star any))) (Cat (word " = ") (Cat (Grp 2 (Star any)) (Cat (is ")") (Star any)))))).
Definition extract (line : string) : option (string * string) :=
  match py_search record_re line with
  | Some (_, c, _) => match group 1 c, group 2 c with Some k, Some v => Some (k, v) | _, _ => None end
  | None => None
  end.
(** Python dictionaries *)
Definition dict := list (string * list string).
Fixpoint lookup (d : dict) (k : string) : option (list string) :=
  match d with [] => None | (x, v) :: d => if String.eqb x k then Some v else lookup d k end.
Fixpoint set_key (d : dict) (k : string) (v : list string) : dict :=
  match d with [] => [(k, v)] | (x, w) :: d => if String.eqb x k then (x, v) :: d else (x, w) :: set_key d k v end.
(** extract_values – :72-97; None: an exception *)
Definition add_value (key val : string) (d : dict * dict) : option (dict * dict) :=
  let '(arguments, return_values) := d in
  if contains "smack:entry:" key then
    match split ":" key with [_; _; fn] => Some (set_key arguments fn [], return_values) | _ => None end
  else if contains "smack:arg:" key then
    match split ":" key with
    | [_; _; fn; _] => match lookup arguments fn with Some l => Some (set_key arguments fn (l ++ [val]), return_values) | None => None end
    | _ => None
    end
  else if contains "smack:ext:" key then
    match split ":" key with
    | [_; _; fn] => Some (arguments, set_key return_values fn (match lookup return_values fn with Some l => l | None => [] end ++ [val]))
    | _ => None
    end
  else Some d.
Fixpoint add_lines (lines : list string) (d : dict * dict) : option (dict * dict) :=
  match lines with
  | [] => Some d
  | x :: l => match extract x with Some (k, v) => match add_value k v d with Some d => add_lines l d | None => None end | None => add_lines l d end
  end.
Definition extract_values (trace : string) : option (dict * dict) := add_lines (split newline trace) ([], []).

(** detect_missing_definitions – :50-64; [output]: what clang printed; repr – of the
    exception with this text: quotes and control characters are escaped *)
Fixpoint escape (quote : ascii) (s : string) : string :=
  match s with
  | EmptyString => ""
  | String c s =>
      (if Ascii.eqb c newline then "\n" else if Ascii.eqb c "\" then "\\" else if Ascii.eqb c quote then String "\" (String c "")
       else String c "") ++ escape quote s
  end%string.
Fixpoint has (c : ascii) (s : string) : bool := match s with EmptyString => false | String x s => Ascii.eqb c x || has c s end.
Definition dquote : ascii := "034".
Definition repr (s : string) : string :=
  let quote := if has "'" s && negb (has dquote s) then dquote else "'"%char in
  ("Exception(" ++ String quote (escape quote s ++ String quote ")"))%string.
(** .replace("\\n", "\n") *)
Fixpoint unescape (s : string) : string :=
  match s with
  | String "\" (String "n" s) => String newline (unescape s)
  | String c s => String c (unescape s)
  | EmptyString => ""
  end.
Definition missing_re : re := Cat (word "undefined reference to `") (Cat (Grp 1 (Star any)) (is "'")).
Definition missing_mac_re : re := Cat (word (String dquote "_")) (Cat (Grp 1 (Star any)) (word (String dquote ", referenced from:"))).
Definition missing_in (line : string) : list string :=
  match (match py_search missing_mac_re line with Some m => Some m | None => py_search missing_re line end) with
  | Some (_, c, _) => match group 1 c with Some x => [x] | None => [] end
  | None => []
  end.
Definition missing_definitions (output : string) : list string := flat_map missing_in (split newline (unescape (repr output))).

(** harness – :100-162 *)
Inductive definition := Table (f : string) (vals : list string) | Void (f : string) | Wrapper (fn : string) (vals : list string).
Definition special_names := ["__VERIFIER_assert"; "__VERIFIER_assume"].
Definition member (x : string) (l : list string) : bool := existsb (String.eqb x) l.
Fixpoint distinct (l : list string) : list string :=
  match l with [] => [] | x :: l => x :: filter (fun y => negb (String.eqb x y)) (distinct l) end.
Definition harness (arguments return_values : dict) (missing : list string) : list definition :=
  map (fun f => match lookup return_values f with Some vals => Table f vals | None => Void f end)
    (filter (fun f => negb (member f special_names)) (distinct missing)) ++
  map (fun a => Wrapper (fst a) (snd a)) arguments.

(** ** The executable *)
(** An initializer or argument: decimal integers; None: clang reports an error *)
Fixpoint all_digits (s : string) : bool := match s with EmptyString => true | String c s => digit c && all_digits s end.
Definition c_digits (s : string) : option Z := match s with EmptyString => None | _ => if all_digits s then Some (numeral 10 s) else None end.
Definition c_value (s : string) : option Z :=
  match s with
  | String "-" s => match c_digits s with Some v => Some (- v) | None => None end
  | _ => c_digits s
  end.
Fixpoint c_values (l : list string) : option (list Z) :=
  match l with
  | [] => Some []
  | x :: l => match c_value x, c_values l with Some v, Some r => Some (v :: r) | _, _ => None end
  end.
(** Conversion to an integer type *)
Definition convert (ty : bool * Z) (v : Z) : Z :=
  let m := v mod 2 ^ snd ty in if fst ty && (2 ^ (snd ty - 1) <=? m) then m - 2 ^ snd ty else m.
Definition int_type := (true, 32).
(** clang (:33-36): the tables as ints, and the arguments of the only wrapper (its function
    is declared by the call: constants that are ints) *)
Definition fits_int (v : Z) : bool := (- 2 ^ 31 <=? v) && (v <? 2 ^ 31).
Fixpoint compile (l : list definition) : option (list (string * list Z) * list (string * list Z)) :=
  match l with
  | [] => Some ([], [])
  | d :: l =>
      match compile l with
      | None => None
      | Some (tables, wrappers) =>
          match d with
          | Table f vals => match c_values vals with Some vs => Some ((f, map (convert int_type) vs) :: tables, wrappers) | None => None end
          | Void _ => Some (tables, wrappers)
          | Wrapper fn vals =>
              match c_values vals with Some vs => if forallb fits_int vs then Some (tables, (fn, vs) :: wrappers) else None | None => None end
          end
      end
  end.
Fixpoint table_of (tables : list (string * list Z)) (f : string) : option (list Z) :=
  match tables with [] => None | (x, l) :: t => if String.eqb x f then Some l else table_of t f end.

Section Run.
  Context {S : Type} (step : S -> act S).
  (** [types]: of the results of the functions the program calls; [junk]: what a call
      results in if nothing defines it (stubs without result, functions of the C library,
      the upper half of the register an int is returned in). *)
  Variables (types : string -> bool * Z) (junk : string -> nat -> Z).
  Inductive outcome := Exit (code : Z) (output : string) | OutOfTable.
  Definition bump (idx : string -> nat) (f : string) : string -> nat := fun g => if String.eqb f g then Datatypes.S (idx g) else idx g.
  Definition result (tables : list (string * list Z)) (f : string) (i : nat) : option Z :=
    match table_of tables f with
    | None => Some (convert (types f) (junk f i))
    | Some vals =>
        match nth_error vals i with
        | None => None
        | Some v => Some (if snd (types f) <=? 32 then convert (types f) v else convert (types f) (v mod 2 ^ 32 + 2 ^ 32 * junk f i))
        end
    end.
  (** The stubs (:131-134), and __VERIFIER_assert and __VERIFIER_assume (:112-124) *)
  Fixpoint run (fuel : nat) (tables : list (string * list Z)) (s : S) (idx : string -> nat) (out : string) : option outcome :=
    match fuel with
    | O => None
    | Datatypes.S fuel =>
        match step s with
        | Input f k => match result tables f (idx f) with Some v => run fuel tables (k v) (bump idx f) out | None => Some OutOfTable end
        | Assume true s => run fuel tables s idx out
        | Assume false _ => Some (Exit 255 (out ++ "assumption does not hold." ++ String newline ""))
        | Assert true s => run fuel tables s idx out
        | Assert false _ => Some (Exit 0 (out ++ "error reached!" ++ String newline ""))
        | Print t s => run fuel tables s idx (out ++ t)
        | Enter _ s => run fuel tables s idx out
        | Return => Some (Exit 0 out)
        end
    end%string.
  (** replay_error_trace – :10-47, for corral.  [start]: the state in which a function of
      the program is entered; None in the result: the executable still runs, or ran past
      a table. *)
  Variable start : string -> list Z -> S.
  Definition replay (fuel : nat) (verifier_output linker_output : string) : option bool :=
    match extract_values verifier_output with
    | None => Some false
    | Some (arguments, return_values) =>
        match compile (harness arguments return_values (missing_definitions linker_output)) with
        | Some (tables, [(fn, args)]) =>
            match run fuel tables (start fn args) (fun _ => O) "" with
            | Some (Exit code out) => Some ((code =? 0) && contains "error reached!" out)
            | _ => None
            end
        | _ => Some false
        end
    end.
End Run.
