(** share/smack/top.py: results, properties, the selection of assertions and the
    reading of the back-end's output. *)
From Coq Require Import List String Ascii Bool Arith ZArith.
From Verif.Spec Require Import Regex.
From Verif.Model Require Import PyRegex.
Import ListNotations.
Open Scope string_scope.
Open Scope list_scope.

(** *** VResult – top.py:20-96.  An enum.Flag: a set of single results, as bits; auto()
    numbers them 1, 2, 4, …. *)
Definition VERIFIED := 1%N.           Definition ASSERTION_FAILURE := 2%N.
Definition INVALID_DEREF := 4%N.      Definition INVALID_FREE := 8%N.
Definition INVALID_MEMTRACK := 16%N.  Definition OVERFLOW := 32%N.
Definition RUST_PANIC := 64%N.        Definition TIMEOUT := 128%N.
Definition UNKNOWN := 256%N.
Definition MEMSAFETY_ERROR := N.lor (N.lor INVALID_DEREF INVALID_FREE) INVALID_MEMTRACK.
Definition ERROR := N.lor (N.lor (N.lor (N.lor (N.lor ASSERTION_FAILURE INVALID_DEREF) INVALID_FREE) INVALID_MEMTRACK) OVERFLOW) RUST_PANIC.

(** Flag.__contains__: a in b *)
Definition flag_in (a b : N) : bool := N.eqb (N.land a b) a.

Fixpoint lookup {A} (k : N) (l : list (N * A)) : option A :=
  match l with [] => None | (x, v) :: l' => if N.eqb x k then Some v else lookup k l' end.

(** return_code – top.py:59-77; [None]: a RuntimeError is raised. *)
Definition return_codes : list (N * Z) :=
  [(VERIFIED, 0); (ASSERTION_FAILURE, 1); (INVALID_DEREF, 2); (INVALID_FREE, 3); (INVALID_MEMTRACK, 4);
   (OVERFLOW, 5); (RUST_PANIC, 6); (TIMEOUT, 126); (UNKNOWN, 127)]%Z.
Definition return_code (r : N) : option Z := lookup r return_codes.

(** description – top.py:42-57 *)
Definition descriptions : list (N * string) :=
  [(ASSERTION_FAILURE, ""); (INVALID_DEREF, "invalid pointer dereference"); (INVALID_FREE, "invalid memory deallocation");
   (INVALID_MEMTRACK, "memory leak"); (OVERFLOW, "integer overflow"); (RUST_PANIC, "Rust panic")].
Definition description (r : N) : option string := lookup r descriptions.

(** message – top.py:79-96; [unroll]: None with --modular. *)
Definition message (unroll : option string) (r : N) : option string :=
  if N.eqb r VERIFIED then
    Some ("SMACK found no errors" ++ match unroll with None => "" | Some u => " with unroll bound " ++ u end ++ ".")%string
  else if flag_in r ERROR then
    match description r with
    | Some d => Some ("SMACK found an error" ++ (if String.eqb d "" then "" else ": " ++ d) ++ ".")%string
    | None => None
    end
  else if N.eqb r TIMEOUT then Some "SMACK timed out."
  else if N.eqb r UNKNOWN then Some "SMACK result is unknown."
  else None.

(** *** VProperty – top.py:120-198 *)
Definition ASSERTIONS := 1%N.       Definition VALID_DEREF := 2%N.
Definition VALID_FREE := 4%N.       Definition MEMLEAK := 8%N.
Definition INTEGER_OVERFLOW := 16%N. Definition RUST_PANICS := 32%N.
Definition MEMORY_SAFETY := N.lor (N.lor VALID_DEREF VALID_FREE) MEMLEAK.
Definition mem_safe_subprops := [VALID_DEREF; VALID_FREE; MEMLEAK].
Definition contains_mem_safe_props (p : N) : bool := negb (N.eqb (N.land p MEMORY_SAFETY) 0).

(** boogie_attr – top.py:160-179: the name of the result in lower case, without "in"
    for the memory-safety ones. *)
Definition boogie_attrs : list (N * string) :=
  [(VALID_DEREF, "valid_deref"); (VALID_FREE, "valid_free"); (MEMLEAK, "valid_memtrack"); (INTEGER_OVERFLOW, "overflow"); (RUST_PANICS, "rust_panic")].
Definition boogie_attr (p : N) : option string := lookup p boogie_attrs.
(** result – top.py:181-198 *)
Definition prop_results : list (N * N) :=
  [(VALID_DEREF, INVALID_DEREF); (VALID_FREE, INVALID_FREE); (MEMLEAK, INVALID_MEMTRACK); (INTEGER_OVERFLOW, OVERFLOW); (RUST_PANICS, RUST_PANIC)].
Definition prop_result (p : N) : option N := lookup p prop_results.

(** PropertyAction – top.py:99-117, and the default – top.py:640-641 *)
Definition check_option (values : list N) : N :=
  let c := fold_left N.lor values 0%N in if N.eqb c 0 then ASSERTIONS else c.

(** *** memsafety_subproperty_selection – top.py:801-829 *)
Definition space : ascii -> bool := fun c => Ascii.eqb c " " || between "009" "013" c || between "028" "031" c.
(** The pattern (without blanks): ^( \s* assert \s* )( {:(.+)} )?(.+); *)
Definition assert_re : re :=
  Cat (Grp 1 (Cat (Star (Chr space)) (Cat (word "assert") (Star (Chr space)))))
    (Cat (Opt (Grp 2 (Cat (word "{:") (Cat (Grp 3 (Plus any)) (word "}")))))
      (Cat (Grp 4 (Plus any)) (word ";"))).

Definition get (o : option string) : string := match o with Some x => x | None => "" end.
Definition in_list (x : string) (l : list string) : bool := existsb (String.eqb x) l.

(** replace_assertion – :808-818 *)
Definition replace_assertion (selected : list string) (whole : string) (c : captures) : string :=
  match selected with
  | [] => whole
  | _ =>
      match group 2 c, group 3 c with
      | Some g2, Some g3 =>
          if in_list g3 selected then get (group 1 c) ++ g2 ++ get (group 4 c) ++ ";"
          else get (group 1 c) ++ "true" ++ ";"
      | _, _ => get (group 1 c) ++ "true" ++ ";"
      end
  end%string.

(** re.sub with a pattern that starts with ^ : at most one replacement, at the
    beginning of the line – :825-828. *)
Definition select_line (selected : list string) (line : string) : string :=
  match py_match assert_re line with
  | Some (c, rest) => (replace_assertion selected (consumed line rest) c ++ rest)%string
  | None => line
  end.
Definition selected_props (check : N) : list string :=
  map (fun p => get (boogie_attr p)) (filter (fun p => flag_in p check) mem_safe_subprops).
Definition memsafety_subproperty_selection (check : N) (lines : list string) : list string :=
  if flag_in MEMORY_SAFETY check then lines else map (select_line (selected_props check)) lines.

(** *** verification_result – top.py:857-901 *)
Definition positive_re : re := Cat (Chr (between "1" "9")) (Star (Chr digit)).
(** [1-9]\d* time out|Z3 ran out of resources|timed out|ERRORS_TIMEOUT *)
Definition timeout_re : re :=
  Alt (Cat positive_re (word " time out")) (Alt (word "Z3 ran out of resources") (Alt (word "timed out") (word "ERRORS_TIMEOUT"))).
(** [1-9]\d* verified, 0 errors?|no bugs|NO_ERRORS_NO_TIMEOUT *)
Definition verified_re : re :=
  Alt (Cat positive_re (Cat (word " verified, 0 error") (Opt (word "s")))) (Alt (word "no bugs") (word "NO_ERRORS_NO_TIMEOUT")).
(** \d* verified, [1-9]\d* errors?|can fail|ERRORS_NO_TIMEOUT *)
Definition errors_re : re :=
  Alt (Cat (Star (Chr digit)) (Cat (word " verified, ") (Cat positive_re (Cat (word " error") (Opt (word "s"))))))
      (Alt (word "can fail") (word "ERRORS_NO_TIMEOUT")).
(** assert {:(.+)} *)
Definition attr_re : re := Cat (word "assert {:") (Cat (Grp 1 (Plus any)) (word "}")).
(** [\w#$~%.\/-]+ *)
Definition wordchar : ascii -> bool := fun c => between "a" "z" c || between "A" "Z" c || digit c || Ascii.eqb c "_".
Definition filechar : ascii -> bool := fun c => wordchar c || existsb (Ascii.eqb c) ["#"; "$"; "~"; "%"; "."; "/"; "-"]%char.
(** ([\w#$~%.\/-]+)\((\d+),\d+\): Error: This assertion might not hold *)
Definition boogie_re : re :=
  Cat (Grp 1 (Plus (Chr filechar)))
    (Cat (word "(") (Cat (Grp 2 (Plus (Chr digit))) (Cat (word ",") (Cat (Plus (Chr digit)) (word "): Error: This assertion might not hold"))))).

(** re.match('.*[.]bpl$', file): the name has no newline. *)
Fixpoint ends_with (e s : string) : bool := String.eqb e s || match s with EmptyString => false | String _ s' => ends_with e s' end.

(** int(…) of decimal digits *)
Definition digit_value (c : ascii) : nat := nat_of_ascii c - 48.
Fixpoint int_of (acc : nat) (s : string) : nat := match s with EmptyString => acc | String c s' => int_of (10 * acc + digit_value c) s' end.

Definition error_props := mem_safe_subprops ++ [INTEGER_OVERFLOW] ++ [RUST_PANICS].
(** for p in …: if p.boogie_attr() == attr: return p.result() – :893-897 *)
Fixpoint by_attr (attr : string) (ps : list N) : option N :=
  match ps with
  | [] => None
  | p :: ps' =>
      match boogie_attr p with
      | Some a => if String.eqb a attr then prop_result p else by_attr attr ps'
      | None => None
      end
  end.

Inductive verifier := corral | boogie | other.
(** The files that boogie's messages may name, as lines. *)
Definition files := string -> option (list string).

Definition attr_of (fs : files) (v : verifier) (out : string) : option string :=
  match v with
  | corral =>
      match py_search (Cat (word "ASSERTION FAILS ") attr_re) out with Some (_, c, _) => group 1 c | None => None end
  | boogie =>
      match py_search boogie_re out with
      | Some (_, c, _) =>
          let file := get (group 1 c) in
          if ends_with ".bpl" file then
            match fs file with
            | Some ls =>
                match nth_error ls (int_of 0 (get (group 2 c)) - 1) with
                | Some line => match py_search attr_re line with Some (_, d, _) => group 1 d | None => None end
                | None => None
                end
            | None => None
            end
          else None
      | None => None
      end
  | other => None
  end.

Definition verification_result (fs : files) (out : string) (v : verifier) : N :=
  if searches timeout_re out then TIMEOUT
  else if searches verified_re out then VERIFIED
  else if searches errors_re out then
    match attr_of fs v out with
    | Some attr => match by_attr attr error_props with Some r => r | None => ASSERTION_FAILURE end
    | None => ASSERTION_FAILURE
    end
  else UNKNOWN.

(** utils.py:37-92, try_command: when the time limit is reached the text says so. *)
Definition command_output (name output : string) (timed_out : bool) : string :=
  (if timed_out then output ++ String newline (name ++ " timed out.") else output)%string.

(** verify_bpl – :961-977: what is printed last and the exit code. *)
Definition verify_bpl (fs : files) (unroll : option string) (v : verifier) (out : string) : option (string * Z) :=
  let r := verification_result fs out v in
  match message unroll r, return_code r with Some m, Some c => Some (m, c) | _, _ => None end.

(** *** Which checks are in the program at all *)
Inductive check_kind := User | Deref | Free | Leak | Overflow_ | Panic.
(** __VERIFIER_assert has its assertion unless -DDISABLE_SMACK_ASSERTIONS is given
    (frontend.py:130-131, lib/smack.c:50-53); the memory-safety assertions are there
    with -DMEMORY_SAFETY (frontend.py:125-126; lib/smack.c:1631-1643, 1700-1702,
    1877-1879) and -memory-safety (top.py:751-752); the overflow checks with
    INTEGER_OVERFLOW (frontend.py:127-129, top.py:753-754); the assertions for panics
    with -rust-panics (top.py:755-756, SmackInstGenerator.cpp:651-656). *)
Definition generated (check : N) (k : check_kind) : bool :=
  match k with
  | User => flag_in ASSERTIONS check
  | Deref | Free | Leak => contains_mem_safe_props check
  | Overflow_ => flag_in INTEGER_OVERFLOW check
  | Panic => flag_in RUST_PANICS check
  end.
(** Their attributes: lib/smack.c:52, 1634-1643, 1700-1702, 1879, 1409;
    SmackInstGenerator.cpp:656. *)
Definition kind_attr (k : check_kind) : option string :=
  match k with
  | User => None
  | Deref => Some "valid_deref"
  | Free => Some "valid_free"
  | Leak => Some "valid_memtrack"
  | Overflow_ => Some "overflow"
  | Panic => Some "rust_panic"
  end.
(** The line of an assertion in the Boogie file. *)
Definition assert_line (k : check_kind) (indent expr : string) : string :=
  (indent ++ "assert " ++ match kind_attr k with Some a => "{:" ++ a ++ "} " | None => "" end ++ expr ++ ";" ++ String newline "")%string.
