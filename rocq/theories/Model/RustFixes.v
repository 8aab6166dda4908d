(** lib/smack/RustFixes.cpp: the pass that replaces Rust's runtime functions.

    Instructions are those of Spec/RustProgram.v.  None is a failing assertion or cast in
    the pass. *)
From Coq Require Import ZArith String List Bool.
From Verif.Spec Require Import RustProgram.
Import ListNotations.
Open Scope string_scope.
Open Scope list_scope.

(** StringRef::startswith, endswith, find(s) != npos, find(s) == 0 *)
Definition starts_with (p n : string) : bool := prefix p n.
Definition ends_with (p n : string) : bool :=
  Nat.leb (String.length p) (String.length n) && String.eqb (substring (String.length n - String.length p) (String.length p) n) p.
Fixpoint found (p n : string) : bool :=
  prefix p n || match n with EmptyString => false | String _ n' => found p n' end.

(** 21-28 isRustNameMatch *)
Definition isRustNameMatch (search n : string) : bool :=
  let hashed_match := ends_with "17h" search && starts_with search n && Nat.eqb (String.length search + 17) (String.length n) in
  hashed_match || String.eqb search n.

(** lib/smack/Naming.cpp:65-75 *)
Definition RUST_ENTRY : string := "_ZN3std2rt10lang_start".
Definition RUST_LANG_START_INTERNAL : string := "_ZN3std2rt19lang_start_internal".
Definition RUST_PANICS : list string :=
  ["_ZN3std9panicking15begin_panic_fmt17h"; "_ZN4core9panicking5panic17h"; "_ZN3std9panicking11begin_panic17h";
   "_ZN4core9panicking9panic_fmt17h"; "_ZN4core9panicking18panic_bounds_check17h"].
Definition RUST_PANIC_MARKER : string := "__SMACK_RUST_PANIC_MARKER".
(** Naming.cpp:173-182 isRustPanic *)
Definition isRustPanic (n : string) : bool :=
  existsb (fun p => starts_with p n && Nat.eqb (String.length n) (String.length p + 17)) RUST_PANICS.
(** Naming.cpp:163, 167 isSmackName: the regular expression .*__SMACK_.* *)
Definition isSmackName (n : string) : bool := found "__SMACK_" n.

(** 34-43 alloc_fns *)
Definition alloc_fns : list (string * string) :=
  [("_ZN5alloc5alloc5alloc17h", "__smack_rust_std_alloc");
   ("_ZN5alloc5alloc12alloc_zeroed17h", "__smack_rust_std_alloc_zeroed");
   ("_ZN5alloc5alloc7dealloc17h", "__smack_rust_std_dealloc");
   ("_ZN5alloc5alloc7realloc17h", "__smack_rust_std_realloc");
   ("__rust_alloc", "__smack_rust_prim_alloc");
   ("__rust_alloc_zeroed", "__smack_rust_prim_alloc_zeroed");
   ("__rust_dealloc", "__smack_rust_prim_dealloc");
   ("__rust_realloc", "__smack_rust_prim_realloc")].

Section Pass.
  Context (m : program).
  (** 48-57: the loop over alloc_fns for a call of [n]; the last match counts.  The result
      is the callee the call has then. *)
  Fixpoint replace_alloc (n : string) (kvs : list (string * string)) (c : string) : option string :=
    match kvs with
    | [] => Some c
    | (search, repl) :: kvs' =>
        if isRustNameMatch search n then
          match lookup m repl with Some _ => replace_alloc n kvs' repl | None => None end
        else replace_alloc n kvs' c
    end.
  (** 30-79 replaceSpecialRustFunctions, one block; direct calls only, no invokes *)
  Fixpoint replace_instrs (is : list instr) : option (list instr) :=
    match is with
    | [] => Some []
    | ICall r (Direct n) args :: is' =>
        match replace_alloc n alloc_fns n, replace_instrs is' with
        | Some c, Some rest =>
            if isRustPanic n then Some (ICall None (Direct RUST_PANIC_MARKER) [] :: rest)
            else Some (ICall r (Direct c) args :: rest)
        | _, _ => None
        end
    | i :: is' => match replace_instrs is' with Some rest => Some (i :: rest) | None => None end
    end.
  (** 97-127 fixEntry, one block: the call becomes an addition 0 + 0 for its result, and a
      call of its first argument.  Uses of the call become uses of the addition, which
      has the call's register here.  (The inserted call is not looked at again: its callee
      would have to be named like lang_start.) *)
  Fixpoint entry_instrs (is : list instr) : option (list instr) :=
    match is with
    | [] => Some []
    | ICall r (Direct n) args :: is' =>
        match entry_instrs is' with
        | Some rest =>
            if found RUST_ENTRY n then
              match args with OFun h :: _ => Some (IAdd r (OConst 0) (OConst 0) :: ICall None (Direct h) [] :: rest) | _ => None end
            else Some (ICall r (Direct n) args :: rest)
        | None => None
        end
    | i :: is' => match entry_instrs is' with Some rest => Some (i :: rest) | None => None end
    end.
  Fixpoint map_blocks (g : list instr -> option (list instr)) (bs : list block) : option (list block) :=
    match bs with
    | [] => Some []
    | (is, t) :: bs' => match g is, map_blocks g bs' with Some is', Some bs'' => Some ((is', t) :: bs'') | _, _ => None end
    end.
  (** 129-152 runOnFunction *)
  Definition runOnFunction (f : func) : option func :=
    match fbody f with
    | None => Some f
    | Some bs =>
        let n := fname f in
        if String.eqb n "" then Some f
        else if isSmackName n then Some f
        else if found RUST_LANG_START_INTERNAL n || found RUST_ENTRY n || isRustPanic n then Some (Func n None)
        else
          match (if String.eqb n "main" then map_blocks entry_instrs bs else Some bs) with
          | Some bs1 => match map_blocks replace_instrs bs1 with Some bs2 => Some (Func n (Some bs2)) | None => None end
          | None => None
          end
    end.
  Fixpoint all_functions (fs : list func) : option (list func) :=
    match fs with
    | [] => Some []
    | f :: fs' => match runOnFunction f, all_functions fs' with Some f', Some fs'' => Some (f' :: fs'') | _, _ => None end
    end.
End Pass.
(** The whole module; the marker gets declared. *)
Definition rust_fixes (m : program) : option program := all_functions m m.

(** lib/smack/SmackInstGenerator.cpp:651-656: a call of [g] in the function [f] *)
Definition marker_call {St} (rust_panics : bool) (should_check : name -> bool) (f g : name) : meaning St :=
  if rust_panics && String.eqb g RUST_PANIC_MARKER && should_check f then Ends AssertFailed
  else if String.eqb g RUST_PANIC_MARKER then Skips   (* a procedure without a body *)
  else Plain.
