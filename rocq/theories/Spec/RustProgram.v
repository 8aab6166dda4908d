(** Specification for C58: programs with Rust's runtime functions.

    A module is a list of functions of basic blocks.  Whatever a call is not concerned with
    is an opaque instruction with an arbitrary meaning.  The interpreter is given the
    meaning of the calls of some functions: Rust's runtime functions in the program rustc
    produced, and the markers in the program that is verified. *)
From Coq Require Import ZArith String List Bool.
Import ListNotations.
Open Scope string_scope.
Open Scope list_scope.
Open Scope Z_scope.

Definition name := string.
Inductive operand := OConst (z : Z) | OReg (r : nat) | OFun (f : name).
Inductive callee := Direct (f : name) | Indirect (o : operand).
Inductive instr :=
| ICall (r : option nat) (c : callee) (args : list operand)
| IAdd (r : option nat) (a b : operand)
| IOther (k : nat).
Inductive term :=
| TRet (o : operand)
| TBr (c : operand) (l1 l2 : nat)
| TInvoke (r : option nat) (c : callee) (args : list operand) (normal unwind : nat)
| TUnreachable.
Definition block : Type := list instr * term.
Record func := Func { fname : name; fbody : option (list block) }.
Definition program := list func.
Definition lookup (m : program) (f : name) : option func := find (fun g => String.eqb (fname g) f) m.

Section Sem.
  Context {St : Type}.
  Inductive outcome :=
  | Returned (v : Z) (s : St)
  | PanickedIn (f : name)          (* a panic, raised in the function f *)
  | AssertFailed
  | Infeasible                     (* the execution is not considered *)
  | Stuck                          (* undefined *)
  | OutOfFuel.

  (** What calling a function means *)
  Inductive meaning :=
  | Plain                          (* run its body *)
  | Ends (o : outcome)             (* the execution ends *)
  | Skips                          (* nothing happens *)
  | Is (f : name)                  (* run another function *)
  | RunsMain.                      (* run the function passed as first argument, then return 0 *)

  Definition regs := nat -> Z.
  Definition assign (r : option nat) (v : Z) (rs : regs) : regs :=
    match r with Some k => fun j => if Nat.eqb j k then v else rs j | None => rs end.
  (** Meaning of opaque instructions, of functions without a body, and of function pointers *)
  Context (other : nat -> regs -> St -> regs * St) (ext : name -> list Z -> St -> outcome) (addr : name -> Z) (resolve : Z -> option name).
  (** Meaning of the calls of a function (second argument) in a function (first argument) *)
  Context (means : name -> name -> meaning) (m : program).

  Definition value (rs : regs) (o : operand) : Z :=
    match o with OConst z => z | OReg r => rs r | OFun f => addr f end.
  Definition target (rs : regs) (c : callee) : option name :=
    match c with Direct f => Some f | Indirect o => resolve (value rs o) end.

  Inductive task := DoCall (f : name) (args : list Z) | DoBlock (f : name) (bs : list block) (l : nat) (rs : regs).
  Fixpoint exec (fuel : nat) (t : task) (s : St) {struct fuel} : outcome :=
    match fuel with
    | O => OutOfFuel
    | S n =>
        let call (f : name) (rs : regs) (c : callee) (args : list operand) (s : St) : outcome :=
          match target rs c with
          | None => Stuck
          | Some g =>
              match means f g with
              | Plain => exec n (DoCall g (map (value rs) args)) s
              | Is g' => exec n (DoCall g' (map (value rs) args)) s
              | Ends o => o
              | Skips => Returned 0 s
              | RunsMain => match args with
                            | OFun h :: _ => match exec n (DoCall h []) s with Returned _ s' => Returned 0 s' | o => o end
                            | _ => Stuck
                            end
              end
          end in
        match t with
        | DoCall f args =>
            match lookup m f with
            | Some (Func _ (Some bs)) => exec n (DoBlock f bs 0 (fun k => nth k args 0)) s
            | _ => ext f args s
            end
        | DoBlock f bs l rs =>
            match nth_error bs l with
            | None => Stuck
            | Some (is, t) =>
                (fix run (is : list instr) (rs : regs) (s : St) : outcome :=
                   match is with
                   | ICall r c args :: is' =>
                       match call f rs c args s with Returned v s' => run is' (assign r v rs) s' | o => o end
                   | IAdd r a b :: is' => run is' (assign r (value rs a + value rs b) rs) s
                   | IOther k :: is' => let (rs', s') := other k rs s in run is' rs' s'
                   | [] =>
                       match t with
                       | TRet o => Returned (value rs o) s
                       | TBr c l1 l2 => exec n (DoBlock f bs (if value rs c =? 0 then l2 else l1) rs) s
                       | TInvoke r c args normal _ =>
                           match call f rs c args s with Returned v s' => exec n (DoBlock f bs normal (assign r v rs)) s' | o => o end
                       | TUnreachable => Infeasible
                       end
                   end) is rs s
            end
        end
    end.
End Sem.
Arguments outcome : clear implicits. Arguments meaning : clear implicits.

(** ** Names.  A mangled name is a path, then 17h, sixteen digits of a hash and E. *)
Definition hashed (path n : name) : bool :=
  String.eqb (substring 0 (String.length path) n) path && Nat.eqb (String.length n) (String.length path + 17).
Definition contains (part n : name) : bool := match index 0 part n with Some _ => true | None => false end.

Definition panic_function (n : name) : bool :=
  existsb (fun p => hashed p n)
    ["_ZN3std9panicking15begin_panic_fmt17h"; "_ZN4core9panicking5panic17h"; "_ZN3std9panicking11begin_panic17h";
     "_ZN4core9panicking9panic_fmt17h"; "_ZN4core9panicking18panic_bounds_check17h"].
Definition lang_start (n : name) : bool := contains "_ZN3std2rt10lang_start" n.
Definition lang_start_internal (n : name) : bool := contains "_ZN3std2rt19lang_start_internal" n.
Definition smack_name (n : name) : bool := contains "__SMACK_" n.
Definition mangled (path n : name) : bool := hashed path n || String.eqb n path.
(** The allocation functions of Rust and their implementation in SMACK's library *)
Definition allocator (n : name) : option name :=
  if mangled "_ZN5alloc5alloc5alloc17h" n then Some "__smack_rust_std_alloc"
  else if mangled "_ZN5alloc5alloc12alloc_zeroed17h" n then Some "__smack_rust_std_alloc_zeroed"
  else if mangled "_ZN5alloc5alloc7dealloc17h" n then Some "__smack_rust_std_dealloc"
  else if mangled "_ZN5alloc5alloc7realloc17h" n then Some "__smack_rust_std_realloc"
  else if String.eqb n "__rust_alloc" then Some "__smack_rust_prim_alloc"
  else if String.eqb n "__rust_alloc_zeroed" then Some "__smack_rust_prim_alloc_zeroed"
  else if String.eqb n "__rust_dealloc" then Some "__smack_rust_prim_dealloc"
  else if String.eqb n "__rust_realloc" then Some "__smack_rust_prim_realloc"
  else None.
Definition marker : name := "__SMACK_RUST_PANIC_MARKER".

(** ** Rust's meaning: panic functions panic, lang_start runs the main function it is
    given, allocation is the library's. *)
Definition rust_means {St} (f g : name) : meaning St :=
  if panic_function g then Ends (PanickedIn f)
  else if lang_start g then RunsMain
  else match allocator g with Some g' => Is g' | None => Plain end.
(** ** The verifier's meaning: the marker is an assertion that fails, in the functions
    that are checked; otherwise nothing happens. *)
Definition verifier_means {St} (checked : name -> bool) (f g : name) : meaning St :=
  if String.eqb g marker then if checked f then Ends AssertFailed else Skips else Plain.

(** What the verifier is to find: a failing assertion for a panic in a checked function;
    executions that panic elsewhere are not considered. *)
Definition expected {St} (checked : name -> bool) (o : outcome St) : outcome St :=
  match o with PanickedIn f => if checked f then AssertFailed else Infeasible | _ => o end.

(** ** The programs considered *)
Definition runtime (g : name) : bool := panic_function g || lang_start g || lang_start_internal g.
Definition special (g : name) : bool := runtime g || match allocator g with Some _ => true | None => false end || String.eqb g marker.
(** A panic is the end of its block. *)
Fixpoint calls_ok (in_main in_smack : bool) (is : list instr) (t : term) : bool :=
  match is with
  | [] => match t with TInvoke _ (Direct g) _ _ _ => negb (special g) | _ => true end
  | ICall r (Direct g) args :: is' =>
      if String.eqb g marker || lang_start_internal g then false
      else if panic_function g then negb in_smack && negb (lang_start g) && match is', t with [], TUnreachable => true | _, _ => false end
      else if lang_start g then in_main && match args with OFun h :: _ => negb (special h) | _ => false end && calls_ok in_main in_smack is' t
      else match allocator g with Some _ => negb in_smack | None => true end && calls_ok in_main in_smack is' t
  | _ :: is' => calls_ok in_main in_smack is' t
  end.
Definition func_ok (f : func) : bool :=
  match fbody f with
  | Some bs => runtime (fname f) && negb (smack_name (fname f)) ||
      forallb (fun b => calls_ok (String.eqb (fname f) "main") (smack_name (fname f)) (fst b) (snd b)) bs
  | None => true
  end.
Definition program_ok (m : program) : Prop :=
  NoDup (map fname m) /\ forallb func_ok m = true /\ lookup m marker = None /\ (forall f, In f m -> fname f <> "") /\
  (forall n g, allocator n = Some g -> lookup m g <> None).
