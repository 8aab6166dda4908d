(** The Boogie program for a whole program with SMACK's default flags (unbounded
    integers, integer pointers), and its executions: as Model/WholeProgram.v, with
    the expressions of the unbounded-integer encoding and memory maps of integers.
    lib/smack/SmackModuleGenerator.cpp:35-101 (one procedure per function),
    SmackInstGenerator.cpp:148-172 (blocks), 478-540 (load, store), 633-760 (calls),
    lib/smack/Regions.cpp:52, 81 (no byte-wise access without --bit-precise),
    share/smack/lib/smack.c:43-55 (__VERIFIER_assume, __VERIFIER_assert),
    share/smack/lib/smack.c:1414-1604 (the nondet functions: C42).

    Simplifications: as for Model/WholeProgram.v. *)
From Coq Require Import ZArith List String Bool.
From Verif.Spec Require Import LLVMInt IR CFG BitVectorIR ByteMemory Encodings Pointers Program.
From Verif.Model Require Import Boogie PreludeInt SmackRepInt PreludeMem ControlFlow NormalizeLoops WholeProgram.
Import ListNotations.
Open Scope string_scope.
Open Scope list_scope.
Open Scope Z_scope.

(** share/smack/top.py:440-450, 736-744: the default of --integer-encoding and of
    --pointer-encoding *)
Definition default_flags : opts := flags UnboundedInteger false.
Definition default_prelude : list fdecl := preludeMem default_flags 64.
(** SmackRep.cpp:260-274 *)
Definition default_memory : region := Region false false "$M.0".
Definition imap (m : Z -> Z) : val := memory_map false 64 None m.

(** SmackInstGenerator.cpp:339-378, 583-632 (instructions), SmackRep::expr
    (operands); [None]: an assertion inside LLVM fails. *)
Definition trans_default {G W} (ndebug : bool) (e : typed G W) : option expr :=
  match proj1_sig e with
  | Op v => expr_of default_flags ndebug v false false
  | Instr i => inst_expr default_flags ndebug i
  end.
Definition eval_default (I : interp) (r : string -> val) (t : option expr) : option val :=
  match t with
  | Some e => eval (preludeInt default_flags) I 5 (fun x => Some (r x)) e
  | None => None
  end.

(** SmackRep.cpp:502-542 *)
Definition load_int (w : access) : expr := load default_memory (intType default_flags (width w)) (EVar "p").
Definition store_int (w : access) : expr := snd (store default_memory (intType default_flags (width w)) (EVar "p") (EVar "v")).

(** The condition of a branch is compared with 1: SmackInstGenerator.cpp:250-270 *)
Definition int_eq (a b : val) : bool := match a, b with VInt x, VInt y => x =? y | _, _ => false end.
Definition int_true : val := VInt 1.

Definition ieffect := list val -> (Z -> Z) -> list event -> val -> (Z -> Z) -> Prop.
Definition no_iinvoke : op -> list val -> (Z -> Z) -> list event -> val -> bool -> (Z -> Z) -> Prop :=
  fun _ _ _ _ _ _ _ => False.

Section Executions.
  Context (I : interp) (p : program).
  Definition int_value_of (r : list (string * val)) (e : expr) (v : val) : Prop :=
    exists fuel, eval default_prelude I fuel (bindings r) e = Some v.

  (** SmackInstGenerator.cpp:478-540, 633-760.  An input is in the range of its
      type: the nondet functions of smack.c assume so. *)
  Inductive iexec_op (call : string -> ieffect) : op -> ieffect :=
  | Z_load : forall w a m v, int_value_of [("$M.0", imap m); ("p", VInt a)] (load_int w) v ->
      iexec_op call (Load w) [VInt a] m [] v m
  | Z_store : forall w a x m m1 m' u,
      int_value_of [("$M.0", imap m); ("p", VInt a); ("v", VInt x)] (store_int w) (imap m1) ->
      (forall q, m' q = m1 q) ->
      iexec_op call (Store w) [VInt x; VInt a] m [] u m'
  | Z_input : forall w x m, in_range (width w) x -> iexec_op call (Input w) [] m [] (VInt x) m
  | Z_assume : forall x m u, int_value_of [("x", VInt x); ("$0", VInt 0)] check_code (VBool true) ->
      iexec_op call Assume [VInt x] m [] u m
  | Z_assert_holds : forall x m u, int_value_of [("x", VInt x); ("$0", VInt 0)] check_code (VBool true) ->
      iexec_op call Assert [VInt x] m [] u m
  | Z_assert_fails : forall x m u, int_value_of [("x", VInt x); ("$0", VInt 0)] check_code (VBool false) ->
      iexec_op call Assert [VInt x] m [Failed] u m
  | Z_call : forall f vs m t v m', call f vs m t v m' -> iexec_op call (Call f) vs m t v m'.

  (** the emitted procedure: SmackModuleGenerator.cpp:51-85 *)
  Definition iruns (ndebug : bool) (call : string -> ieffect) (F : fn) :=
    bbehaves (trans_default ndebug) (eval_default I) (iexec_op call) no_iinvoke int_true int_eq
      (runOnFunction (code F) (loops F)).

  Fixpoint icalls (ndebug : bool) (n : nat) (f : string) (args : list val) (m : Z -> Z) (t : list event) (v : val) (m' : Z -> Z) : Prop :=
    match n with
    | O => False
    | S n => exists F r0 exn, find_fn p f = Some F /\ List.length args = List.length (params (code F)) /\
        ((exists r, iruns ndebug (icalls ndebug n) F args r0 exn m t (Some (Returned r, m')) /\ returns r v) \/
         (iruns ndebug (icalls ndebug n) F args r0 exn m t None /\ In Failed t))
    end.
  (** The verifier can find a violated assertion. *)
  Definition default_can_fail (ndebug : bool) (f : string) (args : list val) (m : Z -> Z) : Prop :=
    exists n t v m', icalls ndebug n f args m t v m' /\ In Failed t.
End Executions.
