(** The Boogie program for a whole program (bit-vector mode, bit-precise
    pointers), and its executions: every function is normalised by the loop pass
    (Model/NormalizeLoops.v), its blocks become the procedure of
    Model/ControlFlow.v, its expressions those of Model/BitVectorCode.v, its loads
    and stores those of Model/PreludeMem.v.
    lib/smack/SmackModuleGenerator.cpp:35-101 (one procedure per function),
    SmackInstGenerator.cpp:148-172 (blocks), 478-540 (load, store), 633-760 (calls),
    share/smack/lib/smack.c:43-55 (__VERIFIER_assume, __VERIFIER_assert).

    Simplifications: one byte-addressed memory region (the split into regions is
    Model/RegionVars.v, C22); operands of an instruction are evaluated before the
    instruction and bound to variables in the evaluated expression (Boogie
    expressions have no effects); an input is [havoc]ed (C42 has the library
    functions around it); the memory is given as the static initialisers leave it
    (C29); exceptions are Model/Exceptions.v. *)
From Coq Require Import ZArith List String Bool.
From Verif.Spec Require Import LLVMInt IR CFG BitVectorIR ByteMemory Encodings Pointers Program.
From Verif.Model Require Import Boogie PreludeInt SmackRepInt PreludeMem BitVectorCode ControlFlow NormalizeLoops.
Import ListNotations.
Open Scope string_scope.
Open Scope list_scope.
Open Scope Z_scope.

(** the prelude: Prelude.cpp, -pointer-width 64 *)
Definition whole_prelude : list fdecl := preludeMem (flags BitVector true) 64.
(** the region of all memory: SmackRep.cpp:260-274 ("$M.0"), Regions.cpp *)
Definition whole_memory : region := Region true false "$M.0".
Definition bmap (m : Z -> Z) : val := memory_map true 64 (Some 8) m.
Definition bindings (l : list (string * val)) : string -> option val :=
  fun x => match find (fun b => String.eqb (fst b) x) l with Some (_, v) => Some v | None => None end.

(** SmackRep.cpp:502-542 *)
Definition load_code (w : access) : expr := load whole_memory (NBv (width w)) (EVar "p").
Definition store_code (w : access) : expr := snd (store whole_memory (NBv (width w)) (EVar "p") (EVar "v")).
(** smack.c:45, 52: the condition of the assume or assert statement;
    Prelude.cpp:1084-1097 declares $0 as the i32 zero *)
Definition check_code : expr := EBin BNeq (EVar "x") (EVar "$0").

Section Executions.
  Context (I : interp) (p : program).
  Definition value_of (r : list (string * val)) (e : expr) (v : val) : Prop :=
    exists fuel, eval whole_prelude I fuel (bindings r) e = Some v.

  (** SmackInstGenerator.cpp:478-540, 633-760.  The values of Boogie's type bvN
      are the numbers below 2^N; two maps with the same elements are equal. *)
  Inductive bexec_op (call : string -> effect) : op -> effect :=
  | Y_load : forall w a m v, is_iN 64 a -> value_of [("$M.0", bmap (proj1_sig m)); ("p", VBv 64 a)] (load_code w) v ->
      bexec_op call (Load w) [VBv 64 a] m [] v m
  | Y_store : forall w a x m m1 m' u, is_iN 64 a -> is_iN (width w) x ->
      value_of [("$M.0", bmap (proj1_sig m)); ("p", VBv 64 a); ("v", VBv (width w) x)] (store_code w) (bmap m1) ->
      (forall q, proj1_sig m' q = m1 q) ->
      bexec_op call (Store w) [VBv (width w) x; VBv 64 a] m [] u m'
  | Y_input : forall w x m, is_iN (width w) x -> bexec_op call (Input w) [] m [] (VBv (width w) x) m
  | Y_assume : forall x m u, value_of [("x", VBv 32 x); ("$0", VBv 32 0)] check_code (VBool true) ->
      bexec_op call Assume [VBv 32 x] m [] u m
  | Y_assert_holds : forall x m u, value_of [("x", VBv 32 x); ("$0", VBv 32 0)] check_code (VBool true) ->
      bexec_op call Assert [VBv 32 x] m [] u m
  | Y_assert_fails : forall x m u, value_of [("x", VBv 32 x); ("$0", VBv 32 0)] check_code (VBool false) ->
      bexec_op call Assert [VBv 32 x] m [Failed] u m
  | Y_call : forall f vs m t v m', call f vs m t v m' -> bexec_op call (Call f) vs m t v m'.

  (** the emitted procedure: SmackModuleGenerator.cpp:51-85 *)
  Definition bruns (ndebug : bool) (call : string -> effect) (F : fn) :=
    bbehaves (trans_typed true ndebug) (eval_emitted true I) (bexec_op call) no_invoke bv_true bv_eq
      (runOnFunction (code F) (loops F)).

  (** Boogie executions with fewer than [n] active calls; local variables and
      $exn start with arbitrary values. *)
  Fixpoint bcalls (ndebug : bool) (n : nat) (f : string) (args : list val) (m : mem) (t : list event) (v : val) (m' : mem) : Prop :=
    match n with
    | O => False
    | S n => exists F r0 exn, find_fn p f = Some F /\ List.length args = List.length (params (code F)) /\
        ((exists r, bruns ndebug (bcalls ndebug n) F args r0 exn m t (Some (Returned r, m')) /\ returns r v) \/
         (bruns ndebug (bcalls ndebug n) F args r0 exn m t None /\ In Failed t))
    end.
  (** The verifier can find a violated assertion. *)
  Definition boogie_can_fail (ndebug : bool) (f : string) (args : list val) (m : mem) : Prop :=
    exists n t v m', bcalls ndebug n f args m t v m' /\ In Failed t.
End Executions.
