(** The Boogie program for a whole program with memory safety checks (--check
    memory-safety assertions, bit-vector mode, bit-precise pointers, the default
    memory model no-reuse-impls), and its executions.  As Model/WholeProgram.v,
    with the pass of lib/smack/MemorySafetyChecker.cpp
    (Model/MemorySafetyChecker.v) after the loop pass
    (tools/llvm2bpl/llvm2bpl.cpp:199, 217-219), and with the allocator of
    share/smack/lib/smack.c (Model/Allocator.v) in the state.

    Simplifications: those of Model/WholeProgram.v; all functions are checked (the
    default of --checked-functions); the casts of the arguments of the check to
    i8* are not modelled (C28); the size of a stack allocation is one operand
    (SmackRep.cpp:292-299 multiplies the size of the type by the count, C24);
    memset and memcpy are C28. *)
From Coq Require Import ZArith List String Bool.
From Verif.Spec Require Import LLVMInt IR CFG BitVectorIR ByteMemory Encodings Pointers Program SafeProgram.
From Verif.Model Require Import Boogie PreludeInt SmackRepInt PreludeMem BitVectorCode ControlFlow NormalizeLoops WholeProgram.
From Verif.Model Require Allocator MemorySafetyChecker.
Import ListNotations.
Open Scope string_scope.
Open Scope list_scope.
Open Scope Z_scope.

(** Instructions after the pass: [Check] is a call of __SMACK_check_memory_safety
    (address, size), [LeakCheck] one of __SMACK_check_memory_leak. *)
Inductive mop := Src (o : sop) | Check | LeakCheck.

(** accessSizeAsPointer – MemorySafetyChecker.cpp:73-93 *)
Definition access_size {W} (w : access) : typed W width_ok.
Proof.
  exists (Op (VConst 64 (MemorySafetyChecker.getTypeStoreSize (width w)))).
  abstract (destruct w; unfold wt_operand, width_ok, is_iN; cbn; repeat split; try reflexivity; try discriminate; tauto).
Defined.

Section Pass.
  Context {W : string -> option Z}.
  Notation exp := (typed W width_ok).
  (** visitLoadInst, visitStoreInst – MemorySafetyChecker.cpp:95-101 *)
  Definition visit_stmt (s : stmt exp sop) : list (stmt exp mop) :=
    match s with
    | SAssign x e => [SAssign x e]
    | SPrim x (Base (Load w)) [p] => [SPrim None Check [p; access_size w]; SPrim x (Src (Base (Load w))) [p]]
    | SPrim x (Base (Store w)) [v; p] => [SPrim None Check [p; access_size w]; SPrim x (Src (Base (Store w))) [v; p]]
    | SPrim x o es => [SPrim x (Src o) es]
    end.
  Definition visit_term (t : term val exp sop) : term val exp mop :=
    match t with
    | TRet e => TRet e
    | TBr l => TBr l
    | TCond e l1 l2 => TCond e l1 l2
    | TSwitch e d c => TSwitch e d c
    | TInvoke x o es n u => TInvoke x (Src o) es n u
    | TResume e => TResume e
    | TUnreachable => TUnreachable
    end.
  (** visitReturnInst – :66-71: before the return of an entry point *)
  Definition leak_check_before (entry_point : bool) (t : term val exp sop) : list (stmt exp mop) :=
    match t with TRet _ => if entry_point then [SPrim None LeakCheck []] else [] | _ => [] end.
  Definition visit_block (entry_point : bool) (b : block val exp sop) : block val exp mop :=
    Block (phis b) (flat_map visit_stmt (body b) ++ leak_check_before entry_point (bterm b)) (visit_term (bterm b)).
  (** runOnFunction – :56-64 *)
  Definition instrument (entry_point : bool) (f : func val exp sop) : func val exp mop :=
    Func (params f) (entry f) (map (fun b => (fst b, visit_block entry_point (snd b))) (blocks f)).
End Pass.

(** Memory and the state of the allocator. *)
Definition bsmem : Type := mem * Allocator.state.
Definition bseffect := list val -> bsmem -> list sevent -> val -> bsmem -> Prop.

Section Executions.
  Context (I : interp) (entries : list string) (p : sprogram).
  (** $base and $Size *)
  Context (R : Allocator.rigid).
  Notation astep := (Allocator.step true 64 Allocator.Impls true R).

  (** SmackInstGenerator.cpp:478-540, 633-760; smack.c:1632-1646 (the check),
      1651-1660 ($malloc), 1623-1628 ($alloc), 1695-1707 ($free), 1877-1881 (the
      leak check).  An assertion that is violated gives an event; what the
      procedure does after it is not needed. *)
  Inductive bexec_sop (call : string -> bseffect) : mop -> bseffect :=
  | V_base : forall o vs m s t v m', bexec_op I no_call o vs m t v m' ->
      bexec_sop call (Src (Base o)) vs (m, s) (map lift t) v (m', s)
  | V_call : forall f vs st t v st', call f vs st t v st' -> bexec_sop call (Src (Base (Call f))) vs st t v st'
  | V_check : forall a n m s u, is_iN 64 a -> is_iN 64 n ->
      Allocator.deref_check true 64 Allocator.Impls R s (signed 64 a) (signed 64 n) ->
      bexec_sop call Check [VBv 64 a; VBv 64 n] (m, s) [] u (m, s)
  | V_check_fails : forall a n m s u, is_iN 64 a -> is_iN 64 n ->
      ~ Allocator.deref_check true 64 Allocator.Impls R s (signed 64 a) (signed 64 n) ->
      bexec_sop call Check [VBv 64 a; VBv 64 n] (m, s) [Bad (BadAccess (signed 64 a) (signed 64 n))] u (m, s)
  | V_malloc : forall n q m s s', is_iN 64 n -> is_iN 64 q ->
      let e := Allocator.Malloc (signed 64 n) (signed 64 q) in
      astep s e s' -> bexec_sop call (Src Malloc) [VBv 64 n] (m, s) [Memory e] (VBv 64 q) (m, s')
  | V_alloca : forall n q m s s', is_iN 64 n -> is_iN 64 q ->
      let e := Allocator.Alloca (signed 64 n) (signed 64 q) in
      astep s e s' -> bexec_sop call (Src Alloca) [VBv 64 n] (m, s) [Memory e] (VBv 64 q) (m, s')
  | V_free : forall q m s s' u, is_iN 64 q ->
      let e := Allocator.Free (signed 64 q) in
      astep s e s' -> bexec_sop call (Src Free) [VBv 64 q] (m, s) [Memory e] u (m, s')
  | V_free_fails : forall q m s u, is_iN 64 q -> ~ Allocator.free_check R s (signed 64 q) ->
      bexec_sop call (Src Free) [VBv 64 q] (m, s) [Bad (BadFree (signed 64 q))] u (m, s)
  | V_leak : forall m s u, Allocator.leak_check s -> bexec_sop call LeakCheck [] (m, s) [] u (m, s)
  | V_leak_fails : forall m s u, ~ Allocator.leak_check s -> bexec_sop call LeakCheck [] (m, s) [Bad Leak] u (m, s).

  (** the procedure emitted for the function named [f] *)
  Definition checked (f : string) (F : sfn) : func val (typed (sreg_widths F) width_ok) mop :=
    instrument (MemorySafetyChecker.isEntryPoint entries f) (runOnFunction (scode F) (sloops F)).
  Definition bsruns (ndebug : bool) (call : string -> bseffect) (f : string) (F : sfn) :=
    bbehaves (trans_typed true ndebug) (eval_emitted true I) (bexec_sop call) no_invokes bv_true bv_eq (checked f F).

  (** Boogie executions with fewer than [n] active calls *)
  Fixpoint bscalls (ndebug : bool) (n : nat) (f : string) (args : list val) (st : bsmem) (t : list sevent) (v : val) (st' : bsmem) : Prop :=
    match n with
    | O => False
    | S n => exists F r0 exn, find_sfn p f = Some F /\ List.length args = List.length (params (scode F)) /\
        ((exists r, bsruns ndebug (bscalls ndebug n) f F args r0 exn st t (Some (Returned r, st')) /\ returns r v) \/
         (bsruns ndebug (bscalls ndebug n) f F args r0 exn st t None /\ ~ quiet t))
    end.
End Executions.

(** The verifier can find a violated assertion: for some $base and $Size, in an
    execution from a state in which the program can start (smack.c:1668-1675,
    1884-1891). *)
Definition boogie_can_go_wrong (I : interp) (G : list (Z * Z)) (entries : list string) (p : sprogram) (ndebug : bool)
    (f : string) (args : list val) (m : mem) : Prop :=
  exists R s n t v st', Allocator.starts true 64 Allocator.Impls true R G s /\
    bscalls I entries p R ndebug n f args (m, s) t v st' /\ exists r, In (Bad r) t.
