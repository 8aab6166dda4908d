(** The Boogie program for a whole program with SMACK's default flags and memory
    split into regions, as Model/DefaultMode.v but with one variable per region:
    a map from addresses to integers or, for a region that is one scalar global,
    an integer.
    lib/smack/SmackRep.cpp:260-287 (memReg, memType, memoryMaps), 502-542 (load,
    store), lib/smack/Regions.cpp:126-236 (the region of a pointer: Model/Regions.v,
    Model/RegionVars.v).

    Simplifications: as for Model/DefaultMode.v; what sea-dsa says about a pointer
    is part of the program ([about] of Spec/SplitMemory.v).  *)
From Coq Require Import ZArith List String Bool.
From Verif.Spec Require Import LLVMInt IR CFG BitVectorIR ByteMemory Encodings Pointers Program SplitMemory.
From Verif.Model Require Import Boogie Regions RegionVars PreludeInt SmackRepInt PreludeMem ControlFlow NormalizeLoops WholeProgram DefaultMode.
Import ListNotations.
Open Scope string_scope.
Open Scope list_scope.
Open Scope Z_scope.

(** The memory variables of the Boogie program: SmackRep.cpp:281-287 *)
Definition variables := string -> val.
Definition set_variable (Ms : variables) (x : string) (v : val) : variables :=
  fun y => if String.eqb y x then v else Ms y.
Definition reffect := list val -> variables -> list event -> val -> variables -> Prop.
Definition no_rinvoke : pop -> list val -> variables -> list event -> val -> bool -> variables -> Prop :=
  fun _ _ _ _ _ _ _ => False.

Section Executions.
  Context (I : interp) (dsa : nat -> node_info) (l : list Regions.access) (q : aprogram).
  (** Regions.cpp:126-180 has visited all pointers; SmackRep.cpp:505, 532 asks
      for the region of the operand (no --bit-precise). *)
  Definition region_at (A : Regions.access) : region := region_var false false dsa l A.
  (** SmackRep.cpp:502-542 *)
  Definition load_split (w : Program.access) (A : Regions.access) : expr :=
    load (region_at A) (intType default_flags (width w)) (EVar "p").
  Definition store_split (w : Program.access) (A : Regions.access) : string * expr :=
    store (region_at A) (intType default_flags (width w)) (EVar "p") (EVar "v").

  (** SmackInstGenerator.cpp:478-540, 633-760 *)
  Inductive rexec_op (call : string -> reffect) : pop -> reffect :=
  | R_load : forall w A a Ms v, let x := reg (region_at A) in
      int_value_of I [(x, Ms x); ("p", VInt a)] (load_split w A) v ->
      rexec_op call (Pop (Load w) A) [VInt a] Ms [] v Ms
  | R_store : forall w A a z Ms V u, let x := reg (region_at A) in
      int_value_of I [(x, Ms x); ("p", VInt a); ("v", VInt z)] (snd (store_split w A)) V ->
      rexec_op call (Pop (Store w) A) [VInt z; VInt a] Ms [] u (set_variable Ms (fst (store_split w A)) V)
  | R_input : forall w A x Ms, in_range (width w) x -> rexec_op call (Pop (Input w) A) [] Ms [] (VInt x) Ms
  | R_assume : forall A x Ms u, int_value_of I [("x", VInt x); ("$0", VInt 0)] check_code (VBool true) ->
      rexec_op call (Pop Assume A) [VInt x] Ms [] u Ms
  | R_assert_holds : forall A x Ms u, int_value_of I [("x", VInt x); ("$0", VInt 0)] check_code (VBool true) ->
      rexec_op call (Pop Assert A) [VInt x] Ms [] u Ms
  | R_assert_fails : forall A x Ms u, int_value_of I [("x", VInt x); ("$0", VInt 0)] check_code (VBool false) ->
      rexec_op call (Pop Assert A) [VInt x] Ms [Failed] u Ms
  | R_call : forall f A vs Ms t v Ms', call f vs Ms t v Ms' -> rexec_op call (Pop (Call f) A) vs Ms t v Ms'.

  (** the emitted procedure: SmackModuleGenerator.cpp:51-85 *)
  Definition rruns (ndebug : bool) (call : string -> reffect) (F : afn) :=
    bbehaves (trans_default ndebug) (eval_default I) (rexec_op call) no_rinvoke int_true int_eq
      (runOnFunction (acode F) (aloops F)).
  Fixpoint rcalls (ndebug : bool) (n : nat) (f : string) (args : list val) (Ms : variables) (t : list event) (v : val) (Ms' : variables) : Prop :=
    match n with
    | O => False
    | S n => exists F r0 exn, find_afn q f = Some F /\ List.length args = List.length (params (acode F)) /\
        ((exists r, rruns ndebug (rcalls ndebug n) F args r0 exn Ms t (Some (Returned r, Ms')) /\ returns r v) \/
         (rruns ndebug (rcalls ndebug n) F args r0 exn Ms t None /\ In Failed t))
    end.
  (** The verifier can find a violated assertion. *)
  Definition split_can_fail (ndebug : bool) (f : string) (args : list val) (Ms : variables) : Prop :=
    exists n t v Ms', rcalls ndebug n f args Ms t v Ms' /\ In Failed t.

  (** The memory [m] of the program in the variables: the signed value of each
      object, at the signed value of its address in the map of its region, or as
      the value of the variable. *)
  Definition holds (R : region) (V : val) (a z : Z) : Prop :=
    if singleton R then V = VInt z else exists M, V = imap M /\ M (int_value 64 a) = z.
  Definition same_regions (ok : expected) (m : mem) (Ms : variables) : Prop :=
    forall a w A v, ok a w A = true -> reads_as (bytes_at a) (bytes_needed (width w)) (proj1_sig m) v ->
      holds (region_at A) (Ms (reg (region_at A))) a (int_value (width w) (pat (width w) v)).
End Executions.
