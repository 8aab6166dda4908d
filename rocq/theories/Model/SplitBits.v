(** The Boogie program for a whole program with bit-vectors (bit-precise integers
    and pointers) and memory split into regions, as Model/WholeProgram.v but with
    one variable per region: a map from addresses to bytes, a map from addresses
    to values of one type or, for a region that is one scalar global, a value.
    lib/smack/SmackRep.cpp:260-287 (memReg, memType, memoryMaps), 502-542 (load,
    store), lib/smack/Regions.cpp:126-236 (the region of a pointer: Model/Regions.v,
    Model/RegionVars.v).

    Simplifications: as for Model/WholeProgram.v, apart from the regions; what
    sea-dsa says about a pointer is part of the program ([about] of
    Spec/SplitMemory.v).  *)
From Coq Require Import ZArith List String Bool.
From Verif.Spec Require Import LLVMInt IR CFG BitVectorIR ByteMemory Encodings Pointers Program SplitMemory.
From Verif.Model Require Import Boogie Regions RegionVars PreludeInt SmackRepInt PreludeMem BitVectorCode ControlFlow NormalizeLoops WholeProgram SplitMemory.
Import ListNotations.
Open Scope string_scope.
Open Scope list_scope.
Open Scope Z_scope.

(** The values of operands and of the memory variables. *)
Definition with_memory (Ms : variables) (l : list (string * val)) : string -> option val :=
  fun x => match bindings l x with Some v => Some v | None => Some (Ms x) end.

Section Executions.
  Context (I : interp) (dsa : nat -> node_info) (l : list Regions.access) (q : aprogram).
  Definition has_bits (r : string -> option val) (e : expr) (v : val) : Prop :=
    exists fuel, eval whole_prelude I fuel r e = Some v.
  (** Regions.cpp:126-180 has visited all pointers; SmackRep.cpp:505, 532 asks
      for the region of the operand (with --bit-precise). *)
  Definition bit_region (A : Regions.access) : region := region_var true false dsa l A.
  (** SmackRep.cpp:502-542 *)
  Definition load_bits (w : Program.access) (A : Regions.access) : expr :=
    load (bit_region A) (NBv (width w)) (EVar "p").
  Definition store_bits (w : Program.access) (A : Regions.access) : string * expr :=
    store (bit_region A) (NBv (width w)) (EVar "p") (EVar "v").

  (** SmackInstGenerator.cpp:478-540, 633-760 *)
  Inductive vexec_op (call : string -> reffect) : pop -> reffect :=
  | V_load : forall w A a Ms v, is_iN 64 a -> has_bits (with_memory Ms [("p", VBv 64 a)]) (load_bits w A) v ->
      vexec_op call (Pop (Load w) A) [VBv 64 a] Ms [] v Ms
  | V_store : forall w A a x Ms V u, is_iN 64 a -> is_iN (width w) x ->
      has_bits (with_memory Ms [("p", VBv 64 a); ("v", VBv (width w) x)]) (snd (store_bits w A)) V ->
      vexec_op call (Pop (Store w) A) [VBv (width w) x; VBv 64 a] Ms [] u (set_variable Ms (fst (store_bits w A)) V)
  | V_input : forall w A x Ms, is_iN (width w) x -> vexec_op call (Pop (Input w) A) [] Ms [] (VBv (width w) x) Ms
  | V_assume : forall A x Ms u, value_of I [("x", VBv 32 x); ("$0", VBv 32 0)] check_code (VBool true) ->
      vexec_op call (Pop Assume A) [VBv 32 x] Ms [] u Ms
  | V_assert_holds : forall A x Ms u, value_of I [("x", VBv 32 x); ("$0", VBv 32 0)] check_code (VBool true) ->
      vexec_op call (Pop Assert A) [VBv 32 x] Ms [] u Ms
  | V_assert_fails : forall A x Ms u, value_of I [("x", VBv 32 x); ("$0", VBv 32 0)] check_code (VBool false) ->
      vexec_op call (Pop Assert A) [VBv 32 x] Ms [Failed] u Ms
  | V_call : forall f A vs Ms t v Ms', call f vs Ms t v Ms' -> vexec_op call (Pop (Call f) A) vs Ms t v Ms'.

  (** the emitted procedure: SmackModuleGenerator.cpp:51-85 *)
  Definition vruns (ndebug : bool) (call : string -> reffect) (F : afn) :=
    bbehaves (trans_typed true ndebug) (eval_emitted true I) (vexec_op call) no_rinvoke bv_true bv_eq
      (runOnFunction (acode F) (aloops F)).
  Fixpoint vcalls (ndebug : bool) (n : nat) (f : string) (args : list val) (Ms : variables) (t : list event) (v : val) (Ms' : variables) : Prop :=
    match n with
    | O => False
    | S n => exists F r0 exn, find_afn q f = Some F /\ List.length args = List.length (params (acode F)) /\
        ((exists r, vruns ndebug (vcalls ndebug n) F args r0 exn Ms t (Some (Returned r, Ms')) /\ returns r v) \/
         (vruns ndebug (vcalls ndebug n) F args r0 exn Ms t None /\ In Failed t))
    end.
  (** The verifier can find a violated assertion. *)
  Definition split_bits_can_fail (ndebug : bool) (f : string) (args : list val) (Ms : variables) : Prop :=
    exists n t v Ms', vcalls ndebug n f args Ms t v Ms' /\ In Failed t.

  (** The memory [m] of the program in the variables: bytes in a map of bytes,
      values of the accessed types in other maps and variables. *)
  Definition holds_bits (R : region) (V : val) (a : Z) (w : Program.access) (m : mem) : Prop :=
    let k := bytes_needed (width w) in
    if singleton R then exists v, reads_as (bytes_at a) k (proj1_sig m) v /\ V = VBv (width w) (pat (width w) v)
    else if bytewise R then exists mm, V = bmap mm /\ byte_memory mm /\
      forall i, 0 <= i < k -> mm (bytes_at a i) = proj1_sig m (bytes_at a i)
    else exists mm, V = memory_map true 64 (Some (width w)) mm /\
      exists v, reads_as (bytes_at a) k (proj1_sig m) v /\ mm a = pat (width w) v.
  Definition same_bits (ok : expected) (m : mem) (Ms : variables) : Prop :=
    forall a w A, ok a w A = true -> holds_bits (bit_region A) (Ms (reg (bit_region A))) a w m.
End Executions.
