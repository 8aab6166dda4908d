(** Specification: whole programs of functions over integers, and their
    executions: calls (recursive ones too), a byte-addressed memory, inputs,
    assumptions and assertions.  Functions are the control-flow graphs of
    Spec/CFG.v over the integer instructions of Spec/BitVectorIR.v; addresses are
    64-bit integers.  Nothing here refers to SMACK. *)
From Coq Require Import ZArith List String Bool.
From Verif.Spec Require Import LLVMInt IR CFG BitVectorIR ByteMemory.
From Verif.Model Require Import Boogie PreludeInt.
Import ListNotations.
Open Scope list_scope.
Open Scope Z_scope.

(** Types of memory accesses and inputs. *)
Inductive access := I1 | I8 | I16 | I24 | I32 | I40 | I48 | I56 | I64.
Definition width (w : access) : Z :=
  match w with I1 => 1 | I8 => 8 | I16 => 16 | I24 => 24 | I32 => 32 | I40 => 40 | I48 => 48 | I56 => 56 | I64 => 64 end.

(** Instructions with side effects. *)
Inductive op :=
| Load (w : access)          (* of an address *)
| Store (w : access)         (* a value, an address *)
| Input (w : access)         (* any value *)
| Assume | Assert            (* an i32: false is 0 *)
| Call (f : string).

(** [Failed]: an assertion does not hold.  [Undefined]: undefined behaviour. *)
Inductive event := Failed | Undefined.

Definition mem : Type := { m : Z -> Z | byte_memory m }.
Definition bytes_at (a : Z) (i : Z) : Z := (a + i) mod 2 ^ 64.

(** Integer types of the programs: the widths SMACK supports, up to 64 bits. *)
Definition width_ok (n : Z) : Prop := In n INTEGER_SIZES /\ n <= 64.

Record fn := Fn {
  reg_widths : string -> option Z;
  code : func val (typed reg_widths width_ok) op;
  loops : list loop }.
Definition program := list (string * fn).
Fixpoint find_fn (p : program) (f : string) : option fn :=
  match p with [] => None | (g, F) :: p' => if String.eqb f g then Some F else find_fn p' f end.

(** [effect p args m events result m']. *)
Definition effect := list val -> mem -> list event -> val -> mem -> Prop.

(** What the instructions do, given what calls do.  A result nobody is given is
    arbitrary. *)
Inductive exec_op (call : string -> effect) : op -> effect :=
| X_load : forall w a m v, is_iN 64 a -> reads_as (bytes_at a) (bytes_needed (width w)) (proj1_sig m) v ->
    exec_op call (Load w) [VBv 64 a] m [] (VBv (width w) (pat (width w) v)) m
| X_store : forall w a x m m' u, is_iN 64 a -> is_iN (width w) x ->
    written (bytes_at a) (bytes_needed (width w)) x (proj1_sig m) (proj1_sig m') ->
    exec_op call (Store w) [VBv (width w) x; VBv 64 a] m [] u m'
| X_input : forall w x m, is_iN (width w) x -> exec_op call (Input w) [] m [] (VBv (width w) x) m
| X_assume : forall x m u, x <> 0 -> exec_op call Assume [VBv 32 x] m [] u m
| X_assert_holds : forall x m u, x <> 0 -> exec_op call Assert [VBv 32 x] m [] u m
| X_assert_fails : forall m u, exec_op call Assert [VBv 32 0] m [Failed] u m
| X_call : forall f vs m t v m', call f vs m t v m' -> exec_op call (Call f) vs m t v m'.

(** No invokes. *)
Definition no_invoke : op -> list val -> mem -> list event -> val -> bool -> mem -> Prop :=
  fun _ _ _ _ _ _ _ => False.

Definition returns (r : option val) (v : val) : Prop := match r with Some v' => v = v' | None => True end.

Section Executions.
  Context (p : program).
  Definition runs (call : string -> effect) (F : fn) :=
    behaves (typed_den (reg_widths F) width_ok) (exec_op call) no_invoke bv_true bv_eq (code F).
  Definition runs_undefined (call : string -> effect) (F : fn) :=
    undefined_after (typed_den (reg_widths F) width_ok) (exec_op call) no_invoke bv_true bv_eq (code F).

  (** Executions of a call in which fewer than [n] calls are active at any time:
      it returns; or it stops, because an assertion has failed or behaviour is
      undefined (then there is nothing to say about result and memory). *)
  Fixpoint calls (n : nat) (f : string) (args : list val) (m : mem) (t : list event) (v : val) (m' : mem) : Prop :=
    match n with
    | O => False
    | S n => exists F, find_fn p f = Some F /\ List.length args = List.length (params (code F)) /\
        ((exists r, runs (calls n) F args m t (Some (Returned r, m')) /\ returns r v) \/
         (runs (calls n) F args m t None /\ (In Failed t \/ In Undefined t)) \/
         (exists t0, t = t0 ++ [Undefined] /\ runs_undefined (calls n) F args m t0))
    end.

  (** Called with these arguments and this memory, [f] can get to a failing
      assertion / to undefined behaviour, and nothing went wrong before. *)
  Definition can_fail (f : string) (args : list val) (m : mem) : Prop :=
    exists n t v m', calls n f args m (t ++ [Failed]) v m' /\ ~ In Failed t /\ ~ In Undefined t.
  Definition can_be_undefined (f : string) (args : list val) (m : mem) : Prop :=
    exists n t v m', calls n f args m (t ++ [Undefined]) v m' /\ ~ In Failed t /\ ~ In Undefined t.
  Definition can_return (f : string) (args : list val) (m : mem) (v : val) (m' : mem) : Prop :=
    exists n, calls n f args m [] v m'.
End Executions.

(** What LLVM and the passes before the loop pass establish. *)
Record well_formed (p : program) : Prop := {
  wf_ssa : forall f F, In (f, F) p -> ssa_form (typed_regs (reg_widths F) width_ok) (code F);
  wf_lowered : forall f F, In (f, F) p -> lowered (code F);
  wf_original : forall f F, In (f, F) p -> original (code F);
  wf_loops : forall f F, In (f, F) p -> loop_forest (code F) (loops F) }.
