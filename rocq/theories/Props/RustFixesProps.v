(** C58: replacing Rust's runtime functions keeps the behaviour of the program.
    Specification: Spec/RustProgram.v.  Model: Model/RustFixes.v. *)
From Coq Require Import ZArith String List Bool Lia.
From Verif.Spec Require Import RustProgram.
From Verif.Model Require Import RustFixes.
From Verif.Proofs Require Import RustFixesProofs.
Import ListNotations.
Open Scope string_scope.
Open Scope list_scope.
Open Scope Z_scope.

(** The pass does not fail on the programs considered. *)
Theorem C58_defined m : program_ok m -> exists m', rust_fixes m = Some m'.
Proof.
  intros [_ [H [_ [NE A]]]]. destruct (all_ok m m A NE H) as [m' [E _]]. exists m'. exact E.
Qed.
Print Assumptions C58_defined.

Section Behaviour.
  (** Memory; the meaning of opaque instructions; functions without a body, which do not
      panic; function pointers, which do not lead to the runtime functions. *)
  Context {St : Type} (other : nat -> regs -> St -> regs * St) (ext : name -> list Z -> St -> outcome St) (addr : name -> Z) (resolve : Z -> option name).
  Context (Ext : forall f args s g, ext f args s <> PanickedIn g) (Res : forall p g, resolve p = Some g -> special g = false).
  Context (rust_panics : bool) (should_check : name -> bool) (m m' : program) (Ok : program_ok m) (Fixed : rust_fixes m = Some m').
  Notation runs_rust := (exec other ext addr resolve rust_means m).
  Notation runs_verified := (exec other ext addr resolve (marker_call rust_panics should_check) m').

  (** Every function of the program ends the same way, step by step: a panic is a failing
      assertion if panics are checked in the function that panics. *)
  Theorem C58_behaviour n f args s : runtime f = false ->
    runs_verified n (DoCall f args) s = expected (fun g => rust_panics && should_check g) (runs_rust n (DoCall f args) s).
  Proof.
    intros R. destruct Ok as [_ [H [_ [NE A]]]]. destruct (all_ok m m A NE H) as [m2 [E F]].
    assert (X : Some m2 = Some m') by (rewrite <- E; exact Fixed). injection X as ->.
    apply exec_rel; auto. cbn. auto.
  Qed.
  (** An assertion fails in the verified program exactly if one fails in the Rust program,
      or it panics where panics are checked. *)
  Theorem C58_panics f args s : runtime f = false ->
    ((exists n, runs_verified n (DoCall f args) s = AssertFailed) <->
     (exists n, runs_rust n (DoCall f args) s = AssertFailed \/
        exists g, runs_rust n (DoCall f args) s = PanickedIn g /\ rust_panics = true /\ should_check g = true)).
  Proof.
    intros R. split; intros [n H]; exists n; rewrite C58_behaviour in * by auto.
    - destruct (runs_rust n (DoCall f args) s) as [v s'|g| | | |]; cbn in H; try discriminate; auto.
      destruct rust_panics, (should_check g) eqn:E; try discriminate. right. eauto.
    - destruct H as [->|[g [-> [E1 E2]]]]; [reflexivity|]. cbn. rewrite E1, E2. reflexivity.
  Qed.
  (** Executions that return are the same, with the same result and memory. *)
  Theorem C58_returns f args s n v s' : runtime f = false ->
    (runs_verified n (DoCall f args) s = Returned v s' <-> runs_rust n (DoCall f args) s = Returned v s').
  Proof.
    intros R. rewrite C58_behaviour by auto. destruct (runs_rust n (DoCall f args) s) as [w t|g| | | |]; cbn; split; auto; try discriminate;
      destruct (rust_panics && should_check g); discriminate.
  Qed.
End Behaviour.
Print Assumptions C58_behaviour.
Print Assumptions C58_panics.
Print Assumptions C58_returns.

(** A marker is a failing assertion exactly where panics are checked. *)
Theorem C58_marker {St} rust_panics should_check f g :
  @marker_call St rust_panics should_check f g = verifier_means (fun f => rust_panics && should_check f) f g.
Proof.
  unfold marker_call, verifier_means. change RUST_PANIC_MARKER with marker. destruct (String.eqb g marker).
  - rewrite andb_true_r. destruct (rust_panics && should_check f); reflexivity.
  - rewrite andb_false_r. reflexivity.
Qed.
Print Assumptions C58_marker.

(** ** A program *)
Definition hash : string := "0123456789abcdefE".
Definition ex_panic : name := ("_ZN4core9panicking5panic17h" ++ hash)%string.
Definition ex_start : name := ("_ZN3std2rt10lang_start17h" ++ hash)%string.
Definition ex_alloc : name := ("_ZN5alloc5alloc5alloc17h" ++ hash)%string.
Definition lib (n : name) : func := Func n (Some [([], TRet (OConst 7))]).
Definition libs : program := map lib
  ["__smack_rust_std_alloc"; "__smack_rust_std_alloc_zeroed"; "__smack_rust_std_dealloc"; "__smack_rust_std_realloc";
   "__smack_rust_prim_alloc"; "__smack_rust_prim_alloc_zeroed"; "__smack_rust_prim_dealloc"; "__smack_rust_prim_realloc"].
(** fn main() { let p = alloc(8, 8); if nondet() == p { panic!() } } *)
Definition ex_program (real : list block) : program :=
  [Func "main" (Some [([ICall (Some 0%nat) (Direct ex_start) [OFun "real_main"; OReg 0; OReg 1]], TRet (OReg 0))]);
   Func "real_main" (Some real);
   Func ex_start (Some [([IOther 1], TRet (OConst 3))]);
   Func ex_panic (Some [([IOther 2], TUnreachable)]);
   Func "nondet" None] ++ libs.
Definition ex_body : list block :=
  [([ICall (Some 0%nat) (Direct ex_alloc) [OConst 8; OConst 8]; ICall (Some 1%nat) (Direct "nondet") []; IOther 0], TBr (OReg 2) 1 2);
   ([ICall None (Direct ex_panic) []], TUnreachable);
   ([], TRet (OConst 0))].
(** The memory is what nondet gives; the opaque instruction compares the registers 0 and 1. *)
Definition ex_other (k : nat) (rs : regs) (s : Z) : regs * Z :=
  match k with O => (assign (Some 2%nat) (if rs 0%nat =? rs 1%nat then 1 else 0) rs, s) | _ => (rs, s) end.
Definition ex_ext (f : name) (args : list Z) (s : Z) : outcome Z := Returned s s.
Definition ex_run (means : name -> name -> meaning Z) (m : option program) (s : Z) : option (outcome Z) :=
  match m with Some m => Some (exec ex_other ex_ext (fun _ => 0) (fun _ => None) means m 20 (DoCall "main" [1; 2]) s) | None => None end.

Lemma libs_found (pre : program) n g : allocator n = Some g -> lookup (pre ++ libs) g <> None.
Proof.
  intros H. unfold lookup.
  assert (X : forall l, find (fun h => String.eqb (fname h) g) libs <> None -> find (fun h => String.eqb (fname h) g) (l ++ libs) <> None).
  { induction l as [|a l IH]; cbn [find app]; auto. intros Y. destruct (String.eqb (fname a) g); auto. discriminate. }
  apply X. revert H. unfold allocator.
  repeat (match goal with |- context [if ?b then _ else _] => destruct b end; [intros [= <-]; cbn; discriminate|]). discriminate.
Qed.
Lemma ex_program_ok : program_ok (ex_program ex_body).
Proof.
  split; [|split; [vm_compute; reflexivity|split; [vm_compute; reflexivity|split]]].
  - cbn [map ex_program app fname libs lib]. repeat (constructor; [cbn; intuition discriminate|]). constructor.
  - intros f H. cbn in H. intuition; subst f; discriminate.
  - apply libs_found.
Qed.
Example C58_nonvacuous :
  program_ok (ex_program ex_body) /\
  (* the allocation gives 7: with another number the program returns, with 7 it panics *)
  ex_run rust_means (Some (ex_program ex_body)) 5 = Some (Returned 0 5) /\
  ex_run rust_means (Some (ex_program ex_body)) 7 = Some (PanickedIn "real_main") /\
  ex_run (marker_call true (fun _ => true)) (rust_fixes (ex_program ex_body)) 5 = Some (Returned 0 5) /\
  ex_run (marker_call true (fun _ => true)) (rust_fixes (ex_program ex_body)) 7 = Some AssertFailed /\
  ex_run (marker_call false (fun _ => true)) (rust_fixes (ex_program ex_body)) 7 = Some Infeasible /\
  ex_run (marker_call true (String.eqb "main")) (rust_fixes (ex_program ex_body)) 7 = Some Infeasible.
Proof. split; [exact ex_program_ok|]. repeat (split; [vm_compute; reflexivity|]). vm_compute; reflexivity. Qed.

(** RustFixes.cpp:46-58, 140-142: only call instructions are replaced.  Where a value is to
    be dropped when a panic unwinds, rustc invokes the panic function.  Its body is gone,
    and after the invocation comes unreachable: the panic is not found. *)
Theorem C58_invoke_refuted : exists m m', rust_fixes m = Some m' /\
  ex_run rust_means (Some m) 7 = Some (PanickedIn "real_main") /\
  ex_run (marker_call true (fun _ => true)) (Some m') 7 = Some Infeasible.
Proof.
  exists (ex_program [([], TInvoke None (Direct ex_panic) [] 1 2); ([], TUnreachable); ([IOther 3], TUnreachable)]).
  eexists. repeat (split; [vm_compute; reflexivity|]). vm_compute; reflexivity.
Qed.
Print Assumptions C58_invoke_refuted.
(** RustFixes.cpp:48: nor is a panic through a function pointer. *)
Theorem C58_pointer_refuted : exists m m', rust_fixes m = Some m' /\
  exec ex_other ex_ext (fun _ => 99) (fun p => if p =? 99 then Some ex_panic else None) rust_means m 20 (DoCall "main" [1; 2]) 7 = PanickedIn "real_main" /\
  exec ex_other ex_ext (fun _ => 99) (fun p => if p =? 99 then Some ex_panic else None) (marker_call true (fun _ => true)) m' 20 (DoCall "main" [1; 2]) 7 = Returned 0 7.
Proof.
  exists (ex_program [([ICall None (Indirect (OFun ex_panic)) []], TRet (OConst 0))]).
  eexists. repeat (split; [vm_compute; reflexivity|]). vm_compute; reflexivity.
Qed.
Print Assumptions C58_pointer_refuted.
(** RustFixes.cpp:134: a function whose name contains __SMACK_ is left as it is, but the panic
    function it calls has lost its body. *)
Theorem C58_smack_name_refuted : exists m m', rust_fixes m = Some m' /\
  ex_run rust_means (Some m) 7 = Some (PanickedIn "my__SMACK_function") /\
  ex_run (marker_call true (fun _ => true)) (Some m') 7 = Some Infeasible.
Proof.
  exists (Func "my__SMACK_function" (Some [([ICall None (Direct ex_panic) []], TUnreachable)]) :: ex_program [([ICall None (Direct "my__SMACK_function") []], TRet (OConst 0))]).
  eexists. repeat (split; [vm_compute; reflexivity|]). vm_compute; reflexivity.
Qed.
Print Assumptions C58_smack_name_refuted.
