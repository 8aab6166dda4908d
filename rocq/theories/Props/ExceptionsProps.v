(** C60: exceptions.  Specification: Spec/Exceptions.v.  Model: Model/Exceptions.v. *)
From Coq Require Import ZArith List Bool Arith Lia String.
From Verif.Spec Require Import Exceptions.
From Verif.Model Require Import Exceptions.
From Verif.Proofs Require Import ExceptionsProofs.
Import ListNotations.

(** A function returns, resumes unwinding with an exception, or fails an assertion exactly if its procedure does; the
    variable $exn says which, and $exnv is the exception.  [e] and [v] are the initial values of $exn and $exnv; the
    condition on [e] is for programs that invoke external functions. *)
Theorem C60_executions {State} (M : meaning State) p e : calls_return M p -> externals_return M -> no_phis M p -> pads_ok p ->
  (only_cleanups p /\ e = false) \/ invokes_internal p ->
  forall g b, body_of p g = Some b -> forall s v,
  (forall s', runs M p g s (Returned s') <-> exists v', bruns M p g (s, e, v) (BReturned (s', false, v'))) /\
  (forall s' v', runs M p g s (Unwound v' s') <-> bruns M p g (s, e, v) (BReturned (s', true, v'))) /\
  (runs M p g s Failed <-> bruns M p g (s, e, v) BFailed).
Proof.
  intros CR ER NP PO Ge g b Eb s v.
  assert (F := proj2 (forward M p CR ER NP)).
  assert (B : forall r, bruns M p g (s, e, v) r -> back_fun M p g s e r).
  { intros r H. destruct (proj2 (heights M p) _ _ _ H) as [n Hn]. exact (proj2 (backward M p CR NP PO n) g s e v r Ge Hn). }
  split; [|split].
  - intros s'. split; intros H.
    + destruct (F _ _ _ H e v Ge) as [e' [v' [X ->]]]. rewrite Eb in X. eauto.
    + destruct H as [v' H]. apply B in H. cbn [back_fun] in H. rewrite Eb in H. exact H.
  - intros s' v'. split; intros H.
    + apply (F _ _ _ H e v Ge).
    + apply B in H. cbn [back_fun] in H. rewrite Eb in H. exact H.
  - split; intros H; [apply (F _ _ _ H e v Ge)|apply B in H; exact H].
Qed.
Print Assumptions C60_executions.

(** What the values of the variables may be at the start: anything, as nothing initializes them.  Where no external function is invoked
    this makes no difference. *)
Theorem C60_initial {State} (M : meaning State) p : calls_return M p -> externals_return M -> no_phis M p -> pads_ok p -> invokes_internal p ->
  forall g b, body_of p g = Some b -> forall s e1 v1 e2 v2, bruns M p g (s, e1, v1) BFailed <-> bruns M p g (s, e2, v2) BFailed.
Proof.
  intros CR ER NP PO I g b Eb s e1 v1 e2 v2.
  destruct (C60_executions M p e1 CR ER NP PO (or_intror I) g b Eb s v1) as [_ [_ H1]].
  destruct (C60_executions M p e2 CR ER NP PO (or_intror I) g b Eb s v2) as [_ [_ H2]].
  rewrite <- H1. exact H2.
Qed.
Print Assumptions C60_initial.

(** The landing pad's variable and $exnv have one type, with pointers as integers. *)
Theorem C60_typed : assignment_typed false = true.
Proof. reflexivity. Qed.
Print Assumptions C60_typed.

(** ** Examples: states are integers; instruction 0 fails, others add *)
Definition meaning0 (phi0 : body -> label -> label -> Z -> Z) (throws0 : fname -> Z -> Z -> Z -> Prop) : meaning Z := {|
  op := fun k s r => match k with O => r = None | _ => r = Some (s + Z.of_nat k)%Z end;
  cond := fun k s => (s =? Z.of_nat k)%Z;
  enter := fun _ s => s; leave := fun _ _ s' => s'; set_result := fun _ s => s;
  read := fun _ s => s; write := fun _ v _ => v;
  phi := phi0; external := fun _ s s' => s' = s; throws := throws0 |}.
Definition nophi : body -> label -> label -> Z -> Z := fun _ _ _ s => s.
Definition nothrow : fname -> Z -> Z -> Z -> Prop := fun _ _ _ _ => False.
Definition M0 := meaning0 nophi nothrow.

Ltac listed H := cbn in H; repeat (destruct H as [H|H]; [first [discriminate H|injection H; clear H; intros; subst]|]); try contradiction.
Ltac inv := repeat match goal with
  | H : run _ _ _ _ (_ :: _) _ _ |- _ => inversion H; subst; clear H
  | H : run _ _ _ _ (block ?b ?l) _ _ |- _ => let c := eval vm_compute in (block b l) in change (block b l) with c in H
  | H : run _ _ _ _ [] _ _ |- _ => inversion H
  | H : runs _ _ _ _ _ |- _ => inversion H; subst; clear H
  | H : brun _ _ _ _ (_ :: _) _ _ |- _ => inversion H; subst; clear H
  | H : brun _ _ _ _ (bblock ?b ?l) _ _ |- _ => let c := eval vm_compute in (bblock b l) in change (bblock b l) with c in H
  | H : brun _ _ _ _ [] _ _ |- _ => inversion H
  | H : bruns _ _ _ _ _ |- _ => inversion H; subst; clear H
  | H : body_of _ _ = _ |- _ => cbn in H; first [discriminate H|injection H; clear H; intros; subst]
  | H : op _ _ _ _ |- _ => cbn in H; first [discriminate H|injection H; clear H; intros; subst]
  | H : block _ _ = _ |- _ => cbn in H; first [discriminate H|injection H; clear H; intros; subst]
  | H : throws _ _ _ _ _ |- _ => cbn in H; destruct H
  | H : external _ _ _ _ |- _ => cbn in H; subst
  | H : In _ (_ :: _) |- _ => destruct H as [H|H]; [injection H; clear H; intros; subst|]
  | H : In _ [] |- _ => contradiction
  | H : holds _ _ _ |- _ => cbn in H; try discriminate H
  | H : cond _ _ _ = _ |- _ => cbn in H; try discriminate H
  end; try discriminate; try contradiction.

(** main invokes f, which invokes g; g resumes unwinding with its argument plus 1.  f has a cleanup, after which it
    resumes; main's landing pad takes the exception, and main returns it, or fails if it is 7. *)
Definition ex_main : body := [[Invoke 0 1 1 2]; [Ret 0]; [Pad 0 true; CondBr 7 3 1]; [Op 0]].
Definition ex_f : body := [[Invoke 0 2 1 2]; [Ret 0]; [Pad 0 true; Call 0 3; Op 2; Resume 0]].
Definition ex_g : body := [[Op 1; Resume 0]].
Definition ex_program : program := [Some ex_main; Some ex_f; Some ex_g; None].
Lemma ex_runs s : s <> 4%Z -> runs M0 ex_program 0 s (Returned (s + 1 + 2))%Z.
Proof.
  intros N. eapply r_body; [reflexivity|]. eapply r_invoke_unwinds; [|reflexivity|].
  - eapply r_body; [reflexivity|]. eapply r_invoke_unwinds; [|reflexivity|].
    + eapply r_body; [reflexivity|]. eapply r_op; [reflexivity|]. apply r_resume.
    + eapply r_call; [apply r_external; reflexivity|]. eapply r_op; [reflexivity|]. apply r_resume.
  - eapply r_else; [cbn; apply Z.eqb_neq; lia|]. apply r_ret.
Qed.
Lemma ex_fails : runs M0 ex_program 0 4%Z Failed.
Proof.
  eapply r_body; [reflexivity|]. eapply r_invoke_unwinds; [|reflexivity|].
  - eapply r_body; [reflexivity|]. eapply r_invoke_unwinds; [|reflexivity|].
    + eapply r_body; [reflexivity|]. eapply r_op; [reflexivity|]. apply r_resume.
    + eapply r_call; [apply r_external; reflexivity|]. eapply r_op; [reflexivity|]. apply r_resume.
  - eapply r_then; [reflexivity|]. apply r_fail. reflexivity.
Qed.
Example C60_nonvacuous :
  calls_return M0 ex_program /\ externals_return M0 /\ no_phis M0 ex_program /\ pads_ok ex_program /\ only_cleanups ex_program /\ invokes_internal ex_program /\
  runs M0 ex_program 0 0%Z (Returned 3%Z) /\ runs M0 ex_program 0 4%Z Failed /\
  (exists v', bruns M0 ex_program 0 (0%Z, true, 77%Z) (BReturned (3%Z, false, v'))) /\ bruns M0 ex_program 0 (4%Z, true, 77%Z) BFailed.
Proof.
  assert (CR : calls_return M0 ex_program) by (intros b l c g H s v s' R; listed H; inv).
  assert (ER : externals_return M0) by (intros g s v s' H; exact H).
  assert (NP : no_phis M0 ex_program) by (intros b l c g n u s H; split; reflexivity).
  assert (II : invokes_internal ex_program) by (intros b l c g n u H; listed H; discriminate).
  assert (PO : pads_ok ex_program).
  { split.
    - intros g b H. destruct g as [|[|[|[|[|g]]]]]; cbn in H; try discriminate; injection H as <-; repeat constructor.
    - intros b l i H. cbn in H. repeat (destruct H as [H|H]; [injection H; clear H; intros; subst; cbn; repeat split; repeat constructor|]); try contradiction;
        do 3 eexists; (split; [reflexivity|repeat constructor]). }
  split; [exact CR|]. split; [exact ER|]. split; [exact NP|]. split; [exact PO|].
  split; [intros b l r cl H; listed H; reflexivity|]. split; [exact II|].
  split; [apply (ex_runs 0); lia|]. split; [apply ex_fails|].
  destruct (C60_executions M0 ex_program true CR ER NP PO (or_intror II) 0 ex_main eq_refl 0%Z 77%Z) as [H1 _].
  destruct (C60_executions M0 ex_program true CR ER NP PO (or_intror II) 0 ex_main eq_refl 4%Z 77%Z) as [_ [_ H2]].
  split; [apply H1, (ex_runs 0); lia|apply H2, ex_fails].
Qed.

Ltac pads := split;
  [intros g b H; destruct g as [|[|[|[|[|g]]]]]; cbn in H; try discriminate; injection H as <-; repeat constructor
  |intros b l i H; cbn in H; repeat (destruct H as [H|H]; [injection H; clear H; intros; subst; cbn; repeat split; repeat constructor|]); try contradiction;
     do 3 eexists; (split; [reflexivity|repeat constructor])].
(** A thrown exception is lost.  The functions that throw are external (__cxa_throw) and followed by unreachable:
    the execution just ends, and the failing handler is not found. *)
Theorem C60_throw_refuted : exists M p, no_phis M p /\ pads_ok p /\ only_cleanups p /\ invokes_internal p /\
  runs M p 0 0%Z Failed /\ forall s r, ~ bruns M p 0 s r.
Proof.
  exists (meaning0 nophi (fun g s v s' => v = 5%Z /\ s' = s)), [Some [[Invoke 0 1 1 2]; [Ret 0]; [Pad 0 true; Op 0]]; Some [[Call 0 2; Unreachable]]; None].
  split; [intros b l c g n u s H; split; reflexivity|]. split; [pads|].
  split; [intros b l r cl H; listed H; reflexivity|]. split; [intros b l c g n u H; listed H; discriminate|].
  split.
  - eapply r_body; [reflexivity|]. eapply r_invoke_unwinds; [|reflexivity|].
    + eapply r_body; [reflexivity|]. eapply r_call_unwinds. eapply r_throws; [reflexivity|split; reflexivity].
    + apply r_fail. reflexivity.
  - intros s r H. inv.
Qed.
Print Assumptions C60_throw_refuted.

(** A call, not an invoke, of a function that resumes unwinding continues after the call. *)
Theorem C60_call_refuted : exists M p, externals_return M /\ no_phis M p /\ pads_ok p /\ only_cleanups p /\ invokes_internal p /\
  ~ runs M p 0 0%Z Failed /\ forall e v, bruns M p 0 (0%Z, e, v) BFailed.
Proof.
  exists M0, [Some [[Invoke 0 1 1 2]; [Ret 0]; [Pad 0 true; Ret 0]]; Some [[Call 0 2; Op 0]]; Some [[Resume 0]]].
  split; [intros g s v s' H; exact H|]. split; [intros b l c g n u s H; split; reflexivity|]. split; [pads|].
  split; [intros b l r cl H; listed H; reflexivity|]. split; [intros b l c g n u H; listed H; discriminate|].
  split.
  - intros H. inv.
  - intros e v. eapply b_body; [reflexivity|]. eapply b_call_fail. eapply b_body; [reflexivity|].
    eapply b_call; [eapply b_body; [reflexivity|]; apply b_set, b_setv, b_return|]. eapply b_fail. reflexivity.
Qed.
Print Assumptions C60_call_refuted.

(** A landing pad that catches, without cleanup, leaves $exn set: the next invoke of an external function goes to its
    unwind destination although nothing was thrown. *)
Theorem C60_catch_refuted : exists M p, calls_return M p /\ externals_return M /\ no_phis M p /\ pads_ok p /\
  ~ runs M p 0 0%Z Failed /\ forall v, bruns M p 0 (0%Z, false, v) BFailed.
Proof.
  exists M0, [Some [[Invoke 0 1 1 2]; [Ret 0]; [Pad 0 false; Invoke 1 2 1 3]; [Pad 0 false; Op 0]]; Some [[Resume 0]]; None].
  split; [intros b l c g H; listed H|]. split; [intros g s v s' H; exact H|]. split; [intros b l c g n u s H; split; reflexivity|]. split; [pads|].
  split.
  - intros H. inv.
  - intros v. eapply b_body; [reflexivity|].
    eapply b_call; [eapply b_body; [reflexivity|]; apply b_set, b_setv, b_return|].
    eapply (b_goto _ _ _ _ false _ (GExn true) 2); [right; left; reflexivity|reflexivity|]. apply b_readv.
    eapply b_call; [apply b_external; reflexivity|].
    eapply (b_goto _ _ _ _ false _ (GExn true) 3); [right; left; reflexivity|reflexivity|]. apply b_readv. apply b_fail. reflexivity.
Qed.
Print Assumptions C60_catch_refuted.

(** At the start $exn is arbitrary: an external function invoked then may seem to throw. *)
Theorem C60_initial_refuted : exists M p v, calls_return M p /\ externals_return M /\ no_phis M p /\ pads_ok p /\ only_cleanups p /\
  ~ runs M p 0 0%Z Failed /\ ~ bruns M p 0 (0%Z, false, v) BFailed /\ bruns M p 0 (0%Z, true, v) BFailed.
Proof.
  exists M0, [Some [[Invoke 0 1 1 2]; [Ret 0]; [Pad 0 true; Op 0]]; None], 0%Z.
  split; [intros b l c g H; listed H|]. split; [intros g s v s' H; exact H|]. split; [intros b l c g n u s H; split; reflexivity|]. split; [pads|].
  split; [intros b l r cl H; listed H; reflexivity|].
  split; [intros H; inv|]. split; [intros H; inv|].
  eapply b_body; [reflexivity|]. eapply b_call; [apply b_external; reflexivity|].
  eapply (b_goto _ _ _ _ false _ (GExn true) 2); [right; left; reflexivity|reflexivity|]. apply b_readv, b_set, b_fail. reflexivity.
Qed.
Print Assumptions C60_initial_refuted.

(** Phi nodes of the destinations of an invoke are not assigned: here one that has the value 7 makes the program fail,
    which is not found. *)
Theorem C60_phi_refuted : exists M p, calls_return M p /\ externals_return M /\ pads_ok p /\ only_cleanups p /\ invokes_internal p /\
  runs M p 0 0%Z Failed /\ forall e v, ~ bruns M p 0 (0%Z, e, v) BFailed.
Proof.
  exists (meaning0 (fun _ _ t s => if Nat.eqb t 1 then 7%Z else s) nothrow),
    [Some [[Invoke 0 1 1 2]; [CondBr 7 3 4]; [Pad 0 true; Ret 0]; [Op 0]; [Ret 0]]; Some [[Ret 0]]].
  split; [intros b l c g H; listed H|]. split; [intros g s v s' H; exact H|]. split; [pads|].
  split; [intros b l r cl H; listed H; reflexivity|]. split; [intros b l c g n u H; listed H; discriminate|].
  split.
  - eapply r_body; [reflexivity|]. eapply r_invoke; [eapply r_body; [reflexivity|]; apply r_ret|].
    eapply r_then; [reflexivity|]. apply r_fail. reflexivity.
  - intros e v H. inv.
Qed.
Print Assumptions C60_phi_refuted.

(** With pointers as bit vectors Boogie rejects landing pads and resumes: $exnv is an integer. *)
Theorem C60_type_refuted : assignment_typed true = false.
Proof. reflexivity. Qed.
Print Assumptions C60_type_refuted.
