(** C77: the command line of the verifier – share/smack/top.py. *)
From Coq Require Import ZArith List String Ascii Bool.
From Verif.Spec Require Import VerifierRun.
From Verif.Model Require Import Driver BoogieAst VerifyBpl.
Import ListNotations.
Open Scope string_scope.
Open Scope list_scope.
Notation "a +++ b" := (String.append a b) (right associativity, at level 60).

(** The user's options and the name of the file are none of the options smack sets. *)
Definition smack_options : list string :=
  ["/timeLimit:"; "/errorLimit:"; "/loopUnroll:"; "/k:"; "/cex:"; "/maxStaticLoopBound:"; "/recursionBound:"; "--timeout="; "--max-loop-depth="; "--entry-points="].
Definition apart (a : vargs) : Prop := forall o u, In o smack_options -> ~ In (o +++ u) (bpl_file a :: verifier_options a).

Lemma in_one : forall (x y : string), In x [y] <-> y = x. Proof. cbn. tauto. Qed.
Ltac off H := repeat first [apply in_app_or in H as [H|H] | match type of H with In _ (if ?b then _ else _) => destruct b | In _ [] => destruct H | In _ [_] => apply in_one in H; try discriminate H | In _ (_ :: _) => destruct H as [H|H]; try discriminate H end].
Ltac on := repeat first [left; reflexivity | apply in_or_app; first [left; apply in_one; reflexivity|right] | right].
Ltac set_ok A := split; [on|let u := fresh in let H := fresh in intros u H; off H;
  first [solve [cbn [String.append] in H; injection H as H; symmetry; exact H] | (exfalso; eapply A; [|first [left; exact H|right; exact H]]; cbn; tauto)]].
Ltac unset_ok A := let u := fresh in let H := fresh in intros u H; off H; (exfalso; eapply A; [|first [left; exact H|right; exact H]]; cbn; tauto).

(** ** Theorems *)
(** The same settings with other options of the user. *)
Definition with_options (a : vargs) (o : list string) : vargs :=
  VArgs (verifier_name a) (modular a) (bpl_file a) (time_limit a) (max_violations a) (unroll a) (loop_limit a) (context_bound a) (solver a) (entry_points a) o.
Lemma peel_cons (x : string) (l : list string -> list string) : (exists b, forall o, l o = b ++ o) -> exists b, forall o, x :: l o = b ++ o.
Proof. intros [b H]. exists (x :: b). intros o. now rewrite H. Qed.
Lemma peel_app (x : list string) (l : list string -> list string) : (exists b, forall o, l o = b ++ o) -> exists b, forall o, x ++ l o = b ++ o.
Proof. intros [b H]. exists (x ++ b). intros o. now rewrite H, app_assoc. Qed.
Lemma peel_some (P : string -> Prop) v f (l : list string -> list string) : P v -> (exists b, forall o, l o = b ++ o) ->
  exists v' own, (forall o, Some (v :: f :: l o) = Some (v' :: f :: own ++ o)) /\ P v'.
Proof. intros H [b Hb]. exists v, b. split; [|exact H]. intros o. now rewrite Hb. Qed.
(** Boogie runs if it is the verifier or verification is modular, otherwise the verifier chosen;
    each on the Boogie file, with the user's options at the end and nowhere else. *)
Theorem C77_runs : forall a, In (verifier_name a) ["boogie"; "corral"; "symbooglix"] -> exists v own,
  command a = Some (v :: bpl_file a :: own ++ verifier_options a) /\ (forall o, command (with_options a o) = Some (v :: bpl_file a :: own ++ o)) /\
  (v = "boogie" <-> verifier_name a = "boogie" \/ modular a = true) /\ (modular a = false -> v = verifier_name a).
Proof.
  intros a H.
  assert (A : forall v own, (forall o, command (with_options a o) = Some (v :: bpl_file a :: own ++ o)) -> command a = Some (v :: bpl_file a :: own ++ verifier_options a)).
  { intros v own Ho. rewrite <- (Ho (verifier_options a)). now destruct a. }
  cut (exists v own, (forall o, command (with_options a o) = Some (v :: bpl_file a :: own ++ o)) /\
    (v = "boogie" <-> verifier_name a = "boogie" \/ modular a = true) /\ (modular a = false -> v = verifier_name a)).
  { intros (v & own & Ho & Hr). exists v, own. auto. }
  clear A. unfold command, with_options.
  cbn [verifier_name modular bpl_file time_limit max_violations unroll loop_limit context_bound solver entry_points verifier_options].
  destruct H as [E|[E|[E|[]]]]; rewrite <- E; cbn [String.eqb Ascii.eqb Bool.eqb orb]; destruct (modular a) eqn:M; cbn [orb app];
    (apply peel_some with (P := fun v => (v = "boogie" <-> _ \/ _) /\ (_ -> v = _)); [split; [intuition discriminate|first [reflexivity|discriminate]]|]);
    repeat first [apply peel_cons | apply peel_app]; exists []; reflexivity.
Qed.
Print Assumptions C77_runs.
(** Boogie gets the time limit and the number of errors of the settings, and unrolls loops up to
    the bound, or not at all if verification is modular. *)
Theorem C77_boogie : forall a c, apart a -> command a = Some c -> verifier_name a = "boogie" \/ (verifier_name a <> "svcomp" /\ modular a = true) ->
  sets c "/timeLimit:" (int_text (time_limit a)) /\ sets c "/errorLimit:" (int_text (max_violations a)) /\
  (modular a = false -> sets c "/loopUnroll:" (int_text (unroll a))) /\ (modular a = true -> unset c "/loopUnroll:").
Proof.
  intros a c A E V. unfold command in E.
  assert (String.eqb (verifier_name a) "svcomp" = false) as Ns by (apply String.eqb_neq; destruct V as [V|[V _]]; [rewrite V; discriminate|exact V]).
  assert (String.eqb (verifier_name a) "boogie" || modular a = true) as B by (destruct V as [->|[_ ->]]; [reflexivity|apply orb_true_r]).
  rewrite Ns, B in E. injection E as <-. unfold apart in A.
  split; [set_ok A|]. split; [set_ok A|]. split; intros ->; cbn [negb]; [set_ok A|unset_ok A].
Qed.
Print Assumptions C77_boogie.
(** Corral gets the time limit, the number of errors, the bounds on context switches, on loops
    and on recursion. *)
Theorem C77_corral : forall a c, apart a -> command a = Some c -> verifier_name a = "corral" -> modular a = false ->
  sets c "/timeLimit:" (int_text (time_limit a)) /\ sets c "/cex:" (int_text (max_violations a)) /\ sets c "/k:" (int_text (context_bound a)) /\
  sets c "/maxStaticLoopBound:" (int_text (loop_limit a)) /\ sets c "/recursionBound:" (int_text (unroll a)).
Proof.
  intros a c A E V M. unfold command in E. rewrite V, M in E. cbn [String.eqb Ascii.eqb Bool.eqb orb] in E. injection E as <-. unfold apart in A.
  split; [set_ok A|]. split; [set_ok A|]. split; [set_ok A|]. split; set_ok A.
Qed.
Print Assumptions C77_corral.
(** Symbooglix gets the time limit, the bound on loops and all entry points. *)
Theorem C77_symbooglix : forall a c, apart a -> command a = Some c -> verifier_name a = "symbooglix" -> modular a = false ->
  sets c "--timeout=" (int_text (time_limit a)) /\ sets c "--max-loop-depth=" (int_text (unroll a)) /\ sets c "--entry-points=" (join "," (entry_points a)).
Proof.
  intros a c A E V M. unfold command in E. rewrite V, M in E. cbn [String.eqb Ascii.eqb Bool.eqb orb] in E. injection E as <-. unfold apart in A.
  split; [set_ok A|]. split; set_ok A.
Qed.
Print Assumptions C77_symbooglix.
(** The output is read as that of the verifier that ran, if verification is not modular or Boogie is
    the verifier; the message names the bound just if one was used. *)
Theorem C77_read : forall fs a out timed c, command a = Some c -> modular a = false \/ verifier_name a = "boogie" ->
  run fs a out timed = Driver.verify_bpl fs (if modular a then None else Some (int_text (unroll a)))
    (match c with "boogie" :: _ => boogie | "corral" :: _ => corral | _ => other end) (command_output (hd "" c) out timed).
Proof.
  intros fs a out timed c E V. unfold run. rewrite E. unfold command, reader in *.
  destruct (String.eqb (verifier_name a) "svcomp"); [discriminate|]. destruct (String.eqb_spec (verifier_name a) "boogie") as [Eb|Nb].
  - cbn [orb] in E. injection E as <-. rewrite Eb. reflexivity.
  - destruct V as [V|V]; [|congruence]. rewrite V in *. cbn [orb] in E. destruct (String.eqb (verifier_name a) "corral"); [injection E as <-; reflexivity|]. destruct (String.eqb (verifier_name a) "symbooglix"); [injection E as <-; reflexivity|discriminate].
Qed.
Print Assumptions C77_read.

(** ** Deviations *)
Definition some_args (v : string) (m : bool) : vargs := VArgs v m "a.bpl" 1200 1 1 1 1 "z3" ["main"] [].
Definition failed : string := "a.bpl(2,3): Error: This assertion might not hold." +++ nl +++ "Boogie program verifier finished with 0 verified, 1 error" +++ nl.
Definition marked_file : files := fun f => if String.eqb f "a.bpl" then Some ["procedure main() {"; "  assert {:valid_deref} false;"; "}"] else None.
(** With --modular and the default verifier, Boogie's output is read as Corral's: an invalid
    dereference is reported as a failed assertion, with another exit code. *)
Theorem C77_modular_refuted :
  command (some_args default_verifier true) = command (some_args "boogie" true) /\
  run marked_file (some_args "boogie" true) failed false = Some ("SMACK found an error: invalid pointer dereference.", 2%Z) /\
  run marked_file (some_args default_verifier true) failed false = Some ("SMACK found an error.", 1%Z).
Proof. split; [reflexivity|]. split; vm_compute; reflexivity. Qed.
Print Assumptions C77_modular_refuted.
(** An option of the user's after smack's sets a bound again; the message still names smack's. *)
Theorem C77_options_refuted : let a := VArgs "corral" false "a.bpl" 1200 1 8 1 1 "z3" ["main"] ["/recursionBound:1"] in
  exists c, command a = Some c /\ In "/recursionBound:8" c /\ last c "" = "/recursionBound:1" /\
  run (fun _ => None) a "Program has no bugs" false = Some ("SMACK found no errors with unroll bound 8.", 0%Z).
Proof. eexists. split; [reflexivity|]. split; [vm_compute; tauto|]. split; vm_compute; reflexivity. Qed.
Print Assumptions C77_options_refuted.

(** ** Examples *)
Example C77_nonvacuous : Forall (fun p => apart (some_args (fst p) (snd p)) /\ command (some_args (fst p) (snd p)) <> None)
  [("boogie", false); ("boogie", true); ("corral", false); ("corral", true); ("symbooglix", false)].
Proof.
  repeat constructor; cbn [fst snd]; try discriminate; intros o u I [H|[]]; cbn in I, H; intuition (subst; discriminate).
Qed.
