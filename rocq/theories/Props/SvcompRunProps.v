(** C82: the settings in effect in SV-COMP mode. *)
From Coq Require Import NArith ZArith List String Ascii Bool.
From Verif.Spec Require Import SvcompRun VerifierRun.
From Verif.Model Require Import Driver BoogieAst SvcompRun.
From Verif.Model Require Frontend Svcomp.
Import ListNotations.
Open Scope string_scope.
Open Scope list_scope.
Local Notation "a +++ b" := (String.append a b) (right associativity, at level 60).

(** The input is compiled with static unrolling, the models of strings and the rewriting of bitwise operations, with bit vectors if overflows are checked and
    otherwise with the encoding of the user, and with the user's options for clang first; all other settings but the checks are the user's. *)
Theorem C82_settings : forall s s', svcomp_frontend s = Compiled s' ->
  (List.length (inputs s) <= 1)%nat /\ Svcomp.svcomp_check_property (property s) (check s) = Some (check s') /\
  static_unroll s' = true /\ rewrite_bitwise_ops s' = true /\ strings s' = true /\
  (flag_in INTEGER_OVERFLOW (check s') = true -> integer_encoding s' = "bit-vector") /\
  (flag_in INTEGER_OVERFLOW (check s') = false -> integer_encoding s' = integer_encoding s) /\
  (exists more, clang_options s' = clang_options s +++ " " +++ more) /\
  inputs s' = inputs s /\ bpl_file s' = bpl_file s /\ unroll s' = unroll s /\ time_limit s' = time_limit s /\ max_violations s' = max_violations s /\
  context_bound s' = context_bound s /\ loop_limit s' = loop_limit s /\ solver s' = solver s /\ modular s' = modular s /\ verifier_options s' = verifier_options s.
Proof.
  intros s s' H. unfold svcomp_frontend in H. destruct (Nat.ltb 1 (List.length (inputs s))) eqn:El; [discriminate|].
  destruct (Svcomp.svcomp_check_property _ _) as [c|]; [|discriminate]. injection H as <-.
  cbn [inputs property check integer_encoding static_unroll rewrite_bitwise_ops strings clang_options bpl_file unroll time_limit max_violations context_bound loop_limit solver modular verifier_options].
  apply PeanoNat.Nat.ltb_ge in El. repeat (split; [first [exact El|reflexivity|intros ->; reflexivity|idtac]|]); try reflexivity.
  eexists. apply (f_equal (String.append (clang_options s))). cbn [String.append]. apply (f_equal (String " ")). reflexivity.
Qed.
Print Assumptions C82_settings.

(** A preprocessed file is preprocessed again, and no other input is: -x c is given at the end just for inputs named ….i *)
Theorem C82_preprocessed : forall s s' file, svcomp_frontend s = Compiled s' -> inputs s = [file] ->
  exists fixed, (forall t t', svcomp_frontend t = Compiled t' -> inputs t = [file] -> clang_options t' = clang_options t +++ fixed) /\
    ((exists l, fixed = l +++ " -x c") <-> Frontend.splitext file = "i").
Proof.
  intros s s' file H Hf.
  exists (" -fbracket-depth=2048" +++ " -Wno-unknown-attributes" +++ " -DSVCOMP" +++ " -DDISABLE_PTHREAD_ASSERTS" +++ " -include smack.h" +++
        (if String.eqb (Frontend.splitext file) "i" then " -x c" else "")). split.
  - intros t t' Ht Hi. unfold svcomp_frontend in Ht. rewrite Hi in Ht. cbn [List.length Nat.ltb Nat.leb hd] in Ht.
    destruct (Svcomp.svcomp_check_property _ _) as [c|]; [|discriminate]. injection Ht as <-. reflexivity.
  - destruct (String.eqb (Frontend.splitext file) "i") eqn:E.
    + apply String.eqb_eq in E. split; [auto|]. intros _. exists (" -fbracket-depth=2048" +++ " -Wno-unknown-attributes" +++ " -DSVCOMP" +++ " -DDISABLE_PTHREAD_ASSERTS" +++ " -include smack.h"). reflexivity.
    + apply String.eqb_neq in E. split; [|tauto]. intros [l Hl]. exfalso. cbn in Hl.
      repeat match type of Hl with _ = ?p +++ _ => destruct p as [|? p]; [discriminate Hl|first [discriminate Hl|injection Hl as _ Hl]] end.
Qed.
Print Assumptions C82_preprocessed.

(** Corral gets the Boogie file, a time limit of 880 seconds, one error and a recursion bound of 65536, whatever the settings. *)
Theorem C82_command : forall s, let c := corral_command s in
  sets (tl (tl c)) "/timeLimit:" "880" /\ sets (tl (tl c)) "/cex:" "1" /\ sets (tl (tl c)) "/recursionBound:" "65536" /\ nth_error c 1 = Some (bpl_file s) /\
  forall s', bpl_file s' = bpl_file s -> corral_command s' = c.
Proof.
  intros s c. unfold c, corral_command. cbn [app tl nth_error].
  repeat split; try (cbn; tauto); try (intros s' ->; reflexivity);
    intros u Hu; repeat (destruct Hu as [Hu|Hu]; [first [discriminate Hu|(cbn in Hu; injection Hu as <-; reflexivity)]|]); destruct Hu.
Qed.
Print Assumptions C82_command.

(** It is not so that the bound in the message is the one Corral was given: it is that of the settings, which is not used. *)
Theorem C82_bound_refuted : forall s, modular s = false ->
  verify (fun _ => None) s "Program has no bugs" false = Some ("SMACK found no errors with unroll bound " +++ int_text (unroll s) +++ ".", 0%Z) /\
  sets (tl (tl (corral_command s))) "/recursionBound:" "65536".
Proof.
  intros s H. split; [|apply C82_command]. unfold verify. rewrite H.
  replace (Svcomp.verify_bpl_svcomp _ _) with (Some (Svcomp.Outcome VERIFIED false)) by (vm_compute; reflexivity). reflexivity.
Qed.
Print Assumptions C82_bound_refuted.

(** It is not so that settings which are not used are refused: options of the user for the verifier are not passed to it. *)
Theorem C82_options_refuted :
  ~ (forall s s' o, svcomp_frontend s = Compiled s' -> In o (verifier_options s) -> In o (corral_command s')).
Proof.
  intros H. specialize (H (Settings ["x.c"] None ASSERTIONS "unbounded-integer" false false false "" "a.bpl" 1 1200 1 1 1 "z3" false ["/deepAsserts"]) _ "/deepAsserts" eq_refl (or_introl eq_refl)).
  cbn in H. repeat (destruct H as [H|H]; [discriminate H|]). destruct H.
Qed.
Print Assumptions C82_options_refuted.

Example C82_nonvacuous :
  let s := Settings ["dir/x.i"] (Some "CHECK( init(main()), LTL(G ! overflow) )") ASSERTIONS "unbounded-integer" false false false "-m32" "a.bpl" 3 60 2 1 1 "z3" false [] in
  exists s', svcomp_frontend s = Compiled s' /\ integer_encoding s' = "bit-vector" /\ check s' = INTEGER_OVERFLOW /\
    clang_options s' = "-m32 -fbracket-depth=2048 -Wno-unknown-attributes -DSVCOMP -DDISABLE_PTHREAD_ASSERTS -include smack.h -x c" /\
    verify (fun _ => None) s' "Program has no bugs" false = Some ("SMACK found no errors with unroll bound 3.", 0%Z).
Proof. eexists. split; [reflexivity|]. repeat split; vm_compute; reflexivity. Qed.
