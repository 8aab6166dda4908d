(** Proofs about Model/Timing.v: the work list computes the least fixed point. *)
From Coq Require Import ZArith List String Bool Lia PeanoNat.
From Verif.Spec Require Import BoogieSyntax VerifierCode.
From Verif.Model Require Import MemorySafetyChecker Timing.
Import ListNotations.
Open Scope list_scope.

Lemma prefix_begins p s : String.prefix p s = true <-> begins p s.
Proof.
  revert s; induction p as [|a p IH]; intros s; simpl.
  - split; intros; [exists s; reflexivity | destruct s; reflexivity].
  - destruct s as [|b s]; simpl.
    + split; [discriminate | intros [r H]; discriminate].
    + destruct (Ascii.ascii_dec a b) as [->|N].
      * rewrite IH; split; intros [r H]; exists r; [subst; reflexivity | injection H; auto].
      * split; [discriminate | intros [r H]; injection H; congruence].
Qed.

Lemma isCall_spec i : isCallInst i = true <-> is_call i.
Proof. unfold isCallInst, is_call; destruct (op i); split; intros H; try reflexivity; try discriminate; auto; destruct H; discriminate. Qed.
Lemma verifier_call_spec i : isCallInst i && isVerifierFunctionCall i = true <-> verifier_call i.
Proof.
  unfold verifier_call, isVerifierFunctionCall. rewrite andb_true_iff, isCall_spec.
  destruct (callee i) as [n|].
  - rewrite !orb_true_iff, !prefix_begins. split; intros [H H']; split; auto.
    + exists n; tauto.
    + destruct H' as [f [E H']]; injection E as <-; tauto.
  - split; intros [H H']; [discriminate | destruct H' as [f [E _]]; discriminate].
Qed.
Lemma refers_spec i o : refers i o = true <-> o = Inst i.
Proof. destruct o; simpl; [rewrite Nat.eqb_eq; split; congruence | split; discriminate]. Qed.
Lemma uses_spec u i : existsb (refers (id i)) (operands u) = true <-> uses u i.
Proof.
  unfold uses. rewrite existsb_exists. split.
  - intros [o [H E]]. apply refers_spec in E; subst; auto.
  - intros H; eexists; split; [exact H | apply refers_spec; reflexivity].
Qed.
Lemma users_spec m u i : In u (users m i) <-> In u m /\ uses u i.
Proof. unfold users. rewrite filter_In, uses_spec. tauto. Qed.
Lemma isMarked_spec marks i : isMarked marks i = true <-> In i marks.
Proof.
  unfold isMarked; rewrite existsb_exists; split.
  - intros [x [H E]]; apply Nat.eqb_eq in E; subst; auto.
  - intros H; exists i; split; auto; apply Nat.eqb_refl.
Qed.
Lemma only_users_spec m marks i :
  onlyVerifierUsers m marks i = true <-> forall u, In u m -> uses u i -> In (id u) marks.
Proof.
  unfold onlyVerifierUsers; rewrite forallb_forall; split.
  - intros H u H1 H2; apply isMarked_spec, H, users_spec; auto.
  - intros H u H1; apply users_spec in H1; apply isMarked_spec, H; tauto.
Qed.

Section Unique.
  Variable m : list instr.
  Hypothesis NDm : NoDup (map id m).

  Lemma id_inj a b : In a m -> In b m -> id a = id b -> a = b.
  Proof.
    clear -NDm. induction m as [|x l IH]; simpl; [tauto|].
    inversion NDm as [|? ? N D]; subst.
    intros [->|Ha] [->|Hb] E; auto.
    - exfalso; apply N; rewrite E; apply in_map; auto.
    - exfalso; apply N; rewrite <- E; apply in_map; auto.
  Qed.
  Lemma instr_of_spec i x : instr_of m i = Some x <-> In x m /\ id x = i.
  Proof.
    unfold instr_of; split.
    - intros H; apply find_some in H; destruct H as [H E]; apply Nat.eqb_eq in E; auto.
    - intros [H E]. destruct (find _ m) as [y|] eqn:F.
      + apply find_some in F; destruct F as [F G]; apply Nat.eqb_eq in G. f_equal; apply id_inj; auto; congruence.
      + apply find_none with (x := x) in F; auto. rewrite E, Nat.eqb_refl in F; discriminate.
  Qed.

  (** [j] should be marked, and is not yet. *)
  Definition pending (marks : list nat) (j : instr) : Prop :=
    In j m /\ ~ is_call j /\ ~ In (id j) marks /\ (exists u, In u m /\ uses u j) /\
    forall u, In u m -> uses u j -> In (id u) marks.
  (** The work list holds a user of each, or it is still to come in [todo]. *)
  Definition inv (marks queue : list nat) (todo : list operand) : Prop :=
    NoDup marks /\
    (forall i, In i queue -> In i marks) /\
    (forall i, In i marks -> exists x, In x m /\ id x = i /\ verifier_only m x) /\
    (forall x, In x m -> verifier_call x -> In (id x) marks) /\
    forall j, pending marks j -> (exists u, In u m /\ uses u j /\ In (id u) queue) \/ In (Inst (id j)) todo.

  Lemma inv_step v marks queue todo marks' queue' u0 :
    In u0 m -> In (id u0) marks -> In v (operands u0) ->
    inv marks queue (v :: todo) -> step_operand m (marks, queue) v = (marks', queue') ->
    inv marks' queue' todo /\ (List.length marks' + List.length queue = List.length marks + List.length queue')%nat /\
    In (id u0) marks' /\ (List.length queue <= List.length queue')%nat.
  Proof.
    intros Hu0 Mu0 Hv [ND [Q [S [C P]]]] E.
    assert (same : (marks, queue) = (marks', queue') ->
      (forall J, v = Inst (id J) -> ~ pending marks J) ->
      inv marks' queue' todo /\ (List.length marks' + List.length queue = List.length marks + List.length queue')%nat /\
      In (id u0) marks' /\ (List.length queue <= List.length queue')%nat).
    { intros E' NP; injection E' as <- <-. split; [|split; [lia|split; [auto|lia]]]. split; [|split; [|split; [|split]]]; auto.
      intros j Pj. destruct (P j Pj) as [H|[H|H]]; auto. subst v; exfalso; eapply NP; eauto. }
    destruct v as [j|]; simpl in E; [|apply same; auto; intros; discriminate].
    destruct (instr_of m j) as [J|] eqn:F.
    2:{ apply same; auto. intros J E'; injection E' as ->. intros PJ; destruct PJ as [HJ _].
        assert (instr_of m (id J) = Some J) by (apply instr_of_spec; auto). congruence. }
    apply instr_of_spec in F; destruct F as [HJ EJ].
    destruct (negb (isMarked marks (id J)) && negb (isCallInst J)) eqn:B.
    2:{ apply same; auto. intros J' E'; injection E' as E'. intros [HJ' [NC [NM _]]].
        assert (J' = J) by (apply id_inj; auto; congruence). subst J'.
        apply andb_false_iff in B; destruct B as [B|B]; apply negb_false_iff in B.
        - apply isMarked_spec in B; auto.
        - apply isCall_spec in B; auto. }
    apply andb_true_iff in B; destruct B as [B1 B2]; apply negb_true_iff in B1, B2.
    assert (NM : ~ In (id J) marks) by (intros H; apply isMarked_spec in H; congruence).
    assert (NC : ~ is_call J) by (intros H; apply isCall_spec in H; congruence).
    destruct (onlyVerifierUsers m marks J) eqn:O.
    2:{ apply same; auto. intros J' E'; injection E' as E'. intros [HJ' [_ [_ [_ A]]]].
        assert (J' = J) by (apply id_inj; auto; congruence). subst J'.
        apply only_users_spec in A; congruence. }
    assert (OU := proj1 (only_users_spec m marks J) O).
    injection E as <- <-.
    assert (VJ : verifier_only m J).
    { apply only_used; auto.
      - exists u0; split; auto. unfold uses; rewrite EJ; auto.
      - intros u Hu Uu. destruct (S _ (OU u Hu Uu)) as [x [Hx [Ex Vx]]].
        assert (x = u) by (apply id_inj; auto). subst; auto. }
    split; [split; [|split; [|split; [|split]]]|split; [rewrite app_length; simpl; lia|split; [simpl; auto|rewrite app_length; simpl; lia]]].
    - constructor; auto.
    - intros i Hi; apply in_app_or in Hi; destruct Hi as [Hi|[<-|[]]]; simpl; auto.
    - intros i [<-|Hi]; [exists J; auto | auto].
    - intros x Hx Vx; simpl; auto.
    - intros k [Hk [NCk [NMk [Uk Ak]]]].
      destruct (existsb (refers (id k)) (operands J)) eqn:R.
      + left; exists J; split; auto; split; [apply uses_spec; auto | apply in_or_app; simpl; auto].
      + assert (pending marks k) as Pk.
        { split; [auto|split; [auto|split; [intros H; apply NMk; simpl; auto|split; [auto|]]]].
          intros u Hu Uu. destruct (Ak u Hu Uu) as [H|H]; auto.
          exfalso. assert (u = J) by (apply id_inj; auto). subst u.
          apply uses_spec in Uu; congruence. }
        destruct (P k Pk) as [[u [Hu [Uu Qu]]]|[H|H]].
        * left; exists u; split; auto; split; auto; apply in_or_app; auto.
        * exfalso. injection H as H. apply NMk. left. congruence.
        * auto.
  Qed.

  Lemma inv_fold u0 todo : forall marks queue marks' queue',
    In u0 m -> In (id u0) marks -> (forall v, In v todo -> In v (operands u0)) ->
    inv marks queue todo -> fold_left (step_operand m) todo (marks, queue) = (marks', queue') ->
    inv marks' queue' [] /\ (List.length marks' + List.length queue = List.length marks + List.length queue')%nat /\
    (List.length queue <= List.length queue')%nat.
  Proof.
    induction todo as [|v todo IH]; intros marks queue marks' queue' Hu Mu Hs I E; cbn [fold_left] in E.
    - injection E as <- <-; split; [auto|lia].
    - destruct (step_operand m (marks, queue) v) as [a b] eqn:S.
      destruct (inv_step v marks queue todo a b u0) as [I' [L [M' L2]]]; auto. { apply Hs; left; auto. }
      destruct (IH a b marks' queue') as [J [L' L2']]; auto. { intros; apply Hs; right; auto. }
      split; [auto|lia].
  Qed.

  Lemma marks_bound marks queue todo : inv marks queue todo -> (List.length marks <= List.length m)%nat.
  Proof.
    intros [ND [_ [S _]]]. rewrite <- (map_length id m). apply NoDup_incl_length; auto.
    intros i Hi; destruct (S i Hi) as [x [Hx [<- _]]]; apply in_map; auto.
  Qed.

  (** All instructions of [m] that are not marked, and those of the work list, are
      no more than the fuel. *)
  Lemma drain_inv fuel : forall marks queue,
    inv marks queue [] -> (List.length m - List.length marks + List.length queue <= fuel)%nat ->
    inv (drain m fuel marks queue) [] [].
  Proof.
    induction fuel as [|fuel IH]; intros marks queue I L.
    - destruct queue; simpl in *; [auto|]. assert (B := marks_bound _ _ _ I). simpl in L. lia.
    - destruct queue as [|i queue]; [exact I|].
      cbn [drain]. assert (I' := I). destruct I as [ND [Q [S [C P]]]].
      assert (Mi : In i marks) by (apply Q; left; auto).
      destruct (S i Mi) as [x [Hx [Ex Vx]]].
      assert (F : instr_of m i = Some x) by (apply instr_of_spec; auto). rewrite F.
      assert (I2 : inv marks queue (operands x)).
      { split; [|split; [|split; [|split]]]; auto.
        - intros; apply Q; right; auto.
        - intros j Pj. destruct (P j Pj) as [[u [Hu [Uu [E|Qu]]]]|[]].
          + right. assert (u = x) by (apply id_inj; auto; congruence). subst; auto.
          + left; exists u; auto. }
      destruct (fold_left (step_operand m) (operands x) (marks, queue)) as [marks' queue'] eqn:G.
      destruct (inv_fold x (operands x) marks queue marks' queue') as [I3 [L3 L4]]; auto. { rewrite Ex; auto. }
      apply IH; auto. assert (B := marks_bound _ _ _ I3). assert (B0 := marks_bound _ _ _ I2). simpl in L. lia.
  Qed.

  Lemma NoDup_map_filter (f : instr -> bool) : NoDup (map id (filter f m)).
  Proof.
    clear -NDm. induction m as [|x l IH]; simpl; [constructor|].
    inversion NDm as [|? ? N D]; subst. destruct (f x); simpl; auto.
    constructor; auto. intros H; apply N. apply in_map_iff in H; destruct H as [y [E H]].
    apply filter_In in H. rewrite <- E; apply in_map; tauto.
  Qed.
  Lemma initial_inv : inv (initial m) (initial m) [].
  Proof.
    split; [|split; [|split; [|split]]]; auto.
    - apply NoDup_map_filter.
    - intros i Hi; apply in_map_iff in Hi; destruct Hi as [x [E Hx]]; apply filter_In in Hx; destruct Hx as [Hx Vx].
      exists x; split; auto; split; auto; apply only_call; auto; apply verifier_call_spec; auto.
    - intros x Hx Vx; apply in_map, filter_In; split; auto; apply verifier_call_spec; auto.
    - intros j [_ [_ [_ [[u [Hu Uu]] A]]]]. left; exists u; auto.
  Qed.

  Lemma mark_module_inv : inv (mark_module m) [] [].
  Proof.
    apply drain_inv; [apply initial_inv|]. assert (B := marks_bound _ _ _ initial_inv). lia.
  Qed.

  Lemma mark_module_spec i : In i m -> (isMarked (mark_module m) (id i) = true <-> verifier_only m i).
  Proof.
    intros Hi. rewrite isMarked_spec. destruct mark_module_inv as [_ [_ [S [C P]]]]. split.
    - intros M. destruct (S _ M) as [x [Hx [E V]]]. assert (x = i) by (apply id_inj; auto). subst; auto.
    - intros V; induction V as [i _ V | i _ NC U A IH]; auto.
      destruct (in_dec Nat.eq_dec (id i) (mark_module m)) as [|N]; auto.
      exfalso. destruct (P i) as [[u [_ [_ []]]]|[]].
      split; [auto|split; [auto|split; [auto|split; [auto|]]]]. intros u Hu Uu; apply IH; auto.
  Qed.
End Unique.
