(** Callers, procedures and calls: proofs about Model/Procedures.v *)
From Coq Require Import String Ascii List Bool Arith Lia.
From Verif.Model Require Import Naming.
From Verif.Spec Require Import Procedures.
From Verif.Model Require Import Procedures.
From Verif.Proofs Require Import ProcNames.
Import ListNotations.
Open Scope string_scope.
Open Scope list_scope.

Section Search.
  Context (m : module_) (G : graph_ok m).
  Lemma nid_inj v w : In v m -> In w m -> nid v = nid w -> v = w.
  Proof.
    destruct G as [N _]. revert N. clear. induction m as [|x l IH]; cbn; intros N V W E; [contradiction|].
    inversion N; subst. destruct V as [->|V], W as [->|W]; auto.
    - exfalso. apply H1. rewrite E. apply in_map; auto.
    - exfalso. apply H1. rewrite <- E. apply in_map; auto.
  Qed.
  Lemma node_of_in i v : node_of m i = Some v -> In v m /\ nid v = i.
  Proof. unfold node_of. intros H. apply find_some in H. destruct H as [H E]. apply Nat.eqb_eq in E. auto. Qed.
  Lemma node_of_nid v : In v m -> node_of m (nid v) = Some v.
  Proof.
    intros H. unfold node_of. destruct (find (fun n => Nat.eqb (nid n) (nid v)) m) eqn:E.
    - apply find_some in E. destruct E as [I E]. apply Nat.eqb_eq in E. f_equal. apply nid_inj; auto.
    - exfalso. apply (find_none _ _ E v) in H. rewrite Nat.eqb_refl in H. discriminate.
  Qed.
  Lemma users_in i u : In u (users m i) <-> In u m /\ In i (nops u).
  Proof.
    unfold users. rewrite filter_In, existsb_exists. split; intros [A B]; split; auto.
    - destruct B as [x [B E]]. apply Nat.eqb_eq in E. subst x. auto.
    - exists i. split; auto. apply Nat.eqb_refl.
  Qed.
  Lemma mem_in x l : existsb (Nat.eqb x) l = true <-> In x l.
  Proof.
    rewrite existsb_exists. split; [intros [y [H E]]; apply Nat.eqb_eq in E; subst; auto|intros H; exists x; split; auto; apply Nat.eqb_refl].
  Qed.
  Lemma enqueue_all vs : forall cov q, NoDup cov ->
    exists cov' ex, fold_left enqueue vs (cov, q) = (cov', q ++ ex) /\ NoDup cov' /\ incl cov cov' /\
      (forall v, In v vs -> In (nid v) cov') /\ (forall v, In v ex -> In v vs /\ In (nid v) cov') /\
      (forall x, In x cov' -> In x cov \/ exists v, In v ex /\ nid v = x) /\
      (List.length cov' = List.length cov + List.length ex)%nat.
  Proof.
    induction vs as [|v vs IH]; intros cov q N; cbn [fold_left].
    - exists cov, []. rewrite app_nil_r. repeat split; auto; try contradiction; try lia. intros x H; auto.
    - unfold enqueue at 2. destruct (existsb (Nat.eqb (nid v)) cov) eqn:E.
      + destruct (IH cov q N) as [cov' [ex [F [N' [I [V [X [Y L]]]]]]]]. exists cov', ex. repeat split; auto.
        * intros w [<-|H]; auto. apply mem_in in E. auto.
        * right. apply X; auto.
        * apply X; auto.
      + assert (N1 : NoDup (nid v :: cov)) by (constructor; auto; intros H; apply mem_in in H; congruence).
        destruct (IH (nid v :: cov) (q ++ [v]) N1) as [cov' [ex [F [N' [I [V [X [Y L]]]]]]]].
        exists cov', (v :: ex). rewrite F, <- app_assoc. cbn [app]. repeat split; auto.
        * intros x H; apply I; right; auto.
        * intros w [<-|H]; auto. apply I; left; auto.
        * destruct H as [<-|H]; [left; auto|right; apply X; auto].
        * destruct H as [<-|H]; [apply I; left; auto|apply X; auto].
        * intros x H. apply Y in H. destruct H as [[<-|H]|[w [H E2]]]; eauto 6. right; exists v; split; auto; left; auto. right. exists w. split; auto; right; auto.
        * cbn in *. lia.
  Qed.
  Definition is_call (v : node) : Prop := exists p, nkind v = KCall p.
  (** The invariant of the search from [n] *)
  Record inv (n : node) (cov : list nat) (q callers : list node) : Prop := {
    i_nodup : NoDup cov;
    i_node : forall x, In x cov -> exists v, In v m /\ nid v = x;
    i_start : In (nid n) cov;
    i_queue : forall v, In v q -> In v m /\ In (nid v) cov;
    i_done : forall v, In v m -> In (nid v) cov -> In v q \/ (is_call v /\ In v callers) \/ (~ is_call v /\ forall w, In w m -> In (nid v) (nops w) -> In (nid w) cov);
    i_callers : forall v, In v callers -> In v m /\ is_call v /\ In (nid v) cov;
    i_from : forall v, In v m -> In (nid v) cov -> v = n \/ exists x, In x (nops v) /\ In x cov }.
  Lemma cov_length n cov q c : inv n cov q c -> (List.length cov <= List.length m)%nat.
  Proof.
    intros I. rewrite <- (map_length nid m). apply NoDup_incl_length; [apply (i_nodup _ _ _ _ I)|].
    intros x H. apply (i_node _ _ _ _ I) in H. destruct H as [v [H <-]]. apply in_map; auto.
  Qed.
  Lemma search_inv n : forall fuel cov q c, inv n cov q c -> (List.length q + (List.length m - List.length cov) <= fuel)%nat ->
    exists cov', inv n cov' [] (search m fuel cov q c).
  Proof.
    induction fuel as [|fuel IH]; intros cov q c I L.
    - destruct q; [|cbn in L; lia]. exists cov. exact I.
    - destruct q as [|u q]; [exists cov; exact I|]. cbn [search].
      destruct (i_queue _ _ _ _ I u (or_introl eq_refl)) as [Um Uc].
      assert (K : is_call u -> exists cov', inv n cov' [] (search m fuel cov q (c ++ [u]))).
      { intros C. apply IH; [|cbn in L; lia]. constructor; try (apply I).
        - intros v H; apply I; right; auto.
        - intros v V Vc. destruct (i_done _ _ _ _ I v V Vc) as [[<-|H]|[[H1 H2]|H]]; auto.
          + right; left. split; auto. apply in_app_iff. right; left; auto.
          + right; left. split; auto. apply in_app_iff. auto.
        - intros v H. apply in_app_iff in H. destruct H as [H|[<-|[]]]; [apply I; auto|auto]. }
      assert (K2 : ~ is_call u -> exists cov', inv n cov' [] (let (covered', queue'') := fold_left enqueue (users m (nid u)) (cov, q) in search m fuel covered' queue'' c)).
      { intros C. destruct (enqueue_all (users m (nid u)) cov q (i_nodup _ _ _ _ I)) as [cov' [ex [-> [N' [In' [V [X [Y Len]]]]]]]].
        assert (I2 : inv n cov' (q ++ ex) c).
        { constructor; auto.
          - intros x H. apply Y in H. destruct H as [H|[v [H <-]]]; [apply (i_node _ _ _ _ I); auto|]. exists v. split; auto. apply X in H. destruct H as [H _]. apply users_in in H. apply H.
          - apply In'. apply I.
          - intros v H. apply in_app_iff in H. destruct H as [H|H].
            + destruct (i_queue _ _ _ _ I v (or_intror H)). split; auto.
            + apply X in H. destruct H as [H H2]. apply users_in in H. split; [apply H|auto].
          - intros v Vm Vc. apply Y in Vc. destruct Vc as [Vc|[w [Hw E]]].
            + destruct (i_done _ _ _ _ I v Vm Vc) as [[<-|H]|[H|[H1 H2]]].
              * right; right. split; auto. intros w Hw Ho. apply V. apply users_in. auto.
              * left. apply in_app_iff; auto.
              * right; left; auto.
              * right; right. split; auto.
            + left. apply in_app_iff. right. assert (w = v) as <-; auto. apply nid_inj; auto. apply X in Hw. destruct Hw as [Hw _]. apply users_in in Hw. apply Hw.
          - intros v H. apply (i_callers _ _ _ _ I) in H. destruct H as [A [B D]]. auto.
          - intros v Vm Vc. apply Y in Vc. destruct Vc as [Vc|[w [Hw E]]].
            + destruct (i_from _ _ _ _ I v Vm Vc) as [->|[x [A B]]]; eauto.
            + right. assert (w = v) as <- by (apply nid_inj; auto; apply X in Hw; destruct Hw as [Hw _]; apply users_in in Hw; apply Hw).
              apply X in Hw. destruct Hw as [Hw _]. apply users_in in Hw. exists (nid u). split; [apply Hw|auto]. }
        apply IH; auto. assert (CL := cov_length _ _ _ _ I2). rewrite app_length. cbn in L. lia. }
      destruct (nkind u) eqn:Ku; try (apply K2; intros [p E]; congruence). apply K. exists parent. auto.
  Qed.
  Lemma find_inv n : In n m -> ~ is_call n -> exists cov, inv n cov [] (findCallers m n).
  Proof.
    intros H NC. unfold findCallers. apply search_inv; [|cbn; destruct m; [contradiction|cbn; lia]].
    constructor.
    - constructor; [intros []|constructor].
    - intros x [<-|[]]. exists n. auto.
    - left; auto.
    - intros v [<-|[]]. split; auto. left; auto.
    - intros v V [E|[]]. left. left. apply nid_inj; auto.
    - intros v [].
    - intros v V [E|[]]. left. symmetry. apply nid_inj; auto.
  Qed.
  (** Every call of a function is found, *)
  Lemma denotes_reach n f i : nkind n = KFunc f -> In n m -> (forall n' f', In n' m -> nkind n' = KFunc f' -> f' = f -> n' = n) -> forall cov c, inv n cov [] c -> denotes m i f -> In i cov.
  Proof.
    intros K Hn U cov c I D. induction D as [i f t ops E|i f t j E D IH].
    - apply node_of_in in E. destruct E as [E Ei]. assert (X := U _ _ E eq_refl eq_refl). rewrite <- Ei, X. apply I.
    - apply node_of_in in E. destruct E as [E Ei]. assert (J : exists k, In k m /\ nid k = j) by (destruct G as [_ Ex]; apply (Ex _ j E); left; auto).
      destruct J as [k [Km Kj]]. subst j. cbn in Ei. destruct (i_done _ _ _ _ I k Km (IH K U)) as [[]|[[C _]|[C X]]].
      + exfalso. destruct C as [p C]. inversion D as [t' ops' E'|t' j' E']; apply node_of_in in E' || (rename H into E'; apply node_of_in in E'); destruct E' as [E' _];
          assert (Z := nid_inj _ _ E' Km eq_refl); rewrite <- Z in C; discriminate.
      + apply (X _ E). left; auto.
  Qed.
  Lemma found n f u p : In n m -> nkind n = KFunc f -> (forall n' f', In n' m -> nkind n' = KFunc f' -> f' = f -> n' = n) ->
    In u m -> nkind u = KCall p -> nops u <> [] -> denotes m (last (nops u) 0) f -> In u (findCallers m n).
  Proof.
    intros Hn K U Hu C Ne D. destruct (find_inv n Hn) as [cov I]; [intros [q E]; congruence|].
    assert (L := denotes_reach n f _ K Hn U cov _ I D).
    assert (Lo : In (last (nops u) 0) (nops u)).
    { revert Ne. clear. generalize (nops u). intros l Ne. destruct (exists_last Ne) as [l' [x ->]]. rewrite last_last. apply in_app_iff. right; left; auto. }
    assert (J : exists k, In k m /\ nid k = last (nops u) 0) by (destruct G as [_ Ex]; apply (Ex u); auto).
    destruct J as [k [Km Kj]]. rewrite <- Kj in L, Lo, D.
    destruct (i_done _ _ _ _ I k Km L) as [[]|[[[q C'] _]|[C' X]]].
    - exfalso. inversion D as [t' ops' E'|t' j' E']; apply node_of_in in E' || (rename H into E'; apply node_of_in in E'); destruct E' as [E' _];
          assert (Z := nid_inj _ _ E' Km eq_refl); rewrite <- Z in C'; discriminate.
    - assert (Uc := X u Hu Lo). destruct (i_done _ _ _ _ I u Hu Uc) as [[]|[[_ H]|[H _]]]; auto. exfalso. apply H. exists p; auto.
  Qed.
  (** and only calls are. *)
  Lemma found_calls n v : In n m -> ~ is_call n -> In v (findCallers m n) -> In v m /\ is_call v /\
    exists x, In x (nops v) /\ exists w, In w m /\ nid w = x /\ (w = n \/ nops w <> []).
  Proof.
    intros Hn NC H. destruct (find_inv n Hn NC) as [cov I]. destruct (i_callers _ _ _ _ I v H) as [A [B C]]. repeat split; auto.
    destruct (i_from _ _ _ _ I v A C) as [->|[x [X1 X2]]]; [contradiction|]. exists x. split; auto.
    destruct (i_node _ _ _ _ I x X2) as [w [W1 W2]]. exists w. repeat split; auto. subst x.
    destruct (i_from _ _ _ _ I w W1 X2) as [->|[y [Y _]]]; auto. right. intros E. rewrite E in Y. contradiction.
  Qed.
End Search.
