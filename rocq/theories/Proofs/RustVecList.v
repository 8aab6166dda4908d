(** Proofs about Spec/RustVec.v: without growth the vectors are plain lists. *)
From Coq Require Import ZArith List Bool Lia Permutation.
From Verif.Spec Require Import RustVec.
From Verif.Model Require Import RustVec.
From Verif.Proofs Require Import RustHeap RustVecProofs RustVecMore RustVecSim.
Import ListNotations.
Open Scope list_scope.
Open Scope Z_scope.

Section Plain.
  Context {T : Type} (sz : Z).
  Notation elem := (option T).
  Notation with_vec := Spec.RustVec.with_vec.

  Lemma pushes_false (ts : list elem) : forall l cap k, pushes false (l, cap, k) ts = (l ++ ts, cap, k).
  Proof.
    induction ts as [|t ts IH]; intros l cap k; cbn; [rewrite app_nil_r; auto|].
    rewrite andb_false_r. fold (pushes false (l ++ [t], cap, k) ts). rewrite IH, <- app_assoc. reflexivity.
  Qed.
  Lemma push_room (l : list elem) cap k t : len l + 1 <= cap -> push true (l, cap, k) t = push false (l, cap, k) t.
  Proof. intros H. cbn. rewrite andb_false_r, andb_true_r. replace (len l =? cap) with false by (symmetry; apply Z.eqb_neq; lia). reflexivity. Qed.
  Lemma pushes_room (ts : list elem) : forall l cap k, len l + len ts <= cap -> pushes true (l, cap, k) ts = pushes false (l, cap, k) ts.
  Proof.
    induction ts as [|t ts IH]; intros l cap k H; auto. unfold pushes; cbn [fold_left].
    assert (E : len (t :: ts) = 1 + len ts) by (unfold len; cbn [List.length]; lia). assert (0 <= len ts) by (unfold len; lia).
    rewrite push_room by lia. cbn [push]. rewrite andb_false_r. apply IH. rewrite len_app1. lia.
  Qed.

  Lemma step_room (s : astate T) o : small s o -> (forall s' r, astep false sz s o = Ok (s', r) -> room s') -> astep true sz s o = astep false sz s o.
  Proof.
    intros Sm H. destruct o; cbn [astep] in *; auto.
    - (* VecOf *)
      rewrite pushes_false in *. unfold declare in *. cbn [app] in *.
      destruct (get x (avars s)) eqn:G.
      + destruct (pushes true ([], 32, O) (map Some l)) as [[? ?] ?]. reflexivity.
      + rewrite pushes_room, pushes_false; [reflexivity|].
        assert (L := H _ _ eq_refl x (map Some l) 32). cbn in L. rewrite Nat.eqb_refl in L. specialize (L eq_refl). unfold len in *; cbn; lia.
    - (* Push *)
      unfold with_vec in *. destruct (get x (avars s)) as [[l cap| |]|] eqn:G; auto.
      rewrite push_room; [reflexivity|]. cbn [push] in H. rewrite andb_false_r in H.
      assert (L := H _ _ eq_refl x (l ++ [Some t]) cap). cbn in L. rewrite get_put_eq in L by congruence. specialize (L eq_refl). rewrite len_app1 in L. lia.
    - (* Append *)
      destruct (Nat.eqb x y) eqn:Exy; auto. unfold with_vec in *. destruct (get x (avars s)) as [[l cap| |]|] eqn:G; auto.
      destruct (get y (avars s)) as [[l' cap'| |]|] eqn:G'; auto. cbn in Sm. specialize (Sm _ _ G').
      rewrite pushes_false in *. cbn [app] in *. rewrite pushes_room, pushes_false by (unfold len in *; cbn; rewrite rev_length; lia).
      cbn [app]. rewrite pushes_false in *. rewrite pushes_room, pushes_false; [reflexivity|].
      assert (L := H _ _ eq_refl x (l ++ rev (rev l')) cap). cbn in L. rewrite get_put_eq in L.
      + specialize (L eq_refl). unfold len in *. rewrite app_length in L. lia.
      + rewrite get_put_neq by (apply Nat.eqb_neq; auto). congruence.
    - (* Insert *)
      unfold with_vec in *. destruct (get x (avars s)) as [[l cap| |]|] eqn:G; auto.
      destruct (i <=? List.length l)%nat eqn:Hi; auto. rewrite andb_false_r in *. rewrite andb_true_r.
      assert (L := H _ _ eq_refl x (insert_at i l (Some t)) cap). cbn in L. rewrite get_put_eq in L by congruence. specialize (L eq_refl).
      replace (len l =? cap) with false; auto. symmetry; apply Z.eqb_neq.
      unfold insert_at, len in *. rewrite app_length in L. cbn [List.length] in L. rewrite <- (firstn_skipn i l) at 1. rewrite app_length. lia.
  Qed.

  Lemma runs_room l : forall (s : astate T), fits sz s l -> aruns true sz s l = aruns false sz s l.
  Proof.
    induction l as [|o l IH]; intros s F; auto. cbn in F. destruct F as [Sm F]. cbn [aruns].
    rewrite step_room; auto.
    - destruct (astep false sz s o) as [[s' r]| | | | |]; auto. rewrite IH by tauto. reflexivity.
    - intros s' r E. rewrite E in F. tauto.
  Qed.

  (** Everything is known. *)
  Definition sure (e : elem) : Prop := exists t, e = Some t.
  Definition osure (a : aobj T) : Prop := match a with AVec l _ => Forall sure l | AIter l => Forall sure l | ABox _ => True end.
  Definition ssure (s : astate T) : Prop := Forall (fun b => osure (snd b)) (avars s) /\ Forall sure (dropped s).
  Lemma get_sure (e : env (aobj T)) x a : Forall (fun b => osure (snd b)) e -> get x e = Some a -> osure a.
  Proof.
    induction e as [|[y b] e IH]; cbn; [discriminate|]. intros F. inversion F; subst.
    destruct (Nat.eqb x y); [intros [= <-]; auto|auto].
  Qed.
  Lemma put_sure (e : env (aobj T)) x a : Forall (fun b => osure (snd b)) e -> osure a -> Forall (fun b => osure (snd b)) (put x a e).
  Proof.
    induction e as [|[y b] e IH]; cbn; auto. intros F A. inversion F; subst. destruct (Nat.eqb x y); constructor; auto.
  Qed.
  Lemma del_sure (e : env (aobj T)) x : Forall (fun b => osure (snd b)) e -> Forall (fun b => osure (snd b)) (del x e).
  Proof. induction e as [|[y b] e IH]; cbn; auto. intros F. inversion F; subst. destruct (Nat.eqb x y); auto. Qed.
  Lemma map_some_sure (l : list T) : Forall sure (map Some l).
  Proof. induction l; constructor; auto. eexists; eauto. Qed.
  Lemma firstn_sure n (l : list elem) : Forall sure l -> Forall sure (firstn n l).
  Proof. intros F. rewrite Forall_forall in *. intros x Hx. apply F. rewrite <- (firstn_skipn n l). apply in_or_app; auto. Qed.
  Lemma skipn_sure n (l : list elem) : Forall sure l -> Forall sure (skipn n l).
  Proof. intros F. rewrite Forall_forall in *. intros x Hx. apply F. rewrite <- (firstn_skipn n l). apply in_or_app; auto. Qed.
  Definition obs_sure (r : obs elem) : Prop := exists r', r = known_obs r'.
  Lemma elem_sure e : sure e -> obs_sure (Elem e).
  Proof. intros [t ->]. exists (Elem t). reflexivity. Qed.
  Lemma maybe_sure e : sure e -> obs_sure (Maybe (Some e)).
  Proof. intros [t ->]. exists (Maybe (Some t)). reflexivity. Qed.

  Lemma step_sure s o s' r : ssure s -> astep false sz s o = Ok (s', r) -> ssure s' /\ obs_sure r.
  Proof.
    intros [SV SD] H.
    assert (N0 : obs_sure Nothing) by (exists Nothing; auto).
    assert (NN : obs_sure (Maybe None)) by (exists (Maybe None); auto).
    assert (NZ : forall n, obs_sure (Number n)) by (intros n; exists (Number n); auto).
    destruct o; cbn [astep] in H; unfold with_vec, declare, update in H; try (destruct (Nat.eqb x y); [discriminate|]);
      try rewrite !pushes_false in H; try rewrite !andb_false_r in H; cbn [push app] in H; try rewrite !andb_false_r in H;
      (destruct (get x (avars s)) as [[l0 cap|l0|t0]|] eqn:G; try discriminate H);
      try (assert (O := get_sure _ _ _ SV G); cbn in O); try rewrite !andb_false_r in H.
    - injection H as <- <-. split; auto. split; cbn; auto. constructor; cbn; auto.
    - destruct (2 ^ 64 <=? n * sz); [discriminate|]. injection H as <- <-. split; auto. split; cbn; auto. constructor; cbn; auto.
    - injection H as <- <-. split; auto. split; cbn; auto. constructor; cbn; auto. apply map_some_sure.
    - injection H as <- <-. split; auto. split; cbn; auto. apply put_sure; auto. cbn. apply Forall_app; split; auto. repeat constructor. eexists; eauto.
    - destruct (rev l0) as [|t r0] eqn:E; injection H as <- <-; split; auto; [split; auto|split; cbn; auto|].
      + apply put_sure; auto. cbn. assert (X := Forall_rev O). rewrite E in X. inversion X; subst. apply Forall_rev; auto.
      + apply maybe_sure. assert (X := Forall_rev O). rewrite E in X. inversion X; auto.
    - destruct (get y (avars s)) as [[l1 cap'| |]|] eqn:G'; try discriminate H. rewrite pushes_false in H; cbn [app] in H; rewrite pushes_false in H. injection H as <- <-.
      assert (O' := get_sure _ _ _ SV G'). cbn in O'.
      split; auto. split; cbn; auto. apply put_sure; [apply put_sure; cbn; auto|]. cbn. apply Forall_app; split; auto. apply Forall_rev, Forall_rev; auto.
    - destruct (i <=? List.length l0)%nat; [|discriminate]. try rewrite andb_false_r in H. injection H as <- <-. split; auto. split; cbn; auto. apply put_sure; auto. cbn.
      unfold insert_at. apply Forall_app; split; [apply firstn_sure; auto|]. constructor; [eexists; eauto|apply skipn_sure; auto].
    - destruct (nth_error l0 i) as [e|] eqn:N; [|discriminate]. injection H as <- <-. split; [split; cbn; auto|].
      + apply put_sure; auto. cbn. unfold remove_at. apply Forall_app; split; [apply firstn_sure|apply skipn_sure]; auto.
      + apply elem_sure. rewrite Forall_forall in O. apply O. eapply nth_error_In; eauto.
    - injection H as <- <-. split; auto. split; auto.
    - destruct (nth_error l0 i) as [e|] eqn:N; [|discriminate]. injection H as <- <-. split; [split; cbn; auto|].
      apply elem_sure. rewrite Forall_forall in O. apply O. eapply nth_error_In; eauto.
    - destruct (nth_error l0 i) as [e|] eqn:N; [|discriminate]. injection H as <- <-. split; [split; cbn|]; auto.
      + apply put_sure; auto. cbn. unfold replace_at. apply Forall_app; split; [apply firstn_sure; auto|]. constructor; [eexists; eauto|apply skipn_sure; auto].
      + constructor; auto. rewrite Forall_forall in O. apply O. eapply nth_error_In; eauto.
    - injection H as <- <-. split; auto. split; cbn; auto. apply put_sure; auto.
    - destruct l0 as [|t l0]; injection H as <- <-; split; auto; [split; auto| |]; inversion O; subst.
      + split; cbn; auto. apply put_sure; auto.
      + apply maybe_sure; auto.
    - destruct (rev l0) as [|t r0] eqn:E; injection H as <- <-; split; auto; [split; auto|split; cbn; auto|].
      + apply put_sure; auto. cbn. assert (X := Forall_rev O). rewrite E in X. inversion X; subst. apply Forall_rev; auto.
      + apply maybe_sure. assert (X := Forall_rev O). rewrite E in X. inversion X; auto.
    - injection H as <- <-. split; auto. split; auto.
    - injection H as <- <-. split; auto. split; cbn; auto. constructor; cbn; auto.
    - injection H as <- <-. split; [split; auto|]. apply elem_sure. eexists; eauto.
    - injection H as <- <-. split; auto. split; cbn; [apply del_sure; auto|apply Forall_app; auto].
    - injection H as <- <-. split; auto. split; cbn; [apply del_sure; auto|apply Forall_app; split; auto; apply Forall_rev; auto].
    - injection H as <- <-. split; auto. split; cbn; [apply del_sure; auto|auto].
  Qed.
  Lemma runs_sure l : forall s s' rs, ssure s -> aruns false sz s l = Ok (s', rs) -> ssure s' /\ Forall obs_sure rs.
  Proof.
    induction l as [|o l IH]; intros s s' rs S H; cbn in H.
    - injection H as <- <-. auto.
    - destruct (astep false sz s o) as [[s1 r1]| | | | |] eqn:E; try discriminate.
      destruct (step_sure _ _ _ _ S E) as [S1 O1].
      destruct (aruns false sz s1 l) as [[s2 rs2]| | | | |] eqn:E2; try discriminate. injection H as <- <-.
      destruct (IH _ _ _ S1 E2). auto.
  Qed.
  Lemma predicted_sure r' (r : obs T) : obs_sure r' -> predicted r' r -> r' = known_obs r.
  Proof.
    intros [r0 ->] P. destruct r0 as [|t0|[t0|]|n0]; cbn in P |- *; inversion P; subst; cbn in *; subst; auto.
  Qed.
  Lemma predicted_all rs' (rs : list (obs T)) : Forall obs_sure rs' -> Forall2 predicted rs' rs -> rs' = map known_obs rs.
  Proof. intros F H. induction H; auto. inversion F; subst. cbn. f_equal; auto. apply predicted_sure; auto. Qed.
  Lemma known_all (ds : list elem) ts : Forall sure ds -> Forall2 known ds ts -> ds = map Some ts.
  Proof. intros F H. induction H; auto. inversion F as [|? ? [t ->] ?]; subst. cbn in *. subst. f_equal; auto. Qed.
End Plain.

Section Main.
  Context {T : Type} (sz : Z) (enc : T -> list Z) (dec : list Z -> T).
  Context (Sz : 0 < sz) (Small : sz < 2 ^ 58) (Enc : forall t, Z.of_nat (List.length (enc t)) = sz) (Dec : forall t, dec (enc t) = t).

  Lemma Inv_start (h0 : @heap T) : blocks (live h0) -> Inv sz enc h0 h0 [] start.
  Proof.
    intros B. split; [split; [reflexivity|split; [constructor|discriminate]]|]. split; [|split; [apply same_on_refl|exists []; split; constructor]].
    exists []. split; auto. split; [exact B|reflexivity].
  Qed.
  Lemma main (h0 : @heap T) l : blocks (live h0) -> log h0 = [] -> capacities l ->
    agrees (fun (m : heap * (env obj * list (obs T))) (a : astate T * list (obs (option T))) =>
        Forall2 predicted (snd a) (snd (snd m)) /\ Forall2 known (dropped (fst a)) (log (fst m)) /\
        incl (live h0) (live (fst m)) /\ List.length (live (fst m)) = (List.length (live h0) + List.length (avars (fst a)) + leaked (fst a))%nat /\
        (forall b x, In b (live h0) -> fst b <= x < fst b + snd b -> bytes (fst m) x = bytes h0 x))
      (runs sz enc dec [] l h0) (aruns true sz start l).
  Proof.
    intros B L C. assert (X := runs_sim sz enc dec Sz Small Enc Dec h0 l h0 [] start (Inv_start h0 B)).
    unfold agree in X. lapply X; [clear X; intros X|].
    - destruct (runs sz enc dec [] l h0) as [[h [e rs]]| | | | |]; destruct (aruns true sz start l) as [[s rs']| | | | |]; try contradiction; constructor.
      destruct X as [[[EK _] [[K [LK [W P]]] [M [ts [F G]]]]] R]. cbn [fst snd] in *. split; auto.
      split; [rewrite G, L, app_nil_r; auto|]. split; [|split; auto].
      + intros b Hb. eapply Permutation_in; [symmetry; exact P|]. apply in_or_app; right. apply in_or_app; auto.
      + rewrite (Permutation_length P), !app_length. unfold blks. rewrite map_length. apply (f_equal (@List.length _)) in EK. rewrite !map_length in EK. lia.
    - intros o Ho. destruct o; cbn; auto. eapply C; eauto.
  Qed.
  Lemma main_list (h0 : @heap T) l : blocks (live h0) -> log h0 = [] -> capacities l -> fits sz start l ->
    agrees (fun (m : heap * (env obj * list (obs T))) (a : astate T * list (obs (option T))) =>
        snd a = map known_obs (snd (snd m)) /\ dropped (fst a) = map Some (log (fst m)))
      (runs sz enc dec [] l h0) (aruns false sz start l).
  Proof.
    intros B L C F. assert (X := main h0 l B L C). rewrite runs_room in X by auto.
    inversion X as [b E|a b R E1 E2| | |]; try constructor. destruct b as [s rs']. symmetry in E2.
    apply runs_sure in E2; [|split; constructor]. destruct E2 as [[_ D] O]. destruct R as [R1 [R2 _]]. cbn [fst snd] in *.
    split; [apply predicted_all; auto|apply known_all; auto].
  Qed.
End Main.
