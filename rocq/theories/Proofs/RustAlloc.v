(** Proofs about the allocation functions of Model/RustVec.v. *)
From Coq Require Import ZArith List Bool Lia Permutation.
From Verif.Spec Require Import RustVec.
From Verif.Model Require Import RustVec.
From Verif.Proofs Require Import RustHeap.
Import ListNotations.
Open Scope list_scope.
Open Scope Z_scope.

Section Alloc.
  Context {T : Type}.
  Notation heap := (@heap T).
  Lemma alloc_zeroed_ok (h : heap) n al : 0 < n -> blocks (live h) ->
    match prim_alloc_zeroed n al h with
    | Ok (h', p) => live h' = (p, n) :: live h /\ blocks (live h') /\ (forall x, p <= x < p + n -> bytes h' x = 0) /\
        forall x, x < p \/ p + n <= x -> bytes h' x = bytes h x
    | Blocked => True
    | _ => False
    end.
  Proof.
    intros Hn B. change (sat (prim_alloc_zeroed n al) h (fun h' p => live h' = (p, n) :: live h /\ blocks (live h') /\ (forall x, p <= x < p + n -> bytes h' x = 0) /\
        forall x, x < p \/ p + n <= x -> bytes h' x = bytes h x)).
    unfold prim_alloc_zeroed, memset. eapply sat_bind; [apply sat_malloc; [auto|exact B]|].
    intros h1 p [L [W [Bt _]]]. eapply sat_bind; [apply sat_wr|].
    - rewrite repeat_length. rewrite Z2Nat.id by lia. eapply valid_in; [rewrite L; left; reflexivity| |]; lia.
    - intros h2 [] [L2 [_ B2]]. apply sat_ret. rewrite L2. split; auto. split; [exact W|].
      assert (Ln : Z.of_nat (List.length (repeat (0 mod 256) (Z.to_nat n))) = n) by (rewrite repeat_length; lia).
      split; intros x Hx; rewrite B2.
      + rewrite overwrite_in by (rewrite Ln; lia). change (0 mod 256) with 0. apply nth_repeat.
      + rewrite overwrite_out by (rewrite Ln; lia). rewrite Bt; auto.
  Qed.
  Lemma alloc_ok (h : heap) n al : 0 < n -> blocks (live h) ->
    match std_alloc n al h with
    | Ok (h', p) => live h' = (p, n) :: live h /\ blocks (live h') /\ bytes h' = bytes h
    | Blocked => True
    | _ => False
    end.
  Proof.
    intros Hn B. assert (X := sat_malloc n h Hn B). unfold sat in X. unfold std_alloc, prim_alloc.
    destruct (malloc n h) as [[h' p]| | | | |]; auto. destruct X as [A [W [E _]]]. auto.
  Qed.
  Lemma dealloc_ok (h : heap) p n size al : blocks (live h) -> In (p, n) (live h) ->
    match std_dealloc p size al h with
    | Ok (h', _) => Permutation (live h) ((p, n) :: live h') /\ blocks (live h') /\ bytes h' = bytes h /\
        forall size' al', std_dealloc p size' al' h' = Invalid
    | _ => False
    end.
  Proof.
    intros B H. apply in_split in H. destruct H as [l1 [l2 E]].
    assert (P : Permutation (live h) ((p, n) :: l1 ++ l2)) by (rewrite E; symmetry; apply Permutation_middle).
    assert (X := sat_free p n (l1 ++ l2) h B P).
    assert (W := wfL_perm _ _ P B). destruct (wfL_cons _ _ W) as [G [WR A]].
    unfold sat in X. unfold std_dealloc, prim_dealloc. unfold good in G; cbn in G.
    assert (NB : free p h <> Blocked). { unfold free. destruct (p =? 0); [discriminate|]. destruct (existsb _ _); discriminate. }
    destruct (free p h) as [[h' []]| | | | |]; auto. destruct X as [W' [P' [B' _]]].
    split; [rewrite P; constructor; symmetry; auto|]. split; [exact W'|]. split; auto.
    intros _ _. unfold free. destruct (p =? 0) eqn:Z0; [apply Z.eqb_eq in Z0; lia|].
    replace (existsb (fun b => fst b =? p) (live h')) with false; auto.
    symmetry. apply not_true_is_false. intros Ex. apply existsb_exists in Ex. destruct Ex as [c [Hc Ec]]. apply Z.eqb_eq in Ec.
    assert (Hc' : In c (l1 ++ l2)) by (eapply Permutation_in; eauto).
    specialize (A c Hc'). unfold apart in A; cbn in A. destruct WR as [WR _]. rewrite Forall_forall in WR. specialize (WR c Hc'). unfold good in WR. lia.
  Qed.
  (** An address that is not the start of a block cannot be freed. *)
  Lemma dealloc_bad (h : heap) p size al : p <> 0 -> (forall n, ~ In (p, n) (live h)) -> std_dealloc p size al h = Invalid.
  Proof.
    intros Np H. unfold std_dealloc, prim_dealloc, free. destruct (p =? 0) eqn:Z0; [apply Z.eqb_eq in Z0; lia|].
    replace (existsb (fun b => fst b =? p) (live h)) with false; auto.
    symmetry. apply not_true_is_false. intros Ex. apply existsb_exists in Ex. destruct Ex as [[q n] [Hc Ec]]. apply Z.eqb_eq in Ec. cbn in Ec; subst. eapply H; eauto.
  Qed.
  Lemma realloc_ok (h : heap) p n size al n' : 0 < n' -> blocks (live h) -> In (p, n) (live h) ->
    match std_realloc p size al n' h with
    | Ok (h', q) => exists R, Permutation (live h) ((p, n) :: R) /\ Permutation (live h') ((q, n') :: R) /\ blocks (live h') /\ bytes h' = bytes h
    | Blocked => True
    | _ => False
    end.
  Proof.
    intros Hn B H. apply in_split in H. destruct H as [l1 [l2 E]].
    assert (P : Permutation (live h) ((p, n) :: l1 ++ l2)) by (rewrite E; symmetry; apply Permutation_middle).
    change (sat (bind (free p) (fun _ => malloc n')) h (fun h' q => exists R, Permutation (live h) ((p, n) :: R) /\ Permutation (live h') ((q, n') :: R) /\ blocks (live h') /\ bytes h' = bytes h)).
    eapply sat_bind; [apply (sat_free p n (l1 ++ l2) h B P)|].
    intros h1 [] [W1 [P1 [B1 _]]]. eapply sat_impl; [apply sat_malloc; [auto|exact W1]|].
    intros h2 q [L2 [W2 [B2 _]]]. exists (l1 ++ l2). split; auto. split; [rewrite L2; constructor; auto|]. split; [exact W2|congruence].
  Qed.
End Alloc.
