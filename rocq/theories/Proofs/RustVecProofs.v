(** Proofs about the operations of Model/RustVec.v: vectors are lists. *)
From Coq Require Import ZArith List Bool Lia Permutation.
From Verif.Spec Require Import RustVec.
From Verif.Model Require Import RustVec.
From Verif.Proofs Require Import RustHeap.
Import ListNotations.
Open Scope list_scope.
Open Scope Z_scope.

Section Vec.
  Context {T : Type} (sz : Z) (enc : T -> list Z) (dec : list Z -> T).
  Context (Sz : 0 < sz) (Small : sz < 2 ^ 58) (Enc : forall t, Z.of_nat (List.length (enc t)) = sz) (Dec : forall t, dec (enc t) = t).
  Notation heap := (@heap T).
  Notation elem := (option T).
  Notation elems := (@elems T sz enc).
  Notation holds := (@holds T sz enc).

  Definition rblk (b : rawvec) : Z * Z := (rptr b, rcap b * sz).
  Definition own (v : vec) : Z * Z := rblk (buf v).
  Definition vrep (h : heap) (v : vec) (l : list elem) (cap : Z) : Prop :=
    vlen v = len l /\ rcap (buf v) = cap /\ len l <= cap /\ 0 < cap /\ elems h (rptr (buf v)) l.
  (** The memory of the blocks [R] is the same. *)
  Definition same_on (R : list (Z * Z)) (h h' : heap) : Prop :=
    forall b a, In b R -> fst b <= a < fst b + snd b -> bytes h' a = bytes h a.
  Lemma same_on_refl R h : same_on R h h.
  Proof. intros b a _ _; reflexivity. Qed.
  Lemma same_on_eq R h h' : bytes h' = bytes h -> same_on R h h'.
  Proof. intros E b a _ _; rewrite E; reflexivity. Qed.
  Lemma same_on_trans R h h' h'' : same_on R h h' -> same_on R h' h'' -> same_on R h h''.
  Proof. intros A B b a H1 H2. rewrite (B b a), (A b a); auto. Qed.
  Lemma same_on_incl R R' h h' : incl R' R -> same_on R h h' -> same_on R' h h'.
  Proof. intros I A b a H1 H2. eapply A; eauto. Qed.

  (** [B] are the blocks in question and [R] all others. *)
  Definition state (h : heap) (B R : list (Z * Z)) : Prop := wfL (live h) /\ Permutation (live h) (B ++ R).
  Lemma state_in h B R b : state h B R -> In b B -> In b (live h).
  Proof. intros [_ P] H. eapply Permutation_in; [symmetry; eauto|]. apply in_or_app; auto. Qed.
  Lemma state_good h B R b : state h B R -> In b B -> good b.
  Proof. intros S H. assert (I := state_in _ _ _ _ S H). destruct S as [[F _] _]. rewrite Forall_forall in F; auto. Qed.
  Lemma state_apart h b R c : state h [b] R -> In c R -> apart b c.
  Proof. intros [W P] H. cbn in P. apply (wfL_perm _ _ P) in W. apply wfL_cons in W. destruct W as [_ [_ W]]; auto. Qed.
  (** Writing in [b] leaves [R] alone. *)
  Lemma same_outside h h' b R : state h [b] R -> (forall x, x < fst b \/ fst b + snd b <= x -> bytes h' x = bytes h x) -> same_on R h h'.
  Proof.
    intros S E c a H1 H2. apply E. assert (A := state_apart _ _ _ _ S H1). unfold apart in A.
    assert (G : good c). { destruct S as [[F _] P]. rewrite Forall_forall in F. apply F. eapply Permutation_in; [symmetry; eauto|]. right; auto. }
    unfold good in G. lia.
  Qed.
  Lemma state_valid h b R a n : state h [b] R -> fst b <= a -> a + n <= fst b + snd b -> valid h a n = true.
  Proof. intros S A B. destruct b as [p m]. eapply valid_in; eauto. eapply state_in; eauto. left; auto. Qed.
  Lemma state_live h h' B R : live h' = live h -> state h B R -> state h' B R.
  Proof. unfold state; intros ->; auto. Qed.
  Lemma state_swap h a b R : state h [a] (b :: R) <-> state h [b] (a :: R).
  Proof. unfold state; cbn; split; intros [W P]; split; auto; rewrite P; constructor. Qed.

  Lemma vrep_ext h h' v l cap : same_on [own v] h h' -> vrep h v l cap -> vrep h' v l cap.
  Proof.
    intros S [A [B [C [D E]]]]. split; [auto|split; [auto|split; [auto|split; [auto|]]]].
    eapply elems_ext with (h := h); [auto| |exact E]. intros x Hx. apply (S (own v)); [left; auto|]. unfold own, rblk, fst, snd. rewrite B. unfold len in C. nia.
  Qed.

  Lemma TOP_lt : TOP < 2 ^ 63. Proof. reflexivity. Qed.
  Lemma cap_bound h b R : state h [rblk b] R -> 0 < rcap b -> rcap b <= rcap b * sz /\ rcap b * sz < 2 ^ 63.
  Proof.
    intros S H. assert (G := state_good _ _ _ (rblk b) S (or_introl eq_refl)). unfold good, rblk in G; cbn [fst snd] in G.
    assert (X := TOP_lt). split; [nia|lia].
  Qed.

  Lemma sat_mul' a b (h : heap) : a * b < USIZE -> sat (mul a b) h (fun h' n => h' = h /\ n = a * b).
  Proof. intros H. apply sat_mul; auto. Qed.
  Lemma sat_add' a b (h : heap) : a + b < USIZE -> sat (add a b) h (fun h' n => h' = h /\ n = a + b).
  Proof. intros H. apply sat_add; auto. Qed.
  Lemma sat_sub' a b (h : heap) : b <= a -> sat (sub a b) h (fun h' n => h' = h /\ n = a - b).
  Proof. intros H. apply sat_sub; auto. Qed.

  Lemma sat_grow h b R : state h [rblk b] R -> 0 < rcap b ->
    sat (raw_grow sz b) h (fun h' b' => state h' [rblk b'] (rblk b :: R) /\ rcap b' = 2 * rcap b /\ bytes h' = bytes h /\ log h' = log h).
  Proof.
    intros S H. destruct (cap_bound _ _ _ S H) as [B1 B2]. unfold raw_grow, sized_realloc.
    assert (U : USIZE = 2 * 2 ^ 63) by reflexivity.
    eapply sat_bind; [apply sat_mul'; lia|]. intros h1 n [-> ->].
    eapply sat_bind; [apply sat_mul'; lia|]. intros h1 n [-> ->].
    eapply sat_bind; [apply sat_mul'; lia|]. intros h1 n' [-> ->]. eapply sat_bind with (Q := fun h' p => live h' = (p, 2 * rcap b * sz) :: live h /\ wfL (live h') /\ bytes h' = bytes h /\ log h' = log h).
    - eapply sat_bind; [apply sat_malloc; [lia|apply S]|].
      intros h1 p Q. unfold verifier_memcpy, sat, bind, ret. cbn. exact Q.
    - intros h1 p [L [W [E G]]]. apply sat_ret. cbn [rcap]. split; [split; auto|auto].
      unfold rblk; cbn [rptr rcap app]. rewrite L. apply perm_skip. destruct S as [_ P]. exact P.
  Qed.

  Lemma len_app1 (l : list elem) e : len (l ++ [e]) = len l + 1.
  Proof. unfold len. rewrite app_length; cbn; lia. Qed.
  Lemma known_holds h a (e : elem) t : known e t -> holds h a (Some t) -> holds h a e.
  Proof. destruct e as [x|]; cbn; auto. intros ->; auto. Qed.

  (** Appending an element to a vector with room for it *)
  Lemma sat_put_last h v l cap R e t : state h [own v] R -> vrep h v l cap -> len l < cap -> known e t ->
    sat (bind (ptr_write enc (offset sz (rptr (buf v)) (vlen v)) t) (fun _ => bind (add (vlen v) 1) (fun n => ret (Vec (buf v) n)))) h
      (fun h' v' => own v' = own v /\ state h' [own v'] R /\ vrep h' v' (l ++ [e]) cap /\ same_on R h h' /\ log h' = log h).
  Proof.
    intros S [A [B [C [D E]]]] Room K. unfold offset. rewrite A.
    assert (BD := cap_bound _ _ _ S). rewrite B in BD. destruct (BD D) as [B1 B2].
    eapply sat_bind; [apply (sat_write sz enc Enc); eapply state_valid; [exact S| |]; unfold own, rblk, fst, snd; rewrite ?B; unfold len in *; nia|].
    intros h1 [] [L1 [G1 E1]]. eapply sat_bind; [apply sat_add'|].
    { change USIZE with (2 * 2 ^ 63). unfold len in *; lia. }
    intros h2 n [-> ->]. apply sat_ret. split; [reflexivity|].
    assert (Out : forall x, x < rptr (buf v) + len l * sz \/ rptr (buf v) + len l * sz + sz <= x -> bytes h1 x = bytes h x).
    { intros x Hx. rewrite E1. apply overwrite_out. rewrite Enc. lia. }
    split; [eapply state_live; eauto|]. split; [|split; [|auto]].
    - split; [cbn; rewrite len_app1; auto|]. split; [auto|]. split; [rewrite len_app1; lia|]. split; [auto|]. cbn [buf].
      apply elems_app; auto. split.
      + eapply elems_ext with (h := h); [auto| |exact E]. intros x Hx. apply Out. left. unfold len. lia.
      + apply elems_cons; auto. split; [|apply elems_nil]. eapply known_holds; eauto. eapply holds_written; eauto.
    - eapply same_outside; [exact S|]. intros x Hx. apply Out. unfold own, rblk, fst, snd in Hx. rewrite B in Hx. unfold len in *. nia.
  Qed.

  Definition vpost (h h' : heap) (v' : vec) (l' : list elem) (cap' : Z) (k : nat) (R : list (Z * Z)) : Prop :=
    exists K, List.length K = k /\ state h' [own v'] (K ++ R) /\ vrep h' v' l' cap' /\ same_on R h h' /\ log h' = log h.

  Lemma sat_push h v l cap R e t l' cap' k0 k :
    state h [own v] R -> vrep h v l cap -> known e t -> push true (l, cap, k0) e = (l', cap', k) ->
    sat (vec_push sz enc v t) h (fun h' v' => exists k', (k = k' + k0)%nat /\ vpost h h' v' l' cap' k' R).
  Proof.
    intros S V K P. unfold vec_push. assert (V' := V). destruct V as [A [B [C [D E]]]].
    cbn in P. rewrite andb_true_r in P. rewrite A, B.
    destruct (len l =? cap) eqn:F.
    - apply Z.eqb_eq in F. injection P as <- <- <-.
      eapply sat_bind; [apply sat_grow; [exact S|rewrite B; auto]|].
      intros h1 b [S1 [C1 [E1 G1]]].
      set (v1 := Vec b (vlen v)).
      assert (V1 : vrep h1 v1 (map (fun _ => None) l) (2 * cap)).
      { unfold v1; split; [cbn; rewrite A; unfold len; rewrite map_length; auto|]. split; [cbn; rewrite C1, B; auto|].
        split; [unfold len in *; rewrite map_length; lia|]. split; [lia|]. apply elems_unknown. }
      assert (X := sat_put_last h1 v1 _ _ (own v :: R) e t S1 V1).
      rewrite <- A. eapply sat_impl; [apply X; auto; unfold len in *; rewrite map_length; lia|].
      intros h2 v2 [O2 [S2 [V2 [M2 G2]]]]. exists 1%nat. split; [lia|]. exists [own v]. split; [reflexivity|].
      split; [exact S2|]. split; [exact V2|]. split; [|congruence].
      eapply same_on_trans; [apply same_on_eq; exact E1|]. eapply same_on_incl; [|exact M2]. intros x Hx; right; auto.
    - apply Z.eqb_neq in F. injection P as <- <- <-.
      unfold bind at 1; cbn [ret]. rewrite <- A.
      eapply sat_impl; [eapply sat_put_last with (e := e); eauto; lia|].
      intros h2 v2 [O2 [S2 [V2 [M2 G2]]]]. exists 0%nat. split; [lia|]. exists []. split; [reflexivity|]. split; [exact S2|auto].
  Qed.

  Lemma sat_pop_some h v l e cap R : state h [own v] R -> vrep h v (l ++ [e]) cap ->
    sat (vec_pop sz dec v) h (fun h' r => h' = h /\ exists t, snd r = Some t /\ known e t /\ own (fst r) = own v /\ vrep h (fst r) l cap).
  Proof.
    intros S [A [B [C [D E]]]]. rewrite len_app1 in A, C. unfold vec_pop. rewrite A.
    assert (0 <= len l) by (unfold len; lia).
    destruct (len l + 1 =? 0) eqn:F; [apply Z.eqb_eq in F; lia|].
    eapply sat_bind; [apply sat_sub'; lia|].
    intros h1 n [-> ->]. replace (len l + 1 - 1) with (len l) by lia. apply elems_app in E; auto. destruct E as [E1 E2]. apply elems_cons in E2; auto. destruct E2 as [E2 _].
    eapply sat_bind; [apply (sat_read sz enc dec Sz Enc Dec) with (o := e); [|exact E2]|].
    - unfold offset. eapply state_valid; [exact S| |]; unfold own, rblk, fst, snd; rewrite ?B; nia.
    - intros h1 t [-> K]. apply sat_ret. split; auto. exists t. cbn. split; auto. split; auto. split; auto.
      split; [auto|split; [auto|split; [lia|split; [auto|exact E1]]]].
  Qed.
  Lemma sat_pop_none h v cap : vrep h v [] cap -> vec_pop sz dec v h = Ok (h, (v, None)).
  Proof. intros [A _]. unfold vec_pop. rewrite A. reflexivity. Qed.

  Lemma push_shift (l : list elem) cap k e :
    push true (l, cap, k) e = (fst (fst (push true (l, cap, O) e)), snd (fst (push true (l, cap, O) e)), (snd (push true (l, cap, O) e) + k)%nat).
  Proof. cbn. destruct (_ && _); reflexivity. Qed.

  Lemma sat_move_all lf : forall h from to cf lt ct k0 R lt' ct' k,
    state h [own from] (own to :: R) -> vrep h from lf cf -> vrep h to lt ct ->
    pushes true (lt, ct, k0) (rev lf) = (lt', ct', k) ->
    sat (move_all sz enc dec (List.length lf) from to) h (fun h' r =>
      exists K, (k = List.length K + k0)%nat /\ state h' [own (fst r)] (own (snd r) :: K ++ R) /\
        vrep h' (fst r) [] cf /\ vrep h' (snd r) lt' ct' /\ same_on R h h' /\ log h' = log h).
  Proof.
    induction lf as [|e lf IH] using rev_ind; intros h from to cf lt ct k0 R lt' ct' k S VF VT P.
    - cbn in P. injection P as <- <- <-. apply sat_ret. exists []. cbn. split; auto. split; auto. split; auto. split; auto. split; auto. apply same_on_refl.
    - rewrite app_length, Nat.add_1_r. cbn [move_all].
      rewrite rev_app_distr in P. cbn [rev app pushes fold_left] in P.
      eapply sat_bind; [apply (sat_pop_some h from lf e cf (own to :: R)); auto|].
      intros h1 [from1 o] [-> [t [Eo [Kt [Of Vf]]]]]. cbn [fst snd] in *. subst o.
      unfold unwrap. unfold bind at 1; cbn [ret].
      destruct (push true (lt, ct, k0) e) as [[l1 c1] k1] eqn:Q.
      eapply sat_bind; [eapply sat_push with (e := e); [apply state_swap; exact S|exact VT|exact Kt|exact Q]|].
      intros h1 to1 [k' [Ek [K [LK [S1 [V1 [M1 G1]]]]]]].
      assert (S1' : state h1 [own from1] (own to1 :: K ++ R)).
      { rewrite Of. destruct S1 as [W1 P1]. split; auto. rewrite P1. cbn. rewrite <- Permutation_middle. constructor. }
      assert (Vf1 : vrep h1 from1 lf cf).
      { eapply vrep_ext; [|exact Vf]. rewrite Of. eapply same_on_incl; [|exact M1]. intros x [<-|[]]; left; auto. }
      eapply sat_impl; [apply (IH h1 from1 to1 cf l1 c1 k1 (K ++ R) lt' ct' k S1' Vf1 V1 P)|].
      intros h2 [f2 t2] [K2 [Ek2 [S2 [Vf2 [Vt2 [M2 G2]]]]]]. cbn [fst snd] in *.
      exists (K2 ++ K). split; [rewrite app_length; lia|]. rewrite <- app_assoc. split; [exact S2|]. split; auto. split; auto. split; [|congruence].
      eapply same_on_trans; [eapply same_on_incl; [|exact M1]; intros x Hx; right; auto|].
      eapply same_on_incl; [|exact M2]. intros x Hx; apply in_or_app; auto.
  Qed.

  (** The log after dropping [l] *)
  Definition logged (l : list elem) (h h' : heap) : Prop := exists ts, Forall2 known l ts /\ log h' = ts ++ log h.

  Lemma sat_pop_all l : forall h v cap R, state h [own v] R -> vrep h v l cap ->
    sat (pop_all sz dec (S (List.length l)) v) h (fun h' v' => own v' = own v /\ live h' = live h /\ bytes h' = bytes h /\ logged l h h').
  Proof.
    induction l as [|e l IH] using rev_ind; intros h v cap R S V.
    - cbn [List.length pop_all]. unfold sat, bind. rewrite (sat_pop_none h v cap V). cbn.
      split; [reflexivity|]. split; [reflexivity|]. split; [reflexivity|]. exists []. split; [constructor|reflexivity].
    - rewrite app_length, Nat.add_1_r. cbn [pop_all].
      eapply sat_bind; [apply (sat_pop_some h v l e cap R S V)|].
      intros h1 [v1 o] [-> [t [Eo [Kt [Of Vf]]]]]. cbn [fst snd] in *. subst o.
      eapply sat_bind with (Q := fun h' _ => live h' = live h /\ bytes h' = bytes h /\ log h' = t :: log h); [unfold sat, drop_elem; cbn; auto|].
      intros h1 [] [L1 [B1 G1]].
      eapply sat_impl; [apply (IH h1 v1 cap R)|].
      + rewrite Of. eapply state_live; eauto.
      + eapply vrep_ext; [apply same_on_eq; exact B1|exact Vf].
      + intros h2 v2 [O2 [L2 [B2 [ts [F2 G2]]]]]. split; [congruence|]. split; [congruence|]. split; [congruence|].
        exists (ts ++ [t]). split; [apply Forall2_app; auto|]. rewrite G2, G1, <- app_assoc. reflexivity.
  Qed.
  Lemma sat_vec_drop h v l cap R : state h [own v] R -> vrep h v l cap ->
    sat (vec_drop sz dec v) h (fun h' _ => state h' [] R /\ bytes h' = bytes h /\ logged l h h').
  Proof.
    intros S V. unfold vec_drop. destruct V as [A V]. replace (Z.to_nat (vlen v)) with (List.length l) by (rewrite A; unfold len; lia).
    eapply sat_bind; [apply (sat_pop_all l h v cap R S); split; auto|].
    intros h1 v1 [O1 [L1 [B1 G1]]]. unfold raw_drop.
    eapply sat_impl; [apply (sat_free (rptr (buf v1)) (rcap (buf v1) * sz) R)|].
    - rewrite L1; apply S.
    - rewrite L1. change (rptr (buf v1), rcap (buf v1) * sz) with (own v1). rewrite O1. apply S.
    - intros h2 [] [W [P [B2 G2]]]. split; [split; auto|]. split; [congruence|]. destruct G1 as [ts [F G1]]. exists ts; split; auto; congruence.
  Qed.

  Lemma sat_new h cap R : state h [] R -> 0 < cap -> cap * sz < 2 ^ 64 ->
    sat (vec_with_capacity sz cap) h (fun h' v => state h' [own v] R /\ vrep h' v [] cap /\ bytes h' = bytes h /\ log h' = log h).
  Proof.
    intros S H H'. unfold vec_with_capacity, raw_with_capacity.
    eapply sat_bind with (Q := fun h' b => state h' [rblk b] R /\ rcap b = cap /\ bytes h' = bytes h /\ log h' = log h).
    - eapply sat_bind; [apply sat_mul'; exact H'|].
      intros h1 n [-> ->]. eapply sat_bind; [apply sat_malloc; [nia|apply S]|].
      intros h1 p [L [W [B G]]]. apply sat_ret. cbn [rcap]. split; [split; auto|auto]. unfold rblk; cbn [rptr rcap app]. rewrite L. constructor. apply S.
    - intros h1 b [S1 [C1 [B1 G1]]]. apply sat_ret. split; auto. split; auto.
      split; [reflexivity|]. split; [auto|]. split; [unfold len; cbn; lia|]. split; auto. apply elems_nil.
  Qed.
  Lemma vec_new_eq h : vec_new sz h = vec_with_capacity (T := T) sz 32 h.
  Proof. reflexivity. Qed.
  Lemma sat_vec_new h R : state h [] R ->
    sat (vec_new sz) h (fun h' v => state h' [own v] R /\ vrep h' v [] 32 /\ bytes h' = bytes h /\ log h' = log h).
  Proof. intros S. unfold sat. rewrite vec_new_eq. apply (sat_new h 32 R S); lia. Qed.

  Lemma sat_push_all ts : forall h v l cap k0 R l' cap' k, state h [own v] R -> vrep h v l cap ->
    pushes true (l, cap, k0) (map Some ts) = (l', cap', k) ->
    sat (push_all sz enc v ts) h (fun h' v' => exists k', (k = k' + k0)%nat /\ vpost h h' v' l' cap' k' R).
  Proof.
    induction ts as [|t ts IH]; intros h v l cap k0 R l' cap' k S V P; cbn [push_all map pushes fold_left] in *.
    - injection P as <- <- <-. apply sat_ret. exists O. split; [lia|]. exists []. split; [reflexivity|]. split; [exact S|]. split; [exact V|]. split; [apply same_on_refl|auto].
    - destruct (push true (l, cap, k0) (Some t)) as [[l1 c1] k1] eqn:Q.
      eapply sat_bind; [eapply sat_push with (e := Some t) (t := t); eauto; reflexivity|].
      intros h1 v1 [k' [Ek [K [LK [S1 [V1 [M1 G1]]]]]]].
      eapply sat_impl; [apply (IH h1 v1 l1 c1 k1 (K ++ R) l' cap' k S1 V1 P)|].
      intros h2 v2 [k2 [Ek2 [K2 [LK2 [S2 [V2 [M2 G2]]]]]]]. exists (k2 + k')%nat. split; [lia|].
      exists (K2 ++ K). split; [rewrite app_length; lia|]. rewrite <- app_assoc. split; auto. split; auto. split; [|congruence].
      eapply same_on_trans; [exact M1|]. eapply same_on_incl; [|exact M2]. intros x Hx; apply in_or_app; auto.
  Qed.
  Lemma sat_vec_of ts h R l' cap' k : state h [] R -> pushes true ([], 32, O) (map Some ts) = (l', cap', k) ->
    sat (vec_of sz enc ts) h (fun h' v' => vpost h h' v' l' cap' k R).
  Proof.
    intros S P. unfold vec_of. eapply sat_bind; [apply sat_vec_new; exact S|].
    intros h1 v1 [S1 [V1 [B1 G1]]]. eapply sat_impl; [apply (sat_push_all ts h1 v1 [] 32 O R l' cap' k S1 V1 P)|].
    intros h2 v2 [k' [E [K [LK [S2 [V2 [M2 G2]]]]]]]. exists K. split; [lia|]. split; auto. split; auto. split; [|congruence].
    eapply same_on_trans; [apply same_on_eq; exact B1|exact M2].
  Qed.

  Lemma pushes_len b (ts : list elem) : forall l c k l' c' k', pushes b (l, c, k) ts = (l', c', k') -> List.length l' = (List.length l + List.length ts)%nat.
  Proof.
    induction ts as [|t ts IH]; intros l c k l' c' k' P; cbn in P.
    - injection P as <- <- <-. cbn; lia.
    - destruct ((len l =? c) && b); apply IH in P; rewrite app_length in P; rewrite ?map_length in P; cbn in *; lia.
  Qed.
  Lemma perm3 {A} (a b c : A) R : Permutation (a :: b :: c :: R) (c :: a :: b :: R).
  Proof. transitivity (a :: c :: b :: R); [apply perm_skip, perm_swap|apply perm_swap]. Qed.
  Lemma sat_append h v w lv cv lw cw R d cd kd lv' cv' kv :
    state h [own v] (own w :: R) -> vrep h v lv cv -> vrep h w lw cw ->
    pushes true ([], 32, O) (rev lw) = (d, cd, kd) -> pushes true (lv, cv, O) (rev d) = (lv', cv', kv) ->
    sat (vec_append sz enc dec v w) h (fun h' r =>
      exists K, (List.length K = kd + kv)%nat /\ state h' [own (fst r)] (own (snd r) :: K ++ R) /\
        vrep h' (fst r) lv' cv' /\ vrep h' (snd r) [] cw /\ same_on R h h' /\ log h' = log h).
  Proof.
    intros S V W P1 P2. unfold vec_append.
    replace (Z.to_nat (vlen w)) with (List.length lw) by (destruct W as [W _]; rewrite W; unfold len; lia).
    eapply sat_bind; [apply (sat_vec_new h (own v :: own w :: R)); exact S|].
    intros h1 dr [S1 [D1 [B1 G1]]].
    assert (V1 : vrep h1 v lv cv) by (eapply vrep_ext; [apply same_on_eq; exact B1|auto]).
    assert (W1 : vrep h1 w lw cw) by (eapply vrep_ext; [apply same_on_eq; exact B1|auto]).
    eapply sat_bind; [apply (sat_move_all lw h1 w dr cw [] 32 O (own v :: R) d cd kd); auto|].
    { destruct S1 as [Wf P]; split; auto. rewrite P. apply perm3. }
    intros h2 [w2 dr2] [K1 [E1 [S2 [W2 [D2 [M2 G2]]]]]]. cbn [fst snd] in *.
    replace (List.length lw) with (List.length d).
    2:{ apply pushes_len in P1. rewrite P1, rev_length. cbn. lia. }
    assert (V2 : vrep h2 v lv cv).
    { eapply vrep_ext; [|exact V1]. eapply same_on_incl; [|exact M2]. intros x [<-|[]]; left; auto. }
    eapply sat_bind; [apply (sat_move_all d h2 dr2 v cd lv cv O (own w2 :: K1 ++ R) lv' cv' kv); auto|].
    { destruct S2 as [Wf P]; split; auto. rewrite P. cbn. rewrite <- (Permutation_middle K1 R (own v)).
      symmetry; apply perm3. }
    intros h3 [dr3 v3] [K2 [E2 [S3 [D3 [V3 [M3 G3]]]]]]. cbn [fst snd] in *.
    eapply sat_bind; [apply (sat_vec_drop h3 dr3 [] cd _ S3 D3)|].
    intros h4 [] [S4 [B4 [ts [F4 G4]]]]. inversion F4; subst ts. cbn [app] in G4. apply sat_ret. cbn [fst snd].
    exists (K2 ++ K1). split; [rewrite app_length; lia|].
    split.
    { destruct S4 as [Wf P]; split; auto. cbn in P. rewrite P. cbn. constructor. rewrite <- app_assoc. rewrite <- Permutation_middle. reflexivity. }
    split; [eapply vrep_ext; [apply same_on_eq; exact B4|exact V3]|].
    split.
    { eapply vrep_ext; [apply same_on_eq; exact B4|]. eapply vrep_ext; [|exact W2]. eapply same_on_incl; [|exact M3]. intros x [<-|[]]; left; auto. }
    split; [|congruence].
    eapply same_on_trans; [apply same_on_eq; exact B1|].
    eapply same_on_trans; [eapply same_on_incl; [|exact M2]; intros x Hx; right; auto|].
    eapply same_on_trans; [eapply same_on_incl; [|exact M3]; intros x Hx; right; apply in_or_app; auto|].
    apply same_on_eq; auto.
  Qed.
End Vec.
