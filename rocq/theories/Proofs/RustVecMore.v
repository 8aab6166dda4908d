(** Proofs about the operations of Model/RustVec.v: insertion and removal, indexing,
    iterators and boxes. *)
From Coq Require Import ZArith List Bool Lia Permutation.
From Verif.Spec Require Import RustVec.
From Verif.Model Require Import RustVec.
From Verif.Proofs Require Import RustHeap RustVecProofs.
Import ListNotations.
Open Scope list_scope.
Open Scope Z_scope.

Section More.
  Context {T : Type} (sz : Z) (enc : T -> list Z) (dec : list Z -> T).
  Context (Sz : 0 < sz) (Enc : forall t, Z.of_nat (List.length (enc t)) = sz) (Dec : forall t, dec (enc t) = t).
  Notation heap := (@heap T).
  Notation elem := (option T).
  Notation elems := (@elems T sz enc).
  Notation holds := (@holds T sz enc).
  Notation own := (own sz).
  Notation rblk := (rblk sz).
  Notation vrep := (vrep sz enc).

  Lemma split_at (l : list elem) i : (i <= List.length l)%nat ->
    exists l1 l2, l = l1 ++ l2 /\ List.length l1 = i /\ firstn i l = l1 /\ skipn i l = l2.
  Proof.
    intros H. exists (firstn i l), (skipn i l). split; [symmetry; apply firstn_skipn|]. split; [apply firstn_length_le; auto|auto].
  Qed.

  Lemma sat_insert_room h (v : vec) l cap R i e t : state h [own v] R -> vrep h v l cap -> len l < cap -> (i <= List.length l)%nat -> known e t ->
    sat (bind (if Z.of_nat i <? vlen v then
                 bind (sub (vlen v) (Z.of_nat i)) (fun n => ptr_copy sz (offset sz (rptr (buf v)) (Z.of_nat i)) (offset sz (rptr (buf v)) (Z.of_nat i + 1)) n)
               else ret tt)
         (fun _ => bind (ptr_write enc (offset sz (rptr (buf v)) (Z.of_nat i)) t) (fun _ => bind (add (vlen v) 1) (fun n => ret (Vec (buf v) n))))) h
      (fun h' v' => own v' = own v /\ state h' [own v'] R /\ vrep h' v' (insert_at i l e) cap /\ same_on R h h' /\ log h' = log h).
  Proof.
    intros S [A [B [C [D E]]]] Room Hi K.
    destruct (split_at l i Hi) as [l1 [l2 [El [L1 [F1 F2]]]]].
    assert (BD := cap_bound sz Sz _ _ _ S). rewrite B in BD. destruct (BD D) as [B1 B2].
    unfold insert_at. rewrite F1, F2.
    assert (N : len l = Z.of_nat i + len l2) by (rewrite El; unfold len; rewrite app_length; lia).
    assert (N2 : 0 <= len l2) by (unfold len; lia).
    rewrite El in E. apply elems_app in E; auto. destruct E as [E1 E2]. rewrite L1 in E2.
    set (p := rptr (buf v)) in *.
    eapply sat_bind with (Q := fun h1 _ => live h1 = live h /\ log h1 = log h /\ elems h1 (p + (Z.of_nat i + 1) * sz) l2 /\
      forall x, x < p + (Z.of_nat i + 1) * sz \/ p + (Z.of_nat i + 1 + len l2) * sz <= x -> bytes h1 x = bytes h x).
    - rewrite A. destruct (Z.of_nat i <? len l) eqn:Lt.
      + eapply sat_bind; [apply sat_sub'; lia|]. intros h1 n [-> ->]. replace (len l - Z.of_nat i) with (len l2) by lia.
        eapply sat_impl; [apply (sat_copy sz Sz); [lia| |]; unfold offset; eapply state_valid; try exact S; unfold own, rblk, RustVecProofs.rblk, fst, snd; rewrite ?B; fold p; nia|].
        intros h1 [] [Lv [Lg [In Out]]]. split; auto. split; auto. unfold offset in In, Out. split.
        * eapply elems_moved with (h := h); [auto| |exact E2].
          intros x Hx. fold (len l2) in Hx. rewrite In by nia. f_equal. lia.
        * intros x Hx. apply Out. nia.
      + apply Z.ltb_ge in Lt. assert (Z0 : l2 = []) by (destruct l2; auto; cbn in *; unfold len in *; cbn in *; lia).
        apply sat_ret. rewrite Z0. split; auto. split; auto. split; [apply elems_nil|reflexivity].
    - intros h1 [] [Lv [Lg [E3 Out]]].
      eapply sat_bind; [apply (sat_write sz enc Enc); eapply state_valid; [eapply state_live; [exact Lv|exact S]| |]; unfold own, RustVecProofs.rblk, fst, snd, offset; rewrite ?B; fold p; nia|].
      intros h2 [] [Lv2 [Lg2 Bt]]. unfold offset in Bt.
      eapply sat_bind; [apply sat_add'; change USIZE with (2 * 2 ^ 63); lia|]. intros h3 n [-> ->]. apply sat_ret.
      assert (Out2 : forall x, x < p + Z.of_nat i * sz \/ p + Z.of_nat i * sz + sz <= x -> bytes h2 x = bytes h1 x).
      { intros x Hx. rewrite Bt. apply overwrite_out. rewrite Enc. lia. }
      assert (S2 : state h2 [own v] R) by (eapply state_live; [|exact S]; congruence).
      split; [reflexivity|]. split; [exact S2|].
      split; [|split; [|congruence]].
      + split; [cbn; rewrite A, N; unfold len; rewrite app_length; cbn; lia|]. split; [auto|].
        split; [unfold len in *; rewrite app_length; cbn; lia|]. split; [auto|]. cbn [buf]. fold p.
        apply elems_app; auto. rewrite L1. split; [|apply elems_cons; auto; split].
        * eapply elems_ext with (h := h); [auto| |exact E1]. intros x Hx. rewrite L1 in Hx. rewrite Out2 by nia. apply Out. nia.
        * eapply known_holds; eauto. eapply holds_written; eauto.
        * eapply elems_ext with (h := h1); [auto| |replace (p + Z.of_nat i * sz + sz) with (p + (Z.of_nat i + 1) * sz) by lia; exact E3].
          intros x Hx. apply Out2. lia.
      + eapply same_outside; [exact S|]. intros x Hx. unfold own, RustVecProofs.rblk, fst, snd in Hx. rewrite B in Hx. fold p in Hx.
        rewrite Out2 by nia. apply Out. nia.
  Qed.

  Lemma sat_insert_out h (v : vec) l cap i t : vrep h v l cap -> (List.length l < i)%nat -> vec_insert sz enc v (Z.of_nat i) t h = AssertFailed.
  Proof.
    intros [A _] H. unfold vec_insert, assert_, bind. rewrite A. unfold len. destruct (Z.of_nat i <=? Z.of_nat (List.length l)) eqn:E; auto.
    apply Z.leb_le in E. lia.
  Qed.
  Lemma sat_insert h (v : vec) l cap R i e t : state h [own v] R -> vrep h v l cap -> (i <= List.length l)%nat -> known e t ->
    sat (vec_insert sz enc v (Z.of_nat i) t) h (fun h' v' =>
      if len l =? cap then vpost sz enc h h' v' (insert_at i (map (fun _ => None) l) e) (2 * cap) 1 R
      else vpost sz enc h h' v' (insert_at i l e) cap 0 R).
  Proof.
    intros S V Hi K. unfold vec_insert. assert (V' := V). destruct V as [A [B [C [D E]]]].
    unfold assert_. unfold bind at 1.
    replace (Z.of_nat i <=? vlen v) with true by (symmetry; apply Z.leb_le; rewrite A; unfold len; lia). cbn iota.
    replace (rcap (buf v) =? vlen v) with (len l =? cap) by (rewrite A, B; apply Z.eqb_sym). destruct (len l =? cap) eqn:F.
    - apply Z.eqb_eq in F.
      eapply sat_bind; [apply (sat_grow sz Sz h (buf v) R); [exact S|rewrite B; auto]|].
      intros h1 b [S1 [C1 [E1 G1]]].
      set (v1 := Vec b (vlen v)).
      assert (V1 : vrep h1 v1 (map (fun _ => None) l) (2 * cap)).
      { unfold v1; split; [cbn; rewrite A; unfold len; rewrite map_length; auto|]. split; [cbn; rewrite C1, B; auto|].
        split; [unfold len in *; rewrite map_length; lia|]. split; [lia|]. apply elems_unknown. }
      assert (X := sat_insert_room h1 v1 _ _ (own v :: R) i e t S1 V1).
      eapply sat_impl; [apply X; auto; unfold len in *; rewrite map_length; lia|].
      intros h2 v2 [O2 [S2 [V2 [M2 G2]]]]. exists [own v]. split; [reflexivity|].
      split; [exact S2|]. split; [exact V2|]. split; [|congruence].
      eapply same_on_trans; [apply same_on_eq; exact E1|]. eapply same_on_incl; [|exact M2]. intros x Hx; right; auto.
    - apply Z.eqb_neq in F. unfold bind at 1; cbn [ret].
      eapply sat_impl; [eapply sat_insert_room with (e := e); eauto; lia|].
      intros h2 v2 [O2 [S2 [V2 [M2 G2]]]]. exists []. split; [reflexivity|]. split; [exact S2|auto].
  Qed.

  Lemma nth_split (l : list elem) i e : nth_error l i = Some e ->
    exists l1 l2, l = l1 ++ e :: l2 /\ List.length l1 = i /\ firstn i l = l1 /\ skipn (S i) l = l2.
  Proof.
    intros H. destruct (nth_error_split _ _ H) as [l1 [l2 [-> L]]]. exists l1, l2. split; auto. split; auto. split.
    - rewrite <- L, firstn_app, Nat.sub_diag, firstn_O, app_nil_r, firstn_all. reflexivity.
    - rewrite <- L, skipn_app. replace (S (List.length l1) - List.length l1)%nat with 1%nat by lia.
      rewrite skipn_all2 by lia. reflexivity.
  Qed.

  Lemma sat_remove_out h (v : vec) l cap i : vrep h v l cap -> nth_error l i = None -> vec_remove sz dec v (Z.of_nat i) h = AssertFailed.
  Proof.
    intros [A _] H. apply nth_error_None in H. unfold vec_remove, assert_, bind. rewrite A. unfold len. destruct (Z.of_nat i <? Z.of_nat (List.length l)) eqn:E; auto.
    apply Z.ltb_lt in E. lia.
  Qed.
  Lemma sat_remove h (v : vec) l cap R i e : state h [own v] R -> vrep h v l cap -> nth_error l i = Some e ->
    sat (vec_remove sz dec v (Z.of_nat i)) h (fun h' r => known e (snd r) /\ vpost sz enc h h' (fst r) (remove_at i l) cap 0 R).
  Proof.
    intros S V N. destruct V as [A [B [C [D E]]]].
    destruct (nth_split _ _ _ N) as [l1 [l2 [El [L1 [F1 F2]]]]].
    assert (BD := cap_bound sz Sz _ _ _ S). rewrite B in BD. destruct (BD D) as [B1 B2].
    unfold remove_at. rewrite F1, F2.
    assert (Ln : len l = Z.of_nat i + 1 + len l2) by (rewrite El; unfold len; rewrite app_length; cbn; lia).
    assert (N2 : 0 <= len l2) by (unfold len; lia).
    rewrite El in E. apply elems_app in E; auto. destruct E as [E1 E2]. rewrite L1 in E2. apply elems_cons in E2; auto. destruct E2 as [E2 E3].
    unfold vec_remove. rewrite A. set (p := rptr (buf v)) in *.
    unfold assert_. unfold bind at 1. replace (Z.of_nat i <? len l) with true by (symmetry; apply Z.ltb_lt; lia). cbn iota.
    eapply sat_bind; [apply sat_sub'; lia|]. intros h1 n [-> ->].
    eapply sat_bind; [apply (sat_read sz enc dec Sz Enc Dec) with (o := e); [|exact E2]|].
    { eapply state_valid; [exact S| |]; unfold own, RustVecProofs.rblk, fst, snd, offset; rewrite ?B; fold p; nia. }
    intros h1 t [-> K].
    eapply sat_bind; [apply sat_sub'; lia|]. intros h1 n [-> ->]. replace (len l - 1 - Z.of_nat i) with (len l2) by lia.
    eapply sat_bind; [apply (sat_copy sz Sz); [lia| |]; unfold offset; eapply state_valid; try exact S; unfold own, RustVecProofs.rblk, fst, snd, offset; rewrite ?B; fold p; nia|].
    intros h1 [] [Lv [Lg [In Out]]]. unfold offset in In, Out. apply sat_ret. cbn [fst snd]. split; auto.
    exists []. split; [reflexivity|]. split; [eapply state_live; [exact Lv|exact S]|]. split; [|split; auto].
    - split; [cbn; rewrite Ln; unfold len; rewrite app_length; lia|]. split; [auto|]. split; [unfold len in *; rewrite app_length; lia|]. split; [auto|].
      cbn [buf]. fold p. apply elems_app; auto. rewrite L1. split.
      + eapply elems_ext with (h := h); [auto| |exact E1]. intros x Hx. rewrite L1 in Hx. apply Out. left. lia.
      + eapply elems_moved with (h := h); [auto| |exact E3]. intros x Hx. fold (len l2) in Hx. rewrite In by lia. f_equal. lia.
    - eapply same_outside; [exact S|]. intros x Hx. unfold own, RustVecProofs.rblk, fst, snd in Hx. rewrite B in Hx. fold p in Hx. apply Out. nia.
  Qed.

  Lemma get_out h (v : vec) l cap i : vrep h v l cap -> nth_error l i = None -> vec_get sz dec v (Z.of_nat i) h = Panicked.
  Proof.
    intros [A _] H. apply nth_error_None in H. unfold vec_get. rewrite A. unfold len. destruct (Z.of_nat i <? Z.of_nat (List.length l)) eqn:E; auto.
    apply Z.ltb_lt in E. lia.
  Qed.
  Lemma set_out h (v : vec) l cap i t : vrep h v l cap -> nth_error l i = None -> vec_set sz enc dec v (Z.of_nat i) t h = Panicked.
  Proof.
    intros [A _] H. apply nth_error_None in H. unfold vec_set. rewrite A. unfold len. destruct (Z.of_nat i <? Z.of_nat (List.length l)) eqn:E; auto.
    apply Z.ltb_lt in E. lia.
  Qed.
  Lemma sat_get h (v : vec) l cap R i e : state h [own v] R -> vrep h v l cap -> nth_error l i = Some e ->
    sat (vec_get sz dec v (Z.of_nat i)) h (fun h' t => h' = h /\ known e t).
  Proof.
    intros S [A [B [C [D E]]]] N. assert (I := E i e N). assert (Hi : (i < List.length l)%nat) by (apply nth_error_Some; congruence).
    unfold vec_get. rewrite A. replace (Z.of_nat i <? len l) with true by (symmetry; apply Z.ltb_lt; unfold len; lia).
    apply (sat_read sz enc dec Sz Enc Dec) with (o := e); [|exact I].
    eapply state_valid; [exact S| |]; unfold own, RustVecProofs.rblk, fst, snd, offset; rewrite ?B; unfold len in *; nia.
  Qed.
  Lemma sat_set h (v : vec) l cap R i e t : state h [own v] R -> vrep h v l cap -> nth_error l i = Some e ->
    sat (vec_set sz enc dec v (Z.of_nat i) t) h (fun h' _ => state h' [own v] R /\ vrep h' v (replace_at i l (Some t)) cap /\ same_on R h h' /\
      exists t', known e t' /\ log h' = t' :: log h).
  Proof.
    intros S V N. destruct V as [A [B [C [D E]]]].
    destruct (nth_split _ _ _ N) as [l1 [l2 [El [L1 [F1 F2]]]]].
    unfold replace_at. rewrite F1, F2.
    assert (Ln : len l = Z.of_nat i + 1 + len l2) by (rewrite El; unfold len; rewrite app_length; cbn; lia).
    assert (N2 : 0 <= len l2) by (unfold len; lia).
    rewrite El in E. apply elems_app in E; auto. destruct E as [E1 E2]. rewrite L1 in E2. apply elems_cons in E2; auto. destruct E2 as [E2 E3].
    unfold vec_set. rewrite A. set (p := rptr (buf v)) in *.
    replace (Z.of_nat i <? len l) with true by (symmetry; apply Z.ltb_lt; lia).
    eapply sat_bind; [apply (sat_read sz enc dec Sz Enc Dec) with (o := e); [|exact E2]|].
    { eapply state_valid; [exact S| |]; unfold own, RustVecProofs.rblk, fst, snd, offset; rewrite ?B; fold p; nia. }
    intros h1 t0 [-> K].
    eapply sat_bind with (Q := fun h' _ => live h' = live h /\ bytes h' = bytes h /\ log h' = t0 :: log h); [unfold sat, drop_elem; cbn; auto|].
    intros h1 [] [Lv [Bt Lg]].
    eapply sat_impl; [apply (sat_write sz enc Enc); eapply state_valid; [eapply state_live; [exact Lv|exact S]| |]; unfold own, RustVecProofs.rblk, fst, snd, offset; rewrite ?B; fold p; nia|].
    intros h2 [] [Lv2 [Lg2 Bt2]]. unfold offset in Bt2.
    assert (Out2 : forall x, x < p + Z.of_nat i * sz \/ p + Z.of_nat i * sz + sz <= x -> bytes h2 x = bytes h x).
    { intros x Hx. rewrite Bt2, <- Bt. apply overwrite_out. rewrite Enc. lia. }
    split; [eapply state_live; [|exact S]; congruence|]. split; [|split].
    - split; [rewrite A, Ln; unfold len; rewrite app_length; cbn; lia|]. split; [auto|]. split; [unfold len in *; rewrite app_length; cbn; lia|]. split; [auto|].
      fold p. apply elems_app; auto. rewrite L1. split; [|apply elems_cons; auto; split].
      + eapply elems_ext with (h := h); [auto| |exact E1]. intros x Hx. rewrite L1 in Hx. apply Out2. lia.
      + eapply holds_written; eauto.
      + eapply elems_ext with (h := h); [auto| |exact E3]. intros x Hx. apply Out2. lia.
    - eapply same_outside; [exact S|]. intros x Hx. unfold own, RustVecProofs.rblk, fst, snd in Hx. rewrite B in Hx. fold p in Hx. apply Out2. nia.
    - exists t0. split; auto. congruence.
  Qed.

  (** ** Iterators *)
  Definition irep (h : heap) (i : iter) (l : list elem) : Prop :=
    exists j, 0 <= j /\ j + len l <= rcap (ibuf i) /\ istart i = rptr (ibuf i) + j * sz /\ iend i = istart i + len l * sz /\ elems h (istart i) l.
  Definition iown (i : iter) : Z * Z := rblk (ibuf i).
  Lemma irep_ext h h' i l : same_on [iown i] h h' -> irep h i l -> irep h' i l.
  Proof.
    intros S [j [A [B [C [D E]]]]]. exists j. repeat (split; auto).
    eapply elems_ext with (h := h); [auto| |exact E]. intros x Hx. fold (len l) in Hx. apply (S (iown i)); [left; auto|].
    unfold iown, RustVecProofs.rblk, fst, snd. rewrite C in Hx. nia.
  Qed.
  Lemma eqb_sz : (sz =? 0) = false. Proof. apply Z.eqb_neq; lia. Qed.
  Lemma into_iter_rep h (v : vec) l cap : vrep h v l cap -> irep h (into_iter sz v) l /\ iown (into_iter sz v) = own v.
  Proof.
    intros [A [B [C [D E]]]]. split; [|reflexivity]. exists 0. cbn. rewrite B. split; [lia|]. split; [lia|]. split; [lia|].
    split; [|exact E]. rewrite eqb_sz, A. unfold offset. destruct (len l =? 0) eqn:F; [apply Z.eqb_eq in F; rewrite F|]; lia.
  Qed.
  Lemma next_nil h i : irep h i [] -> next sz dec i h = Ok (h, (i, None)).
  Proof. intros [j [_ [_ [_ [D _]]]]]. unfold next. rewrite D. cbn. rewrite Z.add_0_r, Z.eqb_refl. reflexivity. Qed.
  Lemma next_back_nil h i : irep h i [] -> next_back sz dec i h = Ok (h, (i, None)).
  Proof. intros [j [_ [_ [_ [D _]]]]]. unfold next_back. rewrite D. cbn. rewrite Z.add_0_r, Z.eqb_refl. reflexivity. Qed.
  Lemma sat_next h i e l R : state h [iown i] R -> irep h i (e :: l) ->
    sat (next sz dec i) h (fun h' r => h' = h /\ exists t, snd r = Some t /\ known e t /\ iown (fst r) = iown i /\ irep h (fst r) l).
  Proof.
    intros S [j [A [B [C [D E]]]]]. assert (Ll : len (e :: l) = 1 + len l) by (unfold len; cbn [List.length]; lia). rewrite Ll in B, D.
    assert (0 <= len l) by (unfold len; lia).
    unfold next. destruct (istart i =? iend i) eqn:F; [apply Z.eqb_eq in F; nia|]. clear F.
    apply elems_cons in E; auto. destruct E as [E1 E2].
    eapply sat_bind; [apply (sat_read sz enc dec Sz Enc Dec) with (o := e); [|exact E1]|].
    { eapply state_valid; [exact S| |]; unfold iown, RustVecProofs.rblk, fst, snd; nia. }
    intros h1 t [-> K]. apply sat_ret. split; auto. exists t. cbn [fst snd]. split; auto. split; auto. split; auto.
    rewrite eqb_sz. unfold offset. exists (j + 1). cbn [ibuf istart iend]. split; [lia|]. split; [lia|]. split; [lia|]. split; [lia|].
    replace (istart i + 1 * sz) with (istart i + sz) by lia. exact E2.
  Qed.
  Lemma sat_next_back h i e l R : state h [iown i] R -> irep h i (l ++ [e]) ->
    sat (next_back sz dec i) h (fun h' r => h' = h /\ exists t, snd r = Some t /\ known e t /\ iown (fst r) = iown i /\ irep h (fst r) l).
  Proof.
    intros S [j [A [B [C [D E]]]]]. rewrite len_app1 in B, D.
    assert (0 <= len l) by (unfold len; lia).
    unfold next_back. destruct (istart i =? iend i) eqn:F; [apply Z.eqb_eq in F; nia|]. clear F.
    apply elems_app in E; auto. destruct E as [E1 E2]. apply elems_cons in E2; auto. destruct E2 as [E2 _]. fold (len l) in E2.
    rewrite eqb_sz. unfold offset. replace (iend i + -1 * sz) with (istart i + len l * sz) by lia.
    eapply sat_bind; [apply (sat_read sz enc dec Sz Enc Dec) with (o := e); [|exact E2]|].
    { eapply state_valid; [exact S| |]; unfold iown, RustVecProofs.rblk, fst, snd; nia. }
    intros h1 t [-> K]. apply sat_ret. split; auto. exists t. cbn [fst snd]. split; auto. split; auto. split; auto.
    exists j. cbn [ibuf istart iend]. split; [lia|]. split; [lia|]. split; [lia|]. split; [lia|]. exact E1.
  Qed.
  Lemma size_hint_len h i l : irep h i l -> size_hint sz i = len l.
  Proof. intros [j [A [B [C [D E]]]]]. unfold size_hint. rewrite eqb_sz, D. replace (istart i + len l * sz - istart i) with (len l * sz) by lia. apply Z.div_mul; lia. Qed.

  Lemma sat_next_all l : forall h i R, state h [iown i] R -> irep h i l ->
    sat (next_all sz dec (S (List.length l)) i) h (fun h' i' => iown i' = iown i /\ live h' = live h /\ bytes h' = bytes h /\ logged (rev l) h h').
  Proof.
    induction l as [|e l IH]; intros h i R S V.
    - cbn [List.length next_all]. unfold sat, bind. rewrite (next_nil h i V). cbn.
      split; [reflexivity|]. split; [reflexivity|]. split; [reflexivity|]. exists []. split; [constructor|reflexivity].
    - cbn [List.length]. cbn [next_all].
      eapply sat_bind; [apply (sat_next h i e l R S V)|].
      intros h1 [i1 o] [-> [t [Eo [Kt [Of Vf]]]]]. cbn [fst snd] in *. subst o.
      eapply sat_bind with (Q := fun h' _ => live h' = live h /\ bytes h' = bytes h /\ log h' = t :: log h); [unfold sat, drop_elem; cbn; auto|].
      intros h1 [] [L1 [B1 G1]].
      eapply sat_impl; [apply (IH h1 i1 R)|].
      + rewrite Of. eapply state_live; eauto.
      + eapply irep_ext; [apply same_on_eq; exact B1|exact Vf].
      + intros h2 v2 [O2 [L2 [B2 [ts [F2 G2]]]]]. split; [congruence|]. split; [congruence|]. split; [congruence|].
        exists (ts ++ [t]). split; [cbn; apply Forall2_app; auto|]. rewrite G2, G1, <- app_assoc. reflexivity.
  Qed.
  Lemma sat_iter_drop h i l R : state h [iown i] R -> irep h i l ->
    sat (iter_drop sz dec i) h (fun h' _ => state h' [] R /\ bytes h' = bytes h /\ logged (rev l) h h').
  Proof.
    intros S V. unfold iter_drop. rewrite (size_hint_len _ _ _ V). replace (Z.to_nat (len l)) with (List.length l) by (unfold len; lia).
    eapply sat_bind; [apply (sat_next_all l h i R S V)|].
    intros h1 i1 [O1 [L1 [B1 G1]]]. unfold raw_drop.
    eapply sat_impl; [apply (sat_free (rptr (ibuf i1)) (rcap (ibuf i1) * sz) R)|].
    - rewrite L1; apply S.
    - rewrite L1. change (rptr (ibuf i1), rcap (ibuf i1) * sz) with (iown i1). rewrite O1. apply S.
    - intros h2 [] [W [P [B2 G2]]]. split; [split; auto|]. split; [congruence|]. destruct G1 as [ts [F G1]]. exists ts; split; auto; congruence.
  Qed.

  (** ** Boxes *)
  Lemma sat_box_new h t R : state h [] R ->
    sat (box_new sz enc t) h (fun h' p => state h' [(p, sz)] R /\ holds h' p (Some t) /\ same_on R h h' /\ log h' = log h).
  Proof.
    intros S. unfold box_new. eapply sat_bind; [apply sat_malloc; [exact Sz|apply S]|].
    intros h1 p [L [W [B G]]].
    assert (S1 : state h1 [(p, sz)] R) by (split; auto; rewrite L; constructor; apply S).
    unfold offset. replace (p + 0 * sz) with p by lia.
    eapply sat_bind; [apply (sat_write sz enc Enc); eapply state_valid; [exact S1| |]; cbn; lia|].
    intros h2 [] [L2 [G2 B2]]. apply sat_ret. split; [eapply state_live; [exact L2|exact S1]|]. split; [eapply holds_written; eauto|]. split; [|congruence].
    eapply same_on_trans; [apply same_on_eq; exact B|]. eapply same_outside; [exact S1|]. intros x Hx. rewrite B2. apply overwrite_out. rewrite Enc. cbn in Hx. lia.
  Qed.
  Lemma sat_box_get h p t R : state h [(p, sz)] R -> holds h p (Some t) -> sat (box_get sz dec p) h (fun h' t' => h' = h /\ t' = t).
  Proof.
    intros S H. apply (sat_read sz enc dec Sz Enc Dec) with (o := Some t); auto. eapply state_valid; [exact S| |]; cbn; lia.
  Qed.
End More.
