(** The memory of Model/RustVec.v: blocks, reading and writing elements. *)
From Coq Require Import ZArith List Bool Lia Permutation.
From Verif.Spec Require Import RustVec.
From Verif.Model Require Import RustVec.
Import ListNotations.
Open Scope list_scope.
Open Scope Z_scope.

Definition good (b : Z * Z) : Prop := 0 < fst b /\ 0 < snd b /\ fst b + snd b < TOP.
Definition apart (a b : Z * Z) : Prop := fst a + snd a <= fst b \/ fst b + snd b <= fst a.
Definition wfL (L : list (Z * Z)) : Prop := Forall good L /\ ForallOrdPairs apart L.

Lemma apart_sym a b : apart a b -> apart b a.
Proof. unfold apart; tauto. Qed.
Lemma Forall_perm {A} (P : A -> Prop) l l' : Permutation l l' -> Forall P l -> Forall P l'.
Proof. intros H F. rewrite Forall_forall in *. intros x Hx. apply F. eapply Permutation_in; [symmetry; eauto|auto]. Qed.
Lemma pairs_perm l l' : Permutation l l' -> ForallOrdPairs apart l -> ForallOrdPairs apart l'.
Proof.
  induction 1; intros F.
  - constructor.
  - inversion F; subst. constructor; auto. eapply Forall_perm; eauto.
  - inversion F as [|? ? F1 F2]; subst. inversion F2 as [|? ? F3 F4]; subst. inversion F1 as [|? ? A F5]; subst.
    constructor; [constructor; [apply apart_sym; auto|auto]|constructor; auto].
  - auto.
Qed.
Lemma wfL_perm l l' : Permutation l l' -> wfL l -> wfL l'.
Proof. intros P [A B]; split; [eapply Forall_perm | eapply pairs_perm]; eauto. Qed.
Lemma filter_perm {A} (f : A -> bool) l l' : Permutation l l' -> Permutation (filter f l) (filter f l').
Proof.
  induction 1; cbn.
  - constructor.
  - destruct (f x); auto.
  - destruct (f x), (f y); auto. constructor.
  - etransitivity; eauto.
Qed.
Lemma wfL_app_r l r : wfL (l ++ r) -> wfL r.
Proof.
  induction l as [|x l IH]; cbn; auto. intros [A B]. inversion A; inversion B; subst. apply IH; split; auto.
Qed.
Lemma wfL_cons b L : wfL (b :: L) -> good b /\ wfL L /\ forall c, In c L -> apart b c.
Proof.
  intros [A B]. inversion A; inversion B; subst. split; [auto|split; [split; auto|]].
  intros c Hc. rewrite Forall_forall in *; auto.
Qed.
Lemma wfL_cons_inv b L : good b -> wfL L -> (forall c, In c L -> apart b c) -> wfL (b :: L).
Proof. intros G [A B] C. split; constructor; auto. rewrite Forall_forall; auto. Qed.

Section Heap.
  Context {T : Type} (sz : Z) (enc : T -> list Z) (dec : list Z -> T).
  Context (Sz : 0 < sz) (Enc : forall t, Z.of_nat (List.length (enc t)) = sz) (Dec : forall t, dec (enc t) = t).
  Notation heap := (@heap T).

  (** All feasible outcomes of [m] are as described; nothing goes wrong. *)
  Definition sat {A} (m : @M T A) (h : heap) (Q : heap -> A -> Prop) : Prop :=
    match m h with Ok (h', a) => Q h' a | Blocked => True | _ => False end.
  Lemma sat_ret {A} (a : A) h (Q : heap -> A -> Prop) : Q h a -> sat (ret a) h Q.
  Proof. auto. Qed.
  Lemma sat_bind {A B} (m : @M T A) (f : A -> @M T B) h (Q : heap -> A -> Prop) (R : heap -> B -> Prop) :
    sat m h Q -> (forall h' a, Q h' a -> sat (f a) h' R) -> sat (bind m f) h R.
  Proof. unfold sat, bind. intros H F. destruct (m h) as [[h' a]| | | | |]; auto; try tauto. apply F; auto. Qed.
  Lemma sat_impl {A} (m : @M T A) h (Q R : heap -> A -> Prop) : sat m h Q -> (forall h' a, Q h' a -> R h' a) -> sat m h R.
  Proof. unfold sat. destruct (m h) as [[h' a]| | | | |]; auto. Qed.

  Lemma sat_mul a b h (Q : heap -> Z -> Prop) : a * b < USIZE -> Q h (a * b) -> sat (mul a b) h Q.
  Proof. intros H q. unfold sat, mul. apply Z.ltb_lt in H. rewrite H. exact q. Qed.
  Lemma sat_add a b h (Q : heap -> Z -> Prop) : a + b < USIZE -> Q h (a + b) -> sat (add a b) h Q.
  Proof. intros H q. unfold sat, add. apply Z.ltb_lt in H. rewrite H. exact q. Qed.
  Lemma sat_sub a b h (Q : heap -> Z -> Prop) : b <= a -> Q h (a - b) -> sat (sub a b) h Q.
  Proof. intros H q. unfold sat, sub. apply Z.leb_le in H. rewrite H. exact q. Qed.

  Lemma sat_malloc n h : 0 < n -> wfL (live h) ->
    sat (malloc n) h (fun h' p => live h' = (p, n) :: live h /\ wfL (live h') /\ bytes h' = bytes h /\ log h' = log h).
  Proof.
    intros Hn W. unfold sat, malloc. destruct (n =? 0) eqn:E; [apply Z.eqb_eq in E; lia|].
    destruct (_ && _) eqn:B; [|exact I].
    apply andb_true_iff in B; destruct B as [B F]; apply andb_true_iff in B; destruct B as [B1 B2].
    apply Z.ltb_lt in B1, B2. rewrite forallb_forall in F.
    cbn [live bytes log]. split; auto. split; auto. apply wfL_cons_inv; auto.
    - unfold good; cbn; auto.
    - intros c Hc. apply F in Hc. apply orb_true_iff in Hc. rewrite !Z.leb_le in Hc. unfold apart; cbn; auto.
  Qed.

  Lemma sat_free p n R h : wfL (live h) -> Permutation (live h) ((p, n) :: R) ->
    sat (free p) h (fun h' _ => wfL (live h') /\ Permutation (live h') R /\ bytes h' = bytes h /\ log h' = log h).
  Proof.
    intros W P. assert (W' := wfL_perm _ _ P W). destruct (wfL_cons _ _ W') as [G [WR A]].
    assert (Hin : In (p, n) (live h)) by (eapply Permutation_in; [symmetry; eauto | left; auto]).
    unfold sat, free. destruct (p =? 0) eqn:E; [apply Z.eqb_eq in E; unfold good in G; cbn in G; lia|].
    replace (existsb (fun b => fst b =? p) (live h)) with true.
    2:{ symmetry; apply existsb_exists. exists (p, n); split; auto; apply Z.eqb_refl. }
    cbn [live bytes log].
    assert (PF : Permutation (filter (fun b => negb (fst b =? p)) (live h)) R).
    { transitivity (filter (fun b => negb (fst b =? p)) ((p, n) :: R)).
      - apply filter_perm; exact P.
      - cbn. rewrite Z.eqb_refl. cbn.
        assert (F : forall c, In c R -> negb (fst c =? p) = true).
        { intros c Hc. apply negb_true_iff, Z.eqb_neq. intros <-. specialize (A c Hc). unfold apart in A; cbn in A.
          destruct WR as [WR _]. rewrite Forall_forall in WR. specialize (WR c Hc). unfold good in WR, G; cbn in G. lia. }
        clear -F. induction R as [|c R IH]; cbn; auto. rewrite F by (left; auto). constructor. apply IH; intros; apply F; right; auto. }
    split; [|split; [|split]]; auto. eapply wfL_perm; [symmetry; exact PF|auto].
  Qed.

  Lemma valid_in (h : heap) p n a k : In (p, n) (live h) -> p <= a -> a + k <= p + n -> valid h a k = true.
  Proof.
    intros H A B. unfold valid. apply orb_true_iff; right. apply existsb_exists. exists (p, n); split; auto.
    cbn. apply andb_true_iff; rewrite !Z.leb_le; auto.
  Qed.

  (** The element at address [a] is [o]. *)
  Definition holds (h : heap) (a : Z) (o : option T) : Prop :=
    match o with Some t => forall k, 0 <= k < sz -> bytes h (a + k) = nth (Z.to_nat k) (enc t) 0 | None => True end.
  (** Consecutive elements from [a] *)
  Definition elems (h : heap) (a : Z) (l : list (option T)) : Prop :=
    forall i o, nth_error l i = Some o -> holds h (a + Z.of_nat i * sz) o.

  Lemma nth_content (h : heap) a n k : 0 <= k < n -> nth (Z.to_nat k) (content h a n) 0 = bytes h (a + k).
  Proof.
    intros H. unfold content.
    erewrite nth_indep with (d' := (fun k0 => bytes h (a + Z.of_nat k0)) 0%nat).
    - rewrite map_nth with (f := fun k0 => bytes h (a + Z.of_nat k0)). rewrite seq_nth by lia. f_equal; lia.
    - rewrite map_length, seq_length. lia.
  Qed.
  Lemma len_content (h : heap) a n : 0 <= n -> Z.of_nat (List.length (content h a n)) = n.
  Proof. intros H. unfold content. rewrite map_length, seq_length. lia. Qed.

  Lemma content_holds h a t : holds h a (Some t) -> content h a sz = enc t.
  Proof.
    intros H. apply nth_ext with (d := 0) (d' := 0).
    - apply Nat2Z.inj. rewrite len_content by lia. symmetry; apply Enc.
    - intros n Hn. assert (L := len_content h a sz ltac:(lia)).
      replace n with (Z.to_nat (Z.of_nat n)) by lia. rewrite nth_content by lia. apply H. lia.
  Qed.

  Lemma sat_read h a o : valid h a sz = true -> holds h a o ->
    sat (ptr_read sz dec a) h (fun h' t => h' = h /\ known o t).
  Proof.
    intros V H. unfold ptr_read, sat, bind, rd. rewrite V. cbn. split; auto.
    destruct o as [t|]; cbn; auto. rewrite (content_holds h a t H). apply Dec.
  Qed.

  Lemma overwrite_in (f : Z -> Z) a bs x : a <= x < a + Z.of_nat (List.length bs) -> overwrite f a bs x = nth (Z.to_nat (x - a)) bs 0.
  Proof. intros H. unfold overwrite. destruct ((a <=? x) && (x <? a + Z.of_nat (List.length bs))) eqn:E; auto. apply andb_false_iff in E. rewrite Z.leb_gt, Z.ltb_ge in E. lia. Qed.
  Lemma overwrite_out (f : Z -> Z) a bs x : x < a \/ a + Z.of_nat (List.length bs) <= x -> overwrite f a bs x = f x.
  Proof. intros H. unfold overwrite. destruct ((a <=? x) && (x <? a + Z.of_nat (List.length bs))) eqn:E; auto. apply andb_true_iff in E. rewrite Z.leb_le, Z.ltb_lt in E. lia. Qed.

  Lemma sat_wr h a bs : valid h a (Z.of_nat (List.length bs)) = true ->
    sat (wr a bs) h (fun h' _ => live h' = live h /\ log h' = log h /\ bytes h' = overwrite (bytes h) a bs).
  Proof. intros V. unfold sat, wr. rewrite V. cbn. auto. Qed.

  Lemma sat_write h a t : valid h a sz = true ->
    sat (ptr_write enc a t) h (fun h' _ => live h' = live h /\ log h' = log h /\ bytes h' = overwrite (bytes h) a (enc t)).
  Proof. intros V. apply sat_wr. rewrite Enc. exact V. Qed.

  Lemma sat_copy h src dst n : 0 <= n -> valid h src (n * sz) = true -> valid h dst (n * sz) = true ->
    sat (ptr_copy sz src dst n) h (fun h' _ => live h' = live h /\ log h' = log h /\
      (forall x, dst <= x < dst + n * sz -> bytes h' x = bytes h (src + (x - dst))) /\
      (forall x, x < dst \/ dst + n * sz <= x -> bytes h' x = bytes h x)).
  Proof.
    intros Hn V1 V2. unfold ptr_copy. eapply sat_bind with (Q := fun h' bs => h' = h /\ bs = content h src (n * sz)).
    - unfold sat, rd. rewrite V1. auto.
    - intros h' bs [-> ->]. assert (L := len_content h src (n * sz) ltac:(nia)).
      eapply sat_impl; [apply sat_wr; rewrite L; exact V2|].
      cbn. intros h' [] [A [B C]]. split; auto. split; auto. rewrite C. split.
      + intros x Hx. rewrite overwrite_in by lia. rewrite nth_content by lia. reflexivity.
      + intros x Hx. apply overwrite_out. lia.
  Qed.

  (** Elements after a write *)
  Lemma holds_ext (h h' : heap) a o : (forall k, 0 <= k < sz -> bytes h' (a + k) = bytes h (a + k)) -> holds h a o -> holds h' a o.
  Proof. intros E H. destruct o as [t|]; cbn in *; auto. intros k Hk. rewrite E by auto. apply H; auto. Qed.
  Lemma holds_written (h h' : heap) a t : bytes h' = overwrite (bytes h) a (enc t) -> holds h' a (Some t).
  Proof. intros E k Hk. rewrite E, overwrite_in by (rewrite Enc; lia). f_equal. lia. Qed.
  Lemma elems_ext (h h' : heap) a l : (forall x, a <= x < a + Z.of_nat (List.length l) * sz -> bytes h' x = bytes h x) -> elems h a l -> elems h' a l.
  Proof.
    intros E H i o N. apply holds_ext with (h := h); [|apply H; auto].
    intros k Hk. apply E. assert (i < List.length l)%nat by (apply nth_error_Some; congruence). nia.
  Qed.
  Lemma elems_app h a l1 l2 : elems h a (l1 ++ l2) <-> elems h a l1 /\ elems h (a + Z.of_nat (List.length l1) * sz) l2.
  Proof.
    unfold elems. split.
    - intros H; split; intros i o N.
      + apply H. rewrite nth_error_app1; auto. apply nth_error_Some; congruence.
      + replace (a + Z.of_nat (List.length l1) * sz + Z.of_nat i * sz) with (a + Z.of_nat (List.length l1 + i) * sz) by nia.
        apply H. rewrite nth_error_app2 by lia. replace (List.length l1 + i - List.length l1)%nat with i by lia. auto.
    - intros [H1 H2] i o N. destruct (Nat.lt_ge_cases i (List.length l1)).
      + rewrite nth_error_app1 in N by auto. auto.
      + rewrite nth_error_app2 in N by auto. apply H2 in N.
        replace (a + Z.of_nat i * sz) with (a + Z.of_nat (List.length l1) * sz + Z.of_nat (i - List.length l1) * sz) by nia. auto.
  Qed.
  Lemma elems_cons h a o l : elems h a (o :: l) <-> holds h a o /\ elems h (a + sz) l.
  Proof.
    unfold elems. split.
    - intros H; split.
      + specialize (H 0%nat o eq_refl). rewrite Z.add_0_r in H. auto.
      + intros i o' N. specialize (H (S i) o' N). replace (a + sz + Z.of_nat i * sz) with (a + Z.of_nat (S i) * sz) by nia. auto.
    - intros [H1 H2] [|i] o' N; cbn in N.
      + injection N as <-. rewrite Z.add_0_r. auto.
      + apply H2 in N. replace (a + Z.of_nat (S i) * sz) with (a + sz + Z.of_nat i * sz) by nia. auto.
  Qed.
  Lemma elems_nil h a : elems h a [].
  Proof. intros [|i] o N; discriminate. Qed.
  (** Nothing is known about the elements. *)
  Lemma elems_unknown h a (l : list (option T)) : elems h a (map (fun _ => None) l).
  Proof. intros i o N. apply nth_error_In, in_map_iff in N. destruct N as [x [<- _]]. exact I. Qed.
  (** moved elements *)
  Lemma elems_moved (h h' : heap) src dst l : (forall x, 0 <= x < Z.of_nat (List.length l) * sz -> bytes h' (dst + x) = bytes h (src + x)) ->
    elems h src l -> elems h' dst l.
  Proof.
    intros E H i o N. specialize (H i o N). assert (i < List.length l)%nat by (apply nth_error_Some; congruence).
    destruct o as [t|]; cbn in *; auto. intros k Hk. specialize (H k Hk).
    replace (dst + Z.of_nat i * sz + k) with (dst + (Z.of_nat i * sz + k)) by lia. rewrite E by nia.
    replace (src + (Z.of_nat i * sz + k)) with (src + Z.of_nat i * sz + k) by lia. auto.
  Qed.
End Heap.
