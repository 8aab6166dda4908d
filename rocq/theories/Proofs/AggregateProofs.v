(** Layout, paths and memory of aggregates; the two passes of C29 and C30. *)
From Coq Require Import ZArith List Bool Lia ZifyBool.
From Verif.Base Require Import ZBits.
From Verif.Spec Require Import ByteMemory Aggregates.
From Verif.Model Require Import SplitAggregateValue.
From Verif.Proofs Require Import ByteMem.
Import ListNotations.
Open Scope list_scope.
Open Scope Z_scope.

Section TyInd.
  Variable P : ty -> Prop.
  Hypothesis Hs : forall b a, P (TScalar b a).
  Hypothesis Ha : forall n t, P t -> P (TArray n t).
  Hypothesis Ht : forall k ts, Forall P ts -> P (TStruct k ts).
  Fixpoint ty_rect' (t : ty) : P t :=
    match t with
    | TScalar b a => Hs b a
    | TArray n t => Ha n t (ty_rect' t)
    | TStruct k ts => Ht k ts ((fix go ts : Forall P ts := match ts with [] => Forall_nil P | t :: l => Forall_cons t (ty_rect' t) (go l) end) ts)
    end.
End TyInd.

Lemma Forall2_len : forall A B (R : A -> B -> Prop) l l', Forall2 R l l' -> length l = length l'.
Proof. induction 1; cbn; auto. Qed.
Lemma roundup_ge : forall x a, 1 <= a -> x <= roundup x a.
Proof. intros x a H. unfold roundup. pose proof (Z.div_mod (x + a - 1) a ltac:(lia)). pose proof (Z.mod_pos_bound (x + a - 1) a ltac:(lia)). lia. Qed.
Lemma bytes_bits : forall b, 1 <= b -> 1 <= bytes_needed b /\ b <= 8 * bytes_needed b.
Proof. intros b H. unfold bytes_needed. Z.to_euclidean_division_equations. lia. Qed.

Lemma ty_ok_struct : forall k ts, ty_ok (TStruct k ts) <-> Forall ty_ok ts.
Proof.
  intros k ts. cbn [ty_ok]. induction ts as [|t ts IH]; cbn; [split; constructor|]. rewrite IH. split; [intros [? ?]; now constructor|].
  intros H. inversion H; auto.
Qed.
Lemma align_pos : forall t, ty_ok t -> 1 <= align t.
Proof.
  induction t as [b a|n t IH|k ts IH] using ty_rect'; intros H.
  - cbn in *. lia.
  - cbn in *. apply IH, H.
  - apply ty_ok_struct in H. destruct k; cbn [align]; [lia|].
    clear IH H. induction ts as [|t ts IHt]; cbn; lia.
Qed.

(** The end of the fields. *)
Fixpoint fields_end (packed : bool) (o : Z) (ts : list ty) : Z :=
  match ts with [] => o | t :: ts' => fields_end packed (roundup o (if packed then 1 else align t) + asize t) ts' end.
Lemma asize_struct : forall k ts, asize (TStruct k ts) = roundup (fields_end k 0 ts) (align (TStruct k ts)).
Proof.
  intros k ts. cbn [asize]. f_equal. generalize 0. induction ts as [|t ts IH]; intros o; cbn; [reflexivity|]. apply IH.
Qed.

Lemma fields_end_ge : forall k ts, Forall ty_ok ts -> Forall (fun t => 0 <= asize t) ts -> forall o, o <= fields_end k o ts.
Proof.
  intros k ts H1 H2. induction ts as [|t ts IH]; intros o; cbn; [lia|]. inversion H1; inversion H2; subst.
  specialize (IH ltac:(assumption) ltac:(assumption) (roundup o (if k then 1 else align t) + asize t)).
  pose proof (align_pos t ltac:(assumption)). pose proof (roundup_ge o (if k then 1 else align t) ltac:(destruct k; lia)). lia.
Qed.
Lemma asize_nonneg : forall t, ty_ok t -> 0 <= asize t.
Proof.
  induction t as [b a|n t IH|k ts IH] using ty_rect'; intros H.
  - cbn in *. pose proof (roundup_ge (bytes_needed b) a ltac:(lia)). pose proof (bytes_bits b ltac:(lia)). lia.
  - cbn in *. specialize (IH (proj2 H)). nia.
  - pose proof (align_pos _ H) as Hal. apply ty_ok_struct in H. rewrite asize_struct.
    pose proof (roundup_ge (fields_end k 0 ts) _ Hal). pose proof (fields_end_ge k ts H) as Hf.
    assert (Forall (fun t => 0 <= asize t) ts) as Hn.
    { rewrite Forall_forall in *. intros t Ht. auto. }
    specialize (Hf Hn 0). lia.
Qed.

(** Fields: inside the struct and in order. *)
Lemma field_facts : forall k ts, Forall ty_ok ts -> forall o i o1 t1, nth_error (combine (field_offsets k o ts) ts) i = Some (o1, t1) ->
  o <= o1 /\ o1 + asize t1 <= fields_end k o ts /\ In t1 ts /\
  forall j o2 t2, (i < j)%nat -> nth_error (combine (field_offsets k o ts) ts) j = Some (o2, t2) -> o1 + asize t1 <= o2.
Proof.
  induction ts as [|t ts IH]; intros Hok o i o1 t1 H; [destruct i; discriminate|]. cbn [field_offsets combine] in H.
  inversion Hok as [|? ? Ht Hts]; subst. set (o' := roundup o (if k then 1 else align t)) in *.
  assert (o <= o') as Ho by (apply roundup_ge; pose proof (align_pos t Ht); destruct k; lia).
  assert (Forall (fun t => 0 <= asize t) ts) as Hn by (eapply Forall_impl; [|exact Hts]; intros; now apply asize_nonneg).
  pose proof (asize_nonneg t Ht) as Ht0.
  destruct i as [|i]; cbn [nth_error] in H.
  - injection H as <- <-. cbn [fields_end]. fold o'. pose proof (fields_end_ge k ts Hts Hn (o' + asize t)).
    split; [lia|]. split; [lia|]. split; [now left|]. intros j o2 t2 Hj H2. destruct j as [|j]; [lia|].
    cbn [field_offsets combine nth_error] in H2. fold o' in H2. now apply (IH Hts) in H2.
  - destruct (IH Hts _ _ _ _ H) as (H1 & H2 & H3 & H4). cbn [fields_end]. fold o'.
    split; [lia|]. split; [lia|]. split; [now right|]. intros j o2 t2 Hj Hjn. destruct j as [|j]; [lia|].
    cbn [field_offsets combine nth_error] in Hjn. fold o' in Hjn. apply (H4 j o2 t2); [lia|exact Hjn].
Qed.

Lemma child_facts : forall t i o t1, ty_ok t -> child t i = Some (o, t1) ->
  0 <= i /\ 0 <= o /\ o + asize t1 <= asize t /\ ty_ok t1 /\
  forall j o2 t2, i < j -> child t j = Some (o2, t2) -> o + asize t1 <= o2.
Proof.
  intros [b a|n t|k ts] i o t1 Hok H; cbn [child] in H; [discriminate| |].
  - destruct ((0 <=? i) && (i <? n)) eqn:E; [|discriminate]. injection H as <- <-. cbn in Hok. destruct Hok as [Hn Hok].
    pose proof (asize_nonneg t Hok). cbn [asize]. split; [lia|]. split; [nia|]. split; [nia|]. split; [exact Hok|].
    intros j o2 t2 Hij H2. cbn [child] in H2. destruct ((0 <=? j) && (j <? n)) eqn:E2; [|discriminate]. injection H2 as <- <-. nia.
  - destruct (0 <=? i) eqn:E; [|discriminate]. pose proof (align_pos _ Hok) as Hal. apply ty_ok_struct in Hok.
    destruct (field_facts k ts Hok 0 _ _ _ H) as (H1 & H2 & H3 & H4). rewrite asize_struct.
    pose proof (roundup_ge (fields_end k 0 ts) _ Hal).
    split; [lia|]. split; [lia|]. split; [lia|]. split; [rewrite Forall_forall in Hok; auto|].
    intros j o2 t2 Hij Hc. cbn [child] in Hc. destruct (0 <=? j) eqn:E2; [|discriminate]. apply (H4 (Z.to_nat j) o2 t2); [lia|exact Hc].
Qed.

Lemma component_ok : forall p t o s, ty_ok t -> component t p = Some (o, s) -> ty_ok s /\ 0 <= o /\ o + asize s <= asize t.
Proof.
  induction p as [|i p IH]; intros t o s Hok H; cbn in H.
  - injection H as <- <-. split; [exact Hok|lia].
  - destruct (child t i) as [[o1 t1]|] eqn:E; [|discriminate]. destruct (component t1 p) as [[o2 s2]|] eqn:E2; [|discriminate].
    injection H as <- <-. destruct (child_facts t i o1 t1 Hok E) as (H1 & H2 & H3 & H4 & _).
    destruct (IH t1 o2 s2 H4 E2) as (H5 & H6 & H7). split; [exact H5|lia].
Qed.

Lemma scalar_range : forall t p o bits, ty_ok t -> scalar_at t p o bits -> 1 <= bits /\ 0 <= o /\ o + bytes_needed bits <= asize t.
Proof.
  intros t p o bits Hok (a & H). destruct (component_ok p t o _ Hok H) as (H1 & H2 & H3). cbn in H1.
  pose proof (roundup_ge (bytes_needed bits) a ltac:(lia)). cbn [asize] in H3. lia.
Qed.

(** Different scalars do not overlap. *)
Lemma scalars_apart : forall p t q o1 b1 o2 b2, ty_ok t -> scalar_at t p o1 b1 -> scalar_at t q o2 b2 ->
  p = q \/ o1 + bytes_needed b1 <= o2 \/ o2 + bytes_needed b2 <= o1.
Proof.
  induction p as [|i p IH]; intros t q o1 b1 o2 b2 Hok (a1 & H1) (a2 & H2).
  - cbn in H1. injection H1 as <- ->. destruct q as [|j q]; [now left|]. cbn in H2. discriminate.
  - destruct q as [|j q].
    { cbn in H2. injection H2 as <- ->. cbn in H1. discriminate. }
    cbn in H1, H2. destruct (child t i) as [[c1 t1]|] eqn:E1; [|discriminate]. destruct (child t j) as [[c2 t2]|] eqn:E2; [|discriminate].
    destruct (component t1 p) as [[d1 s1]|] eqn:F1; [|discriminate]. destruct (component t2 q) as [[d2 s2]|] eqn:F2; [|discriminate].
    injection H1 as <- ->. injection H2 as <- ->.
    destruct (child_facts t i c1 t1 Hok E1) as (K1 & K2 & K3 & K4 & K5). destruct (child_facts t j c2 t2 Hok E2) as (L1 & L2 & L3 & L4 & L5).
    destruct (scalar_range t1 p d1 b1 K4 (ex_intro _ a1 F1)) as (R1 & R2 & R3).
    destruct (scalar_range t2 q d2 b2 L4 (ex_intro _ a2 F2)) as (S1 & S2 & S3).
    destruct (Z.lt_trichotomy i j) as [Hij|[Hij|Hij]].
    + specialize (K5 j c2 t2 Hij E2). lia.
    + subst j. rewrite E1 in E2. injection E2 as <- <-. destruct (IH t1 q d1 b1 d2 b2 K4 (ex_intro _ a1 F1) (ex_intro _ a2 F2)) as [->|H]; [now left|lia].
    + specialize (L5 i c1 t1 Hij E1). lia.
Qed.

(** ** Shapes *)
Lemma child_struct : forall k ts i o t1, child (TStruct k ts) i = Some (o, t1) -> 0 <= i /\ nth_error ts (Z.to_nat i) = Some t1.
Proof.
  intros k ts i o t1 H. cbn [child] in H. destruct (0 <=? i) eqn:E; [|discriminate]. split; [lia|].
  assert (forall n o, nth_error (combine (field_offsets k o ts) ts) n = nth_error (combine (field_offsets k o ts) ts) n) by reflexivity.
  clear H0. revert H. generalize (Z.to_nat i) 0. induction ts as [|t ts IH]; intros n z H; [destruct n; discriminate|].
  destruct n as [|n]; cbn in H |- *; [now injection H as _ <-|]. now apply IH in H.
Qed.
Lemma child_struct_inv : forall k ts i t1, 0 <= i -> nth_error ts (Z.to_nat i) = Some t1 -> exists o, child (TStruct k ts) i = Some (o, t1).
Proof.
  intros k ts i t1 Hi H. cbn [child]. replace (0 <=? i) with true by lia. revert H. generalize (Z.to_nat i) 0.
  induction ts as [|t ts IH]; intros n z H; [destruct n; discriminate|].
  destruct n as [|n]; cbn in H |- *; [injection H as <-; eauto|]. now apply IH.
Qed.

Lemma shaped_child : forall t v i o t1, shaped t v -> child t i = Some (o, t1) ->
  exists l w, v = Ag l /\ 0 <= i /\ nth_error l (Z.to_nat i) = Some w /\ element v i = Some w /\ shaped t1 w.
Proof.
  intros [b a|n t|k ts] v i o t1 Hs H; [discriminate| |]; destruct v as [x|l]; try (destruct Hs; fail).
  - cbn in H, Hs. destruct ((0 <=? i) && (i <? n)) eqn:E; [|discriminate]. injection H as <- <-. destruct Hs as [Hl Hf].
    destruct (nth_error l (Z.to_nat i)) as [w|] eqn:En.
    + exists l, w. split; [reflexivity|]. split; [lia|]. split; [exact En|]. cbn. replace (0 <=? i) with true by lia. split; [exact En|].
      rewrite Forall_forall in Hf. apply Hf. now apply nth_error_In in En.
    + apply nth_error_None in En. lia.
  - destruct (child_struct k ts i o t1 H) as (Hi & Hn). cbn in Hs. clear H.
    assert (exists w, nth_error l (Z.to_nat i) = Some w /\ shaped t1 w) as (w & Hw & Hsw).
    { revert l Hs Hn. generalize (Z.to_nat i). induction ts as [|t ts IH]; intros m l Hs Hn; [destruct m; discriminate|].
      cbn in Hs. inversion Hs as [|? x ? l' Hx Hl]; subst. destruct m as [|m]; cbn in Hn |- *; [injection Hn as <-; eauto|]. eapply IH; eauto. }
    exists l, w. split; [reflexivity|]. split; [exact Hi|]. split; [exact Hw|]. split; [|exact Hsw]. cbn. now replace (0 <=? i) with true by lia.
Qed.

Lemma shaped_component : forall p t v o s, shaped t v -> component t p = Some (o, s) -> exists w, extractvalue v p = Some w /\ shaped s w.
Proof.
  induction p as [|i p IH]; intros t v o s Hs H; cbn in H.
  - injection H as <- <-. exists v. auto.
  - destruct (child t i) as [[o1 t1]|] eqn:E; [|discriminate]. destruct (component t1 p) as [[o2 s2]|] eqn:E2; [|discriminate].
    injection H as <- <-. destruct (shaped_child t v i o1 t1 Hs E) as (l & w & -> & H1 & H2 & H3 & H4).
    destruct (IH t1 w o2 s2 H4 E2) as (x & Hx & Hsx). exists x. cbn [extractvalue]. rewrite H3. auto.
Qed.

Lemma nth_update : forall l i x j, (i < length l)%nat -> nth_error (update l i x) j = if Nat.eqb i j then Some x else nth_error l j.
Proof.
  induction l as [|y l IH]; intros i x j H; [cbn in H; lia|]. destruct i, j; cbn; auto. apply IH. cbn in H. lia.
Qed.
Lemma update_length : forall l i x, length (update l i x) = length l.
Proof. induction l as [|y l IH]; intros [|i] x; cbn; auto. Qed.

Lemma update_shaped : forall t l i o t1 w, shaped t (Ag l) -> child t i = Some (o, t1) -> shaped t1 w ->
  shaped t (Ag (update l (Z.to_nat i) w)).
Proof.
  intros [b a|n t|k ts] l i o t1 w Hs Hc Hw; [discriminate| |].
  - cbn in Hc, Hs |- *. destruct ((0 <=? i) && (i <? n)) eqn:E; [|discriminate]. injection Hc as <- <-. destruct Hs as [Hl Hf].
    rewrite update_length. split; [exact Hl|]. rewrite Forall_forall in *. intros x Hx. apply In_nth_error in Hx as (j & Hj).
    rewrite nth_update in Hj by lia. destruct (Nat.eqb (Z.to_nat i) j); [now injection Hj as <-|]. apply Hf. now apply nth_error_In in Hj.
  - destruct (child_struct k ts i o t1 Hc) as (Hi & Hn). cbn in Hs |- *. clear Hc. revert l Hs Hn. generalize (Z.to_nat i).
    induction ts as [|t ts IH]; intros m l Hs Hn; [destruct m; discriminate|]. cbn in Hs. inversion Hs as [|? x ? l' Hx Hl]; subst.
    destruct m as [|m]; cbn in Hn |- *; [injection Hn as <-; constructor; auto|]. constructor; auto.
Qed.

Lemma insert_facts : forall p t V o bits x, shaped t V -> scalar_at t p o bits ->
  exists V', insertvalue V p (Sc x) = Some V' /\ shaped t V' /\ extractvalue V' p = Some (Sc x) /\
    forall q o2 b2, scalar_at t q o2 b2 -> q <> p -> extractvalue V' q = extractvalue V q.
Proof.
  induction p as [|i p IH]; intros t V o bits x Hs (a & H); cbn in H.
  - injection H as <- ->. destruct V as [y|l]; [|destruct Hs]. exists (Sc x). split; [reflexivity|]. split; [exact I|]. split; [reflexivity|].
    intros [|j q] o2 b2 (a2 & Hq) Hne; [congruence|discriminate].
  - destruct (child t i) as [[o1 t1]|] eqn:E; [|discriminate]. destruct (component t1 p) as [[o2 s2]|] eqn:E2; [|discriminate].
    injection H as <- ->. destruct (shaped_child t V i o1 t1 Hs E) as (l & w & -> & H1 & H2 & H3 & H4).
    destruct (IH t1 w o2 bits x H4 (ex_intro _ a E2)) as (w' & I1 & I2 & I3 & I4).
    assert ((Z.to_nat i < length l)%nat) as Hlen by (apply nth_error_Some; congruence).
    exists (Ag (update l (Z.to_nat i) w')). cbn [insertvalue]. rewrite H3, I1. split; [reflexivity|].
    split; [now apply (update_shaped t l i o1 t1)|].
    assert (forall j, 0 <= j -> element (Ag (update l (Z.to_nat i) w')) j = if i =? j then Some w' else element (Ag l) j) as Hel.
    { intros j Hj. cbn. replace (0 <=? j) with true by lia. rewrite nth_update by exact Hlen.
      destruct (Nat.eqb_spec (Z.to_nat i) (Z.to_nat j)), (Z.eqb_spec i j); try reflexivity; lia. }
    split; [cbn [extractvalue]; rewrite Hel, Z.eqb_refl by lia; exact I3|].
    intros [|j q] o3 b3 (a3 & Hq) Hne; cbn in Hq; [injection Hq as <- ->; discriminate|].
    destruct (child t j) as [[o4 t4]|] eqn:Ej; [|discriminate]. destruct (component t4 q) as [[o5 s5]|] eqn:Eq; [|discriminate].
    injection Hq as <- ->. destruct (shaped_child t (Ag l) j o4 t4 Hs Ej) as (l' & w4 & Ev & J1 & J2 & J3 & J4). injection Ev as <-.
    cbn [extractvalue]. rewrite Hel by lia. destruct (i =? j) eqn:Eij; [|reflexivity].
    assert (i = j) by lia. subst j. rewrite E in Ej. injection Ej as <- <-. rewrite H3. apply (I4 q o5 b3); [exists a3; exact Eq|congruence].
Qed.

Lemma undef_shaped : forall t, ty_ok t -> shaped t (undef t).
Proof.
  induction t as [b a|n t IH|k ts IH] using ty_rect'; intros H; cbn [undef shaped].
  - exact I.
  - cbn in H. rewrite repeat_length. split; [lia|]. apply Forall_forall. intros x Hx. apply repeat_spec in Hx. subst. apply IH, H.
  - apply ty_ok_struct in H. clear k. induction ts as [|t ts IHt]; [constructor|]. cbn [map]. inversion IH; inversion H; subst.
    constructor; auto.
Qed.

(** Values of the same shape are equal if their scalars are. *)
Lemma shaped_ext : forall t v w, ty_ok t -> shaped t v -> shaped t w ->
  (forall p o b, scalar_at t p o b -> extractvalue v p = extractvalue w p) -> v = w.
Proof.
  induction t as [b a|n t IH|k ts IH] using ty_rect'; intros v w Hok Hv Hw H.
  - destruct v as [x|l], w as [y|l']; try contradiction. specialize (H [] 0 b (ex_intro _ a eq_refl)). cbn in H. congruence.
  - destruct v as [x|l], w as [y|l']; try contradiction. cbn in Hv, Hw, Hok. destruct Hv as [Lv Fv], Hw as [Lw Fw].
    f_equal. apply (nth_ext _ _ (Sc None) (Sc None)); [lia|]. intros i Hi.
    apply IH; [apply Hok|rewrite Forall_forall in Fv; apply Fv, nth_In, Hi|rewrite Forall_forall in Fw; apply Fw, nth_In; lia|].
    intros p o b (a & Hp). specialize (H (Z.of_nat i :: p) (Z.of_nat i * asize t + o) b).
    cbn [extractvalue element] in H. replace (0 <=? Z.of_nat i) with true in H by lia. rewrite Nat2Z.id in H.
    rewrite (nth_error_nth' l (Sc None) Hi), (nth_error_nth' l' (Sc None)) in H by lia. apply H.
    exists a. cbn [component child]. replace ((0 <=? Z.of_nat i) && (Z.of_nat i <? n)) with true by lia. rewrite Hp. reflexivity.
  - destruct v as [x|l], w as [y|l']; try contradiction. f_equal. apply ty_ok_struct in Hok.
    assert (forall i t1 a b, nth_error ts i = Some t1 -> nth_error l i = Some a -> nth_error l' i = Some b -> a = b) as Heq.
    { intros i t1 va vb Ht Ha Hb. 
      assert (shaped t1 va) as Sa.
      { cbn in Hv. clear - Hv Ht Ha. revert l i Hv Ht Ha. induction ts as [|t ts IHt]; intros l i Hv Ht Ha; [destruct i; discriminate|].
        cbn in Hv. inversion Hv; subst. destruct i; cbn in *; [congruence|]. eapply IHt; eauto. }
      assert (shaped t1 vb) as Sb.
      { cbn in Hw. clear - Hw Ht Hb. revert l' i Hw Ht Hb. induction ts as [|t ts IHt]; intros l' i Hw Ht Hb; [destruct i; discriminate|].
        cbn in Hw. inversion Hw; subst. destruct i; cbn in *; [congruence|]. eapply IHt; eauto. }
      rewrite Forall_forall in IH, Hok. apply (IH t1); auto; try (now apply nth_error_In in Ht).
      { apply Hok. now apply nth_error_In in Ht. }
      intros p o b (a & Hp). destruct (child_struct_inv k ts (Z.of_nat i) t1 ltac:(lia) ltac:(now rewrite Nat2Z.id)) as (o1 & Hc).
      specialize (H (Z.of_nat i :: p) (o1 + o) b). cbn [extractvalue element] in H. replace (0 <=? Z.of_nat i) with true in H by lia.
      rewrite Nat2Z.id, Ha, Hb in H. apply H. exists a. cbn [component]. rewrite Hc, Hp. reflexivity. }
    assert (length l = length ts /\ length l' = length ts) as (L1 & L2).
    { cbn in Hv, Hw. apply Forall2_len in Hv, Hw. rewrite map_length in *. lia. }
    apply (nth_ext _ _ (Sc None) (Sc None)); [lia|]. intros i Hi.
    destruct (nth_error ts i) as [t1|] eqn:Et; [|apply nth_error_None in Et; lia].
    apply (Heq i t1); [exact Et|now apply nth_error_nth'|apply nth_error_nth'; lia].
Qed.

(** ** visitAggregateValue *)
Lemma extend_seconds : forall idxs i, getSeconds (extend idxs i) = getSeconds idxs ++ [i].
Proof. intros [|x idxs] i; unfold extend, getSeconds; cbn; [reflexivity|]. now rewrite map_app. Qed.
Lemma extend_firsts : forall idxs i, getFirsts (extend idxs i) = (match getFirsts idxs with [] => [0] | l => l end) ++ [i].
Proof. intros [|x idxs] i; unfold extend, getFirsts; cbn; [reflexivity|]. now rewrite map_app. Qed.

(** The indices of the element at path p. *)
Definition index_of (p : list Z) : IndexT := fold_left extend p [].
Lemma index_of_app : forall p i, index_of (p ++ [i]) = extend (index_of p) i.
Proof. intros. unfold index_of. now rewrite fold_left_app. Qed.
Lemma index_seconds : forall p, getSeconds (index_of p) = p.
Proof. induction p as [|i p IH] using rev_ind; [reflexivity|]. rewrite index_of_app, extend_seconds, IH. reflexivity. Qed.
Lemma index_firsts : forall p, getFirsts (index_of p) = match p with [] => [] | _ => 0 :: p end.
Proof.
  induction p as [|i p IH] using rev_ind; [reflexivity|]. rewrite index_of_app, extend_firsts, IH.
  destruct p as [|j p]; reflexivity.
Qed.
Lemma index_gep : forall t p, gep_offset t (getFirsts (index_of p)) = component t p.
Proof.
  intros t p. rewrite index_firsts. destruct p as [|i p]; [reflexivity|]. cbn [gep_offset].
  destruct (component t (i :: p)) as [[o s]|]; [|reflexivity]. now rewrite Z.mul_0_l.
Qed.

Fixpoint get_base (c : option agg) (p : list Z) : option agg :=
  match p with [] => c | i :: p' => get_base (getAggregateElement c i) p' end.

Definition visit_fields (baseVal : option agg) (idxs : IndexT) :=
  fix go (i : Z) (Ts : list ty) : list InfoT :=
         match Ts with
         | [] => []
         | T' :: Ts' => visitAggregateValue (getAggregateElement baseVal i) T' (extend idxs i) ++ go (i + 1) Ts'
         end.

Lemma visit_spec : forall T c q, ty_ok T ->
  forall e, In e (visitAggregateValue c T (index_of q)) <->
    exists p o bits, scalar_at T p o bits /\ e = (index_of (q ++ p), get_base c p).
Proof.
  induction T as [b a|n t IH|k ts IH] using ty_rect'; intros c q Hok e.
  - cbn. split.
    + intros [<-|[]]. exists [], 0, b. rewrite app_nil_r. split; [exists a; reflexivity|reflexivity].
    + intros ([|i p] & o & bits & (a' & Hp) & ->); [rewrite app_nil_r; now left|discriminate].
  - cbn [visitAggregateValue]. rewrite in_flat_map. cbn in Hok. destruct Hok as [Hn Hok]. split.
    + intros (i & Hi & He). apply in_map_iff in Hi as (m & <- & Hm). apply in_seq in Hm.
      rewrite <- index_of_app in He. apply (IH _ _ Hok) in He as (p & o & bits & (a & Hp) & ->).
      exists (Z.of_nat m :: p), (Z.of_nat m * asize t + o), bits. split.
      * exists a. cbn [component child]. replace ((0 <=? Z.of_nat m) && (Z.of_nat m <? n)) with true by lia. rewrite Hp. reflexivity.
      * rewrite <- app_assoc. reflexivity.
    + intros ([|i p] & o & bits & (a & Hp) & ->); [discriminate|]. cbn [component child] in Hp.
      destruct ((0 <=? i) && (i <? n)) eqn:E; [|discriminate]. destruct (component t p) as [[o2 s2]|] eqn:E2; [|discriminate].
      injection Hp as <- ->. exists i. split.
      * apply in_map_iff. exists (Z.to_nat i). split; [lia|]. apply in_seq. lia.
      * rewrite <- index_of_app. apply (IH _ _ Hok). exists p, o2, bits. split; [exists a; exact E2|]. rewrite <- app_assoc. reflexivity.
  - change (visitAggregateValue c (TStruct k ts) (index_of q)) with (visit_fields c (index_of q) 0 ts).
    pose proof Hok as Hok'. apply ty_ok_struct in Hok.
    assert (forall m l, Forall ty_ok l -> (forall x, In x l -> In x ts) -> 0 <= m ->
      In e (visit_fields c (index_of q) m l) <->
      exists j t1 p o bits, nth_error l j = Some t1 /\ scalar_at t1 p o bits /\
        e = (index_of (q ++ (m + Z.of_nat j) :: p), get_base (getAggregateElement c (m + Z.of_nat j)) p)) as Hgo.
    { intros m l. revert m. induction l as [|t1 l IHl]; intros m Hl Hsub Hm; cbn [visit_fields].
      - split; [intros []|]. intros (j & t1 & p & o & bits & Hj & _). destruct j; discriminate.
      - inversion Hl as [|? ? Ht1 Hl']; subst. rewrite in_app_iff. fold (visit_fields c (index_of q)). rewrite (IHl (m + 1) Hl' ltac:(intros; apply Hsub; now right) ltac:(lia)).
        rewrite <- index_of_app. rewrite Forall_forall in IH. rewrite (IH t1 (Hsub t1 (or_introl eq_refl)) _ _ Ht1). split.
        + intros [(p & o & bits & Hp & ->)|(j & t2 & p & o & bits & Hj & Hp & ->)].
          * exists O, t1, p, o, bits. split; [reflexivity|]. split; [exact Hp|]. rewrite Z.add_0_r, <- app_assoc. reflexivity.
          * exists (S j), t2, p, o, bits. split; [exact Hj|]. split; [exact Hp|]. replace (m + Z.of_nat (S j)) with (m + 1 + Z.of_nat j) by lia. reflexivity.
        + intros ([|j] & t2 & p & o & bits & Hj & Hp & ->); cbn in Hj.
          * injection Hj as <-. left. exists p, o, bits. split; [exact Hp|]. rewrite Z.add_0_r, <- app_assoc. reflexivity.
          * right. exists j, t2, p, o, bits. split; [exact Hj|]. split; [exact Hp|]. replace (m + Z.of_nat (S j)) with (m + 1 + Z.of_nat j) by lia. reflexivity. }
    rewrite (Hgo 0 ts Hok ltac:(auto) ltac:(lia)). split.
    + intros (j & t1 & p & o & bits & Hj & (a & Hp) & ->). rewrite Z.add_0_l.
      destruct (child_struct_inv k ts (Z.of_nat j) t1 ltac:(lia) ltac:(now rewrite Nat2Z.id)) as (o1 & Hc).
      exists (Z.of_nat j :: p), (o1 + o), bits. split; [exists a; cbn [component]; now rewrite Hc, Hp|reflexivity].
    + intros ([|i p] & o & bits & (a & Hp) & ->); [discriminate|]. cbn [component] in Hp.
      destruct (child (TStruct k ts) i) as [[o1 t1]|] eqn:E; [|discriminate]. destruct (component t1 p) as [[o2 s2]|] eqn:E2; [|discriminate].
      injection Hp as <- ->. destruct (child_struct k ts i o1 t1 E) as (Hi & Hn).
      exists (Z.to_nat i), t1, p, o2, bits. rewrite Z2Nat.id, Z.add_0_l by lia. split; [exact Hn|]. split; [exists a; exact E2|reflexivity].
Qed.

Lemma get_base_extract : forall p v w, extractvalue v p = Some w -> get_base (Some v) p = Some w.
Proof.
  induction p as [|i p IH]; intros v w H; cbn in *; [exact H|]. destruct (element v i) as [x|]; [|discriminate]. now apply IH.
Qed.
Lemma get_base_none : forall p, get_base None p = None.
Proof. induction p; auto. Qed.

(** ** Memory *)
Lemma bytes_exist : forall k (A : Z -> Z) m, byte_memory m -> exists v, reads_as A (Z.of_nat k) m v.
Proof.
  induction k as [|k IH]; intros A m Hm.
  - exists 0. split; [cbn; lia|]. lia.
  - destruct (IH A m Hm) as (v & Hv & Hb). exists (m (A (Z.of_nat k)) * 2 ^ (8 * Z.of_nat k) + v).
    pose proof (Hm (A (Z.of_nat k))). rewrite Nat2Z.inj_succ. unfold Z.succ.
    assert (2 ^ (8 * (Z.of_nat k + 1)) = 2 ^ 8 * 2 ^ (8 * Z.of_nat k)) as E by (rewrite <- Z.pow_add_r by lia; f_equal; lia).
    split; [rewrite E; nia|]. intros i Hi. destruct (Z.eq_dec i (Z.of_nat k)) as [->|Hne].
    + apply byte_high; lia.
    + rewrite byte_low; [apply Hb; lia|lia|lia].
Qed.
Lemma reads_exist : forall k A m, 0 <= k -> byte_memory m -> exists v, reads_as A k m v.
Proof. intros k A m Hk Hm. rewrite <- (Z2Nat.id k Hk). now apply bytes_exist. Qed.

Definition put (a k v : Z) (m : Z -> Z) : Z -> Z := fun q => if (a <=? q) && (q <? a + k) then byte_of v (q - a) else m q.
Lemma put_written : forall a k v m, written (fun i => a + i) k v m (put a k v m).
Proof.
  intros a k v m. unfold put. split.
  - intros i Hi. replace ((a <=? a + i) && (a + i <? a + k)) with true by lia. f_equal. lia.
  - intros q Hq. destruct ((a <=? q) && (q <? a + k)) eqn:E; [|reflexivity]. exfalso. apply (Hq (q - a)); lia.
Qed.
Lemma put_bytes : forall a k v m, byte_memory m -> byte_memory (put a k v m).
Proof. intros a k v m H q. unfold put. destruct (_ && _); [|apply H]. unfold byte_of. apply Z.mod_pos_bound. lia. Qed.

(** A sequence of stores to places that are equal or disjoint. *)
Definition place := (Z * Z * option Z)%type.
Inductive stores : list place -> (Z -> Z) -> (Z -> Z) -> Prop :=
| st_nil : forall m, stores [] m m
| st_cons : forall a b v l m m1 m2, stored a b v m m1 -> stores l m1 m2 -> stores ((a, b, v) :: l) m m2.

Lemma stores_exist : forall l m, byte_memory m -> exists m', stores l m m' /\ byte_memory m'.
Proof.
  induction l as [|[[a b] v] l IH]; intros m Hm; [exists m; split; [constructor|exact Hm]|].
  set (z := match v with Some z => z | None => 0 end).
  destruct (IH (put a (bytes_needed b) z m) (put_bytes _ _ _ _ Hm)) as (m' & H1 & H2). exists m'. split; [|exact H2].
  econstructor; [|exact H1]. exists z. split; [intros z' ->; reflexivity|apply put_written].
Qed.
Lemma stores_bytes : forall l m m', stores l m m' -> byte_memory m -> byte_memory m'.
Proof.
  induction 1 as [|a b v l m m1 m2 (z & _ & H) Hs IH]; intros Hm; [exact Hm|]. apply IH.
  intros q. destruct (Z_le_dec a q) as [H1|H1]; [destruct (Z_lt_dec q (a + bytes_needed b)) as [H2|H2]|].
  - replace q with (a + (q - a)) by lia. rewrite (proj1 H (q - a)) by lia. unfold byte_of. apply Z.mod_pos_bound. lia.
  - rewrite (proj2 H q); [apply Hm|lia].
  - rewrite (proj2 H q); [apply Hm|lia].
Qed.
Lemma stores_frame : forall l m m', stores l m m' -> forall q, (forall a b v, In (a, b, v) l -> ~ (a <= q < a + bytes_needed b)) -> m' q = m q.
Proof.
  induction 1 as [|a b v l m m1 m2 (z & _ & H) Hs IH]; intros q Hq; [reflexivity|].
  rewrite IH by (intros; eapply Hq; right; eauto). apply (proj2 H). intros i Hi E. apply (Hq a b v (or_introl eq_refl)). lia.
Qed.
Lemma stores_hold : forall l m m', stores l m m' ->
  (forall a b v a' b' v', In (a, b, v) l -> In (a', b', v') l ->
     (a, b, v) = (a', b', v') \/ a + bytes_needed b <= a' \/ a' + bytes_needed b' <= a) ->
  (forall a b z, In (a, b, Some z) l -> 1 <= b /\ 0 <= z < 2 ^ b) ->
  forall a b v, In (a, b, v) l -> holds m' a b v.
Proof.
  induction 1 as [|a b v l m m1 m2 Hst Hs IH]; intros Hd Hr a' b' v' Hin; [destruct Hin|].
  destruct (in_dec (fun x y : place => ltac:(repeat decide equality) : {x = y} + {x <> y}) (a', b', v') l) as [Hl|Hl].
  - apply IH; [intros; apply Hd; now right|intros aa bb zz Hzz; apply (Hr aa bb zz); now right|exact Hl].
  - destruct Hin as [E|Hin]; [|contradiction]. injection E as <- <- <-. destruct v as [z|]; [|exact I]. cbn [holds].
    destruct Hst as (z' & Hz & Hw). specialize (Hz z eq_refl). subst z'. destruct (Hr a b z (or_introl eq_refl)) as (Hb & Hz).
    destruct (bytes_bits b Hb) as (B1 & B2).
    assert (0 <= z < 2 ^ (8 * bytes_needed b)) as Hz2 by (pose proof (Z.pow_le_mono_r 2 b (8 * bytes_needed b)); lia).
    split; [exact Hz2|]. intros i Hi. rewrite (stores_frame l m1 m2 Hs).
    + symmetry. now apply (proj1 Hw).
    + intros a'' b'' v'' Hin Hq. destruct (Hd a b (Some z) a'' b'' v'' (or_introl eq_refl) (or_intror Hin)) as [E|E]; [rewrite <- E in Hin; contradiction|lia].
Qed.
