(** The field scan of isTypeSafe. *)
From Coq Require Import ZArith List Bool Arith Lia Sorted.
From Verif.Model Require Import Globals Regions.
Import ListNotations.
Open Scope list_scope.
Open Scope Z_scope.

Lemma insert_in : forall x l y, In y (insert x l) <-> y = x \/ In y l.
Proof.
  intros x. induction l as [|z l IH]; intros y; cbn; [intuition|].
  destruct (x <? z) eqn:E1; cbn; [intuition|]. destruct (x =? z) eqn:E2; cbn.
  - apply Z.eqb_eq in E2. subst. intuition.
  - rewrite IH. intuition.
Qed.
Lemma insert_sorted : forall x l, StronglySorted Z.lt l -> StronglySorted Z.lt (insert x l).
Proof.
  intros x. induction l as [|z l IH]; intros H; cbn; [repeat constructor|].
  inversion H as [|? ? Hs Hf]; subst. destruct (x <? z) eqn:E1; [|destruct (x =? z) eqn:E2; [assumption|]].
  - constructor; [assumption|]. constructor; [lia|]. rewrite Forall_forall in *. intros y Hy. specialize (Hf y Hy). lia.
  - constructor; [auto|]. rewrite Forall_forall in *. intros y Hy. apply insert_in in Hy as [->|Hy]; [lia|auto].
Qed.
Lemma offset_set_sorted : forall t, StronglySorted Z.lt (offset_set t).
Proof. induction t as [|[o ts] t IH]; cbn; [constructor|now apply insert_sorted]. Qed.
Lemma offset_set_in : forall t o, In o (offset_set t) <-> exists ts, In (o, ts) t.
Proof.
  induction t as [|[o' ts'] t IH]; intros o; cbn; [split; [tauto|intros (? & [])]|].
  rewrite insert_in, IH. split.
  - intros [->|(ts & H)]; [exists ts'; auto|exists ts; auto].
  - intros (ts & [E|H]); [left; congruence|right; eauto].
Qed.

Section Scan.
  Context (types : list (Z * list (Z * Z))).
  Notation len o := (field_length (types_at types o)).
  Definition end_of (o : Z) : Z := u32 (o + len o).

  Lemma check_next_spec : forall rest o l fm, StronglySorted Z.lt (o :: rest) ->
    forall x, check_next o l rest fm x =
      if (x =? o) && existsb (fun nx => nx <? u32 (o + l)) rest then Some false
      else if existsb (Z.eqb x) rest && (x <? u32 (o + l)) then Some false else fm x.
  Proof.
    induction rest as [|nx rest IH]; intros o l fm Hs x; cbn [check_next existsb].
    - now rewrite andb_false_r.
    - inversion Hs as [|? ? Hs' Hf]; subst. inversion Hs' as [|? ? Hs2 Hf2]; subst.
      inversion Hf as [|? ? Hlt Hf']; subst.
      destruct (nx <? u32 (o + l)) eqn:E; cbn [orb].
      + rewrite IH by (constructor; assumption). rewrite andb_true_r.
        unfold fm_set. destruct (x =? o) eqn:Exo; cbn [andb].
        * destruct (existsb _ rest); [reflexivity|].
          assert (existsb (Z.eqb x) rest = false) as ->.
          { apply not_true_iff_false. intros H. apply existsb_exists in H as (y & Hy & Ey). rewrite Forall_forall in Hf'. specialize (Hf' y Hy). lia. }
          cbn. destruct (x =? nx); reflexivity.
        * destruct (x =? nx) eqn:Exn; cbn [orb andb].
          -- assert (x = nx) by lia. subst. rewrite E. destruct (_ && _); reflexivity.
          -- destruct (existsb (Z.eqb x) rest && (x <? u32 (o + l))); reflexivity.
      + assert (forall y, In y rest -> (y <? u32 (o + l)) = false) as Hall.
        { intros y Hy. rewrite Forall_forall in Hf2. specialize (Hf2 y Hy). lia. }
        assert (existsb (fun nx0 => nx0 <? u32 (o + l)) rest = false) as ->.
        { apply not_true_iff_false. intros H. apply existsb_exists in H as (y & Hy & Ey). rewrite (Hall y Hy) in Ey. discriminate. }
        rewrite andb_false_r. destruct (((x =? nx) || existsb (Z.eqb x) rest) && (x <? u32 (o + l))) eqn:E2; [|reflexivity].
        exfalso. apply andb_true_iff in E2 as [H1 H2]. apply orb_true_iff in H1 as [H1|H1]; [lia|].
        apply existsb_exists in H1 as (y & Hy & Ey). assert (x = y) by lia. subst. rewrite (Hall y Hy) in H2. discriminate.
  Qed.

  (** [o] is declared safe *)
  Definition clean (offs : list Z) (o : Z) : Prop :=
    multiple (types_at types o) = false /\
    (forall o', In o' offs -> o < o' -> end_of o <= o') /\
    (forall o', In o' offs -> o' < o -> end_of o' <= o).

  Lemma check_fields_spec : forall offs fm, StronglySorted Z.lt offs ->
    (forall o, In o offs -> fm o <> Some true) ->
    (forall o, ~ In o offs -> check_fields types offs fm o = fm o) /\
    (forall o, In o offs -> (check_fields types offs fm o = Some true <-> fm o = None /\ clean offs o) /\
                            (check_fields types offs fm o <> None)).
  Proof.
    induction offs as [|o rest IH]; intros fm Hs Hfm; cbn [check_fields]; [split; [reflexivity|intros o []]|].
    inversion Hs as [|? ? Hs' Hf]; subst. rewrite Forall_forall in Hf.
    set (ts := types_at types o). set (fm1 := if multiple ts then fm_set fm o false else fm).
    set (fm2 := check_next o (field_length ts) rest fm1).
    set (fm3 := match fm2 o with None => fm_set fm2 o true | Some _ => fm2 end).
    assert (~ In o rest) as Hno by (intros H; specialize (Hf o H); lia).
    assert (existsb (Z.eqb o) rest = false) as Hnob.
    { apply not_true_iff_false. intros H. apply existsb_exists in H as (y & Hy & Ey). apply Hno. now replace o with y by lia. }
    assert (forall x, x <> o -> fm3 x = if existsb (Z.eqb x) rest && (x <? end_of o) then Some false else fm x) as H3.
    { intros x Hx. assert (fm3 x = fm2 x) as -> by (unfold fm3; destruct (fm2 o); [reflexivity|]; unfold fm_set; now replace (x =? o) with false by lia).
      unfold fm2. rewrite check_next_spec by assumption. replace (x =? o) with false by lia. cbn [andb]. fold (end_of o).
      assert (fm1 x = fm x) as -> by (unfold fm1; destruct (multiple ts); [unfold fm_set; now replace (x =? o) with false by lia|reflexivity]).
      reflexivity. }
    assert (fm3 o <> None /\ (fm3 o = Some true <-> fm o = None /\ multiple ts = false /\ existsb (fun nx => nx <? end_of o) rest = false)) as [H3n H3o].
    { assert (fm2 o = if existsb (fun nx => nx <? end_of o) rest then Some false else fm1 o) as E2.
      { unfold fm2. rewrite check_next_spec by assumption. rewrite Z.eqb_refl, Hnob. reflexivity. }
      assert (fm1 o = if multiple ts then Some false else fm o) as E1.
      { unfold fm1. destruct (multiple ts); [unfold fm_set; now rewrite Z.eqb_refl|reflexivity]. }
      pose proof (Hfm o (or_introl eq_refl)) as Hfo. unfold fm3. clear H3 fm3. clearbody fm2. rewrite E2, E1.
      destruct (existsb (fun nx => nx <? end_of o) rest), (multiple ts); cbn [orb andb].
      1,2,3: rewrite E2, ?E1; split; [discriminate|]; split; [discriminate|intros (_ & A & B); discriminate].
      destruct (fm o) as [[]|] eqn:E; [congruence| |].
      - rewrite E2, E1. split; [discriminate|]. split; [discriminate|]. intros (A & _); discriminate.
      - unfold fm_set. rewrite Z.eqb_refl. split; [discriminate|]. tauto. }
    destruct (IH fm3 Hs') as [I1 I2].
    { intros x Hx. rewrite H3 by (intros ->; tauto). destruct (_ && _); [discriminate|]. apply Hfm. now right. }
    split.
    - intros x Hx. rewrite I1 by (intros H; apply Hx; now right). rewrite H3 by (intros ->; apply Hx; now left).
      replace (existsb (Z.eqb x) rest) with false; [reflexivity|]. symmetry. apply not_true_iff_false. intros H.
      apply existsb_exists in H as (y & Hy & Ey). apply Hx. right. now replace x with y by lia.
    - intros x [<-|Hx].
      + rewrite I1 by assumption. split; [|assumption]. rewrite H3o. unfold clean. fold ts.
        split; intros (A & B & C); (split; [exact A|]).
        * split; [exact B|]. split.
          -- intros o' [<-|Ho'] Hlt; [lia|]. destruct (Z.lt_ge_cases o' (end_of o)) as [H|H]; [|exact H].
             exfalso. assert (existsb (fun nx => nx <? end_of o) rest = true); [|congruence].
             apply existsb_exists. exists o'. split; [assumption|lia].
          -- intros o' [<-|Ho'] Hlt; [lia|]. specialize (Hf o' Ho'). lia.
        * destruct C as [C1 C2]. split; [exact B|]. apply not_true_iff_false. intros H. apply existsb_exists in H as (y & Hy & Ey).
          specialize (C1 y (or_intror Hy) ltac:(now apply Hf)). lia.
      + destruct (I2 x Hx) as [J1 J2]. split; [|exact J2]. rewrite J1.
        assert (x <> o) as Hne by (intros ->; tauto). rewrite H3 by assumption.
        assert (existsb (Z.eqb x) rest = true) as -> by (apply existsb_exists; exists x; split; [assumption|lia]).
        cbn [andb]. specialize (Hf x Hx). unfold clean. destruct (x <? end_of o) eqn:El.
        * split; [intros (A & _); discriminate|]. intros (A & B & C & D). specialize (D o (or_introl eq_refl) Hf). lia.
        * split; intros (A & B & C & D); (split; [exact A|]; split; [exact B|]; split).
          -- intros o' [<-|Ho'] Hlt; [lia|auto].
          -- intros o' [<-|Ho'] Hlt; [lia|auto].
          -- intros o' Ho' Hlt; apply C; [now right|assumption].
          -- intros o' Ho' Hlt; apply D; [now right|assumption].
  Qed.

  Lemma scan_safe : forall o,
    check_fields types (offset_set types) (fun _ => None) o = Some true <->
    In o (offset_set types) /\ clean (offset_set types) o.
  Proof.
    intros o. destruct (check_fields_spec (offset_set types) (fun _ => None) (offset_set_sorted types) ltac:(discriminate)) as [H1 H2].
    destruct (in_dec Z.eq_dec o (offset_set types)) as [Hin|Hin].
    - destruct (H2 o Hin) as [H _]. rewrite H. tauto.
    - rewrite (H1 o Hin). split; [discriminate|tauto].
  Qed.

  Lemma field_length_max : forall (ts : list (Z * Z)) acc, fold_left (fun acc t => if acc <? snd t then snd t else acc) ts acc =
    fold_right (fun (t : Z * Z) m => Z.max (snd t) m) acc ts.
  Proof.
    induction ts as [|t ts IH]; intros acc; [reflexivity|]. cbn [fold_left fold_right]. rewrite IH.
    assert (forall (l : list (Z * Z)) a b, fold_right (fun (t : Z * Z) m => Z.max (snd t) m) (Z.max a b) l = Z.max a (fold_right (fun (t : Z * Z) m => Z.max (snd t) m) b l)) as H.
    { clear. induction l as [|x l IHl]; intros a b; [reflexivity|]. cbn. rewrite IHl. lia. }
    rewrite <- H. f_equal. destruct (acc <? snd t) eqn:E; lia.
  Qed.
  Lemma field_length_ge : forall ts t, In t ts -> snd t <= field_length ts.
  Proof.
    intros ts t H. unfold field_length. rewrite field_length_max. induction ts as [|x ts IH]; [destruct H|].
    cbn. destruct H as [->|H]; [lia|]. specialize (IH H). lia.
  Qed.
  Lemma field_length_in : forall ts, ts <> [] -> (forall t, In t ts -> 0 < snd t) -> exists t, In t ts /\ snd t = field_length ts.
  Proof.
    intros ts Hne Hp. unfold field_length. rewrite field_length_max.
    induction ts as [|x ts IH]; [congruence|]. cbn. destruct ts as [|y ts].
    - exists x. split; [now left|]. specialize (Hp x (or_introl eq_refl)). cbn. lia.
    - destruct IH as (t & Ht & Et); [discriminate|intros t Ht; apply Hp; now right|].
      destruct (Z.le_gt_cases (snd x) (fold_right (fun (t : Z * Z) m => Z.max (snd t) m) 0 (y :: ts))) as [H|H].
      + exists t. split; [now right|]. lia.
      + exists x. split; [now left|]. lia.
  Qed.
End Scan.
