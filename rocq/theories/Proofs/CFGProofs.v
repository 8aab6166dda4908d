From Coq Require Import List String Bool Arith Lia.
From Verif.Spec Require Import CFG.
From Verif.Model Require Import ControlFlow.
From Verif.Proofs Require Import CFGBase.
Import ListNotations.

Section Sim.
  Context {V E M P O T : Type}.
  Context (evS : (string -> option V) -> E -> option V) (uses : E -> list string)
          (prim : P -> list V -> M -> list O -> V -> M -> Prop)
          (inv : P -> list V -> M -> list O -> V -> bool -> M -> Prop)
          (one : V) (veq : V -> V -> bool)
          (tr : E -> T) (evT : (string -> V) -> T -> option V).
  Notation func := (func V E P).
  (** the translation of operands is right *)
  Context (Htr : forall r rb e v, (forall x, In x (uses e) -> r x = Some (rb x)) ->
                 evS r e = Some v -> evT rb (tr e) = Some v).

  Notation ssa := (ssa_form uses).
  Notation lstep := (lstep evS prim inv one veq).
  Notation bstep := (bstep tr evT prim inv one veq).
  Notation bsteps := (bsteps tr evT prim inv one veq).
  Notation lsteps := (lsteps evS prim inv one veq).
  Notation code_at := (code_at tr).
  Notation targets := (targets tr).
  Notation phi_assigns := (phi_assigns tr).
  Notation trans_stmt := (trans_stmt tr).
  Notation trans_term := (trans_term tr).
  Notation front := (front tr).
  Notation has_value := (has_value evT).
  Notation cond_holds := (cond_holds evT one veq).
  Notation goes_wrong := (goes_wrong evS inv one veq).

  Context (f : func) (Hssa : ssa f) (Hlow : lowered f) (Hnorm : normalized f).

  Definition agree (A : string -> Prop) (r : string -> option V) (rb : string -> V) : Prop :=
    forall x, A x -> r x = Some (rb x).
  Definition mid (l : label) (pre : list (stmt E P)) (x : string) : Prop :=
    available_at_start f l x \/ In x (flat_map stmt_def pre).
  Definition fin (l : label) (b : block V E P) (x : string) : Prop :=
    mid l (body b) x \/ In x (term_def (bterm b)).

  Lemma block_in : forall l b, block_of f l = Some b -> In (l, b) (blocks f).
  Proof. intros l b H. now apply lookup_in. Qed.

  Lemma end_fin : forall l b x, block_of f l = Some b -> available_at_end f l x -> fin l b x.
  Proof.
    intros l b x Hb [Hp|(d & Hd & b' & Hb' & Hx)]; [left; left; left; exact Hp|].
    destruct (label_dec d l) as [->|Ne].
    - rewrite Hb in Hb'. injection Hb' as <-. unfold block_defs in Hx. rewrite !in_app_iff in Hx.
      destruct Hx as [Hx|[Hx|Hx]].
      + left; left; right; right. eauto.
      + left; right; exact Hx.
      + right; exact Hx.
    - left; left; right; left. exists d. split; [exact Ne|]. split; [exact Hd|]. exists b'. auto.
  Qed.

  (** strict dominators of a block dominate its predecessors *)
  Lemma dom_pred : forall d l l', dominates f d l' -> d <> l' -> edge f l l' -> dominates f d l.
  Proof.
    intros d l l' Hd Ne He t Ht. specialize (Hd (l' :: t) (P_edge f l l' t Ht He)).
    destruct Hd as [E1|Hd]; [congruence|exact Hd].
  Qed.

  Lemma Forall2_has_value : forall rb r es vs, evals evS r es = Some vs ->
    agree (fun x => In x (flat_map uses es)) r rb -> Forall2 (has_value rb) (map tr es) vs.
  Proof.
    intros rb r es vs H HA. apply all_some_map in H. induction H as [|e v es vs H1 H2 IH]; constructor.
    - unfold ControlFlow.has_value. rewrite (Htr r rb e v); [reflexivity| |exact H1].
      intros x Hx. apply HA. cbn. apply in_app_iff. now left.
    - apply IH. intros x Hx. apply HA. cbn. apply in_app_iff. now right.
  Qed.
  Lemma Forall2_has_value_det : forall rb r es vs vs', evals evS r es = Some vs ->
    agree (fun x => In x (flat_map uses es)) r rb -> Forall2 (has_value rb) (map tr es) vs' -> vs' = vs.
  Proof.
    intros rb r es vs vs' H HA. apply all_some_map in H. revert vs'. induction H as [|e v es vs H1 H2 IH]; intros vs' H3; inversion H3; subst; [reflexivity|].
    f_equal.
    - unfold ControlFlow.has_value in H4. rewrite (Htr r rb e v) in H4; [exact H4| |exact H1].
      intros x Hx. apply HA. cbn. apply in_app_iff. now left.
    - apply IH; [|assumption]. intros x Hx. apply HA. cbn. apply in_app_iff. now right.
  Qed.
  Lemma has_value_det : forall rb r e v v', evS r e = Some v -> agree (fun x => In x (uses e)) r rb ->
    has_value rb (tr e) v' -> v' = v.
  Proof. intros rb r e v v' H HA Hv. unfold ControlFlow.has_value in Hv. rewrite (Htr r rb e v HA H) in Hv. exact Hv. Qed.
  Lemma has_value_of : forall rb r e v, evS r e = Some v -> agree (fun x => In x (uses e)) r rb ->
    has_value rb (tr e) v.
  Proof. intros rb r e v H HA. unfold ControlFlow.has_value. now rewrite (Htr r rb e v HA H). Qed.
  Lemma values_exist : forall rb ts, exists vs, Forall2 (has_value rb) ts vs.
  Proof.
    intros rb ts. induction ts as [|t ts [vs IH]]; [exists []; constructor|].
    destruct (evT rb t) as [v|] eqn:Ev.
    - exists (v :: vs). constructor; [unfold ControlFlow.has_value; now rewrite Ev|exact IH].
    - exists (one :: vs). constructor; [unfold ControlFlow.has_value; now rewrite Ev|exact IH].
  Qed.

  Lemma reach_edge : forall l l', reachable f l -> edge f l l' -> reachable f l'.
  Proof. intros l l' (t & Ht) He. exists (l' :: t). econstructor; eauto. Qed.
  Lemma reach_succ : forall l b l', reachable f l -> block_of f l = Some b -> In l' (succs (bterm b)) -> reachable f l'.
  Proof. intros l b l' Hr Hb Hl. apply (reach_edge l l' Hr). exists b. auto. Qed.

  (** ** phi assignments *)
  Lemma phi_assigns_in : forall l b x t, block_of f l = Some b ->
    (In (x, t) (phi_assigns f l (bterm b)) <->
     exists l' b' inc e, In l' (succs (bterm b)) /\ block_of f l' = Some b' /\ In (x, inc) (phis b') /\
       lookup l inc = Some e /\ t = tr e).
  Proof.
    intros l b x t Hb. unfold ControlFlow.phi_assigns. rewrite in_flat_map. split.
    - intros (l' & Hl' & H). destruct (block_of f l') as [b'|] eqn:Eb; [|destruct H].
      apply in_flat_map in H. destruct H as ([y inc] & Hin & H). cbn [fst snd] in H.
      destruct (lookup l inc) as [e|] eqn:Ee; [|destruct H]. destruct H as [H|[]]. injection H as <- <-.
      exists l', b', inc, e. auto.
    - intros (l' & b' & inc & e & H1 & H2 & H3 & H4 & ->). exists l'. split; [exact H1|]. rewrite H2.
      apply in_flat_map. exists (x, inc). split; [exact H3|]. cbn [fst snd]. rewrite H4. now left.
  Qed.

  Lemma phi_assigns_nodup_gen : forall l ls, NoDup ls ->
    NoDup (map fst (flat_map (fun s =>
      match block_of f s with
      | Some b => flat_map (fun ph => match lookup l (snd ph) with
                                      | Some e => [(fst ph, tr e)]
                                      | None => [] end) (phis b)
      | None => []
      end) ls)).
  Proof.
    intros l ls. induction ls as [|s ls IH]; intros ND; [constructor|]. inversion ND as [|? ? N1 N2]; subst.
    cbn [flat_map]. rewrite map_app. apply NoDup_app_intro.
    - destruct (block_of f s) as [b|] eqn:Eb; [|constructor].
      pose proof (NoDup_app_l _ _ _ (ssa_unique_block _ _ Hssa s b Eb)) as NP.
      induction (phis b) as [|[x inc] ps IHp]; [constructor|]. cbn [map fst flat_map snd] in *.
      inversion NP as [|? ? Q1 Q2]; subst. destruct (lookup l inc); [|auto]. cbn. constructor; [|auto].
      intros HI. apply Q1. apply in_map_iff in HI. destruct HI as ([y t] & Ey & HI). cbn in Ey. subst y.
      apply in_flat_map in HI. destruct HI as ([y inc'] & H1 & H2). cbn [fst snd] in H2.
      destruct (lookup l inc'); [|destruct H2]. destruct H2 as [H2|[]]. injection H2 as <- <-.
      apply in_map_iff. exists (y, inc'). auto.
    - auto.
    - assert (forall x s', In x (map fst (match block_of f s' with
      | Some b => flat_map (fun ph => match lookup l (snd ph) with
                                      | Some e => [(fst ph, tr e)]
                                      | None => [] end) (phis b)
      | None => []
      end)) -> defined_in f s' x) as HD.
      { intros x s' HI. destruct (block_of f s') as [b|] eqn:Eb; [|destruct HI]. exists b. split; [exact Eb|].
        apply in_map_iff in HI. destruct HI as ([y t] & Ey & HI). cbn in Ey. subst y.
        apply in_flat_map in HI. destruct HI as ([y inc'] & H1 & H2). cbn [fst snd] in H2.
        destruct (lookup l inc'); [|destruct H2]. destruct H2 as [H2|[]]. injection H2 as <- <-.
        unfold block_defs. apply in_app_iff. left. apply in_map_iff. exists (y, inc'). auto. }
      intros x Hx Hx2. pose proof (HD x s Hx) as D1. apply in_map_iff in Hx2. destruct Hx2 as ([y t] & Ey & HI).
      cbn in Ey. subst y. apply in_flat_map in HI. destruct HI as (s' & Hs' & HI).
      assert (defined_in f s' x) as D2 by (apply HD; apply in_map_iff; exists (x, t); auto).
      pose proof (ssa_unique _ _ Hssa _ _ _ D1 D2) as ->. contradiction.
  Qed.
  Lemma phi_assigns_nodup : forall l b, block_of f l = Some b -> NoDup (map fst (phi_assigns f l (bterm b))).
  Proof. intros l b Hb. apply phi_assigns_nodup_gen. apply (low_distinct _ Hlow l b Hb). Qed.

  Lemma phi_values_names : forall r l ps vs, phi_values evS r l ps = Some vs -> map fst vs = map fst ps.
  Proof.
    intros r l ps vs H. unfold phi_values in H. apply all_some_map in H.
    induction H as [|[x inc] [y v] ps vs H1 H2 IH]; [reflexivity|]. cbn in *. destruct (lookup l inc) as [e|]; [|discriminate].
    destruct (evS r e); [|discriminate]. injection H1 as <- <-. now rewrite IH.
  Qed.
  Lemma phi_values_in : forall r l ps vs x inc, phi_values evS r l ps = Some vs -> In (x, inc) ps ->
    exists e v, lookup l inc = Some e /\ evS r e = Some v /\ In (x, v) vs.
  Proof.
    intros r l ps vs x inc H. unfold phi_values in H. apply all_some_map in H.
    induction H as [|[y inc'] [z v] ps vs H1 H2 IH]; intros HI; [destruct HI|]. cbn in H1.
    destruct HI as [E1|HI].
    - injection E1 as -> ->. destruct (lookup l inc) as [e|]; [|discriminate].
      destruct (evS r e) as [w|] eqn:Ew; [|discriminate]. injection H1 as <- <-. exists e, w. repeat split; auto. now left.
    - destruct (IH HI) as (e & w & H3 & H4 & H5). exists e, w. repeat split; auto. now right.
  Qed.

  (** entering a successor: the phi assignments of all successors have been
      executed *)
  Lemma enter_agree : forall l b l' k' r r' rb vs, reachable f l -> block_of f l = Some b -> In l' (succs (bterm b)) ->
    agree (fin l b) r rb -> enter evS f l l' r = Some (k', r') ->
    Forall2 (has_value rb) (map snd (phi_assigns f l (bterm b))) vs ->
    agree (available_at_start f l') r' (bupds rb (map fst (phi_assigns f l (bterm b))) vs).
  Proof.
    intros l b l' k' r r' rb vs Hre Hb Hl' HA He Hvs x Hx.
    assert (edge f l l') as Hedge by (exists b; auto).
    unfold enter in He. destruct (block_of f l') as [b'|] eqn:Eb'; [|discriminate].
    destruct (phi_values evS r l (phis b')) as [pv|] eqn:Epv; [|discriminate]. injection He as <- <-.
    pose proof (phi_values_names _ _ _ _ Epv) as Hnames.
    pose proof (NoDup_app_l _ _ _ (ssa_unique_block _ _ Hssa l' b' Eb')) as NDphi.
    pose proof (phi_assigns_nodup l b Hb) as ND.
    destruct (in_dec string_dec x (map fst (phis b'))) as [Hin|Hnin].
    - (* a phi of the target *)
      apply in_map_iff in Hin. destruct Hin as ([y inc] & Ey & Hin). cbn in Ey. subst y.
      destruct (phi_values_in _ _ _ _ _ _ Epv Hin) as (e & v & H1 & H2 & H3).
      rewrite (upds_in pv r x v); [|rewrite Hnames; exact NDphi|exact H3].
      assert (In (x, tr e) (phi_assigns f l (bterm b))) as HIn.
      { apply phi_assigns_in; [exact Hb|]. exists l', b', inc, e. auto. }
      f_equal. symmetry. apply bupds_in; [exact ND|].
      assert (has_value rb (tr e) v) as Hv.
      { apply (has_value_of rb r); [exact H2|]. intros y Hy. apply HA. apply end_fin; [exact Hb|].
        destruct (ssa_phi _ _ Hssa l l' b' x inc Hedge Eb' Hin) as (e' & He' & Hu). rewrite H1 in He'. injection He' as <-.
        now apply Hu. }
      assert (forall v', has_value rb (tr e) v' -> v' = v) as Hdet.
      { intros v' Hv'. unfold ControlFlow.has_value in *. destruct (evT rb (tr e)) eqn:Et; [congruence|].
        exfalso. assert (evT rb (tr e) = Some v); [|congruence]. apply (Htr r); [|exact H2].
        intros y Hy. apply HA. apply end_fin; [exact Hb|].
        destruct (ssa_phi _ _ Hssa l l' b' x inc Hedge Eb' Hin) as (e' & He' & Hu). rewrite H1 in He'. injection He' as <-.
        now apply Hu. }
      clear - HIn Hvs Hdet. revert vs Hvs HIn. induction (phi_assigns f l (bterm b)) as [|[y t] ps IH]; intros vs Hvs HIn; [destruct HIn|].
      cbn [map fst snd] in *. inversion Hvs; subst. cbn [combine]. destruct HIn as [E1|HIn].
      + injection E1 as -> ->. left. f_equal. now apply Hdet.
      + right. now apply IH.
    - (* defined earlier: neither side changes it *)
      rewrite upds_other by (rewrite Hnames; exact Hnin).
      assert (available_at_end f l x) as Hend.
      { destruct Hx as [Hp|[(d & Hd1 & Hd2 & Hd3)|(b'' & Hb'' & Hph)]].
        - left; exact Hp.
        - right. exists d. split; [eapply dom_pred; eauto|exact Hd3].
        - rewrite Eb' in Hb''. injection Hb'' as <-. contradiction. }
      rewrite bupds_other; [apply HA; now apply end_fin|].
      intros HI. apply in_map_iff in HI. destruct HI as ([y t] & Ey & HI). cbn in Ey. subst y.
      apply phi_assigns_in in HI; [|exact Hb]. destruct HI as (l2 & b2 & inc & e & H1 & H2 & H3 & _ & _).
      assert (defined_in f l2 x) as D2.
      { exists b2. split; [exact H2|]. unfold block_defs. apply in_app_iff. left. apply in_map_iff. exists (x, inc). auto. }
      assert (phis b2 <> []) as Hne by (intros E0; rewrite E0 in H3; destruct H3).
      destruct Hend as [Hp|(d & Hd & D1)]; [exact (ssa_params _ _ Hssa _ _ D2 Hp)|].
      pose proof (ssa_unique _ _ Hssa _ _ _ D1 D2) as ->.
      (* l2 dominates l, has phis and is a successor: only possible if it is the only one *)
      assert (l2 = l') as ->.
      { destruct (le_lt_dec 2 (List.length (succs (bterm b)))) as [H2s|H1s].
        - exfalso. exact (Hnorm l b l2 b2 Hb H1 H2s H2 Hne Hre Hd).
        - destruct (succs (bterm b)) as [|s1 [|s2 ss]]; [destruct H1| |cbn in H1s; lia].
          destruct H1 as [<-|[]], Hl' as [<-|[]]. reflexivity. }
      rewrite Eb' in H2. injection H2 as <-. apply Hnin. apply in_map_iff. exists (x, inc). auto.
  Qed.

  (** other successors' phis are not read by the terminator *)
  Lemma cond_unclobbered : forall l b e l1 l2 (vs : list V) (rb : string -> V), reachable f l -> block_of f l = Some b -> bterm b = TCond e l1 l2 ->
    forall x, In x (uses e) -> bupds rb (map fst (phi_assigns f l (bterm b))) vs x = rb x.
  Proof.
    intros l b e l1 l2 vs rb Hre Hb Ht x Hx. apply bupds_other. intros HI.
    apply in_map_iff in HI. destruct HI as ([y t] & Ey & HI). cbn in Ey. subst y.
    apply phi_assigns_in in HI; [|exact Hb]. destruct HI as (l3 & b3 & inc & e' & H1 & H2 & H3 & _ & _).
    assert (defined_in f l3 x) as D3.
    { exists b3. split; [exact H2|]. unfold block_defs. apply in_app_iff. left. apply in_map_iff. exists (x, inc). auto. }
    assert (phis b3 <> []) as Hne by (intros E0; rewrite E0 in H3; destruct H3).
    assert (~ dominates f l3 l) as Hnd.
    { apply (Hnorm l b l3 b3 Hb H1); [rewrite Ht; cbn; lia|exact H2|exact Hne|exact Hre]. }
    assert (In x (term_uses uses (bterm b))) as Hu by (rewrite Ht; exact Hx).
    assert (exists d, dominates f d l /\ (In x (params f) \/ defined_in f d x)) as (d & Hd & HD).
    { assert (dominates f l l) as Hll by (intros t0 Ht0; destruct Ht0; now left).
      destruct (ssa_term _ _ Hssa l b Hb x Hu) as [[Hp|[(d & _ & Hd & D)|(b' & Hb' & Hph)]]|Hbd].
      - exists l. auto.
      - exists d. auto.
      - exists l. split; [exact Hll|]. right. exists b'. split; [exact Hb'|]. unfold block_defs. apply in_app_iff. now left.
      - exists l. split; [exact Hll|]. right. exists b. split; [exact Hb|]. unfold block_defs. rewrite !in_app_iff. right; now left. }
    destruct HD as [Hp|D]; [exact (ssa_params _ _ Hssa _ _ D3 Hp)|].
    pose proof (ssa_unique _ _ Hssa _ _ _ D D3) as ->. contradiction.
  Qed.

  Lemma term_uses_fin : forall l b r rb, block_of f l = Some b -> agree (mid l (body b)) r rb ->
    agree (fun x => In x (term_uses uses (bterm b))) r rb.
  Proof. intros l b r rb Hb HA x Hx. apply HA. exact (ssa_term _ _ Hssa l b Hb x Hx). Qed.
  Lemma term_def_cond : forall b : block V E P, (forall x p es n u, bterm b <> TInvoke x p es n u) -> term_def (bterm b) = [].
  Proof. intros b H. destruct (bterm b) as [| | | |[x|] p es n u| |] eqn:Et; try reflexivity. exfalso. eapply H. reflexivity. Qed.
  Lemma fin_of_mid : forall l b r rb, (forall x p es n u, bterm b <> TInvoke x p es n u) ->
    agree (mid l (body b)) r rb -> agree (fin l b) r rb.
  Proof. intros l b r rb Hni HA x [Hx|Hx]; [now apply HA|]. rewrite term_def_cond in Hx by exact Hni. destruct Hx. Qed.

  (** ** unique predecessors *)
  Lemma preds_spec : forall l p, In p (preds f l) <-> exists b, In (p, b) (blocks f) /\ In l (succs (bterm b)).
  Proof.
    intros l p. unfold preds. rewrite in_flat_map. split.
    - intros ([q b] & H1 & H2). cbn [fst snd] in H2. destruct (existsb (label_eqb l) (succs (bterm b))) eqn:Ex; [|destruct H2].
      destruct H2 as [<-|[]]. exists b. split; [exact H1|]. apply existsb_exists in Ex. destruct Ex as (y & Hy & Ey).
      destruct (label_eqb_spec l y); [now subst|discriminate].
    - intros (b & H1 & H2). exists (p, b). split; [exact H1|]. cbn [fst snd].
      assert (existsb (label_eqb l) (succs (bterm b)) = true) as -> by (apply existsb_exists; exists l; split; [exact H2|apply label_eqb_refl]).
      now left.
  Qed.
  Lemma unique_pred_edge : forall l p q, getUniquePredecessor f l = Some q -> edge f p l -> q = p.
  Proof.
    intros l p q H (b & Hb & Hl). unfold getUniquePredecessor in H.
    assert (In p (preds f l)) as HI by (apply preds_spec; exists b; split; [now apply block_in|exact Hl]).
    destruct (preds f l) as [|p0 ps]; [discriminate|]. destruct (forallb (label_eqb p0) ps) eqn:Ef; [|discriminate].
    injection H as <-. destruct HI as [->|HI]; [reflexivity|]. rewrite forallb_forall in Ef. specialize (Ef p HI).
    destruct (label_eqb_spec p0 p); [assumption|discriminate].
  Qed.
  Lemma front_entry : front f (entry f) = [].
  Proof.
    unfold ControlFlow.front. destruct (getUniquePredecessor f (entry f)) as [p|] eqn:Eu; [|reflexivity]. exfalso.
    unfold getUniquePredecessor in Eu. destruct (preds f (entry f)) as [|p0 ps] eqn:Ep; [discriminate|].
    assert (In p0 (preds f (entry f))) as HI by (rewrite Ep; now left).
    apply preds_spec in HI. destruct HI as (b & Hb & Hl). apply (ssa_entry_nopred _ _ Hssa p0).
    exists b. split; [apply lookup_nodup; [exact (ssa_labels _ _ Hssa)|exact Hb]|exact Hl].
  Qed.
  (** the statements in front of a block entered from [l] *)
  Lemma front_from : forall l b l', block_of f l = Some b -> In l' (succs (bterm b)) ->
    front f l' = if is_unique_pred f l' l then inserted f l l' (targets (bterm b)) else [].
  Proof.
    intros l b l' Hb Hl'. unfold ControlFlow.front, is_unique_pred.
    destruct (getUniquePredecessor f l') as [p|] eqn:Eu; [|reflexivity].
    rewrite (unique_pred_edge l' l p Eu) by (exists b; auto). rewrite Hb, label_eqb_refl. reflexivity.
  Qed.

  Definition body_code (l : label) (b : block V E P) : list (bstmt (P:=P) (T:=T)) :=
    map trans_stmt (body b) ++ trans_term f l (bterm b).

  Lemma goto_single : forall l b c l', block_of f l = Some b -> targets (bterm b) = [(c, l')] ->
    succs (bterm b) = [l'] -> front f l' = [].
  Proof.
    intros l b c l' Hb Ht Hs. rewrite (front_from l b l' Hb) by (rewrite Hs; now left).
    rewrite Ht. cbn. now destruct (is_unique_pred f l' l).
  Qed.

  (** a two-way branch: where control goes and which condition it meets *)
  Lemma goto_two : forall l b c1 l1 c2 l2, block_of f l = Some b ->
    targets (bterm b) = [(c1, l1); (c2, l2)] -> succs (bterm b) = [l1; l2] ->
    goto_targets f l (targets (bterm b)) =
      [if is_unique_pred f l1 l then BB l1 else Edge l 0; if is_unique_pred f l2 l then BB l2 else Edge l 1] /\
    (forall b1, block_of f l1 = Some b1 ->
       code_at f (BB l1) = Some ((if is_unique_pred f l1 l then [BAssume c1] else []) ++ body_code l1 b1)) /\
    (forall b2, block_of f l2 = Some b2 ->
       code_at f (BB l2) = Some ((if is_unique_pred f l2 l then [BAssume c2] else []) ++ body_code l2 b2)) /\
    code_at f (Edge l 0) = Some [BAssume c1; BGoto [BB l1]] /\
    code_at f (Edge l 1) = Some [BAssume c2; BGoto [BB l2]].
  Proof.
    intros l b c1 l1 c2 l2 Hb Ht Hs. pose proof (low_distinct _ Hlow l b Hb) as ND. rewrite Hs in ND.
    assert (l1 <> l2) as Ne by (inversion ND as [|? ? N1 N2]; subst; intros ->; apply N1; now left).
    split; [rewrite Ht; reflexivity|]. split; [|split; [|split]].
    - intros b1 Hb1. cbn [ControlFlow.code_at]. unfold block_code. rewrite Hb1.
      rewrite (front_from l b l1 Hb) by (rewrite Hs; now left). rewrite Ht.
      destruct (is_unique_pred f l1 l) eqn:Eu; [|reflexivity]. unfold ControlFlow.inserted. cbn [flat_map snd fst].
      rewrite label_eqb_refl, Eu. destruct (label_eqb_spec l2 l1); [congruence|]. reflexivity.
    - intros b2 Hb2. cbn [ControlFlow.code_at]. unfold block_code. rewrite Hb2.
      rewrite (front_from l b l2 Hb) by (rewrite Hs; right; now left). rewrite Ht.
      destruct (is_unique_pred f l2 l) eqn:Eu; [|reflexivity]. unfold ControlFlow.inserted. cbn [flat_map snd fst].
      rewrite label_eqb_refl, Eu. destruct (label_eqb_spec l1 l2); [congruence|]. reflexivity.
    - cbn. unfold edge_code. rewrite Hb, Ht. reflexivity.
    - cbn. unfold edge_code. rewrite Hb, Ht. reflexivity.
  Qed.

  (** ** the matching relation *)
  (** the source has moved on to [l0]; the target still has to jump there *)
  Inductive pending : lstate V E M P -> bstate (V:=V) (M:=M) (P:=P) (T:=T) -> Prop :=
  | M_goto1 : forall l0 b0 r m rb exn exnv, reachable f l0 -> block_of f l0 = Some b0 -> front f l0 = [] ->
      agree (available_at_start f l0) r rb ->
      pending (LRun l0 (body b0) r m) (BRun [BGoto [BB l0]] rb None exn exnv m)
  | M_goto2 : forall l b c0 l0 b0 c1 l1 c2 l2 r m rb exn exnv, reachable f l0 -> block_of f l = Some b ->
      targets (bterm b) = [(c1, l1); (c2, l2)] -> succs (bterm b) = [l1; l2] ->
      (c0 = c1 /\ l0 = l1 /\ ~ cond_holds rb exn c2 \/ c0 = c2 /\ l0 = l2 /\ ~ cond_holds rb exn c1) ->
      block_of f l0 = Some b0 -> agree (available_at_start f l0) r rb -> cond_holds rb exn c0 ->
      pending (LRun l0 (body b0) r m) (BRun [BGoto (goto_targets f l (targets (bterm b)))] rb None exn exnv m).
  Inductive matches : lstate V E M P -> bstate (V:=V) (M:=M) (P:=P) (T:=T) -> Prop :=
  | M_body : forall l b pre k r m rb exn exnv, reachable f l -> block_of f l = Some b -> body b = pre ++ k ->
      agree (mid l pre) r rb ->
      matches (LRun l k r m) (BRun (map trans_stmt k ++ trans_term f l (bterm b)) rb None exn exnv m)
  | M_pending : forall s bs, pending s bs -> matches s bs
  | M_front : forall c l0 b0 r m rb exn exnv, reachable f l0 -> block_of f l0 = Some b0 ->
      agree (available_at_start f l0) r rb ->
      matches (LRun l0 (body b0) r m) (BRun (BAssume c :: body_code l0 b0) rb None exn exnv m)
  | M_edge : forall c l0 b0 r m rb exn exnv, reachable f l0 -> block_of f l0 = Some b0 -> front f l0 = [] ->
      agree (available_at_start f l0) r rb ->
      matches (LRun l0 (body b0) r m) (BRun [BAssume c; BGoto [BB l0]] rb None exn exnv m)
  | M_doomed : forall l0 k0 r m c k rb ret exn exnv, ~ cond_holds rb exn c ->
      matches (LRun l0 k0 r m) (BRun (BAssume c :: k) rb ret exn exnv m)
  | M_ret1 : forall m rb exn exnv v,
      matches (LDone (Returned v) m) (BRun [BSetExn false; BReturn] rb v exn exnv m)
  | M_ret2 : forall m rb exnv v,
      matches (LDone (Returned v) m) (BRun [BReturn] rb v false exnv m)
  | M_res1 : forall m rb exnv ret v t, (forall v', has_value rb t v' -> v' = v) ->
      matches (LDone (Unwound v) m) (BRun [BSetExnVal t; BReturn] rb ret true exnv m)
  | M_res2 : forall m rb ret v,
      matches (LDone (Unwound v) m) (BRun [BReturn] rb ret true (Some v) m)
  | M_done : forall o m, matches (LDone o m) (BDone o m).

  Lemma agree_upd : forall A (A' : string -> Prop) r rb x v, agree A r rb -> (forall y, A' y -> y = x \/ A y) ->
    agree A' (upd r x v) (bupd rb x v).
  Proof.
    intros A A' r rb x v HA H y Hy. unfold upd, bupd. destruct (String.eqb_spec x y); [reflexivity|].
    destruct (H y Hy); [congruence|auto].
  Qed.
  Lemma agree_updo : forall A (A' : string -> Prop) r rb x v, agree A r rb ->
    (forall y, A' y -> x = Some y \/ A y) -> agree A' (updo r x v) (bupdo rb x v).
  Proof.
    intros A A' r rb [x|] v HA H.
    - apply agree_upd with A; [exact HA|]. intros y Hy. destruct (H y Hy) as [E1|H1]; [left; congruence|now right].
    - intros y Hy. cbn. destruct (H y Hy) as [E1|H1]; [discriminate|now apply HA].
  Qed.
  Lemma mid_snoc : forall l pre s y, mid l (pre ++ [s]) y -> In y (stmt_def s) \/ mid l pre y.
  Proof.
    intros l pre s y [H|H]; [right; now left|]. rewrite flat_map_app, in_app_iff in H.
    destruct H as [H|H]; [right; now right|left]. cbn in H. rewrite app_nil_r in H. exact H.
  Qed.
  Lemma stmt_uses_mid : forall l b pre s post r rb, block_of f l = Some b -> body b = pre ++ s :: post ->
    agree (mid l pre) r rb -> agree (fun x => In x (stmt_uses uses s)) r rb.
  Proof. intros l b pre s post r rb Hb Hbd HA x Hx. apply HA. exact (ssa_body _ _ Hssa l b pre s post Hb Hbd x Hx). Qed.

  Lemma mid_start : forall l r rb, agree (available_at_start f l) r rb -> agree (mid l []) r rb.
  Proof. intros l r rb HA x [Hx|[]]. now apply HA. Qed.
  Lemma match_start_body : forall l b r m rb exn exnv, reachable f l -> block_of f l = Some b ->
    agree (available_at_start f l) r rb -> matches (LRun l (body b) r m) (BRun (body_code l b) rb None exn exnv m).
  Proof. intros. eapply M_body with (pre := []); eauto. now apply mid_start. Qed.

  (** state after the phi assignments of a branch *)
  Lemma branch_pending : forall l b l' k' r r' m rb vs exn exnv,
    reachable f l -> block_of f l = Some b -> agree (mid l (body b)) r rb ->
    (bterm b = TBr l' \/ exists e v l1 l2, bterm b = TCond e l1 l2 /\ evS r e = Some v /\ l' = if veq v one then l1 else l2) ->
    enter evS f l l' r = Some (k', r') ->
    Forall2 (has_value rb) (map snd (phi_assigns f l (bterm b))) vs ->
    pending (LRun l' k' r' m)
      (BRun [BGoto (goto_targets f l (targets (bterm b)))] (bupds rb (map fst (phi_assigns f l (bterm b))) vs) None exn exnv m).
  Proof.
    intros l b l' k' r r' m rb vs exn exnv Hre Hb HA Ht He Hvs.
    assert (forall l'', In l'' (succs (bterm b)) -> reachable f l'') as Hre' by (intros; eapply reach_succ; eauto).
    assert (forall x p es n u, bterm b <> TInvoke x p es n u) as Hni.
    { intros x p es n u E1. destruct Ht as [Ht|(e & v & l1 & l2 & Ht & _)]; rewrite Ht in E1; discriminate. }
    pose proof (fin_of_mid l b r rb Hni HA) as HF.
    assert (In l' (succs (bterm b))) as Hl'.
    { destruct Ht as [Ht|(e & v & l1 & l2 & Ht & _ & ->)]; rewrite Ht; cbn; [now left|]. destruct (veq v one); auto. }
    pose proof (enter_agree l b l' k' r r' rb vs Hre Hb Hl' HF He Hvs) as HA'.
    assert (exists b', block_of f l' = Some b' /\ k' = body b') as (b' & Hb' & ->).
    { unfold enter in He. destruct (block_of f l') as [b'|]; [|discriminate]. exists b'. split; [reflexivity|].
      destruct (phi_values evS r l (phis b')); [|discriminate]. now injection He as <- _. }
    destruct Ht as [Ht|(e & v & l1 & l2 & Ht & Hev & ->)].
    - rewrite Ht in *. cbn [ControlFlow.targets ControlFlow.goto_targets]. eapply M_goto1; eauto.
      eapply (goto_single l b CTrue l' Hb); rewrite Ht; reflexivity.
    - assert (agree (fun x => In x (uses e)) r rb) as HU.
      { intros x Hx. apply (term_uses_fin l b r rb Hb HA). rewrite Ht. exact Hx. }
      set (rb' := bupds rb (map fst (phi_assigns f l (bterm b))) vs) in *.
      assert (forall v', has_value rb' (tr e) v' <-> v' = v) as HV.
      { intros v'. assert (agree (fun x => In x (uses e)) r rb') as HU'.
        { intros x Hx. unfold rb'. rewrite (cond_unclobbered l b e l1 l2 vs rb Hre Hb Ht x Hx). now apply HU. }
        split; [intros H; exact (has_value_det rb' r e v v' Hev HU' H)|intros ->; exact (has_value_of rb' r e v Hev HU')]. }
      eapply (M_goto2 l b (CIsOne (tr e) (veq v one)) (if veq v one then l1 else l2) b'
                (CIsOne (tr e) true) l1 (CIsOne (tr e) false) l2); eauto; try (rewrite Ht; reflexivity).
      + destruct (veq v one) eqn:Ev; [left|right]; (split; [reflexivity|]); (split; [reflexivity|]);
        intros (v' & H1 & H2); apply HV in H1; subst v'; congruence.
      + cbn. exists v. split; [now apply HV|reflexivity].
  Qed.
  (** the same for an invoke: the destinations have no phis *)
  Lemma invoke_pending : forall l b x p es n u v (w : bool) k' r r' m rb exnv,
    reachable f l -> block_of f l = Some b -> agree (mid l (body b)) r rb -> bterm b = TInvoke x p es n u ->
    enter evS f l (if w then u else n) (updo r x v) = Some (k', r') ->
    pending (LRun (if w then u else n) k' r' m)
      (BRun [BGoto (goto_targets f l (targets (bterm b)))] (bupdo rb x v) None w exnv m).
  Proof.
    intros l b x p es n u v w k' r r' m rb exnv Hre Hb HA Ht He.
    assert (forall l'', In l'' (succs (bterm b)) -> reachable f l'') as Hre' by (intros; eapply reach_succ; eauto).
    assert (In (if w then u else n) (succs (bterm b))) as Hl' by (rewrite Ht; cbn; destruct w; auto).
    assert (phi_assigns f l (bterm b) = []) as Hpa.
    { destruct (phi_assigns f l (bterm b)) as [|[y t] ps] eqn:Epa; [reflexivity|]. exfalso.
      assert (In (y, t) (phi_assigns f l (bterm b))) as HI by (rewrite Epa; now left).
      apply phi_assigns_in in HI; [|exact Hb]. destruct HI as (l2 & b2 & inc & e & H1 & H2 & H3 & _).
      rewrite Ht in H1. rewrite (low_invoke _ Hlow l b x p es n u l2 b2 Hb Ht H1 H2) in H3. destruct H3. }
    assert (agree (fin l b) (updo r x v) (bupdo rb x v)) as HF.
    { apply agree_updo with (mid l (body b)); [exact HA|]. intros y [Hy|Hy]; [now right|]. rewrite Ht in Hy. cbn in Hy.
      destruct x as [x|]; [|destruct Hy]. destruct Hy as [->|[]]. now left. }
    pose proof (enter_agree l b _ k' (updo r x v) r' (bupdo rb x v) [] Hre Hb Hl' HF He) as HA'.
    rewrite Hpa in HA'. specialize (HA' (Forall2_nil _)). cbn [map bupds] in HA'.
    assert (exists b', block_of f (if w then u else n) = Some b' /\ k' = body b') as (b' & Hb' & ->).
    { unfold enter in He. destruct (block_of f (if w then u else n)) as [b'|]; [|discriminate]. exists b'. split; [reflexivity|].
      destruct (phi_values evS (updo r x v) l (phis b')); [|discriminate]. now injection He as <- _. }
    eapply (M_goto2 l b (CExn w) (if w then u else n) b' (CExn false) n (CExn true) u); eauto; try (rewrite Ht; reflexivity).
    + destruct w; [right|left]; (split; [reflexivity|]); (split; [reflexivity|]); cbn; discriminate.
    + cbn. reflexivity.
  Qed.

  Lemma front_none : forall l b l', block_of f l = Some b -> In l' (succs (bterm b)) ->
    is_unique_pred f l' l = false -> front f l' = [].
  Proof. intros l b l' Hb Hl' E1. rewrite (front_from l b l' Hb Hl'), E1. reflexivity. Qed.

  Lemma bstep_goto : forall ls k r ret exn exnv m evs bs', bstep f (BRun (BGoto ls :: k) r ret exn exnv m) evs bs' ->
    exists bl c, In bl ls /\ code_at f bl = Some c /\ evs = [] /\ bs' = BRun c r ret exn exnv m.
  Proof. intros. inversion H; subst. do 2 eexists. eauto. Qed.
  Lemma bstep_assign : forall x t k r ret exn exnv m evs bs', bstep f (BRun (BAssign [x] [t] :: k) r ret exn exnv m) evs bs' ->
    exists v, has_value r t v /\ evs = [] /\ bs' = BRun k (bupd r x v) ret exn exnv m.
  Proof.
    intros. inversion H; subst.
    match goal with HF : Forall2 _ [_] _ |- _ => inversion HF; subst end.
    match goal with HF : Forall2 _ [] _ |- _ => inversion HF; subst end. eauto.
  Qed.

  Lemma goto_step : forall s bs evs bs', pending s bs -> bstep f bs evs bs' -> matches s bs' /\ evs = [].
  Proof.
    intros s bs evs bs' HP HB. destruct HP.
    - rename H into Hre, H0 into Hb, H1 into Hfr, H2 into HA. apply bstep_goto in HB. destruct HB as (bl & c & [<-|[]] & Hcode & -> & ->). split; [|reflexivity].
      cbn [ControlFlow.code_at] in Hcode. unfold block_code in Hcode. rewrite Hb, Hfr in Hcode. injection Hcode as <-.
      now apply match_start_body.
    - rename H into Hre, H0 into Hb, H1 into Ht, H2 into Hs, H3 into Hsel, H4 into Hb0, H5 into HA, H6 into Hc.
      pose proof (goto_two l b c1 l1 c2 l2 Hb Ht Hs) as (Hg & Hc1 & Hc2 & He1 & He2).
      apply bstep_goto in HB. destruct HB as (bl & c & Hin & Hcode & -> & ->). split; [|reflexivity]. rewrite Hg in Hin.
      assert (exists b1, block_of f l1 = Some b1) as (b1 & Hb1) by (apply (ssa_targets _ _ Hssa l); exists b; split; [exact Hb|rewrite Hs; now left]).
      assert (exists b2, block_of f l2 = Some b2) as (b2 & Hb2) by (apply (ssa_targets _ _ Hssa l); exists b; split; [exact Hb|rewrite Hs; right; now left]).
      specialize (Hc1 b1 Hb1). specialize (Hc2 b2 Hb2).
      assert (is_unique_pred f l1 l = false -> front f l1 = []) as Hf1 by (apply (front_none l b l1 Hb); rewrite Hs; now left).
      assert (is_unique_pred f l2 l = false -> front f l2 = []) as Hf2 by (apply (front_none l b l2 Hb); rewrite Hs; right; now left).
      destruct Hin as [Hin|[Hin|[]]].
      + destruct (is_unique_pred f l1 l) eqn:Eu; subst bl.
        * rewrite Hc1 in Hcode. injection Hcode as <-. destruct Hsel as [(-> & -> & Hn)|(-> & -> & Hn)].
          -- rewrite Hb1 in Hb0. injection Hb0 as ->. now apply M_front.
          -- now apply M_doomed.
        * rewrite He1 in Hcode. injection Hcode as <-. destruct Hsel as [(-> & -> & Hn)|(-> & -> & Hn)].
          -- apply M_edge; auto.
          -- now apply M_doomed.
      + destruct (is_unique_pred f l2 l) eqn:Eu; subst bl.
        * rewrite Hc2 in Hcode. injection Hcode as <-. destruct Hsel as [(-> & -> & Hn)|(-> & -> & Hn)].
          -- now apply M_doomed.
          -- rewrite Hb2 in Hb0. injection Hb0 as ->. now apply M_front.
        * rewrite He2 in Hcode. injection Hcode as <-. destruct Hsel as [(-> & -> & Hn)|(-> & -> & Hn)].
          -- now apply M_doomed.
          -- apply M_edge; auto.
  Qed.

  (** one target step: the source goes wrong, or makes at most one step with the
      same events *)
  Lemma backward_step : forall s bs evs bs', matches s bs -> bstep f bs evs bs' ->
    goes_wrong f s \/ (matches s bs' /\ evs = []) \/ exists s', lstep f s evs s' /\ matches s' bs'.
  Proof.
    intros s bs evs bs' HM HB. destruct HM.
    - (* in the body or at the terminator *)
      rename H into Hre, H0 into Hb, H1 into Hbd, H2 into HA. destruct k as [|st k].
      + (* terminator *)
        rewrite app_nil_r in Hbd. subst pre. cbn [map app] in HB.
        destruct (bterm b) as [[e|]|l'|e l1 l2|e d cases|x p es n u|e|] eqn:Ht; cbn [ControlFlow.trans_term] in HB.
        * (* ret e *)
          inversion HB; subst. destruct (evS r e) as [w|] eqn:Ev.
          -- right; right. exists (LDone (Returned (Some w)) m). split; [eapply L_retv; eauto|].
             assert (v = w) as ->; [|apply M_ret1].
             apply (has_value_det rb r e); [exact Ev| |assumption]. intros x Hx. apply (term_uses_fin l b r rb Hb HA). rewrite Ht. exact Hx.
          -- left. exists b. split; [exact Hb|]. rewrite Ht. exact Ev.
        * inversion HB; subst. right; right. exists (LDone (Returned None) m). split; [eapply L_ret; eauto|]. apply M_ret2.
        * (* br *)
          destruct (enter evS f l l' r) as [[k' r']|] eqn:Ee; [|left; exists b; split; [exact Hb|]; rewrite Ht; exact Ee].
          right; right. exists (LRun l' k' r' m).
          pose proof (fun vs => branch_pending l b l' k' r r' m rb vs exn exnv Hre Hb HA (or_introl Ht) Ee) as HP. rewrite Ht in HP.
          unfold generatePhiAssigns in HB. destruct (ControlFlow.phi_assigns tr f l (TBr l')) as [|pa pas].
          -- destruct (goto_step _ _ _ _ (HP [] (Forall2_nil _)) HB) as [HM ->]. split; [eapply L_br; eauto|exact HM].
          -- cbn [app] in HB. inversion HB; subst. split; [eapply L_br; eauto|]. apply M_pending, HP. assumption.
        * (* cond *)
          destruct (evS r e) as [v|] eqn:Ev; [|left; exists b; split; [exact Hb|]; rewrite Ht, Ev; exact Logic.I].
          destruct (enter evS f l (if veq v one then l1 else l2) r) as [[k' r']|] eqn:Ee;
            [|left; exists b; split; [exact Hb|]; rewrite Ht, Ev; exact Ee].
          right; right. exists (LRun (if veq v one then l1 else l2) k' r' m).
          assert (forall vs, Forall2 (has_value rb) (map snd (phi_assigns f l (bterm b))) vs ->
            pending (LRun (if veq v one then l1 else l2) k' r' m)
            (BRun [BGoto (goto_targets f l (targets (bterm b)))] (bupds rb (map fst (phi_assigns f l (bterm b))) vs) None exn exnv m)) as HP.
          { intros vs Hvs. eapply branch_pending; eauto. right. exists e, v, l1, l2. auto. }
          rewrite Ht in HP.
          unfold generatePhiAssigns in HB. destruct (ControlFlow.phi_assigns tr f l (TCond e l1 l2)) as [|pa pas].
          -- destruct (goto_step _ _ _ _ (HP [] (Forall2_nil _)) HB) as [HM ->]. split; [eapply L_cond; eauto|exact HM].
          -- cbn [app] in HB. inversion HB; subst. split; [eapply L_cond; eauto|]. apply M_pending, HP. assumption.
        * exfalso. exact (low_no_switch _ Hlow l b _ _ _ Hb Ht).
        * (* invoke *)
          inversion HB; subst. destruct (evals evS r es) as [vs0|] eqn:Ev; [|left; exists b; split; [exact Hb|]; rewrite Ht, Ev; exact Logic.I].
          assert (vs = vs0) as ->.
          { apply (Forall2_has_value_det rb r es); [exact Ev| |assumption]. intros y Hy. apply (term_uses_fin l b r rb Hb HA). rewrite Ht. exact Hy. }
          destruct (enter evS f l (if w then u else n) (updo r x v)) as [[k' r']|] eqn:Ee.
          -- right; right. exists (LRun (if w then u else n) k' r' m'). split; [eapply L_invoke; eauto|].
             apply M_pending. pose proof (invoke_pending l b x p es n u v w k' r r' m' rb exnv Hre Hb HA Ht Ee) as HP. rewrite Ht in HP. exact HP.
          -- left. exists b. split; [exact Hb|]. rewrite Ht, Ev. exists evs, v, w, m'. auto.
        * (* resume *)
          inversion HB; subst. destruct (evS r e) as [v|] eqn:Ev; [|left; exists b; split; [exact Hb|]; rewrite Ht; exact Ev].
          right; right. exists (LDone (Unwound v) m). split; [eapply L_resume; eauto|]. apply M_res1. intros v' Hv'.
          apply (has_value_det rb r e); [exact Ev| |assumption]. intros y Hy. apply (term_uses_fin l b r rb Hb HA). rewrite Ht. exact Hy.
        * left. exists b. split; [exact Hb|]. now rewrite Ht.
      + (* body statement *)
        pose proof (stmt_uses_mid l b pre st k r rb Hb Hbd HA) as HU.
        assert (body b = (pre ++ [st]) ++ k) as Hbd' by now rewrite <- app_assoc.
        destruct st as [x e|x p es]; cbn [map app ControlFlow.trans_stmt] in HB.
        * apply bstep_assign in HB. destruct HB as (y & Hy & -> & ->).
          destruct (evS r e) as [v|] eqn:Ev; [|left; exact Ev]. right; right. eexists. split; [apply L_assign; exact Ev|].
          assert (y = v) as -> by (eapply has_value_det; eauto). eapply M_body; eauto. apply agree_upd with (mid l pre); [exact HA|].
          intros z Hz. destruct (mid_snoc _ _ _ _ Hz) as [[->|[]]|Hz']; auto.
        * inversion HB; subst. destruct (evals evS r es) as [vs0|] eqn:Ev; [|left; exact Ev].
          assert (vs = vs0) as -> by (eapply Forall2_has_value_det; eauto).
          right; right. eexists. split; [eapply L_prim; eauto|].
          eapply M_body; eauto. apply agree_updo with (mid l pre); [exact HA|].
          intros y Hy. destruct (mid_snoc _ _ _ _ Hy) as [Hy'|Hy']; auto. destruct x as [x|]; [destruct Hy' as [->|[]]; auto|destruct Hy'].
    - right; left. eapply goto_step; eauto.
    - inversion HB; subst. right; left. split; [now apply match_start_body|reflexivity].
    - inversion HB; subst. right; left. split; [|reflexivity]. apply M_pending. now apply M_goto1.
    - inversion HB; subst. contradiction.
    - inversion HB; subst. right; left. split; [apply M_ret2|reflexivity].
    - inversion HB; subst. right; left. split; [apply M_done|reflexivity].
    - inversion HB; subst. right; left. split; [|reflexivity].
      match goal with Hv : ControlFlow.has_value _ _ _ _ |- _ => rewrite (H _ Hv) end. apply M_res2.
    - inversion HB; subst. right; left. split; [apply M_done|reflexivity].
    - inversion HB.
  Qed.

  Lemma backward_steps : forall bs0 t bs, bsteps f bs0 t bs -> forall s0, matches s0 bs0 ->
    (exists s, lsteps f s0 t s /\ matches s bs) \/
    (exists t1 t2 s, t = t1 ++ t2 /\ lsteps f s0 t1 s /\ goes_wrong f s).
  Proof.
    intros bs0 t bs H. induction H as [bs|bs1 t1 bs2 t2 bs3 H1 IH H2]; intros s0 HM.
    - left. exists s0. split; [constructor|exact HM].
    - destruct (IH s0 HM) as [(s & HS & HMs)|(u1 & u2 & s & -> & HS & HW)].
      + destruct (backward_step _ _ _ _ HMs H2) as [HW|[[HM' ->]|(s' & Hs' & HM')]].
        * right. exists t1, t2, s. auto.
        * left. exists s. rewrite app_nil_r. auto.
        * left. exists s'. split; [econstructor; eauto|exact HM'].
      + right. exists u1, (u2 ++ t2), s. now rewrite app_assoc.
  Qed.

  Lemma bsteps_trans : forall s1 t1 s2 t2 s3, bsteps f s1 t1 s2 -> bsteps f s2 t2 s3 -> bsteps f s1 (t1 ++ t2) s3.
  Proof.
    intros s1 t1 s2 t2 s3 H1 H2. revert t1 s1 H1. induction H2; intros t0 s0 H0; [now rewrite app_nil_r|].
    rewrite app_assoc. econstructor; eauto.
  Qed.
  Lemma bsteps_one : forall s1 t s2, bstep f s1 t s2 -> bsteps f s1 t s2.
  Proof. intros s1 t s2 H. change t with ([] ++ t). econstructor; [constructor|exact H]. Qed.
  Lemma bsteps_cons : forall s1 t s2 t2 s3, bstep f s1 t s2 -> bsteps f s2 t2 s3 -> bsteps f s1 (t ++ t2) s3.
  Proof. intros. eapply bsteps_trans; [apply bsteps_one|]; eauto. Qed.

  (** the source at a plain point of a block *)
  Inductive aligned : lstate V E M P -> bstate (V:=V) (M:=M) (P:=P) (T:=T) -> Prop :=
  | A_run : forall l b pre k r m rb exn exnv, reachable f l -> block_of f l = Some b -> body b = pre ++ k ->
      agree (mid l pre) r rb ->
      aligned (LRun l k r m) (BRun (map trans_stmt k ++ trans_term f l (bterm b)) rb None exn exnv m)
  | A_done : forall o m, aligned (LDone o m) (BDone o m).

  Lemma aligned_matches : forall s bs, aligned s bs -> matches s bs.
  Proof. intros s bs []; [eapply M_body; eauto|apply M_done]. Qed.

  Lemma pending_forward : forall s bs, pending s bs -> exists bs', bsteps f bs [] bs' /\ aligned s bs'.
  Proof.
    intros s bs HP. destruct HP.
    - rename H into Hre, H0 into Hb, H1 into Hfr, H2 into HA. exists (BRun (body_code l0 b0) rb None exn exnv m). split.
      + apply bsteps_one. apply B_goto with (BB l0); [now left|]. cbn. unfold block_code. now rewrite Hb, Hfr.
      + eapply A_run with (pre := []); eauto. now apply mid_start.
    - rename H into Hre, H0 into Hb, H1 into Ht, H2 into Hs, H3 into Hsel, H4 into Hb0, H5 into HA, H6 into Hc.
      pose proof (goto_two l b c1 l1 c2 l2 Hb Ht Hs) as (Hg & Hc1 & Hc2 & He1 & He2).
      exists (BRun (body_code l0 b0) rb None exn exnv m). split; [|eapply A_run with (pre := []); eauto; now apply mid_start].
      rewrite Hg.
      assert (is_unique_pred f l1 l = false -> front f l1 = []) as Hf1 by (apply (front_none l b l1 Hb); rewrite Hs; now left).
      assert (is_unique_pred f l2 l = false -> front f l2 = []) as Hf2 by (apply (front_none l b l2 Hb); rewrite Hs; right; now left).
      assert (forall bl, In bl [if is_unique_pred f l1 l then BB l1 else Edge l 0; if is_unique_pred f l2 l then BB l2 else Edge l 1] ->
        (bl = BB l0 /\ code_at f (BB l0) = Some (BAssume c0 :: body_code l0 b0) \/
         code_at f bl = Some [BAssume c0; BGoto [BB l0]] /\ front f l0 = []) ->
        bsteps f (BRun [BGoto [if is_unique_pred f l1 l then BB l1 else Edge l 0; if is_unique_pred f l2 l then BB l2 else Edge l 1]] rb None exn exnv m) []
          (BRun (body_code l0 b0) rb None exn exnv m)) as HG.
      { intros bl Hin [[-> Hcode]|[Hcode Hfr]].
        - apply (bsteps_cons _ [] (BRun (BAssume c0 :: body_code l0 b0) rb None exn exnv m) []).
          + now apply B_goto with (BB l0).
          + apply bsteps_one. now apply B_assume.
        - apply (bsteps_cons _ [] (BRun [BAssume c0; BGoto [BB l0]] rb None exn exnv m) []); [now apply B_goto with bl|].
          apply (bsteps_cons _ [] (BRun [BGoto [BB l0]] rb None exn exnv m) []); [now apply B_assume|].
          apply bsteps_one. apply B_goto with (BB l0); [now left|]. cbn. unfold block_code. now rewrite Hb0, Hfr. }
      destruct Hsel as [(-> & -> & Hn)|(-> & -> & Hn)].
      + apply (HG (if is_unique_pred f l1 l then BB l1 else Edge l 0)); [now left|].
        rewrite (Hc1 b0 Hb0). destruct (is_unique_pred f l1 l); [left; now split|right]. split; [exact He1|auto].
      + apply (HG (if is_unique_pred f l2 l then BB l2 else Edge l 1)); [right; now left|].
        rewrite (Hc2 b0 Hb0). destruct (is_unique_pred f l2 l); [left; now split|right]. split; [exact He2|auto].
  Qed.

  Lemma phis_forward : forall l b l' k' r r' m rb exn exnv,
    reachable f l -> block_of f l = Some b -> agree (mid l (body b)) r rb ->
    (bterm b = TBr l' \/ exists e v l1 l2, bterm b = TCond e l1 l2 /\ evS r e = Some v /\ l' = if veq v one then l1 else l2) ->
    enter evS f l l' r = Some (k', r') ->
    exists bs', bsteps f (BRun (trans_term f l (bterm b)) rb None exn exnv m) [] bs' /\ aligned (LRun l' k' r' m) bs'.
  Proof.
    intros l b l' k' r r' m rb exn exnv Hre Hb HA Ht Hen.
    destruct (values_exist rb (map snd (phi_assigns f l (bterm b)))) as (vs & Hvs).
    pose proof (branch_pending l b l' k' r r' m rb vs exn exnv Hre Hb HA Ht Hen Hvs) as HP.
    destruct (pending_forward _ _ HP) as (bs' & HS & HA'). exists bs'. split; [|exact HA'].
    assert (trans_term f l (bterm b) = generatePhiAssigns tr f l (bterm b) ++ [BGoto (goto_targets f l (targets (bterm b)))]) as ->.
    { destruct Ht as [Ht|(e & v & l1 & l2 & Ht & _)]; rewrite Ht; reflexivity. }
    pose proof (phi_assigns_nodup l b Hb) as ND.
    unfold generatePhiAssigns. destruct (phi_assigns f l (bterm b)) as [|pa pas]; [exact HS|].
    apply (bsteps_cons _ [] _ []) with (2 := HS). now apply B_assign.
  Qed.

  Lemma forward_step : forall s bs evs s', aligned s bs -> lstep f s evs s' ->
    exists bs', bsteps f bs evs bs' /\ aligned s' bs'.
  Proof.
    intros s bs evs s' HM HL. destruct HM; [|inversion HL]. rename H into Hre, H0 into Hb, H1 into Hbd, H2 into HA.
    assert (k = [] -> agree (mid l (body b)) r rb) as HA0 by (intros ->; now rewrite Hbd, app_nil_r).
    inversion HL; subst; try match goal with H1 : block_of _ l = Some ?b', Ht' : bterm ?b' = _ |- _ =>
      rewrite Hb in H1; injection H1 as <-; rename Ht' into Ht end.
    - pose proof (stmt_uses_mid l b pre _ k0 r rb Hb Hbd HA) as HU.
      assert (body b = (pre ++ [SAssign x e]) ++ k0) as Hbd' by now rewrite <- app_assoc.
      eexists. split; [apply bsteps_one; cbn [map app ControlFlow.trans_stmt]; apply B_assign with (vs := [v])|].
      + constructor; [tauto|constructor].
      + constructor; [eapply has_value_of; eauto|constructor].
      + cbn [bupds]. eapply A_run; eauto. apply agree_upd with (mid l pre); [exact HA|].
        intros y Hy. destruct (mid_snoc _ _ _ _ Hy) as [[->|[]]|Hy']; auto.
    - pose proof (stmt_uses_mid l b pre _ k0 r rb Hb Hbd HA) as HU.
      assert (body b = (pre ++ [SPrim x p es]) ++ k0) as Hbd' by now rewrite <- app_assoc.
      eexists. split; [apply bsteps_one; cbn [map app ControlFlow.trans_stmt]; eapply B_prim with (vs := vs); eauto|].
      + eapply Forall2_has_value; eauto.
      + eapply A_run; eauto. apply agree_updo with (mid l pre); [exact HA|].
        intros y Hy. destruct (mid_snoc _ _ _ _ Hy) as [Hy'|Hy']; auto. destruct x as [x|]; [destruct Hy' as [->|[]]; auto|destruct Hy'].
    - rewrite Ht. cbn. eexists. split; [|apply A_done].
      eapply (bsteps_cons _ [] _ []); [apply B_exn|]. apply bsteps_one. constructor.
    - rewrite Ht. cbn. eexists. split; [|apply A_done].
      eapply (bsteps_cons _ [] _ []); [apply B_ret with (v := v)|].
      { eapply has_value_of; eauto. intros y Hy. apply (term_uses_fin l b r rb Hb (HA0 eq_refl)). rewrite Ht. exact Hy. }
      eapply (bsteps_cons _ [] _ []); [apply B_exn|]. apply bsteps_one. constructor.
    - rewrite Ht. cbn. eexists. split; [|apply A_done].
      eapply (bsteps_cons _ [] _ []); [apply B_exn|].
      eapply (bsteps_cons _ [] _ []); [apply B_exnv with (v := v)|].
      { eapply has_value_of; eauto. intros y Hy. apply (term_uses_fin l b r rb Hb (HA0 eq_refl)). rewrite Ht. exact Hy. }
      apply bsteps_one. constructor.
    - cbn [map app]. eapply phis_forward; eauto.
    - cbn [map app]. eapply phis_forward; eauto. right. exists e, v, l1, l2. auto.
    - exfalso. exact (low_no_switch _ Hlow l b _ _ _ Hb Ht).
    - cbn [map app].
      match goal with He : enter _ _ _ _ _ = Some _ |- _ =>
        pose proof (invoke_pending l b x p es n u v unwinds k' r r' m' rb exnv Hre Hb (HA0 eq_refl) Ht He) as HP end.
      destruct (pending_forward _ _ HP) as (bs' & HS & HA'). exists bs'. split; [|exact HA'].
      rewrite <- (app_nil_r evs). eapply bsteps_cons; [|exact HS]. rewrite Ht. cbn [ControlFlow.trans_term].
      eapply B_call; eauto. eapply Forall2_has_value; eauto.
      intros y Hy. apply (term_uses_fin l b r rb Hb (HA0 eq_refl)). rewrite Ht. exact Hy.
  Qed.

  Lemma forward_steps : forall s0 t s, lsteps f s0 t s -> forall bs0, aligned s0 bs0 ->
    exists bs, bsteps f bs0 t bs /\ aligned s bs.
  Proof.
    intros s0 t s H. induction H as [s|s1 t1 s2 t2 s3 H1 IH H2]; intros bs0 HM.
    - exists bs0. split; [constructor|exact HM].
    - destruct (IH bs0 HM) as (bs & HB & HM'). destruct (forward_step _ _ _ _ HM' H2) as (bs' & HB' & HM'').
      exists bs'. split; [eapply bsteps_trans; eauto|exact HM''].
  Qed.

  (** ** starting states *)
  Lemma start_agree : forall args r0, List.length args = List.length (params f) ->
    agree (available_at_start f (entry f)) (upds (fun _ => None) (combine (params f) args)) (bupds r0 (params f) args).
  Proof.
    intros args r0 Hlen x Hx.
    assert (In x (params f)) as Hp.
    { destruct Hx as [Hp|[(d & Ne & Hd & _)|(b & Hb & Hx)]]; [exact Hp| |].
      - specialize (Hd [entry f] (P_entry f)). destruct Hd as [E1|[]]. congruence.
      - destruct (ssa_entry _ _ Hssa) as (b' & Hb' & Hph). rewrite Hb in Hb'. injection Hb' as <-. rewrite Hph in Hx. destruct Hx. }
    pose proof (ssa_params_nodup _ _ Hssa) as ND.
    assert (exists v, In (x, v) (combine (params f) args)) as (v & Hv).
    { clear - Hp Hlen. revert args Hlen. induction (params f) as [|y ys IH]; intros [|a args] Hlen; try destruct Hp; try discriminate.
      - exists a. left. congruence.
      - cbn in Hlen. destruct (IH H args ltac:(lia)) as (v & Hv). exists v. now right. }
    rewrite (upds_in (combine (params f) args) _ x v); [|rewrite map_fst_combine by lia; exact ND|exact Hv].
    f_equal. symmetry. now apply bupds_in.
  Qed.
  Lemma start_aligned : forall args r0 exn m, List.length args = List.length (params f) ->
    exists s0 bs0, lstart f args m = Some s0 /\ bstart tr f args r0 exn m = Some bs0 /\ aligned s0 bs0.
  Proof.
    intros args r0 exn m Hlen. destruct (ssa_entry _ _ Hssa) as (b & Hb & Hph).
    unfold lstart, bstart. cbn [ControlFlow.code_at]. unfold block_code. rewrite Hb, front_entry.
    do 2 eexists. split; [reflexivity|]. split; [reflexivity|]. cbn [app]. eapply A_run with (pre := []); eauto.
    { exists [entry f]. constructor. }
    apply mid_start. now apply start_agree.
  Qed.

  Theorem cfg_forward : forall args r0 exn m t o, List.length args = List.length (params f) ->
    behaves evS prim inv one veq f args m t o -> bbehaves tr evT prim inv one veq f args r0 exn m t o.
  Proof.
    intros args r0 exn m t o Hlen (s0 & s & H1 & H2 & H3).
    destruct (start_aligned args r0 exn m Hlen) as (s0' & bs0 & H4 & H5 & HA). rewrite H1 in H4. injection H4 as <-.
    destruct (forward_steps _ _ _ H2 _ HA) as (bs & HB & HA'). exists bs0, bs. split; [exact H5|]. split; [exact HB|].
    rewrite <- H3. destruct HA'; reflexivity.
  Qed.

  Lemma before_done : forall s0 t s, lsteps f s0 t s -> (exists l k r m, s0 = LRun l k r m) ->
    exists s', lsteps f s0 t s' /\ result s' = None.
  Proof.
    intros s0 t s H. induction H as [s|s1 t1 s2 t2 s3 H1 IH H2]; intros (l & k & r & m & Hs).
    - exists s. split; [constructor|]. now subst.
    - destruct s3 as [l3 k3 r3 m3|o3 m3].
      + eexists. split; [econstructor; [exact H1|exact H2]|reflexivity].
      + assert (t2 = []) as -> by (inversion H2; reflexivity). rewrite app_nil_r. apply IH. subst. now exists l, k, r, m.
  Qed.

  Theorem cfg_backward : forall args r0 exn m t o, List.length args = List.length (params f) ->
    bbehaves tr evT prim inv one veq f args r0 exn m t o ->
    behaves evS prim inv one veq f args m t o \/
    exists t1 t2, t = t1 ++ t2 /\ undefined_after evS prim inv one veq f args m t1.
  Proof.
    intros args r0 exn m t o Hlen (bs0 & bs & H1 & H2 & H3).
    destruct (start_aligned args r0 exn m Hlen) as (s0 & bs0' & H4 & H5 & HA). rewrite H1 in H5. injection H5 as <-.
    destruct (backward_steps _ _ _ H2 _ (aligned_matches _ _ HA)) as [(s & HS & HM)|(t1 & t2 & s & -> & HS & HW)].
    - left. exists s0. destruct bs as [kb rb ret exn' exnv' mb|ob mb].
      + cbn in H3. subst o.
        assert (exists l k r m, s0 = LRun l k r m) as Hrun.
        { unfold lstart in H4. destruct (block_of f (entry f)); [|discriminate]. injection H4 as <-. eauto. }
        destruct (before_done _ _ _ HS Hrun) as (s' & HS' & HR). exists s'. auto.
      + exists s. split; [exact H4|]. split; [exact HS|]. rewrite <- H3. inversion HM; subst; [|reflexivity]. inversion H.
    - right. exists t1, t2. split; [reflexivity|]. exists s0, s. auto.
  Qed.
End Sim.
