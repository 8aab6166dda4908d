(** Splitting a set of edges all at once, and the proof that this is what the
    loop-normalising pass does. *)
From Coq Require Import List String Bool Arith Lia FinFun.
From Verif.Spec Require Import CFG.
From Verif.Model Require Import NormalizeLoops.
From Verif.Proofs Require Import CFGBase.
Import ListNotations.

Section Split.
  Context {V E P : Type}.
  Notation func := (func V E P).
  Notation block := (block V E P).
  Notation term := (term V E P).

  Definition mem (D : list (label * label)) (p h : label) : bool :=
    existsb (fun e => label_eqb p (fst e) && label_eqb h (snd e)) D.
  Lemma mem_in : forall D p h, mem D p h = true <-> In (p, h) D.
  Proof.
    intros D p h. unfold mem. rewrite existsb_exists. split.
    - intros ([q g] & H & E1). cbn in E1. apply andb_true_iff in E1. destruct E1 as [E1 E2].
      destruct (label_eqb_spec p q), (label_eqb_spec h g); try discriminate. now subst.
    - intros H. exists (p, h). split; [exact H|]. cbn. now rewrite !label_eqb_refl.
  Qed.
  Lemma mem_app : forall D D' p h, mem (D ++ D') p h = mem D p h || mem D' p h.
  Proof. intros. unfold mem. apply existsb_app. Qed.

  Definition ret (D : list (label * label)) (p h : label) : label := if mem D p h then Fwd p h else h.
  Definition ren (D : list (label * label)) (h p : label) : label := if mem D p h then Fwd p h else p.
  Definition split_block (D1 D2 : list (label * label)) (l : label) (b : block) : block :=
    Block (map (fun ph => (fst ph, map (fun pe => (ren D2 l (fst pe), snd pe)) (snd ph))) (phis b))
          (body b) (map_succs (ret D1 l) (bterm b)).
  Definition fwd_block (e : label * label) : label * block := (Fwd (fst e) (snd e), Block [] [] (TBr (snd e))).
  Definition split (f : func) (D1 D2 : list (label * label)) : func :=
    Func (params f) (entry f) (map (fun lb => (fst lb, split_block D1 D2 (fst lb) (snd lb))) (blocks f) ++ map fwd_block D1).

  Lemma succs_map : forall g (t : term), succs (map_succs g t) = map g (succs t).
  Proof. intros g []; cbn; try reflexivity. now rewrite !map_map. Qed.
  Lemma map_succs_ext : forall g g' (t : term), (forall s, In s (succs t) -> g s = g' s) -> map_succs g t = map_succs g' t.
  Proof.
    intros g g' [] H; cbn in *; try reflexivity.
    - now rewrite H by now left.
    - rewrite (H l1), (H l2) by auto. reflexivity.
    - rewrite (H default) by now left. f_equal. apply map_ext_in. intros [v l] HI. cbn. rewrite H; [reflexivity|].
      right. apply in_map_iff. exists (v, l). auto.
    - rewrite (H normal), (H unwind) by auto. reflexivity.
  Qed.
  Lemma map_succs_comp : forall g g' (t : term), map_succs g (map_succs g' t) = map_succs (fun s => g (g' s)) t.
  Proof. intros g g' []; cbn; try reflexivity. now rewrite map_map. Qed.

  Lemma lookup_map : forall A B (g : label -> A -> B) l (bs : list (label * A)),
    lookup l (map (fun lb => (fst lb, g (fst lb) (snd lb))) bs) = option_map (g l) (lookup l bs).
  Proof.
    intros A B g l bs. induction bs as [|[l' a] bs IH]; [reflexivity|]. cbn.
    destruct (label_eqb_spec l l') as [->|]; [reflexivity|exact IH].
  Qed.
  Lemma lookup_app : forall A l (bs bs' : list (label * A)),
    lookup l (bs ++ bs') = match lookup l bs with Some b => Some b | None => lookup l bs' end.
  Proof.
    intros A l bs bs'. induction bs as [|[l' a] bs IH]; [reflexivity|]. cbn. destruct (label_eqb l l'); [reflexivity|exact IH].
  Qed.
  Lemma lookup_fwd_blk : forall l D, is_blk l -> lookup l (map fwd_block D) = None.
  Proof. intros l D H. induction D as [|[p h] D IH]; [reflexivity|]. cbn. destruct l; [exact IH|destruct H]. Qed.
  Lemma lookup_fwd : forall p h D, lookup (Fwd p h) (map fwd_block D) = if mem D p h then Some (Block [] [] (TBr h) : block) else None.
  Proof.
    intros p h D. induction D as [|[q g] D IH]; [reflexivity|]. cbn [map fwd_block fst snd lookup]. unfold mem. cbn [existsb fst snd].
    fold (mem D p h). cbn [label_eqb]. destruct (label_eqb_spec p q) as [->|]; cbn [andb orb]; [|exact IH].
    destruct (label_eqb_spec h g) as [->|]; [reflexivity|exact IH].
  Qed.

  Lemma split_blk : forall f D1 D2 l, is_blk l ->
    block_of (split f D1 D2) l = option_map (split_block D1 D2 l) (block_of f l).
  Proof.
    intros f D1 D2 l Hl. unfold block_of, split. cbn [blocks]. rewrite lookup_app, lookup_map.
    destruct (lookup l (blocks f)); [reflexivity|]. now rewrite lookup_fwd_blk.
  Qed.
  Lemma split_fwd : forall f D1 D2 p h, original f ->
    block_of (split f D1 D2) (Fwd p h) = if mem D1 p h then Some (Block [] [] (TBr h)) else None.
  Proof.
    intros f D1 D2 p h Ho. unfold block_of, split. cbn [blocks]. rewrite lookup_app, lookup_map.
    destruct (lookup (Fwd p h) (blocks f)) as [b|] eqn:Eb.
    - apply lookup_in in Eb. apply Ho in Eb. destruct Eb as [[] _].
    - cbn. apply lookup_fwd.
  Qed.

  Lemma split_nil : forall f, split f [] [] = f.
  Proof.
    intros [ps en bs]. unfold split. cbn [params entry blocks map]. rewrite app_nil_r. f_equal.
    rewrite <- (map_id bs) at 2. apply map_ext. intros [l [phs bd t]]. cbn. unfold split_block. cbn [phis body bterm].
    do 2 f_equal.
    - rewrite <- (map_id phs) at 2. apply map_ext. intros [x inc]. cbn. f_equal.
      rewrite <- (map_id inc) at 2. apply map_ext. intros [p e]. reflexivity.
    - rewrite (map_succs_ext _ (fun s => s)) by reflexivity. destruct t; cbn; try reflexivity. f_equal.
      rewrite <- (map_id cases) at 2. apply map_ext. now intros [].
  Qed.

  (** ** One step of splitting *)
  Lemma splitBlock_step : forall f D1 D2 p h bm b, original f -> block_of f p = Some b -> is_blk h -> ~ In (p, h) D1 ->
    splitBlock h (split f D1 D2, bm) p =
      if (2 <=? List.length (succs (bterm b))) && existsb (label_eqb h) (succs (bterm b))
      then (split f (D1 ++ [(p, h)]) D2, bm ++ [p]) else (split f D1 D2, bm).
  Proof.
    intros f D1 D2 p h bm b Ho Hb Hh Hn.
    assert (is_blk p) as Hp by (apply lookup_in in Hb; now apply Ho in Hb).
    assert (forall s, In s (succs (bterm b)) -> is_blk s) as Hs by (apply lookup_in in Hb; apply Ho in Hb; tauto).
    assert (mem D1 p h = false) as Hm by (destruct (mem D1 p h) eqn:Em; [apply mem_in in Em; contradiction|reflexivity]).
    unfold splitBlock. rewrite split_blk by exact Hp. rewrite Hb. cbn [option_map]. unfold has_successor_indices, split_block at 1 2.
    cbn [bterm]. rewrite succs_map, map_length.
    assert (existsb (label_eqb h) (map (ret D1 p) (succs (bterm b))) = existsb (label_eqb h) (succs (bterm b))) as ->.
    { clear - Hs Hh Hm. induction (succs (bterm b)) as [|s ss IH]; [reflexivity|]. cbn. rewrite IH by (intros; apply Hs; now right).
      f_equal. unfold ret. destruct (mem D1 p s) eqn:Em; [|reflexivity].
      destruct (label_eqb_spec h (Fwd p s)) as [->|]; [destruct Hh|].
      destruct (label_eqb_spec h s); [|reflexivity]. subst. congruence. }
    destruct (Nat.leb_spec (List.length (succs (bterm b))) 1) as [Hle|Hle], (Nat.leb_spec 2 (List.length (succs (bterm b)))) as [Hle2|Hle2];
      try lia; [reflexivity|]. cbn [andb].
    destruct (existsb (label_eqb h) (succs (bterm b))) eqn:Ex; [|reflexivity]. f_equal.
    unfold update_block, makeForwardingBlock, split. cbn [params entry blocks]. f_equal.
    rewrite !map_app, map_map. rewrite <- app_assoc. f_equal; [|f_equal].
    - apply map_ext_in. intros [l b0] HI. cbn [fst snd]. destruct (label_eqb_spec p l) as [<-|Ne].
      + f_equal. unfold split_block. cbn [phis body bterm]. f_equal. rewrite map_succs_comp. apply map_succs_ext. intros s Hs0.
        unfold ret. rewrite mem_app. cbn [mem existsb fst snd]. rewrite label_eqb_refl. cbn [andb]. rewrite orb_false_r.
        destruct (mem D1 p s) eqn:Em.
        * destruct h; [reflexivity|destruct Hh].
        * cbn [orb]. destruct (label_eqb_spec s h); [now subst|reflexivity].
      + f_equal. unfold split_block. f_equal. apply map_succs_ext. intros s Hs0. unfold ret. rewrite mem_app.
        cbn [mem existsb fst snd]. destruct (label_eqb_spec l p); [congruence|]. cbn [andb orb]. now rewrite orb_false_r.
    - rewrite map_map. apply map_ext. intros [q g]. unfold fwd_block. cbn [fst snd]. destruct p; [reflexivity|destruct Hp].
    - cbn. unfold fwd_block. cbn [fst snd]. destruct p; [reflexivity|destruct Hp].
  Qed.

  Lemma in_existsb : forall p l, existsb (label_eqb p) l = true <-> In p l.
  Proof.
    intros p l. rewrite existsb_exists. split.
    - intros (x & H & E1). destruct (label_eqb_spec p x); [now subst|discriminate].
    - intros H. exists p. split; [exact H|apply label_eqb_refl].
  Qed.

  (** splitting all given blocks for one header *)
  Definition splits (f : func) (h p : label) : bool :=
    match block_of f p with
    | Some b => (2 <=? List.length (succs (bterm b))) && existsb (label_eqb h) (succs (bterm b))
    | None => false
    end.
  Lemma split_fold : forall f D2 h ps D1 bm, original f -> is_blk h -> NoDup ps -> (forall p, In p ps -> is_blk p) ->
    (forall p, In p ps -> ~ In (p, h) D1) ->
    fold_left (splitBlock h) ps (split f D1 D2, bm) =
      (split f (D1 ++ map (fun p => (p, h)) (filter (splits f h) ps)) D2, bm ++ filter (splits f h) ps).
  Proof.
    intros f D2 h ps. induction ps as [|p ps IH]; intros D1 bm Ho Hh ND Hps HD; [cbn; now rewrite !app_nil_r|].
    inversion ND as [|? ? N1 N2]; subst. cbn [fold_left filter].
    destruct (splits f h p) eqn:Esp; unfold splits in Esp; destruct (block_of f p) as [b|] eqn:Eb; try discriminate;
      try rewrite (splitBlock_step f D1 D2 p h bm b) by (auto; apply HD; now left); try rewrite Esp.
    - rewrite IH; auto.
      + cbn [map]. now rewrite <- !app_assoc.
      + intros q Hq. apply Hps. now right.
      + intros q Hq HI. apply in_app_iff in HI. destruct HI as [HI|[HI|[]]]; [apply (HD q); [now right|exact HI]|].
        injection HI as <-. contradiction.
    - apply IH; auto; intros q Hq; [apply Hps|apply HD]; now right.
    - unfold splitBlock at 2. rewrite split_blk by (apply Hps; now left). rewrite Eb. cbn [option_map].
      apply IH; auto; intros q Hq; [apply Hps|apply HD]; now right.
  Qed.

  Lemma mem_map_pair : forall bm p h l, mem (map (fun p => (p, h)) bm) p l = existsb (label_eqb p) bm && label_eqb l h.
  Proof.
    intros bm p h l. induction bm as [|q bm IH]; [reflexivity|]. cbn. fold (mem (map (fun p => (p, h)) bm) p l). rewrite IH.
    destruct (label_eqb p q), (label_eqb l h), (existsb (label_eqb p) bm); reflexivity.
  Qed.
  Lemma processPhis_split : forall f D1 D2 h bm, is_blk h -> (forall p, In p bm -> is_blk p) ->
    update_block (split f D1 D2) h (processPhis h bm) = split f D1 (D2 ++ map (fun p => (p, h)) bm).
  Proof.
    intros f D1 D2 h bm Hh Hbm. unfold update_block, split. cbn [params entry blocks]. f_equal. rewrite map_app, !map_map. f_equal.
    - apply map_ext_in. intros [l b] HI. cbn [fst snd]. destruct (label_eqb_spec h l) as [<-|Ne].
      + f_equal. unfold processPhis, split_block. cbn [phis body bterm]. f_equal. rewrite map_map. apply map_ext.
        intros [x inc]. cbn [fst snd]. f_equal. rewrite map_map. apply map_ext. intros [p e]. cbn [fst snd]. f_equal.
        unfold ren. rewrite mem_app, mem_map_pair, label_eqb_refl, andb_true_r. destruct (mem D2 p h) eqn:Em; cbn [orb]; [|reflexivity].
        destruct (existsb (label_eqb (Fwd p h)) bm) eqn:Ex; [|reflexivity]. apply in_existsb, Hbm in Ex. destruct Ex.
      + f_equal. unfold split_block. f_equal. apply map_ext. intros [x inc]. cbn [fst snd]. f_equal. apply map_ext.
        intros [p e]. cbn [fst snd]. f_equal. unfold ren. rewrite mem_app, mem_map_pair.
        destruct (label_eqb_spec l h); [congruence|]. now rewrite andb_false_r, orb_false_r.
    - apply map_ext. intros [p g]. unfold fwd_block. cbn [fst snd]. destruct h; [reflexivity|destruct Hh].
  Qed.

  Lemma to_set_in : forall l x, In x (to_set l) <-> In x l.
  Proof.
    induction l as [|a l IH]; intros x; [reflexivity|]. cbn [to_set]. destruct (existsb (label_eqb a) l) eqn:Ex.
    - rewrite IH. split; [now right|]. intros [<-|H]; [now apply in_existsb in Ex|exact H].
    - cbn. now rewrite IH.
  Qed.
  Lemma to_set_nodup : forall l, NoDup (to_set l).
  Proof.
    induction l as [|a l IH]; [constructor|]. cbn [to_set]. destruct (existsb (label_eqb a) l) eqn:Ex; [exact IH|].
    constructor; [|exact IH]. rewrite to_set_in. intros H. apply in_existsb in H. congruence.
  Qed.

  (** the edges split for one loop *)
  Definition wanted (f : func) (hb : label * list label) (p h : label) : Prop :=
    h = fst hb /\ In p (snd hb) /\ splits f h p = true /\
    exists b x inc e, block_of f h = Some b /\ In (x, inc) (phis b) /\ In (p, e) inc.

  Lemma phiInc_split : forall f D h b p, block_of f h = Some b -> is_blk h -> is_blk p ->
    (In p (phiIncBlocks (split f D D) h) <->
     ~ In (p, h) D /\ exists x inc e, In (x, inc) (phis b) /\ In (p, e) inc).
  Proof.
    intros f D h b p Hb Hh Hp. unfold phiIncBlocks. rewrite split_blk by exact Hh. rewrite Hb. cbn [option_map].
    rewrite to_set_in, in_flat_map. unfold split_block. cbn [phis]. split.
    - intros ([x inc'] & H1 & H2). apply in_map_iff in H1. destruct H1 as ([x0 inc] & E1 & H1). cbn [fst snd] in *.
      injection E1 as <- <-. rewrite map_map in H2. cbn in H2. apply in_map_iff in H2. destruct H2 as ([q e] & E2 & H2). cbn [fst] in E2.
      unfold ren in E2. destruct (mem D q h) eqn:Em; [subst p; destruct Hp|]. subst q. split.
      + intros HI. apply mem_in in HI. congruence.
      + eauto.
    - intros (Hn & x & inc & e & H1 & H2). exists (x, map (fun pe => (ren D h (fst pe), snd pe)) inc). split.
      + apply in_map_iff. exists (x, inc). auto.
      + cbn [snd]. rewrite map_map. cbn. apply in_map_iff. exists (p, e). split; [|exact H2]. cbn. unfold ren.
        destruct (mem D p h) eqn:Em; [apply mem_in in Em; contradiction|reflexivity].
  Qed.

  Lemma processLoop1_split : forall f hb D, original f -> NoDup D ->
    (forall p, In p (snd hb) -> is_blk p) -> (exists b, block_of f (fst hb) = Some b) ->
    exists D', processLoop1 (split f D D) hb = split f D' D' /\ NoDup D' /\
      forall p h, In (p, h) D' <-> In (p, h) D \/ wanted f hb p h.
  Proof.
    intros f [h bs] D Ho HD Hbs (b & Eb). unfold processLoop1. cbn [fst snd] in *.
    assert (is_blk h) as Hh by (apply lookup_in in Eb; now apply Ho in Eb).
      set (cand := filter (fun p => existsb (label_eqb p) bs) (phiIncBlocks (split f D D) h)).
      assert (NoDup cand) as ND by (apply NoDup_filter; unfold phiIncBlocks; destruct (block_of (split f D D) h); [apply to_set_nodup|constructor]).
      assert (forall p, In p cand <-> In p bs /\ ~ In (p, h) D /\ exists x inc e, In (x, inc) (phis b) /\ In (p, e) inc) as HC.
      { intros p. unfold cand. rewrite filter_In, in_existsb. split.
        - intros [H1 H2]. apply (phiInc_split f D h b p Eb Hh (Hbs p H2)) in H1. tauto.
        - intros [H1 H2]. split; [|exact H1]. now apply (phiInc_split f D h b p Eb Hh (Hbs p H1)). }
      rewrite split_fold; auto.
      2: { intros p Hp. apply HC in Hp. apply Hbs. tauto. }
      2: { intros p Hp. apply HC in Hp. tauto. }
      cbn [app]. rewrite processPhis_split; [|exact Hh|].
      2: { intros p Hp. apply filter_In in Hp. destruct Hp as [Hp _]. apply HC in Hp. apply Hbs. tauto. }
      eexists. split; [reflexivity|]. split.
      + apply NoDup_app_intro; [exact HD| |].
        * apply Injective_map_NoDup; [intros x y E1; congruence|]. now apply NoDup_filter.
        * intros [p g] H1 H2. apply in_map_iff in H2. destruct H2 as (q & E1 & H2). injection E1 as <- <-.
          apply filter_In in H2. destruct H2 as [H2 _]. apply HC in H2. tauto.
      + intros p g. rewrite in_app_iff, in_map_iff. unfold wanted. cbn [fst snd]. split.
        * intros [H|(q & E1 & H)]; [now left|right]. injection E1 as <- <-. apply filter_In in H. destruct H as [H1 H2].
          apply HC in H1. destruct H1 as (H1 & _ & x & inc & e & H3 & H4). split; [reflexivity|]. split; [exact H1|]. split; [exact H2|].
          exists b, x, inc, e. auto.
        * intros [H|(-> & H1 & H2 & b' & x & inc & e & H3 & H4 & H5)]; [now left|].
          destruct (mem D p h) eqn:Em; [left; now apply mem_in|right]. assert (~ In (p, h) D) as HI by (intros HI; apply mem_in in HI; congruence).
          exists p. split; [reflexivity|]. apply filter_In. split; [|exact H2]. apply HC. split; [exact H1|]. split; [exact HI|].
          rewrite Eb in H3. injection H3 as <-. eauto.
  Qed.

  Lemma processLoop_flat : forall ls (f : func), fold_left processLoop ls f = fold_left processLoop1 (flat_map all_loops ls) f.
  Proof.
    assert (forall l (f : func), processLoop f l = fold_left processLoop1 (all_loops l) f) as H.
    { fix IH 1. intros [h bs subs] f. cbn [processLoop all_loops fold_left]. generalize (processLoop1 f (h, bs)). clear f h bs.
      induction subs as [|s subs IHs]; intros f; [reflexivity|]. cbn [fold_left flat_map]. rewrite fold_left_app, <- IH. apply IHs. }
    induction ls as [|l ls IHls]; intros f; [reflexivity|]. cbn [fold_left flat_map]. rewrite fold_left_app, <- H. apply IHls.
  Qed.

  (** What the pass does. *)
  Theorem run_split : forall (f : func) ls, original f -> loop_forest f ls ->
    exists D, runOnFunction f ls = split f D D /\ NoDup D /\
      forall p h, In (p, h) D <-> exists bs, In (h, bs) (flat_map all_loops ls) /\ wanted f (h, bs) p h.
  Proof.
    intros f ls Ho HL. unfold runOnFunction. rewrite processLoop_flat.
    assert (forall hbs D, (forall hb, In hb hbs -> In hb (flat_map all_loops ls)) -> NoDup D ->
      exists D', fold_left processLoop1 hbs (split f D D) = split f D' D' /\ NoDup D' /\
        forall p h, In (p, h) D' <-> In (p, h) D \/ exists bs, In (h, bs) hbs /\ wanted f (h, bs) p h) as G.
    { induction hbs as [|[h0 bs0] hbs IH]; intros D Hin HD.
      - exists D. split; [reflexivity|]. split; [exact HD|]. intros p h. split; [now left|]. intros [H|(bs & [] & _)]. exact H.
      - cbn [fold_left]. destruct (processLoop1_split f (h0, bs0) D Ho HD) as (D1 & -> & HD1 & H1).
        + intros p Hp. cbn in Hp. destruct (loops_blocks _ _ HL h0 bs0 p) as (b & Hb); [apply Hin; now left|exact Hp|].
          apply lookup_in in Hb. now apply Ho in Hb.
        + cbn. apply (loops_blocks _ _ HL h0 bs0); [apply Hin; now left|]. apply (loops_header _ _ HL). apply Hin. now left.
        + destruct (IH D1) as (D' & -> & HD' & H2); [intros; apply Hin; now right|exact HD1|].
          exists D'. split; [reflexivity|]. split; [exact HD'|]. intros p h. rewrite H2, H1. split.
          * intros [[H|H]|(bs & H3 & H4)]; [now left| |right; exists bs; split; [now right|exact H4]].
            right. exists bs0. destruct H as [H5 H6]. cbn in H5. subst h0. split; [now left|]. now split.
          * intros [H|(bs & [E1|H3] & H4)]; [auto| |right; eauto]. injection E1 as -> ->. auto. }
    destruct (G (flat_map all_loops ls) []) as (D & HE & HD & HI); [auto|constructor|].
    rewrite split_nil in HE. exists D. split; [exact HE|]. split; [exact HD|]. intros p h. rewrite HI. split; [|auto].
    intros [[]|H]. exact H.
  Qed.
End Split.
