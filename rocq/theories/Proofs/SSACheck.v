(** A sound checker for SSA form and loop forests of concrete functions, used
    for the examples beside the theorems. *)
From Coq Require Import List String Bool Arith Lia.
From Verif.Spec Require Import CFG.
From Verif.Proofs Require Import CFGBase.
Import ListNotations.

Section Check.
  Context {V E P : Type} (uses : E -> list string).
  Notation func := (func V E P).
  Notation block := (block V E P).

  Definition lmem (l : label) (ls : list label) : bool := existsb (label_eqb l) ls.
  Definition smem (x : string) (xs : list string) : bool := existsb (String.eqb x) xs.
  Fixpoint lnodup (l : list label) : bool := match l with [] => true | a :: l' => negb (lmem a l') && lnodup l' end.
  Fixpoint snodup (l : list string) : bool := match l with [] => true | a :: l' => negb (smem a l') && snodup l' end.
  Lemma lmem_in : forall l ls, lmem l ls = true <-> In l ls.
  Proof.
    intros l ls. unfold lmem. rewrite existsb_exists. split.
    - intros (x & H & E1). destruct (label_eqb_spec l x); congruence.
    - intros H. exists l. split; [assumption|apply label_eqb_refl].
  Qed.
  Lemma smem_in : forall l ls, smem l ls = true <-> In l ls.
  Proof.
    intros l ls. unfold smem. rewrite existsb_exists. split.
    - intros (x & H & E1). apply String.eqb_eq in E1. congruence.
    - intros H. exists l. split; [assumption|apply String.eqb_refl].
  Qed.
  Lemma lnodup_ok : forall l, lnodup l = true -> NoDup l.
  Proof.
    induction l as [|a l IH]; cbn; [constructor|]. intros H. apply andb_true_iff in H. destruct H as [H1 H2].
    constructor; [|auto]. intro Hin. apply lmem_in in Hin. rewrite Hin in H1. discriminate.
  Qed.
  Lemma snodup_ok : forall l, snodup l = true -> NoDup l.
  Proof.
    induction l as [|a l IH]; cbn; [constructor|]. intros H. apply andb_true_iff in H. destruct H as [H1 H2].
    constructor; [|auto]. intro Hin. apply smem_in in Hin. rewrite Hin in H1. discriminate.
  Qed.

  (** [doms l]: claimed dominators of [l]. *)
  Context (doms : label -> list label) (f : func).
  Definition doms_check : bool :=
    forallb (fun d => label_eqb d (entry f)) (doms (entry f)) &&
    forallb (fun pb => forallb (fun l => forallb (fun d => label_eqb d l || lmem d (doms (fst pb))) (doms l))
                               (succs (bterm (snd pb)))) (blocks f).
  Lemma edge_in : forall p l, edge f p l -> exists b, In (p, b) (blocks f) /\ In l (succs (bterm b)).
  Proof. intros p l (b & H1 & H2). exists b. split; [now apply lookup_in|assumption]. Qed.
  Lemma doms_ok : doms_check = true -> forall l d, In d (doms l) -> dominates f d l.
  Proof.
    intros H l d Hd t Ht. apply andb_true_iff in H. destruct H as [H1 H2]. rewrite forallb_forall in H1, H2. revert d Hd.
    induction Ht as [|p l t Hp IH He]; intros d Hd.
    - specialize (H1 d Hd). destruct (label_eqb_spec d (entry f)); [subst; now left|discriminate].
    - destruct (edge_in _ _ He) as (b & Hb & Hs). specialize (H2 _ Hb). rewrite forallb_forall in H2. specialize (H2 _ Hs).
      rewrite forallb_forall in H2. specialize (H2 d Hd). apply orb_true_iff in H2. destruct H2 as [H2|H2].
      + destruct (label_eqb_spec d l); [subst; now left|discriminate].
      + right. apply IH. now apply lmem_in.
  Qed.

  Definition defs_of (l : label) : list string :=
    match block_of f l with Some b => block_defs b | None => [] end.
  Definition avail_start (l : label) (b : block) (x : string) : bool :=
    smem x (params f) || existsb (fun d => negb (label_eqb d l) && smem x (defs_of d)) (doms l) ||
    smem x (map fst (phis b)).
  Definition avail_end (l : label) (x : string) : bool :=
    smem x (params f) || existsb (fun d => smem x (defs_of d)) (doms l).
  Fixpoint body_check (l : label) (b : block) (pre : list string) (ss : list (stmt E P)) : bool :=
    match ss with
    | [] => forallb (fun x => avail_start l b x || smem x pre) (term_uses uses (bterm b))
    | s :: ss' => forallb (fun x => avail_start l b x || smem x pre) (stmt_uses uses s) &&
                  body_check l b (pre ++ stmt_def s) ss'
    end.
  Definition phi_check (p l : label) : bool :=
    match block_of f l with
    | Some b => forallb (fun ph => match lookup p (snd ph) with
                                   | Some e => forallb (avail_end p) (uses e)
                                   | None => false end) (phis b)
    | None => false
    end.
  Definition ssa_check : bool :=
    doms_check &&
    match block_of f (entry f) with Some b => match phis b with [] => true | _ => false end | None => false end &&
    forallb (fun pb => negb (lmem (entry f) (succs (bterm (snd pb))))) (blocks f) &&
    lnodup (map fst (blocks f)) &&
    snodup (params f ++ flat_map (fun lb => block_defs (snd lb)) (blocks f)) &&
    forallb (fun lb => body_check (fst lb) (snd lb) [] (body (snd lb)) &&
                       forallb (phi_check (fst lb)) (succs (bterm (snd lb)))) (blocks f).

  Lemma defs_ok : forall d x, In x (defs_of d) -> defined_in f d x.
  Proof. intros d x H. unfold defs_of in H. destruct (block_of f d) as [b|] eqn:E1; [|destruct H]. exists b. auto. Qed.
  Lemma avail_start_ok : doms_check = true -> forall l b x, block_of f l = Some b -> avail_start l b x = true ->
    available_at_start f l x.
  Proof.
    intros HD l b x Hb H. unfold avail_start in H. apply orb_true_iff in H. destruct H as [H|H]; [apply orb_true_iff in H; destruct H as [H|H]|].
    - left. now apply smem_in.
    - right; left. apply existsb_exists in H. destruct H as (d & H1 & H2). apply andb_true_iff in H2. destruct H2 as [H2 H3].
      exists d. split; [destruct (label_eqb_spec d l); [discriminate|assumption]|]. split; [now apply doms_ok|].
      apply defs_ok. now apply smem_in.
    - right; right. exists b. split; [assumption|now apply smem_in].
  Qed.
  Lemma avail_end_ok : doms_check = true -> forall l x, avail_end l x = true -> available_at_end f l x.
  Proof.
    intros HD l x H. unfold avail_end in H. apply orb_true_iff in H. destruct H as [H|H]; [left; now apply smem_in|right].
    apply existsb_exists in H. destruct H as (d & H1 & H2). exists d. split; [now apply doms_ok|]. apply defs_ok. now apply smem_in.
  Qed.
  Lemma body_ok : forall l b ss pre, body_check l b pre ss = true ->
    (forall p s q, ss = p ++ s :: q -> forall x, In x (stmt_uses uses s) -> avail_start l b x = true \/ In x (pre ++ flat_map stmt_def p)) /\
    (forall x, In x (term_uses uses (bterm b)) -> avail_start l b x = true \/ In x (pre ++ flat_map stmt_def ss)).
  Proof.
    induction ss as [|s0 ss IH]; intros pre H; cbn in H.
    - rewrite forallb_forall in H. split.
      + intros p s q E1. destruct p; discriminate.
      + intros x Hx. specialize (H x Hx). apply orb_true_iff in H. destruct H as [H|H]; [now left|right].
        cbn. rewrite app_nil_r. now apply smem_in.
    - apply andb_true_iff in H. destruct H as [H1 H2]. destruct (IH _ H2) as [A B]. split.
      + intros p s q E1 x Hx. destruct p as [|s1 p]; cbn in E1; injection E1 as -> ->.
        * rewrite forallb_forall in H1. specialize (H1 x Hx). apply orb_true_iff in H1.
          destruct H1 as [H1|H1]; [now left|right]. cbn. rewrite app_nil_r. now apply smem_in.
        * destruct (A p s q eq_refl x Hx) as [A1|A1]; [now left|right]. cbn. now rewrite app_assoc.
      + intros x Hx. destruct (B x Hx) as [B1|B1]; [now left|right]. cbn. now rewrite app_assoc.
  Qed.

  Lemma nodup_flat : forall (bs : list (label * block)), NoDup (flat_map (fun lb => block_defs (snd lb)) bs) ->
    forall l b l' b' x, In (l, b) bs -> In (l', b') bs -> In x (block_defs b) -> In x (block_defs b') -> (l, b) = (l', b').
  Proof.
    induction bs as [|[l0 b0] bs IH]; intros H l b l' b' x H1 H2 H3 H4; [destruct H1|]. cbn in H.
    assert (forall y, In y (block_defs b0) -> ~ In y (flat_map (fun lb => block_defs (snd lb)) bs)) as D.
    { clear - H. induction (block_defs b0) as [|z zs IHz]; intros y Hy; [destruct Hy|]. cbn in H. inversion H; subst.
      destruct Hy as [->|Hy]; [|auto]. intro. apply H2. apply in_app_iff. now right. }
    assert (NoDup (flat_map (fun lb => block_defs (snd lb)) bs)) as N.
    { clear - H. induction (block_defs b0); [exact H|]. cbn in H. inversion H; auto. }
    destruct H1 as [H1|H1], H2 as [H2|H2].
    - congruence.
    - exfalso. injection H1 as -> ->. apply (D x H3). apply in_flat_map. exists (l', b'). auto.
    - exfalso. injection H2 as -> ->. apply (D x H4). apply in_flat_map. exists (l, b). auto.
    - eapply IH; eauto.
  Qed.

  Theorem ssa_check_ok : ssa_check = true -> ssa_form uses f.
  Proof.
    unfold ssa_check. rewrite !andb_true_iff. intros (((((HD & H1) & H2) & H3) & H4) & H5).
    apply lnodup_ok in H3. apply snodup_ok in H4. rewrite forallb_forall in H2, H5.
    assert (NF : NoDup (flat_map (fun lb => block_defs (snd lb)) (blocks f))).
    { clear - H4. induction (params f); [exact H4|]. cbn in H4. inversion H4; auto. }
    assert (DI : forall x, forall y, In y (params f) -> In y (flat_map (fun lb => block_defs (snd lb)) (blocks f)) -> x = y -> False).
    { intros x y Hy Hf _. clear - H4 Hy Hf. induction (params f) as [|z zs IHz]; [destruct Hy|]. cbn in H4. inversion H4; subst.
      destruct Hy as [->|Hy]; [apply H1; apply in_app_iff; now right|auto]. }
    assert (BL : forall l b, block_of f l = Some b -> In (l, b) (blocks f)) by (intros; now apply lookup_in).
    constructor.
    - destruct (block_of f (entry f)) as [b|]; [|discriminate]. exists b. split; [reflexivity|]. destruct (phis b); [reflexivity|discriminate].
    - intros p He. destruct (edge_in _ _ He) as (b & Hb & Hs). specialize (H2 _ Hb). cbn in H2. apply lmem_in in Hs. rewrite Hs in H2. discriminate.
    - exact H3.
    - intros p l He. destruct (edge_in _ _ He) as (b & Hb & Hs). specialize (H5 _ Hb). apply andb_true_iff in H5. destruct H5 as [_ H5].
      rewrite forallb_forall in H5. specialize (H5 _ Hs). unfold phi_check in H5. cbn in H5. destruct (block_of f l) as [b'|]; [eauto|discriminate].
    - intros l b Hb. apply BL in Hb. clear - NF Hb. induction (blocks f) as [|[l0 b0] bs IH]; [destruct Hb|]. cbn in NF.
      destruct Hb as [E1|Hb].
      + injection E1 as -> ->. eapply NoDup_app_l; eauto.
      + apply IH; [|assumption]. clear - NF. induction (block_defs b0); [exact NF|]. cbn in NF. inversion NF; auto.
    - intros l l' x (b & Hb & Hx) (b' & Hb' & Hx'). apply BL in Hb, Hb'.
      pose proof (nodup_flat _ NF _ _ _ _ _ Hb Hb' Hx Hx') as E1. congruence.
    - intros l x (b & Hb & Hx) Hp. apply (DI x x Hp); [|reflexivity]. apply in_flat_map. exists (l, b). split; [now apply BL|assumption].
    - eapply NoDup_app_l; eauto.
    - intros l b pre s post Hb Hbody x Hx. pose proof (H5 _ (BL _ _ Hb)) as C. apply andb_true_iff in C. destruct C as [C _].
      cbn in C. destruct (body_ok _ _ _ _ C) as [A _]. destruct (A _ _ _ Hbody x Hx) as [A1|A1]; [left|now right].
      eapply avail_start_ok; eauto.
    - intros l b Hb x Hx. pose proof (H5 _ (BL _ _ Hb)) as C. apply andb_true_iff in C. destruct C as [C _].
      cbn in C. destruct (body_ok _ _ _ _ C) as [_ B]. destruct (B x Hx) as [A1|A1]; [left|now right].
      eapply avail_start_ok; eauto.
    - intros p l b x inc He Hb Hin. destruct (edge_in _ _ He) as (bp & Hbp & Hs). specialize (H5 _ Hbp). apply andb_true_iff in H5.
      destruct H5 as [_ H5]. rewrite forallb_forall in H5. specialize (H5 _ Hs). unfold phi_check in H5. cbn in H5. rewrite Hb in H5.
      rewrite forallb_forall in H5. specialize (H5 _ Hin). cbn in H5. destruct (lookup p inc) as [e|]; [|discriminate].
      exists e. split; [reflexivity|]. rewrite forallb_forall in H5. intros y Hy. apply avail_end_ok; auto.
  Qed.

  (** no switch, no invoke, distinct successors *)
  Definition lowered_check : bool :=
    forallb (fun lb => match bterm (snd lb) with TSwitch _ _ _ | TInvoke _ _ _ _ _ => false | _ => true end &&
                       lnodup (succs (bterm (snd lb)))) (blocks f).
  Theorem lowered_check_ok : lowered_check = true -> lowered f.
  Proof.
    intros H. unfold lowered_check in H. rewrite forallb_forall in H.
    assert (BL : forall l b, block_of f l = Some b -> In (l, b) (blocks f)) by (intros; now apply lookup_in).
    constructor.
    - intros l b e d c Hb Et. specialize (H _ (BL _ _ Hb)). cbn in H. rewrite Et in H. discriminate.
    - intros l b x p es n u l' b' Hb Et. specialize (H _ (BL _ _ Hb)). cbn in H. rewrite Et in H. discriminate.
    - intros l b Hb. specialize (H _ (BL _ _ Hb)). apply andb_true_iff in H. destruct H as [_ H]. now apply lnodup_ok.
  Qed.
  (** blocks with several successors jump to blocks without phis *)
  Definition normalized_check : bool :=
    forallb (fun lb => (List.length (succs (bterm (snd lb))) <=? 1) ||
      forallb (fun s => match block_of f s with Some b => match phis b with [] => true | _ => false end | None => false end)
              (succs (bterm (snd lb)))) (blocks f).
  Theorem normalized_check_ok : normalized_check = true -> normalized f.
  Proof.
    intros H l b l' b' Hb Hin Hlen Hb' Hph _ _. unfold normalized_check in H. rewrite forallb_forall in H.
    specialize (H _ (lookup_in _ _ _ _ Hb)). apply orb_true_iff in H. destruct H as [H|H].
    - apply Nat.leb_le in H. cbn in H. lia.
    - rewrite forallb_forall in H. specialize (H _ Hin). rewrite Hb' in H. destruct (phis b'); [now apply Hph|discriminate].
  Qed.
  Definition original_check : bool :=
    let isb l := match l with Blk _ => true | Fwd _ _ => false end in
    forallb (fun lb => isb (fst lb) && forallb isb (succs (bterm (snd lb))) &&
      forallb (fun ph => forallb (fun pe => isb (fst pe)) (snd ph)) (phis (snd lb))) (blocks f).
  Theorem original_check_ok : original_check = true -> original f.
  Proof.
    clear doms. intros H l b Hb. unfold original_check in H. rewrite forallb_forall in H. specialize (H _ Hb). cbn in H.
    rewrite !andb_true_iff in H. destruct H as ((H1 & H2) & H3). rewrite forallb_forall in H2, H3.
    assert (B : forall l0, (match l0 with Blk _ => true | Fwd _ _ => false end) = true -> is_blk l0) by (intros []; cbn; [tauto|discriminate]).
    split; [auto|]. split; [auto|]. intros x inc p e Hi Hp. specialize (H3 _ Hi). cbn in H3. rewrite forallb_forall in H3.
    specialize (H3 _ Hp). auto.
  Qed.

  (** [avoid p]: a path to [p] (reversed), used as evidence that the targets of
      its forward edges do not dominate it. *)
  Fixpoint path_check (t : list label) : bool :=
    match t with
    | [] => false
    | [l] => label_eqb l (entry f)
    | l :: ((p :: _) as t') => match block_of f p with Some b => lmem l (succs (bterm b)) | None => false end && path_check t'
    end.
  Lemma path_check_ok : forall t l, path_check (l :: t) = true -> path f l (l :: t).
  Proof.
    induction t as [|p t IH]; intros l H.
    - cbn in H. destruct (label_eqb_spec l (entry f)); [subst; constructor|discriminate].
    - cbn [path_check] in H. apply andb_true_iff in H. destruct H as [H1 H2]. destruct (block_of f p) as [b|] eqn:Eb; [|discriminate].
      apply P_edge with p; [now apply IH|]. exists b. split; [assumption|now apply lmem_in].
  Qed.
  Definition forest_check (avoid : label -> list label) (ls : list loop) : bool :=
    forallb (fun hb => lmem (fst hb) (snd hb) &&
      forallb (fun p => match block_of f p with Some _ => true | None => false end) (snd hb)) (flat_map all_loops ls) &&
    forallb (fun pb => forallb (fun h =>
      existsb (fun hb => label_eqb h (fst hb) && lmem (fst pb) (snd hb)) (flat_map all_loops ls) ||
      match avoid (fst pb) with
      | l :: t => label_eqb l (fst pb) && path_check (l :: t) && negb (lmem h (l :: t))
      | [] => false
      end) (succs (bterm (snd pb)))) (blocks f).
  Theorem forest_check_ok : forall avoid ls, forest_check avoid ls = true -> loop_forest f ls.
  Proof.
    intros avoid ls H. apply andb_true_iff in H. destruct H as [H1 H2]. rewrite forallb_forall in H1, H2. constructor.
    - intros h bs p Hin Hp. specialize (H1 _ Hin). apply andb_true_iff in H1. destruct H1 as [_ H1]. rewrite forallb_forall in H1.
      specialize (H1 _ Hp). destruct (block_of f p); [eauto|discriminate].
    - intros h bs Hin. specialize (H1 _ Hin). apply andb_true_iff in H1. destruct H1 as [H1 _]. now apply lmem_in.
    - intros p h _ He Hdom. destruct (edge_in _ _ He) as (b & Hb & Hs). specialize (H2 _ Hb). rewrite forallb_forall in H2.
      specialize (H2 _ Hs). apply orb_true_iff in H2. destruct H2 as [H2|H2].
      + apply existsb_exists in H2. destruct H2 as ([h' bs] & Hin & H2). apply andb_true_iff in H2. destruct H2 as [H2 H3].
        cbn in H2, H3. destruct (label_eqb_spec h h'); [subst h'|discriminate]. exists bs. split; [assumption|now apply lmem_in].
      + cbn [fst] in H2. destruct (avoid p) as [|l t]; [discriminate|]. rewrite !andb_true_iff in H2. destruct H2 as ((H2 & H3) & H4).
        destruct (label_eqb_spec l p); [subst l|discriminate]. apply path_check_ok in H3. specialize (Hdom _ H3). apply lmem_in in Hdom.
        rewrite Hdom in H4. discriminate.
  Qed.
End Check.

