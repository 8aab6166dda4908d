(** Splitting edges preserves SSA form and behaviour. *)
From Coq Require Import List String Bool Arith Lia FinFun.
From Verif.Spec Require Import CFG.
From Verif.Model Require Import NormalizeLoops.
From Verif.Proofs Require Import CFGBase SplitEdges.
Import ListNotations.

Section Sim.
  Context {V E M P O : Type}.
  Context (evS : (string -> option V) -> E -> option V) (uses : E -> list string)
          (prim : P -> list V -> M -> list O -> V -> M -> Prop)
          (inv : P -> list V -> M -> list O -> V -> bool -> M -> Prop)
          (one : V) (veq : V -> V -> bool).
  Notation func := (func V E P).
  Notation lstep := (lstep evS prim inv one veq).
  Notation lsteps := (lsteps evS prim inv one veq).
  Notation goes_wrong := (goes_wrong evS inv one veq).

  Context (f : func) (D : list (label * label)).
  Context (Ho : original f) (Hssa : ssa_form uses f) (HND : NoDup D) (HD : forall p h, In (p, h) D -> edge f p h).
  Notation f' := (split f D D).

  Lemma blk_of : forall l b, block_of f l = Some b -> is_blk l.
  Proof. intros l b H. apply lookup_in in H. now apply Ho in H. Qed.
  Lemma blk_succ : forall l b s, block_of f l = Some b -> In s (succs (bterm b)) -> is_blk s.
  Proof. intros l b s H Hs. apply lookup_in in H. apply Ho in H. now apply H. Qed.
  Lemma edge_blk : forall p h, edge f p h -> is_blk p /\ is_blk h.
  Proof. intros p h (b & Hb & Hh). split; [eapply blk_of|eapply blk_succ]; eauto. Qed.
  Lemma new_block : forall l b, block_of f l = Some b -> block_of f' l = Some (split_block D D l b).
  Proof. intros l b Hb. rewrite split_blk by (eapply blk_of; eauto). now rewrite Hb. Qed.
  Lemma new_fwd : forall p h, In (p, h) D -> block_of f' (Fwd p h) = Some (Block [] [] (TBr h)).
  Proof. intros p h H. rewrite split_fwd by exact Ho. apply mem_in in H. now rewrite H. Qed.
  Lemma new_inv : forall l b', block_of f' l = Some b' ->
    (exists b, block_of f l = Some b /\ b' = split_block D D l b) \/
    (exists p h, In (p, h) D /\ l = Fwd p h /\ b' = Block [] [] (TBr h)).
  Proof.
    intros [n|p h] b' Hb'.
    - rewrite split_blk in Hb' by exact Logic.I. destruct (block_of f (Blk n)) as [b|]; [|discriminate]. injection Hb' as <-. left. eauto.
    - rewrite split_fwd in Hb' by exact Ho. destruct (mem D p h) eqn:Em; [|discriminate]. injection Hb' as <-. right.
      exists p, h. apply mem_in in Em. auto.
  Qed.

  (** edges of the new function *)
  Lemma edge_new : forall a c, edge f' a c <->
    (edge f a c /\ ~ In (a, c) D) \/ (exists h, c = Fwd a h /\ In (a, h) D) \/ (exists p, a = Fwd p c /\ In (p, c) D).
  Proof.
    intros a c. split.
    - intros (b' & Hb' & Hc). destruct (new_inv a b' Hb') as [(b & Hb & ->)|(p & h & HI & -> & ->)].
      + cbn [bterm split_block] in Hc. rewrite succs_map in Hc. apply in_map_iff in Hc. destruct Hc as (s & E1 & Hs).
        unfold ret in E1. destruct (mem D a s) eqn:Em.
        * right; left. exists s. apply mem_in in Em. auto.
        * left. subst c. split; [exists b; auto|]. intros HI. apply mem_in in HI. congruence.
      + destruct Hc as [<-|[]]. right; right. exists p. auto.
    - intros [((b & Hb & Hc) & Hn)|[(h & -> & HI)|(p & -> & HI)]].
      + exists (split_block D D a b). split; [now apply new_block|]. cbn [bterm split_block]. rewrite succs_map. apply in_map_iff.
        exists c. split; [|exact Hc]. unfold ret. destruct (mem D a c) eqn:Em; [apply mem_in in Em; contradiction|reflexivity].
      + destruct (HD _ _ HI) as (b & Hb & Hh). exists (split_block D D a b). split; [now apply new_block|].
        cbn [bterm split_block]. rewrite succs_map. apply in_map_iff. exists h. split; [|exact Hh]. unfold ret.
        apply mem_in in HI. now rewrite HI.
      + exists (Block [] [] (TBr c)). split; [now apply new_fwd|]. now left.
  Qed.

  (** paths *)
  Lemma path_down : forall l t, path f' l t ->
    (is_blk l -> exists t0, path f l t0 /\ incl t0 t) /\
    (forall p h, l = Fwd p h -> exists t0, path f p t0 /\ incl t0 t).
  Proof.
    intros l t H. induction H as [|p l t Hp [IH1 IH2] He].
    - cbn [entry split]. split.
      + intros _. exists [entry f]. split; [constructor|apply incl_refl].
      + intros p h E1. destruct (ssa_entry _ _ Hssa) as (b & Hb & _). rewrite E1 in Hb. apply blk_of in Hb. destruct Hb.
    - apply edge_new in He. destruct He as [(He & _)|[(h & -> & HI)|(q & -> & HI)]].
      + destruct (edge_blk _ _ He) as [Hbp Hbl]. destruct (IH1 Hbp) as (t0 & H0 & Hi). split.
        * intros _. exists (l :: t0). split; [econstructor; eauto|]. intros x [->|Hx]; [now left|right; auto].
        * intros p' h' ->. destruct Hbl.
      + destruct (edge_blk _ _ (HD _ _ HI)) as [Hbp _]. destruct (IH1 Hbp) as (t0 & H0 & Hi). split; [intros []|].
        intros p' h' E1. injection E1 as <- <-. exists t0. split; [exact H0|]. now apply incl_tl.
      + destruct (IH2 q l eq_refl) as (t0 & H0 & Hi). destruct (edge_blk _ _ (HD _ _ HI)) as [_ Hbl]. split.
        * intros _. exists (l :: t0). split; [econstructor; eauto|]. intros x [->|Hx]; [now left|right; auto].
        * intros p' h' ->. destruct Hbl.
  Qed.
  Lemma path_up : forall l t, path f l t -> exists t', path f' l t' /\ forall d, is_blk d -> In d t' -> In d t.
  Proof.
    intros l t H. induction H as [|p l t Hp (t' & IH1 & IH2) He].
    - exists [entry f]. split; [apply (P_entry f')|auto].
    - destruct (mem D p l) eqn:Em.
      + apply mem_in in Em. exists (l :: Fwd p l :: t'). split.
        * econstructor; [econstructor; [exact IH1|]|]; apply edge_new; [right; left; eauto|right; right; eauto].
        * intros d Hd [->|[<-|Hx]]; [now left|destruct Hd|right; auto].
      + exists (l :: t'). split.
        * econstructor; [exact IH1|]. apply edge_new. left. split; [exact He|]. intros HI. apply mem_in in HI. congruence.
        * intros d Hd [->|Hx]; [now left|right; auto].
  Qed.
  Lemma dom_up : forall d l, is_blk l -> dominates f d l -> dominates f' d l.
  Proof. intros d l Hl H t Ht. destruct (proj1 (path_down l t Ht) Hl) as (t0 & H0 & Hi). apply Hi, H, H0. Qed.
  Lemma dom_up_fwd : forall d p h, dominates f d p -> dominates f' d (Fwd p h).
  Proof. intros d p h H t Ht. destruct (proj2 (path_down _ t Ht) p h eq_refl) as (t0 & H0 & Hi). apply Hi, H, H0. Qed.
  Lemma dom_down : forall d l, is_blk d -> dominates f' d l -> dominates f d l.
  Proof. intros d l Hd H t Ht. destruct (path_up l t Ht) as (t' & H0 & Hi). apply Hi; [exact Hd|]. apply H, H0. Qed.
  Lemma reach_down : forall l, is_blk l -> reachable f' l -> reachable f l.
  Proof. intros l Hl (t & Ht). destruct (proj1 (path_down l t Ht) Hl) as (t0 & H0 & _). now exists t0. Qed.

  (** ** SSA form *)
  Lemma defs_split : forall l (b : block V E P), block_defs (split_block D D l b) = block_defs b.
  Proof.
    intros l b. unfold block_defs. cbn [phis body bterm split_block]. rewrite map_map. cbn. f_equal.
    f_equal. destruct (bterm b) as [| | | |[x|] p es n u| |]; reflexivity.
  Qed.
  Lemma defined_up : forall l x, defined_in f l x -> defined_in f' l x.
  Proof. intros l x (b & Hb & Hx). exists (split_block D D l b). split; [now apply new_block|]. now rewrite defs_split. Qed.
  Lemma defined_down : forall l x, defined_in f' l x -> defined_in f l x.
  Proof.
    intros l x (b' & Hb' & Hx). destruct (new_inv l b' Hb') as [(b & Hb & ->)|(p & h & _ & _ & ->)].
    - exists b. split; [exact Hb|]. now rewrite defs_split in Hx.
    - destruct Hx.
  Qed.
  Lemma avail_start_up : forall l x, is_blk l -> available_at_start f l x -> available_at_start f' l x.
  Proof.
    intros l x Hl [H|[(d & H1 & H2 & H3)|(b & Hb & Hx)]]; [left; exact H|right; left|right; right].
    - exists d. split; [exact H1|]. split; [now apply dom_up|now apply defined_up].
    - exists (split_block D D l b). split; [now apply new_block|]. cbn [phis split_block]. rewrite map_map. exact Hx.
  Qed.
  Lemma avail_end_up : forall l x, is_blk l -> available_at_end f l x -> available_at_end f' l x.
  Proof. intros l x Hl [H|(d & H1 & H2)]; [left; exact H|right]. exists d. split; [now apply dom_up|now apply defined_up]. Qed.
  Lemma avail_end_fwd : forall p h x, available_at_end f p x -> available_at_end f' (Fwd p h) x.
  Proof. intros p h x [H|(d & H1 & H2)]; [left; exact H|right]. exists d. split; [now apply dom_up_fwd|now apply defined_up]. Qed.

  Lemma lookup_ren_fwd : forall h p (inc : list (label * E)), In (p, h) D -> (forall q e, In (q, e) inc -> is_blk q) ->
    lookup (Fwd p h) (map (fun pe => (ren D h (fst pe), snd pe)) inc) = lookup p inc.
  Proof.
    intros h p inc HI Hb. induction inc as [|[q e] inc IH]; [reflexivity|]. cbn [map lookup fst snd].
    rewrite IH by (intros; eapply Hb; right; eauto).
    unfold ren. destruct (mem D q h) eqn:Em; cbn [label_eqb].
    - rewrite label_eqb_refl, andb_true_r. reflexivity.
    - destruct (label_eqb_spec p q) as [<-|Ne].
      + apply mem_in in HI. congruence.
      + specialize (Hb q e (or_introl eq_refl)). destruct q; [reflexivity|destruct Hb].
  Qed.
  Lemma lookup_ren_blk : forall h p (inc : list (label * E)), is_blk p -> ~ In (p, h) D ->
    lookup p (map (fun pe => (ren D h (fst pe), snd pe)) inc) = lookup p inc.
  Proof.
    intros h p inc Hp Hn. induction inc as [|[q e] inc IH]; [reflexivity|]. cbn [map lookup fst snd]. rewrite IH.
    unfold ren. destruct (mem D q h) eqn:Em; [|reflexivity].
    destruct (label_eqb_spec p (Fwd q h)) as [->|]; [destruct Hp|].
    destruct (label_eqb_spec p q) as [->|]; [|reflexivity]. apply mem_in in Em. contradiction.
  Qed.

  Lemma ssa_split : ssa_form uses f'.
  Proof.
    constructor.
    - destruct (ssa_entry _ _ Hssa) as (b & Hb & Hph). exists (split_block D D (entry f) b). split; [now apply new_block|].
      cbn. now rewrite Hph.
    - intros p He. cbn [entry split] in He. apply edge_new in He. destruct (ssa_entry _ _ Hssa) as (b & Hb & _). apply blk_of in Hb.
      destruct He as [(He & _)|[(h & E1 & HI)|(q & -> & HI)]].
      + exact (ssa_entry_nopred _ _ Hssa p He).
      + rewrite E1 in Hb. destruct Hb.
      + exact (ssa_entry_nopred _ _ Hssa q (HD _ _ HI)).
    - unfold split. cbn [blocks]. rewrite map_app, !map_map. cbn. apply NoDup_app_intro.
      + exact (ssa_labels _ _ Hssa).
      + apply Injective_map_NoDup; [|exact HND]. intros [a b] [c d] E1. cbn in E1. now injection E1 as -> ->.
      + intros x H1 H2. apply in_map_iff in H1, H2. destruct H1 as ([l b] & <- & H1). destruct H2 as ([p h] & E1 & H2). cbn in E1.
        apply Ho in H1. destruct H1 as [H1 _]. subst l. destruct H1.
    - intros p l He. apply edge_new in He. destruct He as [(He & _)|[(h & -> & HI)|(q & -> & HI)]].
      + destruct (ssa_targets _ _ Hssa p l He) as (b & Hb). eexists. apply new_block. exact Hb.
      + eexists. apply new_fwd. exact HI.
      + destruct (ssa_targets _ _ Hssa q l (HD _ _ HI)) as (b & Hb). eexists. apply new_block. exact Hb.
    - intros l b' Hb'. destruct (new_inv l b' Hb') as [(b & Hb & ->)|(p & h & _ & _ & ->)]; [|constructor].
      rewrite defs_split. exact (ssa_unique_block _ _ Hssa l b Hb).
    - intros l l' x H1 H2. apply defined_down in H1, H2. exact (ssa_unique _ _ Hssa l l' x H1 H2).
    - intros l x H. apply defined_down in H. exact (ssa_params _ _ Hssa l x H).
    - exact (ssa_params_nodup _ _ Hssa).
    - intros l b' pre s post Hb' Hbd x Hx. destruct (new_inv l b' Hb') as [(b & Hb & ->)|(p & h & _ & _ & ->)].
      + destruct (ssa_body _ _ Hssa l b pre s post Hb Hbd x Hx) as [H|H]; [left|right; exact H].
        apply avail_start_up; [eapply blk_of; eauto|exact H].
      + destruct pre; discriminate.
    - intros l b' Hb' x Hx. destruct (new_inv l b' Hb') as [(b & Hb & ->)|(p & h & _ & _ & ->)].
      + assert (In x (term_uses uses (bterm b))) as Hx' by (cbn [bterm split_block] in Hx; destruct (bterm b) as [[|]| | | | | |]; exact Hx).
        destruct (ssa_term _ _ Hssa l b Hb x Hx') as [H|H]; [left|right; exact H].
        apply avail_start_up; [eapply blk_of; eauto|exact H].
      + destruct Hx.
    - intros p l b' x inc' He Hb' Hin. destruct (new_inv l b' Hb') as [(b & Hb & ->)|(q & h & _ & _ & ->)]; [|destruct Hin].
      cbn [phis split_block] in Hin. apply in_map_iff in Hin. destruct Hin as ([x0 inc] & E1 & Hin). cbn [fst snd] in E1. injection E1 as <- <-.
      apply edge_new in He. destruct He as [(He & Hn)|[(h & -> & HI)|(q & -> & HI)]].
      + destruct (edge_blk _ _ He) as [Hp _]. destruct (ssa_phi _ _ Hssa p l b x0 inc He Hb Hin) as (e & H1 & H2). exists e.
        rewrite lookup_ren_blk by assumption. split; [exact H1|]. intros y Hy. apply avail_end_up; [exact Hp|auto].
      + apply blk_of in Hb. destruct Hb.
      + destruct (ssa_phi _ _ Hssa q l b x0 inc (HD _ _ HI) Hb Hin) as (e & H1 & H2). exists e.
        rewrite lookup_ren_fwd; [|exact HI|].
        * split; [exact H1|]. intros y Hy. apply avail_end_fwd. auto.
        * intros q0 e0 Hq. apply lookup_in in Hb. apply Ho in Hb. destruct Hb as (_ & _ & Hb). eapply Hb; eauto.
  Qed.

  Lemma lowered_split : lowered f -> lowered f'.
  Proof.
    clear one veq. intros Hl. constructor.
    - intros l b' e d c Hb' E1. destruct (new_inv l b' Hb') as [(b & Hb & ->)|(p & h & _ & _ & ->)]; [|discriminate].
      cbn [bterm split_block] in E1. destruct (bterm b) eqn:Et; try discriminate. exact (low_no_switch _ Hl l b _ _ _ Hb Et).
    - intros l b' x p es n u l' b2' Hb' Et' Hin Hb2'. destruct (new_inv l' b2' Hb2') as [(b2 & Hb2 & ->)|(q & h & _ & _ & ->)]; [|reflexivity].
      destruct (new_inv l b' Hb') as [(b & Hb & ->)|(q & h & _ & _ & ->)]; [|discriminate].
      cbn [bterm split_block] in Et'. destruct (bterm b) as [| | | |x0 p0 es0 n0 u0| |] eqn:Et; try discriminate. cbn in Et'. injection Et' as -> -> -> <- <-.
      assert (phis b2 = []) as Hph.
      { apply (low_invoke _ Hl l b x p es n0 u0 l' b2 Hb Et); [|exact Hb2]. apply blk_of in Hb2.
        destruct Hin as [E1|[E1|[]]]; unfold ret in E1; [destruct (mem D l n0)|destruct (mem D l u0)]; subst l'; cbn; auto; destruct Hb2. }
      cbn. now rewrite Hph.
    - intros l b' Hb'. destruct (new_inv l b' Hb') as [(b & Hb & ->)|(p & h & _ & _ & ->)].
      + cbn [bterm split_block]. rewrite succs_map. pose proof (low_distinct _ Hl l b Hb) as ND.
        assert (forall s, In s (succs (bterm b)) -> is_blk s) as Hs by (intros; eapply blk_succ; eauto).
        induction (succs (bterm b)) as [|s ss IH]; [constructor|]. inversion ND; subst. cbn. constructor; [|apply IH; auto; intros; apply Hs; now right].
        intros HI. apply in_map_iff in HI. destruct HI as (s' & E1 & HI). unfold ret in E1.
        pose proof (Hs s (or_introl eq_refl)) as Q1. pose proof (Hs s' (or_intror HI)) as Q2.
        destruct (mem D l s'), (mem D l s); try (injection E1 as ->); subst; try contradiction; try destruct Q1; try destruct Q2.
      + cbn. constructor; [tauto|constructor].
  Qed.

  Lemma normalized_split : (forall p b h b', block_of f p = Some b -> In h (succs (bterm b)) -> 2 <= List.length (succs (bterm b)) ->
      block_of f h = Some b' -> phis b' <> [] -> reachable f p -> dominates f h p -> In (p, h) D) -> normalized f'.
  Proof.
    intros HC l b1 l' b2 Hb1 Hl' Hlen Hb2 Hph Hr Hdom.
    destruct (new_inv l' b2 Hb2) as [(b' & Hb' & ->)|(q & h & _ & _ & ->)]; [|now apply Hph].
    destruct (new_inv l b1 Hb1) as [(b & Hb & ->)|(q & h & _ & _ & ->)]; [|cbn in Hlen; lia].
    cbn [bterm split_block] in Hl', Hlen. rewrite succs_map in Hl', Hlen. rewrite map_length in Hlen.
    pose proof (blk_of _ _ Hb) as Q1. pose proof (blk_of _ _ Hb') as Q2.
    apply in_map_iff in Hl'. destruct Hl' as (s & E1 & Hs). unfold ret in E1. destruct (mem D l s) eqn:Em; [subst l'; destruct Q2|].
    subst s. assert (In (l, l') D) as HI; [|apply mem_in in HI; congruence].
    apply (HC l b l' b'); auto.
    - intros E1. apply Hph. cbn. now rewrite E1.
    - now apply reach_down.
    - now apply dom_down.
  Qed.

  (** ** Behaviour *)
  Lemma phi_values_ren : forall r p p' (phs : list (string * list (label * E))) l,
    (forall x inc, In (x, inc) phs -> lookup p' (map (fun pe => (ren D l (fst pe), snd pe)) inc) = lookup p inc) ->
    phi_values evS r p' (map (fun ph => (fst ph, map (fun pe => (ren D l (fst pe), snd pe)) (snd ph))) phs) = phi_values evS r p phs.
  Proof.
    intros r p p' phs l H. unfold phi_values. rewrite map_map. f_equal. apply map_ext_in. intros [x inc] HI. cbn [fst snd].
    now rewrite (H x inc HI).
  Qed.
  Lemma enter_direct : forall p h r, is_blk p -> is_blk h -> ~ In (p, h) D -> enter evS f' p h r = enter evS f p h r.
  Proof.
    intros p h r Hp Hh Hn. unfold enter. rewrite split_blk by exact Hh. destruct (block_of f h) as [b|]; [|reflexivity].
    cbn [option_map phis body split_block]. rewrite (phi_values_ren r p p); [reflexivity|]. intros x inc _. now apply lookup_ren_blk.
  Qed.
  Lemma enter_fwd1 : forall p h r, In (p, h) D -> enter evS f' p (Fwd p h) r = Some ([], r).
  Proof. intros p h r HI. unfold enter. rewrite (new_fwd p h HI). reflexivity. Qed.
  Lemma enter_fwd2 : forall p h r, In (p, h) D -> enter evS f' (Fwd p h) h r = enter evS f p h r.
  Proof.
    intros p h r HI. unfold enter. destruct (edge_blk _ _ (HD _ _ HI)) as [_ Hh]. rewrite split_blk by exact Hh.
    destruct (block_of f h) as [b|] eqn:Hb; [|reflexivity].
    cbn [option_map phis body split_block]. rewrite (phi_values_ren r p (Fwd p h)); [reflexivity|]. intros x inc Hin.
    apply lookup_ren_fwd; [exact HI|]. intros q e Hq. apply lookup_in in Hb. apply Ho in Hb. destruct Hb as (_ & _ & Hb). eapply Hb; eauto.
  Qed.

  Inductive X : lstate V E M P -> lstate V E M P -> Prop :=
  | X_run : forall l k r m, is_blk l -> X (LRun l k r m) (LRun l k r m)
  | X_done : forall o m, X (LDone o m) (LDone o m)
  | X_fwd : forall p h r m k' r', In (p, h) D -> enter evS f p h r = Some (k', r') ->
      X (LRun h k' r' m) (LRun (Fwd p h) [] r m).

  Lemma jump : forall l b s r m k' r', block_of f l = Some b -> In s (succs (bterm b)) -> enter evS f l s r = Some (k', r') ->
    exists k2 r2, enter evS f' l (ret D l s) r = Some (k2, r2) /\ X (LRun s k' r' m) (LRun (ret D l s) k2 r2 m).
  Proof.
    intros l b s r m k' r' Hb Hs He. pose proof (blk_of _ _ Hb) as Hl. pose proof (blk_succ _ _ _ Hb Hs) as Hbs. unfold ret.
    destruct (mem D l s) eqn:Em.
    - apply mem_in in Em. exists [], r. split; [now apply enter_fwd1|]. now apply X_fwd.
    - exists k', r'. assert (~ In (l, s) D) as Hn by (intros HI; apply mem_in in HI; congruence).
      rewrite enter_direct by assumption. split; [exact He|now constructor].
  Qed.
  Lemma jump_back : forall l b s r m k2 r2, block_of f l = Some b -> In s (succs (bterm b)) ->
    enter evS f' l (ret D l s) r = Some (k2, r2) ->
    enter evS f l s r = None \/
    exists k' r', enter evS f l s r = Some (k', r') /\ X (LRun s k' r' m) (LRun (ret D l s) k2 r2 m).
  Proof.
    intros l b s r m k2 r2 Hb Hs He. destruct (enter evS f l s r) as [[k' r']|] eqn:Ee; [right|now left].
    destruct (jump l b s r m k' r' Hb Hs Ee) as (k3 & r3 & H1 & H2). rewrite He in H1. injection H1 as <- <-. eauto.
  Qed.
  Lemma jump_none : forall l b s r, block_of f l = Some b -> In s (succs (bterm b)) ->
    enter evS f' l (ret D l s) r = None -> enter evS f l s r = None.
  Proof.
    intros l b s r Hb Hs He. pose proof (blk_of _ _ Hb) as Hl. pose proof (blk_succ _ _ _ Hb Hs) as Hbs. unfold ret in He.
    destruct (mem D l s) eqn:Em.
    - apply mem_in in Em. rewrite enter_fwd1 in He by exact Em. discriminate.
    - rewrite enter_direct in He; auto. intros HI. apply mem_in in HI. congruence.
  Qed.

  Lemma select_map : forall v d cases g, select_case veq v (g d) (map (fun c => (fst c, g (snd c))) cases) = g (select_case veq v d cases).
  Proof. intros v d cases g. induction cases as [|[c l] cases IH]; [reflexivity|]. cbn. destruct (veq v c); auto. Qed.
  Lemma select_in : forall v d (cases : list (V * label)), In (select_case veq v d cases) (d :: map snd cases).
  Proof.
    intros v d cases. induction cases as [|[c l] cases IH]; [now left|]. cbn. destruct (veq v c); [auto|]. destruct IH as [H|H]; auto.
  Qed.

  Ltac term_of Hb Et := cbn [bterm split_block] in Et.

  Lemma back_step : forall s s' evs s2', X s s' -> lstep f' s' evs s2' ->
    goes_wrong f s \/ (X s s2' /\ evs = []) \/ exists s2, lstep f s evs s2 /\ X s2 s2'.
  Proof.
    intros s s' evs s2' HX HL. destruct HX as [l k r m Hl|o m|p h r m k' r' HI He].
    - assert (forall b', block_of f' l = Some b' -> exists b, block_of f l = Some b /\ b' = split_block D D l b) as Hinv.
      { intros b' Hb'. destruct (new_inv l b' Hb') as [H|(p & h & _ & -> & _)]; [exact H|destruct Hl]. }
      inversion HL; subst.
      + right; right. eexists. split; [apply L_assign; eauto|now constructor].
      + right; right. eexists. split; [eapply L_prim; eauto|now constructor].
      + destruct (Hinv b) as (b0 & Hb0 & ->); [assumption|]. right; right. eexists. split; [eapply L_ret; [exact Hb0|]|constructor].
        match goal with Ht : bterm _ = _ |- _ => cbn [bterm split_block] in Ht; destruct (bterm b0); try discriminate; exact Ht end.
      + destruct (Hinv b) as (b0 & Hb0 & ->); [assumption|]. right; right. eexists. split; [eapply L_retv; [exact Hb0| |eassumption]|constructor].
        match goal with Ht : bterm _ = _ |- _ => cbn [bterm split_block] in Ht; destruct (bterm b0); try discriminate; exact Ht end.
      + destruct (Hinv b) as (b0 & Hb0 & ->); [assumption|]. right; right. eexists. split; [eapply L_resume; [exact Hb0| |eassumption]|constructor].
        match goal with Ht : bterm _ = _ |- _ => cbn [bterm split_block] in Ht; destruct (bterm b0); try discriminate; exact Ht end.
      + destruct (Hinv b) as (b0 & Hb0 & ->); [assumption|].
        match goal with Ht : bterm _ = _ |- _ => cbn [bterm split_block] in Ht; destruct (bterm b0) as [|l0| | | | |] eqn:Et; try discriminate; injection Ht as <- end.
        match goal with He : enter _ _ _ _ _ = Some _ |- _ => destruct (jump_back l b0 l0 r m _ _ Hb0 ltac:(rewrite Et; now left) He) as [Hn|(k1 & r1 & H1 & H2)] end.
        * left. exists b0. rewrite Et. auto.
        * right; right. eexists. split; [eapply L_br; eauto|exact H2].
      + destruct (Hinv b) as (b0 & Hb0 & ->); [assumption|].
        match goal with Ht : bterm _ = _ |- _ => cbn [bterm split_block] in Ht; destruct (bterm b0) as [| |e0 l10 l20| | | |] eqn:Et; try discriminate; injection Ht as -> <- <- end.
        assert ((if veq v one then ret D l l10 else ret D l l20) = ret D l (if veq v one then l10 else l20)) as Eq by now destruct (veq v one).
        rewrite Eq in *.
        match goal with He : enter _ _ _ _ _ = Some _ |- _ => destruct (jump_back l b0 (if veq v one then l10 else l20) r m _ _ Hb0 ltac:(rewrite Et; cbn; destruct (veq v one); auto) He) as [Hn|(k1 & r1 & H1 & H2)] end.
        * left. exists b0. rewrite Et. split; [exact Hb0|]. match goal with Hv : evS r e = Some v |- _ => now rewrite Hv end.
        * right; right. eexists. split; [eapply L_cond; eauto|exact H2].
      + destruct (Hinv b) as (b0 & Hb0 & ->); [assumption|].
        match goal with Ht : bterm _ = _ |- _ => cbn [bterm split_block] in Ht; destruct (bterm b0) as [| | |e0 d0 cases0| | |] eqn:Et; try discriminate; injection Ht as -> <- <- end.
        rewrite select_map in *.
        match goal with He : enter _ _ _ _ _ = Some _ |- _ => destruct (jump_back l b0 (select_case veq v d0 cases0) r m _ _ Hb0 ltac:(rewrite Et; apply select_in) He) as [Hn|(k1 & r1 & H1 & H2)] end.
        * left. exists b0. rewrite Et. split; [exact Hb0|]. match goal with Hv : evS r e = Some v |- _ => now rewrite Hv end.
        * right; right. eexists. split; [eapply L_switch; eauto|exact H2].
      + destruct (Hinv b) as (b0 & Hb0 & ->); [assumption|].
        match goal with Ht : bterm _ = _ |- _ => cbn [bterm split_block] in Ht; destruct (bterm b0) as [| | | |x0 p0 es0 n0 u0| |] eqn:Et; try discriminate; injection Ht as -> -> -> <- <- end.
        assert ((if unwinds then ret D l u0 else ret D l n0) = ret D l (if unwinds then u0 else n0)) as Eq by now destruct unwinds.
        rewrite Eq in *.
        match goal with He : enter _ _ _ _ _ = Some _ |- _ => destruct (jump_back l b0 (if unwinds then u0 else n0) (updo r x v) m' _ _ Hb0 ltac:(rewrite Et; cbn; destruct unwinds; auto) He) as [Hn|(k1 & r1 & H1 & H2)] end.
        * left. exists b0. rewrite Et. split; [exact Hb0|]. match goal with Hv : evals evS r es = Some _ |- _ => rewrite Hv end.
          exists evs, v, unwinds, m'. auto.
        * right; right. eexists. split; [eapply L_invoke; eauto|exact H2].
    - inversion HL.
    - (* at a forwarding block *)
      right; left. pose proof (new_fwd p h HI) as Hf. pose proof (enter_fwd2 p h r HI) as H2. rewrite He in H2.
      inversion HL; subst;
        match goal with Hb : block_of _ (Fwd p h) = Some ?b, Ht : bterm ?b = _ |- _ => rewrite Hf in Hb; injection Hb as <-; cbn in Ht; try discriminate end.
      match goal with Ht : TBr h = TBr _ |- _ => injection Ht as <- end.
      match goal with He' : enter _ _ (Fwd p h) _ _ = Some _ |- _ => rewrite H2 in He'; injection He' as <- <- end.
      split; [|reflexivity]. constructor. now destruct (edge_blk _ _ (HD _ _ HI)).
  Qed.

  Lemma fwd_step : forall s s' evs s2, X s s' -> (exists l k r m, s = LRun l k r m /\ s' = s) -> lstep f s evs s2 ->
    exists s2', lstep f' s' evs s2' /\ X s2 s2'.
  Proof.
    intros s s' evs s2 HX (l & k & r & m & -> & ->) HL.
    assert (is_blk l) as Hl by (inversion HX; subst; [assumption|match goal with H : In _ D |- _ => destruct (edge_blk _ _ (HD _ _ H)); assumption end]).
    inversion HL; subst; try (match goal with Hb : block_of f l = Some ?b, Ht : bterm ?b = _ |- _ =>
       pose proof (new_block _ _ Hb) as Hb'; assert (bterm (split_block D D l b) = map_succs (ret D l) (bterm b)) as Ht' by reflexivity;
       rewrite Ht in Ht'; cbn [map_succs] in Ht' end).
    - eexists. split; [apply L_assign; eauto|now constructor].
    - eexists. split; [eapply L_prim; eauto|now constructor].
    - eexists. split; [eapply L_ret; eauto|constructor].
    - eexists. split; [eapply L_retv; eauto|constructor].
    - eexists. split; [eapply L_resume; eauto|constructor].
    - match goal with He : enter _ f l ?s r = Some _, Hb : block_of f l = Some b, Ht : bterm b = _ |- _ =>
        destruct (jump l b s r m _ _ Hb ltac:(rewrite Ht; now left) He) as (k2 & r2 & H1 & H2) end.
      eexists. split; [eapply L_br; eauto|exact H2].
    - match goal with He : enter _ f l ?s r = Some _, Hb : block_of f l = Some b, Ht : bterm b = _ |- _ =>
        destruct (jump l b s r m _ _ Hb ltac:(rewrite Ht; cbn; destruct (veq v one); auto) He) as (k2 & r2 & H1 & H2) end.
      assert (ret D l (if veq v one then l1 else l2) = if veq v one then ret D l l1 else ret D l l2) as Eq by now destruct (veq v one).
      rewrite Eq in *. eexists. split; [eapply L_cond; eauto|exact H2].
    - match goal with He : enter _ f l ?s r = Some _, Hb : block_of f l = Some b, Ht : bterm b = _ |- _ =>
        destruct (jump l b s r m _ _ Hb ltac:(rewrite Ht; apply select_in) He) as (k2 & r2 & H1 & H2) end.
      rewrite <- select_map in *. eexists. split; [eapply L_switch; eauto|exact H2].
    - match goal with He : enter _ f l ?s ?r = Some _, Hb : block_of f l = Some b, Ht : bterm b = _ |- _ =>
        destruct (jump l b s r m' _ _ Hb ltac:(rewrite Ht; cbn; destruct unwinds; auto) He) as (k2 & r2 & H1 & H2) end.
      assert (ret D l (if unwinds then u else n) = if unwinds then ret D l u else ret D l n) as Eq by now destruct unwinds.
      rewrite Eq in *. eexists. split; [eapply L_invoke; eauto|exact H2].
  Qed.
  Lemma catch_up : forall s s', X s s' -> s' = s \/ lstep f' s' [] s.
  Proof.
    intros s s' [l k r m Hl|o m|p h r m k' r' HI He]; [now left|now left|right].
    eapply L_br; [exact (new_fwd p h HI)|reflexivity|]. rewrite enter_fwd2 by exact HI. exact He.
  Qed.

  Lemma fwd_steps : forall s0 t s, lsteps f s0 t s -> X s0 s0 -> lsteps f' s0 t s /\ X s s.
  Proof.
    intros s0 t s H. induction H as [s|s1 t1 s2 t2 s3 H1 IH H2]; intros HX; [split; [constructor|exact HX]|].
    destruct (IH HX) as [HS HXs].
    assert (exists l k r m, s2 = LRun l k r m /\ s2 = s2) as Hrun by (inversion H2; subst; do 4 eexists; split; reflexivity).
    destruct (fwd_step s2 s2 t2 s3 HXs Hrun H2) as (s3' & H3 & HX3).
    assert (X s3 s3) as HX33.
    { inversion HX3; subst; [assumption|constructor|]. constructor. match goal with H : In _ D |- _ => destruct (edge_blk _ _ (HD _ _ H)); assumption end. }
    split; [|exact HX33]. destruct (catch_up _ _ HX3) as [->|H4]; [econstructor; eauto|].
    rewrite <- (app_nil_r (t1 ++ t2)). econstructor; [|exact H4]. econstructor; eauto.
  Qed.
  Lemma back_steps : forall s0' t s', lsteps f' s0' t s' -> forall s0, X s0 s0' ->
    (exists s, lsteps f s0 t s /\ X s s') \/ (exists t1 t2 s, t = t1 ++ t2 /\ lsteps f s0 t1 s /\ goes_wrong f s).
  Proof.
    intros s0' t s' H. induction H as [s|s1 t1 s2 t2 s3 H1 IH H2]; intros s0 HX.
    - left. exists s0. split; [constructor|exact HX].
    - destruct (IH s0 HX) as [(s & HS & HXs)|(u1 & u2 & s & -> & HS & HW)].
      + destruct (back_step _ _ _ _ HXs H2) as [HW|[[HX' ->]|(s2' & Hs' & HX')]].
        * right. exists t1, t2, s. auto.
        * left. exists s. rewrite app_nil_r. auto.
        * left. exists s2'. split; [econstructor; eauto|exact HX'].
      + right. exists u1, (u2 ++ t2), s. now rewrite app_assoc.
  Qed.

  (** undefined behaviour *)
  Lemma wrong_down : forall s s', X s s' -> goes_wrong f' s' -> goes_wrong f s.
  Proof.
    intros s s' [l k r m Hl|o m|p h r m k' r' HI He] HW.
    - destruct k as [|[x e|x p es] k]; [|exact HW|exact HW]. cbn in HW. destruct HW as (b' & Hb' & HW).
      destruct (new_inv l b' Hb') as [(b & Hb & ->)|(p & h & _ & -> & _)]; [|destruct Hl]. exists b. split; [exact Hb|].
      cbn [bterm split_block] in HW. destruct (bterm b) as [[e|]|l0|e l1 l2|e d cases|x p es n u|e|] eqn:Et; cbn [map_succs] in HW; try exact HW.
      + apply (jump_none l b l0 r Hb); [rewrite Et; now left|exact HW].
      + destruct (evS r e) as [v|]; [|exact Logic.I]. apply (jump_none l b _ r Hb); [rewrite Et; cbn; destruct (veq v one); auto|].
        destruct (veq v one); exact HW.
      + destruct (evS r e) as [v|]; [|exact Logic.I]. apply (jump_none l b _ r Hb); [rewrite Et; apply select_in|].
        rewrite select_map in HW. exact HW.
      + destruct (evals evS r es) as [vs|]; [|exact Logic.I]. destruct HW as (evs & v & w & m' & H1 & H2). exists evs, v, w, m'. split; [exact H1|].
        apply (jump_none l b _ _ Hb); [rewrite Et; cbn; destruct w; auto|]. destruct w; exact H2.
    - destruct HW.
    - destruct HW as (b' & Hb' & HW). rewrite (new_fwd p h HI) in Hb'. injection Hb' as <-. cbn in HW.
      rewrite enter_fwd2, He in HW by exact HI. discriminate.
  Qed.
  Lemma enter_none_up : forall l b s r m, block_of f l = Some b -> In s (succs (bterm b)) -> enter evS f l s r = None ->
    enter evS f' l (ret D l s) r = None \/
    (enter evS f' l (ret D l s) r = Some ([], r) /\ goes_wrong f' (LRun (ret D l s) [] r m)).
  Proof.
    intros l b s r m Hb Hs He. unfold ret. pose proof (blk_of _ _ Hb) as Hl. pose proof (blk_succ _ _ _ Hb Hs) as Hbs.
    destruct (mem D l s) eqn:Em.
    - apply mem_in in Em. right. split; [now apply enter_fwd1|]. cbn. exists (Block [] [] (TBr s)). split; [now apply new_fwd|]. cbn.
      now rewrite enter_fwd2.
    - left. rewrite enter_direct; auto. intros HI. apply mem_in in HI. congruence.
  Qed.
  Lemma wrong_up : forall s, X s s -> goes_wrong f s -> exists t s', lsteps f' s t s' /\ goes_wrong f' s'.
  Proof.
    intros s HX HW.
    assert (forall s, goes_wrong f' s -> exists t s', lsteps f' s t s' /\ goes_wrong f' s') as H0.
    { intros s0 H0. exists [], s0. split; [constructor|exact H0]. }
    assert (forall s evs s1, lstep f' s evs s1 -> goes_wrong f' s1 -> exists t s', lsteps f' s t s' /\ goes_wrong f' s') as H1.
    { intros s0 evs s1 Hs Hw. exists evs, s1. split; [|exact Hw]. change evs with ([] ++ evs). econstructor; [constructor|exact Hs]. }
    destruct s as [l k r m|o m]; [|destruct HW].
    assert (is_blk l) as Hl by (inversion HX; subst; [assumption|match goal with H : In _ D |- _ => destruct (edge_blk _ _ (HD _ _ H)); assumption end]).
    destruct k as [|[x e|x p es] k]; [|apply H0; exact HW|apply H0; exact HW].
    destruct HW as (b & Hb & HW). pose proof (new_block _ _ Hb) as Hb'.
    assert (bterm (split_block D D l b) = map_succs (ret D l) (bterm b)) as Ht' by reflexivity.
    destruct (bterm b) as [[e|]|l0|e l1 l2|e d cases|x p es n u|e|] eqn:Et; cbn [map_succs] in Ht'.
    - apply H0. exists (split_block D D l b). split; [exact Hb'|]. rewrite Ht'. exact HW.
    - destruct HW.
    - destruct (enter_none_up l b l0 r m Hb ltac:(rewrite Et; now left) HW) as [Hn|[Hs Hw]].
      + apply H0. exists (split_block D D l b). split; [exact Hb'|]. rewrite Ht'. exact Hn.
      + eapply H1; [|exact Hw]. eapply L_br; eauto.
    - destruct (evS r e) as [v|] eqn:Eve.
      + assert (ret D l (if veq v one then l1 else l2) = if veq v one then ret D l l1 else ret D l l2) as Eq by now destruct (veq v one).
        destruct (enter_none_up l b (if veq v one then l1 else l2) r m Hb ltac:(rewrite Et; cbn; destruct (veq v one); auto) HW) as [Hn|[Hs Hw]]; rewrite Eq in *.
        * apply H0. exists (split_block D D l b). split; [exact Hb'|]. rewrite Ht', Eve. exact Hn.
        * eapply H1; [|exact Hw]. eapply L_cond; eauto.
      + apply H0. exists (split_block D D l b). split; [exact Hb'|]. now rewrite Ht', Eve.
    - destruct (evS r e) as [v|] eqn:Eve.
      + destruct (enter_none_up l b (select_case veq v d cases) r m Hb ltac:(rewrite Et; apply select_in) HW) as [Hn|[Hs Hw]]; rewrite <- select_map in *.
        * apply H0. exists (split_block D D l b). split; [exact Hb'|]. rewrite Ht', Eve. exact Hn.
        * eapply H1; [|exact Hw]. eapply L_switch; eauto.
      + apply H0. exists (split_block D D l b). split; [exact Hb'|]. now rewrite Ht', Eve.
    - destruct (evals evS r es) as [vs|] eqn:Eve.
      + destruct HW as (evs & v & w & m' & Hi & He).
        assert (ret D l (if w then u else n) = if w then ret D l u else ret D l n) as Eq by now destruct w.
        destruct (enter_none_up l b (if w then u else n) (updo r x v) m' Hb ltac:(rewrite Et; cbn; destruct w; auto) He) as [Hn|[Hs Hw]]; rewrite Eq in *.
        * apply H0. exists (split_block D D l b). split; [exact Hb'|]. rewrite Ht', Eve. exists evs, v, w, m'. auto.
        * eapply H1; [|exact Hw]. eapply L_invoke; eauto.
      + apply H0. exists (split_block D D l b). split; [exact Hb'|]. now rewrite Ht', Eve.
    - apply H0. exists (split_block D D l b). split; [exact Hb'|]. rewrite Ht'. exact HW.
    - apply H0. exists (split_block D D l b). split; [exact Hb'|]. now rewrite Ht'.
  Qed.

  Lemma start_same : forall args m s0, lstart f args m = Some s0 -> lstart f' args m = Some s0 /\ X s0 s0.
  Proof.
    intros args m s0 H. unfold lstart in *. cbn [entry split params].
    destruct (block_of f (entry f)) as [b|] eqn:Eb; [|discriminate]. injection H as <-. rewrite (new_block _ _ Eb). split; [reflexivity|].
    constructor. eapply blk_of; eauto.
  Qed.
  Lemma start_same' : forall args (m : M) s0, lstart f' args m = Some s0 -> lstart f args m = Some s0.
  Proof.
    intros args m s0 H. destruct (ssa_entry _ _ Hssa) as (b & Hb & _).
    assert (exists s, lstart f args m = Some s) as (s & Hs) by (unfold lstart; rewrite Hb; eauto).
    destruct (start_same args m s Hs) as [H1 _]. congruence.
  Qed.
  Lemma done_before : forall s0 t s, lsteps f s0 t s -> (exists l k r m, s0 = LRun l k r m) ->
    exists s', lsteps f s0 t s' /\ result s' = None.
  Proof.
    intros s0 t s H. induction H as [s|s1 t1 s2 t2 s3 H1 IH H2]; intros (l & k & r & m & Hs).
    - exists s. split; [constructor|]. now subst.
    - destruct s3 as [l3 k3 r3 m3|o3 m3].
      + eexists. split; [econstructor; [exact H1|exact H2]|reflexivity].
      + assert (t2 = []) as -> by (inversion H2; reflexivity). rewrite app_nil_r. apply IH. subst. now exists l, k, r, m.
  Qed.

  Theorem split_forward : forall args m t o, behaves evS prim inv one veq f args m t o -> behaves evS prim inv one veq f' args m t o.
  Proof.
    intros args m t o (s0 & s & H1 & H2 & H3). destruct (start_same _ _ _ H1) as [H4 HX].
    exists s0, s. split; [exact H4|]. split; [now apply fwd_steps|exact H3].
  Qed.
  Theorem split_backward : forall args m t o, behaves evS prim inv one veq f' args m t o ->
    behaves evS prim inv one veq f args m t o \/ exists t1 t2, t = t1 ++ t2 /\ undefined_after evS prim inv one veq f args m t1.
  Proof.
    intros args m t o (s0 & s & H1 & H2 & H3). pose proof (start_same' _ _ _ H1) as H4. destruct (start_same _ _ _ H4) as [_ HX].
    destruct (back_steps _ _ _ H2 _ HX) as [(s1 & HS & HX1)|(t1 & t2 & s1 & -> & HS & HW)].
    - left. exists s0, s1. split; [exact H4|]. split; [exact HS|]. rewrite <- H3. destruct HX1; reflexivity.
    - right. exists t1, t2. split; [reflexivity|]. exists s0, s1. auto.
  Qed.
  Theorem split_ub_forward : forall args m t, undefined_after evS prim inv one veq f args m t ->
    exists t', undefined_after evS prim inv one veq f' args m (t ++ t').
  Proof.
    intros args m t (s0 & s & H1 & H2 & HW). destruct (start_same _ _ _ H1) as [H4 HX]. destruct (fwd_steps _ _ _ H2 HX) as [HS HXs].
    destruct (wrong_up s HXs HW) as (t' & s' & HS' & HW'). exists t', s0, s'. split; [exact H4|]. split; [|exact HW'].
    clear - HS HS'. revert t HS. induction HS' as [s|s1 t1 s2 t2 s3 HA IH HB]; intros t HS; [now rewrite app_nil_r|].
    rewrite app_assoc. econstructor; [apply IH; exact HS|exact HB].
  Qed.
  Theorem split_ub_backward : forall args m t, undefined_after evS prim inv one veq f' args m t ->
    exists t1 t2, t = t1 ++ t2 /\ undefined_after evS prim inv one veq f args m t1.
  Proof.
    intros args m t (s0 & s & H1 & H2 & HW). pose proof (start_same' _ _ _ H1) as H4. destruct (start_same _ _ _ H4) as [_ HX].
    destruct (back_steps _ _ _ H2 _ HX) as [(s1 & HS & HX1)|(t1 & t2 & s1 & -> & HS & HW1)].
    - exists t, []. split; [now rewrite app_nil_r|]. exists s0, s1. split; [exact H4|]. split; [exact HS|]. eapply wrong_down; eauto.
    - exists t1, t2. split; [reflexivity|]. exists s0, s1. auto.
  Qed.
End Sim.
