From Coq Require Import List String Bool Arith Lia.
From Verif.Spec Require Import CFG.
From Verif.Model Require Import NormalizeLoops AnnotateLoopExits.
From Verif.Proofs Require Import CFGBase.
Import ListNotations.

Section LoopExits.
  Context {V E P : Type} (le : P).
  Notation func := (func V E P).
  Notation block := (block V E P).

  (** [n] checks in front of a block *)
  Definition checked (n : nat) (b : block) : block := Block (phis b) (repeat (SPrim None le []) n ++ body b) (bterm b).
  (** [f'] is [f] with [c l] checks in front of [l]. *)
  Definition with_checks (f : func) (c : label -> nat) (f' : func) : Prop :=
    params f' = params f /\ entry f' = entry f /\
    blocks f' = map (fun lb => (fst lb, checked (c (fst lb)) (snd lb))) (blocks f).

  Lemma wc_block : forall f c f' l, with_checks f c f' -> block_of f' l = option_map (checked (c l)) (block_of f l).
  Proof.
    intros f c f' l (_ & _ & H). unfold block_of. rewrite H. clear H. induction (blocks f) as [|[l' b] bs IH]; [reflexivity|]. cbn.
    destruct (label_eqb_spec l l') as [->|]; [reflexivity|exact IH].
  Qed.
  Lemma wc_refl : forall f, with_checks f (fun _ => 0) f.
  Proof.
    intros f. split; [reflexivity|]. split; [reflexivity|]. symmetry. rewrite <- map_id. apply map_ext. intros [l []]. reflexivity.
  Qed.
  Lemma wc_exit : forall f c f' l, with_checks f c f' ->
    with_checks f (fun x => (if label_eqb l x then 1 else 0) + c x) (processExitBlock le f' l).
  Proof.
    intros f c f' l (H1 & H2 & H3). split; [exact H1|]. split; [exact H2|]. cbn. rewrite H3, map_map. apply map_ext.
    intros [l' b]. cbn. destruct (label_eqb l l'); reflexivity.
  Qed.
  Lemma exits_same : forall f c f' bs, with_checks f c f' -> getExitBlocks f' bs = getExitBlocks f bs.
  Proof.
    intros f c f' bs H. unfold getExitBlocks. apply flat_map_ext. intros p. rewrite (wc_block f c f' p H).
    destruct (block_of f p); reflexivity.
  Qed.
  Fixpoint count (l : label) (ls : list label) : nat :=
    match ls with [] => 0 | x :: ls' => (if label_eqb x l then 1 else 0) + count l ls' end.
  Lemma wc_fold : forall ls f c f', with_checks f c f' ->
    with_checks f (fun x => count x ls + c x) (fold_left (processExitBlock le) ls f').
  Proof.
    induction ls as [|l ls IH]; intros f c f' H; [exact H|]. cbn [fold_left].
    specialize (IH _ _ _ (wc_exit f c f' l H)). destruct IH as (A & B & C). split; [exact A|]. split; [exact B|]. rewrite C.
    apply map_ext. intros [l' b]. cbn. do 2 f_equal. cbn. lia.
  Qed.
  Definition loop_blocks (lp : loop) : list label := match lp with Loop _ bs _ => bs end.
  Definition exits (f : func) (loops : list loop) : list label := flat_map (fun lp => getExitBlocks f (loop_blocks lp)) loops.
  Lemma count_app : forall l a b, count l (a ++ b) = count l a + count l b.
  Proof. induction a; intros; cbn; [reflexivity|]. rewrite IHa. lia. Qed.
  Lemma count_in : forall l ls, 0 < count l ls <-> In l ls.
  Proof.
    induction ls as [|x ls IH]; cbn; [split; [lia|tauto]|]. destruct (label_eqb_spec x l) as [->|N].
    - split; [now left|lia].
    - rewrite <- IH. split; [intros; right; lia|intros [?|?]; [contradiction|lia]].
  Qed.
  Lemma annotate_wc : forall loops f c f', with_checks f c f' ->
    with_checks f (fun x => count x (exits f loops) + c x) (fold_left (annotateLoopExit le) loops f').
  Proof.
    induction loops as [|[h bs subs] loops IH]; intros f c f' H; [exact H|]. cbn [fold_left annotateLoopExit].
    rewrite (exits_same f c f' bs H). specialize (IH _ _ _ (wc_fold (getExitBlocks f bs) f c f' H)).
    destruct IH as (A & B & C). split; [exact A|]. split; [exact B|]. rewrite C. apply map_ext. intros [l' b]. cbn [fst snd].
    f_equal. f_equal. unfold exits. cbn [flat_map loop_blocks]. rewrite count_app. lia.
  Qed.
  Theorem annotate_blocks : forall f loops l,
    block_of (annotateLoopExits le f loops) l = option_map (checked (count l (exits f loops))) (block_of f l).
  Proof.
    intros f loops l. unfold annotateLoopExits. rewrite (wc_block f _ _ l (annotate_wc loops f _ f (wc_refl f))). rewrite Nat.add_0_r. reflexivity.
  Qed.
  Lemma in_exits : forall f loops l, In l (exits f loops) <->
    exists h bs subs p, In (Loop h bs subs) loops /\ In p bs /\ ~ In l bs /\ edge f p l.
  Proof.
    intros f loops l. unfold exits. rewrite in_flat_map. split.
    - intros ([h bs subs] & HI & H). cbn in H. unfold getExitBlocks in H. apply in_flat_map in H. destruct H as (p & Hp & H).
      destruct (block_of f p) as [b|] eqn:Eb; [|destruct H]. apply filter_In in H. destruct H as [H1 H2].
      exists h, bs, subs, p. split; [exact HI|]. split; [exact Hp|]. split; [|exists b; auto].
      intro Hin. apply negb_true_iff in H2. assert (existsb (label_eqb l) bs = true) as X; [|congruence].
      apply existsb_exists. exists l. split; [exact Hin|apply label_eqb_refl].
    - intros (h & bs & subs & p & HI & Hp & Hn & b & Hb & Hs). exists (Loop h bs subs). split; [exact HI|]. cbn.
      apply in_flat_map. exists p. split; [exact Hp|]. rewrite Hb. apply filter_In. split; [exact Hs|].
      apply negb_true_iff. destruct (existsb (label_eqb l) bs) eqn:X; [|reflexivity]. apply existsb_exists in X.
      destruct X as (y & Y1 & Y2). destruct (label_eqb_spec l y); [subst; contradiction|discriminate].
  Qed.

  (** steps between blocks follow edges *)
  Section Steps.
    Context {M O : Type} (evS : (string -> option V) -> E -> option V)
            (prim : P -> list V -> M -> list O -> V -> M -> Prop)
            (inv : P -> list V -> M -> list O -> V -> bool -> M -> Prop) (one : V) (veq : V -> V -> bool).
    Lemma select_in : forall v d (cs : list (V * label)), In (select_case veq v d cs) (d :: map snd cs).
    Proof.
      intros v d cs. induction cs as [|[c l] cs IH]; cbn; [now left|]. destruct (veq v c); [right; now left|].
      destruct IH as [<-|IH]; [now left|right; now right].
    Qed.
    Lemma step_edge : forall (f : func) p r m t l k r' m',
      lstep evS prim inv one veq f (LRun p [] r m) t (LRun l k r' m') ->
      edge f p l /\ exists b, block_of f l = Some b /\ k = body b.
    Proof.
      assert (EN : forall (f : func) p l r k r', enter evS f p l r = Some (k, r') -> exists b, block_of f l = Some b /\ k = body b).
      { intros f p l r k r' H. unfold enter in H. destruct (block_of f l) as [b|]; [|discriminate].
        destruct (phi_values _ _ _ _); [|discriminate]. injection H as <- <-. eauto. }
      intros f p r m t l k r' m' H. inversion H; subst;
        (split; [|eapply EN; eassumption]); eexists; (split; [eassumption|]);
        match goal with X : bterm _ = _ |- _ => rewrite X end; cbn.
      - now left.
      - destruct (veq v one); [now left|right; now left].
      - apply select_in.
      - destruct unwinds; [right; now left|now left].
    Qed.
    Lemma annotate_edge : forall (f : func) loops p l, edge (annotateLoopExits le f loops) p l <-> edge f p l.
    Proof.
      intros f loops p l. unfold edge. rewrite annotate_blocks. split.
      - intros (b & Hb & Hs). destruct (block_of f p) as [b0|]; [|discriminate]. injection Hb as <-. eauto.
      - intros (b & Hb & Hs). rewrite Hb. eexists. split; [reflexivity|exact Hs].
    Qed.
    Theorem leaving_checked : forall (f : func) loops h bs subs p l r m t k r' m',
      In (Loop h bs subs) loops -> In p bs -> ~ In l bs ->
      lstep evS prim inv one veq (annotateLoopExits le f loops) (LRun p [] r m) t (LRun l k r' m') ->
      exists k', k = SPrim None le [] :: k'.
    Proof.
      intros f loops h bs subs p l r m t k r' m' H1 H2 H3 H. apply step_edge in H. destruct H as [He (b & Hb & ->)].
      apply (proj1 (annotate_edge f loops p l)) in He. rewrite annotate_blocks in Hb. destruct (block_of f l) as [b0|]; [|discriminate]. injection Hb as <-.
      assert (0 < count l (exits f loops)) as HC by (apply count_in; apply in_exits; exists h, bs, subs, p; auto).
      destruct (count l (exits f loops)) as [|n]; [lia|]. cbn. eauto.
    Qed.
    Theorem other_unchecked : forall (f : func) loops l b, block_of f l = Some b ->
      exists n, block_of (annotateLoopExits le f loops) l = Some (Block (phis b) (repeat (SPrim None le []) n ++ body b) (bterm b)) /\
        (0 < n <-> exists h bs subs p, In (Loop h bs subs) loops /\ In p bs /\ ~ In l bs /\ edge f p l).
    Proof.
      intros f loops l b Hb. exists (count l (exits f loops)). rewrite annotate_blocks, Hb. split; [reflexivity|].
      rewrite count_in. apply in_exits.
    Qed.
    (** exits entered from one loop only (LoopSimplify), a step that is no loop
        exit is the step it was *)
    Theorem inside_unchanged : forall (f : func) loops p l r m t k r' m',
      (forall q, In l (exits f loops) -> edge f q l -> exists h bs subs, In (Loop h bs subs) loops /\ In q bs /\ ~ In l bs) ->
      (forall h bs subs, In (Loop h bs subs) loops -> In p bs -> In l bs) ->
      lstep evS prim inv one veq (annotateLoopExits le f loops) (LRun p [] r m) t (LRun l k r' m') ->
      exists b, block_of f l = Some b /\ k = body b.
    Proof.
      intros f loops p l r m t k r' m' HD Hin H. apply step_edge in H. destruct H as [He (b & Hb & ->)].
      apply (proj1 (annotate_edge f loops p l)) in He. rewrite annotate_blocks in Hb. destruct (block_of f l) as [b0|]; [|discriminate]. injection Hb as <-.
      destruct (count l (exits f loops)) as [|n] eqn:Ec; [exists b0; auto|]. exfalso.
      assert (In l (exits f loops)) as HI by (apply count_in; lia).
      destruct (HD p HI He) as (h & bs & subs & A & B & C). exact (C (Hin h bs subs A B)).
    Qed.
  End Steps.
End LoopExits.

(** 0 -> 1; 1 -> 2 or 3; 2 -> 2 or 1; 3: return.  Loops {1,2} and, inside, {2}. *)
Definition nested : func nat nat string := Func [] (Blk 0)
  [ (Blk 0, Block [] [] (TBr (Blk 1)));
    (Blk 1, Block [] [] (TCond 0 (Blk 2) (Blk 3)));
    (Blk 2, Block [] [] (TCond 0 (Blk 2) (Blk 1)));
    (Blk 3, Block [] [] (TRet None)) ].
Definition nested_loops : list loop := [Loop (Blk 1) [Blk 1; Blk 2] [Loop (Blk 2) [Blk 2] []]].
