(** Whole programs and the overflow pass. *)
From Coq Require Import ZArith List String Bool Lia.
From Verif.Spec Require Import LLVMInt IR CFG BitVectorIR Program OverflowProgram.
From Verif.Model Require Import Boogie PreludeInt NormalizeLoops OverflowProgram.
From Verif.Proofs Require Import CFGBase OverflowPass OverflowSim.
Import ListNotations.
Open Scope list_scope.
Open Scope Z_scope.

Lemma find_overflow : forall sc p f, find_fn (overflow_pass sc p) f = option_map (overflow_fn (sc f)) (find_ofn p f).
Proof.
  intros sc p f. induction p as [|[g F] p IH]; [reflexivity|]. cbn. destruct (String.eqb_spec f g) as [->|_]; [reflexivity|exact IH].
Qed.
Lemma find_ofn_in : forall p f F, find_ofn p f = Some F -> In (f, F) p.
Proof.
  induction p as [|[g G] p IH]; intros f F H; cbn in *; [discriminate|]. destruct (String.eqb_spec f g) as [->|_]; [injection H as ->; now left|right; auto].
Qed.
Lemma pass_well_formed : forall sc p, owell_formed source_name p -> well_formed (overflow_pass sc p).
Proof.
  intros sc p [H1 H2 H3 H4 H5].
  assert (forall f F', In (f, F') (overflow_pass sc p) -> exists F, In (f, F) p /\ F' = overflow_fn (sc f) F) as Hin.
  { intros f F' H. apply in_map_iff in H as ([g F] & E & H). injection E as <- <-. eauto. }
  split; intros f F' H; destruct (Hin f F' H) as (F & HF & ->); specialize (H5 f F HF); cbn.
  - apply (overflow_ssa _ _ (sc f) _ H5). eauto.
  - apply (overflow_lowered _ _ (sc f)). eauto.
  - apply (overflow_original _ _ (sc f)). eauto.
  - apply (overflow_forest _ _ (sc f)). eauto.
Qed.

Section Whole.
  Context (reported : string -> bool) (p : oprogram) (Hwf : owell_formed source_name p).
  Notation p' := (overflow_pass reported p).
  Lemma start_match : forall ck F args m s0, fn_ok source_name (owidths F) (opairs F) (ocode F) -> lstart (ocode F) args m = Some s0 ->
    exists s0', lstart (visit_func (owidths F) (opairs F) ck (ocode F)) args m = Some s0' /\ matches (owidths F) (opairs F) ck s0 s0'.
  Proof.
    intros ck F args m s0 Hok H. unfold lstart in *. cbn [visit_func entry params]. rewrite (oblock_visit (owidths F) (opairs F) ck (ocode F)).
    destruct (block_of (ocode F) (entry (ocode F))) as [b|] eqn:Eb; [|discriminate]. injection H as <-. eexists. split; [reflexivity|].
    cbn [visit_block body]. constructor; [apply (block_good _ _ _ Hok _ _ Eb)|]. apply INV_upds.
    - split; [reflexivity|]. intros d n _. cbn. auto.
    - intros x v Hin. apply in_combine_l in Hin. exact (fn_params _ _ _ _ Hok x Hin).
  Qed.
  Lemma start_back : forall ck F args m s0', lstart (visit_func (owidths F) (opairs F) ck (ocode F)) args m = Some s0' ->
    exists s0 : lstate val oexp mem oop, lstart (ocode F) args m = Some s0.
  Proof.
    intros ck F args m s0' H. unfold lstart in *. cbn [visit_func entry params] in H. rewrite (oblock_visit (owidths F) (opairs F) ck (ocode F)) in H.
    destruct (block_of (ocode F) (entry (ocode F))) as [b|]; [|discriminate]. eauto.
  Qed.
  Definition forward (call1 : string -> oeffect) (call2 : string -> effect) : Prop := forall g vs m t v m', call1 g vs m t v m' ->
    (t = [] -> call2 g vs m [] v m') /\ (forall e t0, t = e :: t0 -> forall v m', call2 g vs m [emap e] v m').
  Definition backward (call1 : string -> oeffect) (call2 : string -> effect) : Prop := forall g vs m t v m', call2 g vs m t v m' ->
    (t = [] -> call1 g vs m [] v m' \/ forall v m', call1 g vs m [OUndefined] v m') /\
    (forall e' t0, t = e' :: t0 -> exists e, (emap e = e' \/ e = OUndefined) /\ forall v m', call1 g vs m [e] v m').
  Lemma calls_match : forall n, forward (ocalls reported p n) (calls p' n) /\ backward (ocalls reported p n) (calls p' n).
  Proof.
    induction n as [|n [IHf IHb]]; [split; intros ? ? ? ? ? ? []|]. split.
    - intros f args m t v m' (F & Hf & Hlen & H). pose proof (ow_typed _ _ Hwf f F (find_ofn_in _ _ _ Hf)) as Hok.
      assert (find_fn p' f = Some (overflow_fn (reported f) F)) as Hf' by (now rewrite find_overflow, Hf).
      assert (forall s0 e t0 s, lstart (ocode F) args m = Some s0 ->
        lsteps (oexp_den (owidths F)) (exec_oop (reported f) (ocalls reported p n)) no_oinvoke bv_true bv_eq (ocode F) s0 (e :: t0) s ->
        forall v m', calls p' (S n) f args m [emap e] v m') as Hev.
      { intros s0 e t0 s Hs0 Hs v1 m1. exists (overflow_fn (reported f) F). split; [exact Hf'|]. split; [exact Hlen|]. right. left.
        destruct (start_match (reported f) F args m s0 Hok Hs0) as (s0' & Hs0' & Hm).
        destruct (event_fwd _ _ (reported f) _ Hok (ocalls reported p n) (calls p' n) IHf _ _ _ _ _ Hs Hm) as (s1' & H1 & H2).
        split; [exists s0', s1'; auto|]. destruct e; cbn; auto. }
      destruct H as [(r & (s0 & s & Hs0 & Hs & Hr) & Hv)|[[(s0 & s & Hs0 & Hs & Hr) Ht]|(t0 & -> & s0 & s & Hs0 & Hs & Hw)]].
      + split; [|intros e t0 ->; eauto]. intros ->. exists (overflow_fn (reported f) F). split; [exact Hf'|]. split; [exact Hlen|]. left. exists r. split; [|exact Hv].
        destruct (start_match (reported f) F args m s0 Hok Hs0) as (s0' & Hs0' & Hm).
        destruct (steps_fwd _ _ (reported f) _ Hok (ocalls reported p n) (calls p' n) IHf _ _ Hs _ Hm) as (s1' & H1 & Hm1).
        exists s0', s1'. split; [exact Hs0'|]. split; [exact H1|]. destruct Hm1; [discriminate|exact Hr].
      + split; [intros ->; destruct (Ht eq_refl)|]. intros e t0 ->. eauto.
      + destruct t0 as [|e0 t0]; [|split; [discriminate|intros e t1 E; cbn in E; injection E as <- _; eauto]].
        split; [discriminate|]. intros e t1 E v1 m1. cbn in E. injection E as <- _. cbn [emap].
        exists (overflow_fn (reported f) F). split; [exact Hf'|]. split; [exact Hlen|]. right. right. exists []. split; [reflexivity|].
        destruct (start_match (reported f) F args m s0 Hok Hs0) as (s0' & Hs0' & Hm).
        destruct (steps_fwd _ _ (reported f) _ Hok (ocalls reported p n) (calls p' n) IHf _ _ Hs _ Hm) as (s1' & H1 & Hm1).
        destruct (wrong_fwd _ _ (reported f) _ Hok (calls p' n) _ _ Hm1 Hw) as (s2' & H2 & Hw2).
        exists s0', s2'. split; [exact Hs0'|]. split; [exact (steps_app _ _ _ _ _ [] _ [] _ H1 H2)|exact Hw2].
    - intros f args m t v m' (F' & Hf & Hlen & H). rewrite find_overflow in Hf. destruct (find_ofn p f) as [F|] eqn:EF; [|discriminate]. injection Hf as <-.
      pose proof (ow_typed _ _ Hwf f F (find_ofn_in _ _ _ EF)) as Hok.
      assert (forall (s0' s' : lstate val (typed (widths_after (owidths F) (opairs F)) width_ok) mem op) t, lstart (visit_func (owidths F) (opairs F) (reported f) (ocode F)) args m = Some s0' ->
        lsteps (typed_den (widths_after (owidths F) (opairs F)) width_ok) (exec_op (calls p' n)) no_invoke bv_true bv_eq (visit_func (owidths F) (opairs F) (reported f) (ocode F)) s0' t s' ->
        exists s0, lstart (ocode F) args m = Some s0 /\
          explained (owidths F) (opairs F) (reported f) (ocode F) (ocalls reported p n) s0 t s') as Hex.
      { intros s0' s' t1 Hs0' Hs. destruct (start_back _ _ _ _ _ Hs0') as [s0 Hs0]. exists s0. split; [exact Hs0|].
        destruct (start_match (reported f) F args m s0 Hok Hs0) as (s1' & E & Hm). rewrite Hs0' in E. injection E as <-.
        destruct (steps_count _ _ _ _ _ _ _ Hs) as [N HN].
        exact (steps_bwd _ _ (reported f) _ Hok (ocalls reported p n) (calls p' n) IHb (S N) N ltac:(lia) _ _ _ _ Hm HN). }
      assert (forall s0, lstart (ocode F) args m = Some s0 -> undefined_from (owidths F) (reported f) (ocode F) (ocalls reported p n) s0 ->
        forall v m', ocalls reported p (S n) f args m [OUndefined] v m') as Hund.
      { intros s0 Hs0 [(s1 & H1 & H2)|(s1 & H1 & H2)] v1 m1; exists F; (split; [exact EF|]); (split; [exact Hlen|]); right.
        - right. exists []. split; [reflexivity|]. exists s0, s1. auto.
        - left. split; [exists s0, s1; auto|discriminate]. }
      assert (forall s0' s' e' t0, lstart (visit_func (owidths F) (opairs F) (reported f) (ocode F)) args m = Some s0' ->
        lsteps (typed_den (widths_after (owidths F) (opairs F)) width_ok) (exec_op (calls p' n)) no_invoke bv_true bv_eq (visit_func (owidths F) (opairs F) (reported f) (ocode F)) s0' (e' :: t0) s' ->
        exists e, (emap e = e' \/ e = OUndefined) /\ forall v m', ocalls reported p (S n) f args m [e] v m') as Hev.
      { intros s0' s' e' t0 Hs0' Hs. destruct (Hex _ _ _ Hs0' Hs) as (s0 & Hs0 & [Hu|(e & s1 & He & H1 & H2)]).
        - exists OUndefined. split; [auto|]. exact (Hund s0 Hs0 Hu).
        - exists e. split; [auto|]. intros v1 m1. exists F. split; [exact EF|]. split; [exact Hlen|]. right. left. split; [exists s0, s1; auto|discriminate]. }
      destruct H as [(r & (s0 & s & Hs0 & Hs & Hr) & Hv)|[[(s0 & s & Hs0 & Hs & Hr) Ht]|(t0 & -> & s0 & s & Hs0 & Hs & Hw)]].
      + split; [|intros e t0 ->; eauto]. intros ->. destruct (Hex _ _ _ Hs0 Hs) as (s1 & Hs1 & [Hu|[H1 _]]); [right; exact (Hund s1 Hs1 Hu)|].
        left. exists F. split; [exact EF|]. split; [exact Hlen|]. left. exists r. split; [|exact Hv]. destruct s as [|o m2]; [discriminate|]. cbn in Hr. injection Hr as -> ->.
        exists s1. eexists. split; [exact Hs1|]. split; [apply H1; reflexivity|reflexivity].
      + split; [intros ->; destruct Ht as [[]|[]]|]. intros e t0 ->. eauto.
      + destruct t0 as [|e0 t0]; [|split; [discriminate|intros e t1 E; cbn in E; injection E as <- _; eauto]].
        split; [discriminate|]. intros e t1 E. cbn in E. injection E as <- _. exists OUndefined. split; [auto|].
        destruct (Hex _ _ _ Hs0 Hs) as (s1 & Hs1 & [Hu|[_ H1]]); [exact (Hund s1 Hs1 Hu)|]. destruct (H1 Hw).
  Qed.

  Lemma only_event : forall t, ~ In Failed t -> ~ In Undefined t -> t = [].
  Proof. intros [|[] t] H1 H2; [reflexivity|destruct H1; now left|destruct H2; now left]. Qed.
  Lemma wrong_kept : forall e f args m, can_get_to reported p e f args m ->
    match e with OUndefined => can_be_undefined p' f args m | _ => can_fail p' f args m end.
  Proof.
    intros e f args m (n & v & m' & H). destruct (calls_match n) as [Hf _]. pose proof (proj2 (Hf _ _ _ _ _ _ H) e [] eq_refl v m') as H1.
    destruct e; exists n, [], v, m'; (split; [exact H1|split; intros []]).
  Qed.
  Lemma fail_real : forall f args m, can_fail p' f args m ->
    can_get_to reported p Overflow f args m \/ can_get_to reported p OFailed f args m \/ can_get_to reported p OUndefined f args m.
  Proof.
    intros f args m (n & t & v & m' & H & H1 & H2). rewrite (only_event t H1 H2) in H. destruct (calls_match n) as [_ Hb].
    destruct (proj2 (Hb _ _ _ _ _ _ H) Failed [] eq_refl) as (e & He & Hc).
    assert (can_get_to reported p e f args m) as Hg by (exists n, v, m'; apply Hc). destruct e; auto.
  Qed.
  Lemma undefined_real : forall f args m, can_be_undefined p' f args m -> can_get_to reported p OUndefined f args m.
  Proof.
    intros f args m (n & t & v & m' & H & H1 & H2). rewrite (only_event t H1 H2) in H. destruct (calls_match n) as [_ Hb].
    destruct (proj2 (Hb _ _ _ _ _ _ H) Undefined [] eq_refl) as (e & He & Hc). exists n, v, m'. destruct He as [He|He]; [destruct e; try discriminate|subst e]; apply Hc.
  Qed.
  Lemma return_kept : forall f args m v m', ocan_return reported p f args m v m' -> can_return p' f args m v m'.
  Proof. intros f args m v m' (n & H). exists n. exact (proj1 (proj1 (calls_match n) _ _ _ _ _ _ H) eq_refl). Qed.
  Lemma return_real : forall f args m v m', can_return p' f args m v m' -> ocan_return reported p f args m v m' \/ can_get_to reported p OUndefined f args m.
  Proof.
    intros f args m v m' (n & H). destruct (proj1 (proj2 (calls_match n) _ _ _ _ _ _ H) eq_refl) as [H1|H1]; [left; now exists n|right]. exists n, v, m'. apply H1.
  Qed.
End Whole.

(** ** Unreported overflows *)
Lemma no_overflow_steps : forall W (call : string -> oeffect) f s t s', (forall g vs m t v m', call g vs m t v m' -> ~ In Overflow t) ->
  lsteps (oexp_den W) (exec_oop false call) no_oinvoke bv_true bv_eq f s t s' -> ~ In Overflow t.
Proof.
  intros W call f s t s' Hc H. induction H as [s|s1 t1 s2 t2 s3 H IH Hs]; [intros []|]. rewrite in_app_iff. intros [Hi|Hi]; [auto|]. revert Hi.
  inversion Hs; subst; try (intros []); match goal with H : exec_oop _ _ _ _ _ _ _ _ |- _ => inversion H; subst | H : no_oinvoke _ _ _ _ _ _ _ |- _ => destruct H end.
  - rewrite in_map_iff. intros ([] & E & _); discriminate.
  - eapply Hc; eassumption.
  - intros [].
  - discriminate.
  - discriminate.
Qed.
Lemma no_overflow_calls : forall reported p n, (forall f, reported f = false) -> forall f args m t v m', ocalls reported p n f args m t v m' -> ~ In Overflow t.
Proof.
  intros reported p n Hr. induction n as [|n IH]; intros f args m t v m' H; [destruct H|].
  destruct H as (F & _ & _ & [(r & (s0 & s & _ & H & _) & _)|[[(s0 & s & _ & H & _) _]|(t0 & -> & s0 & s & _ & H & _)]]); rewrite Hr in H.
  - exact (no_overflow_steps _ _ _ _ _ _ IH H).
  - exact (no_overflow_steps _ _ _ _ _ _ IH H).
  - rewrite in_app_iff. intros [Hi|[Hi|[]]]; [exact (no_overflow_steps _ _ _ _ _ _ IH H Hi)|discriminate].
Qed.

(** ** The loop pass and this one *)
Section Order.
  Context (W P : string -> option Z) (ck : bool).
  Notation V := (visit_func W P ck).
  Lemma update_visit : forall f l g g', (forall b, visit_block W P ck (g b) = g' (visit_block W P ck b)) -> V (update_block f l g) = update_block (V f) l g'.
  Proof.
    intros f l g g' H. unfold update_block, visit_func. cbn. f_equal. rewrite !map_map. apply map_ext. intros [l' b]. cbn. destruct (label_eqb l l'); cbn; [now rewrite H|reflexivity].
  Qed.
  Lemma forward_visit : forall f p h, V (makeForwardingBlock f p h) = makeForwardingBlock (V f) p h.
  Proof. intros f p h. unfold makeForwardingBlock, visit_func. cbn. now rewrite map_app. Qed.
  Lemma map_succs_visit : forall g t, visit_term W P (map_succs g t) = map_succs g (visit_term W P t).
  Proof. intros g []; reflexivity. Qed.
  Lemma split_visit : forall h st p, splitBlock h (V (fst st), snd st) p = (V (fst (splitBlock h st p)), snd (splitBlock h st p)).
  Proof.
    intros h [f bm] p. cbn [fst snd]. unfold splitBlock. rewrite (oblock_visit W P ck f). destruct (block_of f p) as [b|]; cbn [option_map]; [|reflexivity].
    assert (has_successor_indices (bterm (visit_block W P ck b)) h = has_successor_indices (bterm b) h) as ->.
    { unfold has_successor_indices. cbn [visit_block bterm]. now rewrite osuccs_visit. }
    destruct (has_successor_indices (bterm b) h); [|reflexivity]. cbn [fst snd]. f_equal. rewrite <- forward_visit.
    symmetry. apply update_visit. intros b0. unfold visit_block. cbn. now rewrite map_succs_visit.
  Qed.
  Lemma splits_visit : forall h l st, fold_left (splitBlock h) l (V (fst st), snd st) = (V (fst (fold_left (splitBlock h) l st)), snd (fold_left (splitBlock h) l st)).
  Proof.
    intros h. induction l as [|p l IH]; intros st; [reflexivity|]. cbn [fold_left]. rewrite split_visit. apply IH.
  Qed.
  Lemma phiInc_visit : forall f h, phiIncBlocks (V f) h = phiIncBlocks f h.
  Proof.
    intros f h. unfold phiIncBlocks. rewrite (oblock_visit W P ck f). destruct (block_of f h) as [b|]; [|reflexivity]. cbn [option_map visit_block phis]. f_equal.
    induction (phis b) as [|[x inc] ps IH]; [reflexivity|]. cbn. rewrite IH. f_equal. rewrite map_map. reflexivity.
  Qed.
  Lemma loop1_visit : forall f hb, processLoop1 (V f) hb = V (processLoop1 f hb).
  Proof.
    intros f [h bs]. unfold processLoop1. rewrite phiInc_visit.
    pose proof (splits_visit h (filter (fun p => existsb (label_eqb p) bs) (phiIncBlocks f h)) (f, [])) as E. cbn [fst snd] in E. rewrite E.
    destruct (fold_left (splitBlock h) _ (f, [])) as [f1 bm]. cbn [fst snd]. symmetry. apply update_visit. intros b. unfold processPhis, visit_block. cbn. f_equal.
    rewrite !map_map. apply map_ext. intros [x inc]. unfold visit_phi. cbn. f_equal. rewrite !map_map. reflexivity.
  Qed.
  Fixpoint loop_visit (l : loop) : forall f, processLoop (V f) l = V (processLoop f l).
  Proof.
    destruct l as [h bs subs]. intros f. cbn [processLoop]. rewrite loop1_visit. generalize (processLoop1 f (h, bs)).
    induction subs as [|s subs IH]; intros g; [reflexivity|]. cbn [fold_left]. rewrite loop_visit. apply IH.
  Qed.
  Lemma order : forall f ls, runOnFunction (V f) ls = V (runOnFunction f ls).
  Proof.
    intros f ls. unfold runOnFunction. revert f. induction ls as [|l ls IH]; intros f; [reflexivity|]. cbn [fold_left]. rewrite loop_visit. apply IH.
  Qed.
End Order.
