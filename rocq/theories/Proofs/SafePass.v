(** What the memory safety pass of Model/SafeProgram.v keeps. *)
From Coq Require Import ZArith List String Bool Lia.
From Verif.Spec Require Import LLVMInt IR CFG BitVectorIR Program SafeProgram.
From Verif.Model Require Import Boogie SafeProgram.
From Verif.Proofs Require Import CFGBase.
Import ListNotations.
Open Scope list_scope.

Section Pass.
  Context {W : string -> option Z} (ep : bool) (f : func val (typed W width_ok) sop).
  Notation uses := (typed_regs W width_ok).
  Notation f' := (instrument ep f).

  Lemma lookup_map : forall {A B} (g : A -> B) (l : label) bs, CFG.lookup l (map (fun b => (fst b, g (snd b))) bs) = option_map g (CFG.lookup l bs).
  Proof. intros A B g l. induction bs as [|[l' b] bs IH]; cbn; [reflexivity|]. destruct (label_eqb l l'); [reflexivity|exact IH]. Qed.
  Lemma block_visit : forall l, block_of f' l = option_map (visit_block ep) (block_of f l).
  Proof. intros l. apply lookup_map. Qed.
  Lemma block_some : forall l b', block_of f' l = Some b' -> exists b, block_of f l = Some b /\ b' = visit_block ep b.
  Proof. intros l b' H. rewrite block_visit in H. destruct (block_of f l) as [b|]; [|discriminate]. injection H as <-. eauto. Qed.
  Lemma succs_visit : forall t : term val (typed W width_ok) sop, succs (visit_term t) = succs t.
  Proof. intros []; reflexivity. Qed.
  Lemma edge_visit : forall p l, edge f' p l <-> edge f p l.
  Proof.
    intros p l. split.
    - intros (b' & Hb & Hi). apply block_some in Hb as (b & Hb & ->). cbn in Hi. rewrite succs_visit in Hi. exists b. auto.
    - intros (b & Hb & Hi). exists (visit_block ep b). rewrite block_visit, Hb. split; [reflexivity|]. cbn. now rewrite succs_visit.
  Qed.
  Lemma path_visit : forall l t, path f' l t <-> path f l t.
  Proof.
    intros l t. split; intros H.
    - induction H as [|p l t H IH He]; [apply (P_entry f)|]. apply P_edge with p; [exact IH|now apply edge_visit].
    - induction H as [|p l t H IH He]; [apply (P_entry f')|]. apply P_edge with p; [exact IH|now apply edge_visit].
  Qed.
  Lemma reachable_visit : forall l, reachable f' l <-> reachable f l.
  Proof. intros l. split; intros (t & H); exists t; now apply path_visit. Qed.
  Lemma dominates_visit : forall d l, dominates f' d l <-> dominates f d l.
  Proof. intros d l. split; intros H t Ht; apply H; now apply path_visit. Qed.

  Lemma stmt_cases : forall s : stmt (typed W width_ok) sop,
    (exists s', visit_stmt s = [s'] /\ stmt_def s' = stmt_def s /\ stmt_uses uses s' = stmt_uses uses s) \/
    (exists c s', visit_stmt s = [c; s'] /\ stmt_def c = [] /\ stmt_def s' = stmt_def s /\
       (forall x, In x (stmt_uses uses c) -> In x (stmt_uses uses s)) /\ stmt_uses uses s' = stmt_uses uses s).
  Proof.
    intros [x e|x o es]; [left; exists (SAssign x e); auto|].
    assert (visit_stmt (SPrim x o es) = [SPrim x (Src o) es] ->
      exists s', visit_stmt (SPrim x o es) = [s'] /\ stmt_def s' = stmt_def (SPrim x o es) /\ stmt_uses uses s' = stmt_uses uses (SPrim x o es)) as Hone.
    { intros E. exists (SPrim x (Src o) es). rewrite E. auto. }
    destruct o as [[w|w|w| | |g]| | |]; try (left; apply Hone; reflexivity).
    - destruct es as [|e [|e2 es]]; try (left; apply Hone; reflexivity). right. eexists _, _. split; [reflexivity|].
      split; [reflexivity|]. split; [destruct x; reflexivity|]. split; [|reflexivity]. cbn. intros y Hy. rewrite app_nil_r in *. exact Hy.
    - destruct es as [|e [|e2 [|e3 es]]]; try (left; apply Hone; reflexivity). right. eexists _, _. split; [reflexivity|].
      split; [reflexivity|]. split; [destruct x; reflexivity|]. split; [|reflexivity]. cbn. intros y Hy. rewrite app_nil_r in *.
      apply in_or_app. now right.
  Qed.
  Lemma stmts_def : forall k : list (stmt (typed W width_ok) sop), flat_map stmt_def (flat_map visit_stmt k) = flat_map stmt_def k.
  Proof.
    induction k as [|s k IH]; [reflexivity|]. cbn [flat_map]. rewrite flat_map_app, IH. f_equal.
    destruct (stmt_cases s) as [(s' & -> & E & _)|(c & s' & -> & E1 & E2 & _)]; cbn; [now rewrite app_nil_r|now rewrite E1, E2, app_nil_r].
  Qed.
  Lemma leak_def : forall t : term val (typed W width_ok) sop, flat_map stmt_def (leak_check_before ep t) = [].
  Proof. intros []; try reflexivity. cbn. now destruct ep. Qed.
  Lemma body_def : forall b, flat_map stmt_def (body (visit_block ep b)) = flat_map (@stmt_def (typed W width_ok) sop) (body b).
  Proof. intros b. cbn. now rewrite flat_map_app, stmts_def, leak_def, app_nil_r. Qed.
  Lemma defs_visit : forall b, block_defs (visit_block ep b) = @block_defs val (typed W width_ok) sop b.
  Proof. intros b. unfold block_defs. rewrite body_def. cbn. now destruct (bterm b). Qed.
  Lemma defined_visit : forall l x, defined_in f' l x <-> defined_in f l x.
  Proof.
    intros l x. split.
    - intros (b' & Hb & Hi). apply block_some in Hb as (b & Hb & ->). rewrite defs_visit in Hi. exists b. auto.
    - intros (b & Hb & Hi). exists (visit_block ep b). rewrite block_visit, Hb, defs_visit. auto.
  Qed.
  Lemma start_visit : forall l x, available_at_start f l x -> available_at_start f' l x.
  Proof.
    intros l x [H|[(d & H1 & H2 & H3)|(b & H1 & H2)]]; [now left| |].
    - right. left. exists d. split; [exact H1|]. split; [now apply dominates_visit|now apply defined_visit].
    - right. right. exists (visit_block ep b). rewrite block_visit, H1. auto.
  Qed.
  Lemma end_visit : forall l x, available_at_end f l x -> available_at_end f' l x.
  Proof.
    intros l x [H|(d & H2 & H3)]; [now left|]. right. exists d. split; [now apply dominates_visit|now apply defined_visit].
  Qed.

  Lemma split_app : forall {A} (a b pre : list A) s post, a ++ b = pre ++ s :: post ->
    (exists post', a = pre ++ s :: post' /\ post = post' ++ b) \/ exists pre', pre = a ++ pre' /\ b = pre' ++ s :: post.
  Proof.
    intros A. induction a as [|x a IH]; intros b pre s post H; [right; exists pre; auto|].
    destruct pre as [|y pre]; cbn in H.
    - injection H as -> H. left. exists a. auto.
    - injection H as -> H. destruct (IH _ _ _ _ H) as [(post' & -> & ->)|(pre' & -> & ->)].
      + left. exists post'. auto.
      + right. exists pre'. auto.
  Qed.
  Lemma visited_stmt : forall (k : list (stmt (typed W width_ok) sop)) pre s post, flat_map visit_stmt k = pre ++ s :: post ->
    exists pre0 s0 post0, k = pre0 ++ s0 :: post0 /\ flat_map stmt_def pre = flat_map stmt_def pre0 /\
      forall x, In x (stmt_uses uses s) -> In x (stmt_uses uses s0).
  Proof.
    induction k as [|s1 k IH]; intros pre s post H; [destruct pre; discriminate|]. cbn [flat_map] in H.
    destruct (split_app _ _ _ _ _ H) as [(post' & E & _)|(pre' & -> & E)].
    - exists [], s1, k. split; [reflexivity|]. destruct (stmt_cases s1) as [(s' & Ev & _ & E2)|(c & s' & Ev & E1 & _ & E3 & E4)]; rewrite Ev in E.
      + destruct pre as [|y [|z pre]]; try discriminate. injection E as -> _. split; [reflexivity|]. intros x Hx. now rewrite <- E2.
      + destruct pre as [|y [|z pre]]; cbn in E.
        * injection E as -> _. split; [reflexivity|exact E3].
        * injection E as -> -> _. cbn. rewrite E1. split; [reflexivity|]. intros x Hx. now rewrite <- E4.
        * exfalso. injection E as _ _ E. destruct pre; discriminate.
    - destruct (IH _ _ _ E) as (pre0 & s0 & post0 & -> & D & U). exists (s1 :: pre0), s0, post0. split; [reflexivity|]. split; [|exact U].
      rewrite flat_map_app, D. cbn [flat_map]. f_equal.
      destruct (stmt_cases s1) as [(s' & -> & E1 & _)|(c & s' & -> & E1 & E2 & _)]; cbn; [now rewrite app_nil_r|now rewrite E1, E2, app_nil_r].
  Qed.

  Lemma term_uses_visit : forall t, term_uses uses (visit_term t) = term_uses uses t.
  Proof. intros []; reflexivity. Qed.
  Theorem ssa_visit : ssa_form uses f -> ssa_form uses f'.
  Proof.
    intros H. split.
    - destruct (ssa_entry _ _ H) as (b & Hb & Hp). exists (visit_block ep b). rewrite block_visit. cbn. rewrite Hb. auto.
    - intros p He. apply edge_visit in He. exact (ssa_entry_nopred _ _ H p He).
    - cbn. rewrite map_map. cbn. exact (ssa_labels _ _ H).
    - intros p l He. apply edge_visit in He. destruct (ssa_targets _ _ H p l He) as (b & Hb). exists (visit_block ep b). now rewrite block_visit, Hb.
    - intros l b' Hb. apply block_some in Hb as (b & Hb & ->). rewrite defs_visit. exact (ssa_unique_block _ _ H l b Hb).
    - intros l l' x H1 H2. apply defined_visit in H1, H2. exact (ssa_unique _ _ H l l' x H1 H2).
    - intros l x H1. apply defined_visit in H1. exact (ssa_params _ _ H l x H1).
    - exact (ssa_params_nodup _ _ H).
    - intros l b' pre s post Hb Hbody x Hx. apply block_some in Hb as (b & Hb & ->). cbn [body visit_block] in Hbody.
      destruct (split_app _ _ _ _ _ Hbody) as [(post' & E & _)|(pre' & -> & E)].
      + destruct (visited_stmt _ _ _ _ E) as (pre0 & s0 & post0 & Ek & D & U). rewrite D.
        destruct (ssa_body _ _ H l b pre0 s0 post0 Hb Ek x (U x Hx)) as [Ha|Ha]; [left; now apply start_visit|now right].
      + exfalso. destruct (bterm b); cbn [leak_check_before] in E; try (destruct pre'; discriminate).
        destruct ep; [|destruct pre'; discriminate]. destruct pre' as [|y [|z pre']]; try discriminate. injection E as <- _. destruct Hx.
    - intros l b' Hb x Hx. apply block_some in Hb as (b & Hb & ->). rewrite body_def. cbn [bterm visit_block] in Hx. rewrite term_uses_visit in Hx.
      destruct (ssa_term _ _ H l b Hb x Hx) as [Ha|Ha]; [left; now apply start_visit|now right].
    - intros p l b' x inc He Hb Hin. apply edge_visit in He. apply block_some in Hb as (b & Hb & ->). cbn in Hin.
      destruct (ssa_phi _ _ H p l b x inc He Hb Hin) as (e & H1 & H2). exists e. split; [exact H1|]. intros y Hy. now apply end_visit, H2.
  Qed.
  Theorem lowered_visit : lowered f -> lowered f'.
  Proof.
    intros H. split.
    - intros l b' e d c Hb E. apply block_some in Hb as (b & Hb & ->). cbn in E.
      apply (low_no_switch _ H l b e d c Hb). destruct (bterm b); try discriminate. cbn in E. congruence.
    - intros l b' x p es n u l' b1 Hb E Hin Hb1. apply block_some in Hb as (b & Hb & ->). apply block_some in Hb1 as (b2 & Hb2 & ->). cbn in E |- *.
      destruct (bterm b) as [| | | |x0 p0 es0 n0 u0| |] eqn:Et; try discriminate. cbn in E. injection E as -> <- -> -> ->.
      exact (low_invoke _ H l b _ _ _ _ _ l' b2 Hb Et Hin Hb2).
    - intros l b' Hb. apply block_some in Hb as (b & Hb & ->). cbn. rewrite succs_visit. exact (low_distinct _ H l b Hb).
  Qed.
  Theorem normalized_visit : normalized f -> normalized f'.
  Proof.
    intros H l b' l' b1 Hb Hin Hlen Hb1 Hph Hr Hd. apply block_some in Hb as (b & Hb & ->). apply block_some in Hb1 as (b2 & Hb2 & ->).
    cbn in Hin, Hlen, Hph. rewrite succs_visit in Hin, Hlen. apply reachable_visit in Hr. apply dominates_visit in Hd.
    exact (H l b l' b2 Hb Hin Hlen Hb2 Hph Hr Hd).
  Qed.
End Pass.
