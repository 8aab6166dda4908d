(** Executions of a control-flow graph whose instructions are renamed. *)
From Coq Require Import List String Bool.
From Verif.Spec Require Import CFG SplitMemory.
Import ListNotations.
Open Scope list_scope.

Section MapFunc.
  Context {V E P Q M Ev : Type} (g : P -> Q) (f : func V E P).
  Context (ev : (string -> option V) -> E -> option V).
  Context (prim : Q -> list V -> M -> list Ev -> V -> M -> Prop).
  Context (inv : Q -> list V -> M -> list Ev -> V -> bool -> M -> Prop).
  Context (one : V) (veq : V -> V -> bool).
  Notation primP := (fun p => prim (g p)).
  Notation invP := (fun p => inv (g p)).
  Notation stepQ := (lstep ev prim inv one veq (map_func g f)).
  Notation stepP := (lstep ev primP invP one veq f).

  Definition map_state (s : lstate V E M P) : lstate V E M Q :=
    match s with LRun l k r m => LRun l (map (map_stmt g) k) r m | LDone o m => LDone o m end.

  Lemma block_map : forall l, block_of (map_func g f) l = option_map (map_block g) (block_of f l).
  Proof.
    intros l. unfold block_of, map_func. cbn. induction (blocks f) as [|[l' b] bs IH]; [reflexivity|]. cbn.
    destruct (label_eqb l l'); [reflexivity|exact IH].
  Qed.
  Lemma block_map_inv : forall l b, block_of (map_func g f) l = Some b -> exists b0, block_of f l = Some b0 /\ b = map_block g b0.
  Proof. intros l b H. rewrite block_map in H. destruct (block_of f l) as [b0|]; [|discriminate]. injection H as <-. eauto. Qed.
  Lemma enter_map : forall l l' r, enter ev (map_func g f) l l' r =
    match enter ev f l l' r with Some (k, r') => Some (map (map_stmt g) k, r') | None => None end.
  Proof.
    intros l l' r. unfold enter. rewrite block_map. destruct (block_of f l') as [b|]; [|reflexivity]. cbn [option_map map_block phis body].
    destruct (phi_values ev r l (phis b)); reflexivity.
  Qed.

  Lemma step_to : forall s t s', stepP s t s' -> stepQ (map_state s) t (map_state s').
  Proof.
    intros s t s' H. destruct H; cbn [map_state map map_stmt].
    - now constructor.
    - econstructor; eassumption.
    - apply L_ret with (map_block g b); [rewrite block_map, H; reflexivity|cbn; now rewrite H0].
    - apply L_retv with (map_block g b) e; [rewrite block_map, H; reflexivity|cbn; now rewrite H0|assumption].
    - apply L_resume with (map_block g b) e; [rewrite block_map, H; reflexivity|cbn; now rewrite H0|assumption].
    - apply L_br with (map_block g b); [rewrite block_map, H; reflexivity|cbn; now rewrite H0|]. now rewrite enter_map, H1.
    - apply L_cond with (map_block g b) e; [rewrite block_map, H; reflexivity|cbn; now rewrite H0|assumption|]. now rewrite enter_map, H2.
    - apply L_switch with (map_block g b) e; [rewrite block_map, H; reflexivity|cbn; now rewrite H0|assumption|]. now rewrite enter_map, H2.
    - apply L_invoke with (map_block g b) x (g p) es vs v; [rewrite block_map, H; reflexivity|cbn; now rewrite H0|assumption|assumption|].
      now rewrite enter_map, H3.
  Qed.
  Lemma step_from : forall s1 t s', stepQ s1 t s' -> forall s, s1 = map_state s -> exists s2, s' = map_state s2 /\ stepP s t s2.
  Proof.
    assert (forall (t : term V E P) (t' : term V E Q), map_term g t = t' -> t' = map_term g t) as Hsym by (intros; congruence).
    intros s1 t s' H s Hs. destruct H; destruct s as [l0 k0 r0 m0|]; try discriminate Hs; injection Hs; intros; subst.
    - destruct k0 as [|[x0 e0|x0 p0 es0] k0]; try discriminate. match goal with E : _ :: _ = _ |- _ => injection E; intros; subst end.
      exists (LRun l0 k0 (upd r0 x0 v) m0). split; [reflexivity|now constructor].
    - destruct k0 as [|[x0 e0|x0 p0 es0] k0]; try discriminate. match goal with E : _ :: _ = _ |- _ => injection E; intros; subst end.
      exists (LRun l0 k0 (updo r0 x0 v) m'). split; [reflexivity|econstructor; eassumption].
    - destruct k0; [|discriminate]. apply block_map_inv in H as (b0 & Hb & ->). cbn in H0. destruct (bterm b0) eqn:Et; try discriminate. injection H0 as ->.
      eexists (LDone _ _). split; [reflexivity|econstructor; eassumption].
    - destruct k0; [|discriminate]. apply block_map_inv in H as (b0 & Hb & ->). cbn in H0. destruct (bterm b0) eqn:Et; try discriminate. injection H0 as ->.
      eexists (LDone _ _). split; [reflexivity|eapply L_retv; eassumption].
    - destruct k0; [|discriminate]. apply block_map_inv in H as (b0 & Hb & ->). cbn in H0. destruct (bterm b0) eqn:Et; try discriminate. injection H0 as ->.
      eexists (LDone _ _). split; [reflexivity|eapply L_resume; eassumption].
    - destruct k0; [|discriminate]. apply block_map_inv in H as (b0 & Hb & ->). cbn in H0. destruct (bterm b0) eqn:Et; try discriminate. injection H0 as ->.
      rewrite enter_map in H1. destruct (enter ev f l0 l' r0) as [[k2 r2]|] eqn:En; [|discriminate]. injection H1 as <- <-.
      exists (LRun l' k2 r2 m0). split; [reflexivity|eapply L_br; eassumption].
    - destruct k0; [|discriminate]. apply block_map_inv in H as (b0 & Hb & ->). cbn in H0. destruct (bterm b0) eqn:Et; try discriminate. injection H0 as -> -> ->.
      rewrite enter_map in H2. destruct (enter ev f l0 (if veq v one then l1 else l2) r0) as [[k2 r2]|] eqn:En; [|discriminate]. injection H2 as <- <-.
      eexists (LRun _ k2 r2 m0). split; [reflexivity|eapply L_cond; eassumption].
    - destruct k0; [|discriminate]. apply block_map_inv in H as (b0 & Hb & ->). cbn in H0. destruct (bterm b0) eqn:Et; try discriminate. injection H0 as -> -> ->.
      rewrite enter_map in H2. destruct (enter ev f l0 (select_case veq v d cases) r0) as [[k2 r2]|] eqn:En; [|discriminate]. injection H2 as <- <-.
      eexists (LRun _ k2 r2 m0). split; [reflexivity|eapply L_switch; eassumption].
    - destruct k0; [|discriminate]. apply block_map_inv in H as (b0 & Hb & ->). cbn in H0. destruct (bterm b0) eqn:Et; try discriminate. injection H0 as -> <- -> -> ->.
      rewrite enter_map in H3. match type of H3 with match ?X with _ => _ end = _ => destruct X as [[k2 r2]|] eqn:En; [|discriminate] end. injection H3 as <- <-.
      eexists (LRun _ k2 r2 m'). split; [reflexivity|eapply L_invoke; eassumption].
  Qed.
  Lemma steps_map : forall s t s', lsteps ev prim inv one veq (map_func g f) (map_state s) t s' <->
    exists s2, s' = map_state s2 /\ lsteps ev primP invP one veq f s t s2.
  Proof.
    intros s t s'. split.
    - intros H. remember (map_state s) as s1 eqn:E1. induction H as [s1|s1 t1 s2 t2 s3 H IH Hs].
      + exists s. split; [exact E1|constructor].
      + destruct (IH E1) as (s4 & -> & H4). destruct (step_from _ _ _ Hs s4 eq_refl) as (s5 & -> & H5).
        exists s5. split; [reflexivity|econstructor; eassumption].
    - intros (s2 & -> & H). induction H as [s|s1 t1 s2 t2 s3 H IH Hs]; [constructor|]. econstructor; [exact IH|now apply step_to].
  Qed.
  Lemma start_map : forall args m, lstart (map_func g f) args m = option_map map_state (lstart f args m).
  Proof. intros args m. unfold lstart. rewrite block_map. cbn [entry map_func]. now destruct (block_of f (entry f)). Qed.
  Lemma result_map : forall s, result (map_state s) = result s.
  Proof. now intros []. Qed.
  Lemma behaves_map : forall args m t o, behaves ev prim inv one veq (map_func g f) args m t o <-> behaves ev primP invP one veq f args m t o.
  Proof.
    intros args m t o. unfold behaves. rewrite start_map. split.
    - intros (s0 & s & H1 & H2 & H3). destruct (lstart f args m) as [s1|]; [|discriminate]. injection H1 as <-.
      apply steps_map in H2 as (s2 & -> & H2). rewrite result_map in H3. eauto.
    - intros (s0 & s & H1 & H2 & H3). rewrite H1. exists (map_state s0), (map_state s). split; [reflexivity|].
      rewrite result_map. split; [|exact H3]. apply steps_map. eauto.
  Qed.
  Lemma wrong_map : forall s, goes_wrong ev inv one veq (map_func g f) (map_state s) <-> goes_wrong ev invP one veq f s.
  Proof.
    assert (forall l l' r, enter ev (map_func g f) l l' r = None <-> enter ev f l l' r = None) as He.
    { intros l l' r. rewrite enter_map. destruct (enter ev f l l' r) as [[]|]; split; congruence. }
    intros [l [|[x e|x p es] k] r m|]; cbn [goes_wrong map_state map map_stmt]; try tauto. rewrite block_map. destruct (block_of f l) as [b|]; cbn [option_map].
    2:{ split; intros (b & H & _); discriminate. }
    assert (forall X : block V E Q -> Prop, (exists c, Some (map_block g b) = Some c /\ X c) <-> X (map_block g b)) as H1.
    { intros X. split; [intros (c & Ec & H); injection Ec as <-; exact H|eauto]. }
    assert (forall X : block V E P -> Prop, (exists c, Some b = Some c /\ X c) <-> X b) as H2.
    { intros X. split; [intros (c & Ec & H); injection Ec as <-; exact H|eauto]. }
    rewrite H1, H2. cbn [bterm map_block]. destruct (bterm b) as [[e|]|l'|e l1 l2|e d cs|x q es n u|e|]; cbn [map_term]; try tauto.
    - apply He.
    - destruct (ev r e); [apply He|tauto].
    - destruct (ev r e); [apply He|tauto].
    - destruct (evals ev r es); [|tauto]. split; intros (evs & v & w & m' & H3 & H4); exists evs, v, w, m'; split; auto; now apply He.
  Qed.
  Lemma undefined_map : forall args m t, undefined_after ev prim inv one veq (map_func g f) args m t <-> undefined_after ev primP invP one veq f args m t.
  Proof.
    intros args m t. unfold undefined_after. rewrite start_map. split.
    - intros (s0 & s & H1 & H2 & H3). destruct (lstart f args m) as [s1|]; [|discriminate]. injection H1 as <-.
      apply steps_map in H2 as (s2 & -> & H2). apply wrong_map in H3. eauto.
    - intros (s0 & s & H1 & H2 & H3). rewrite H1. exists (map_state s0), (map_state s). split; [reflexivity|].
      split; [apply steps_map; eauto|now apply wrong_map].
  Qed.
End MapFunc.
