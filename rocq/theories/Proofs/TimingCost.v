(** Proofs about the annotations of Model/Timing.v. *)
From Coq Require Import ZArith List String Bool Lia PeanoNat.
From Verif.Spec Require Import BoogieSyntax VerifierCode CostAttribute.
From Verif.Model Require Import MemorySafetyChecker Timing.
From Verif.Proofs Require Import TimingProofs.
Import ListNotations.
Open Scope string_scope.
Open Scope list_scope.
Open Scope Z_scope.

Lemma contains_spec p n : contains p n = true <-> exists a b, n = (a ++ p ++ b)%string.
Proof.
  induction n as [|c n IH]; cbn [contains]; rewrite orb_true_iff, prefix_begins.
  - split.
    + intros [[r H]|H]; [exists "", r; auto | discriminate].
    + intros [[|x a] [b H]]; [left; exists b; auto | discriminate].
  - rewrite IH; split.
    + intros [[r H]|[a [b H]]]; [exists "", r; auto | exists (String c a), b; subst; auto].
    + intros [[|x a] [b H]]; [left; exists b; auto | right; injection H as -> H; exists a, b; auto].
Qed.

Lemma sum_app a b : sum (a ++ b) = sum a + sum b.
Proof. unfold sum. induction a as [|x a IH]; cbn [app fold_right]; lia. Qed.
Lemma run_cost_app a b : run_cost (a ++ b) = run_cost a + run_cost b.
Proof. unfold run_cost. rewrite flat_map_app, map_app. apply sum_app. Qed.
Lemma attr_cost_other a : at_name a <> "smack.InstTimingCost.Int64" -> attr_cost a = 0.
Proof. intros H; unfold attr_cost. apply String.eqb_neq in H. rewrite H; auto. Qed.
Lemma run_cost_uncosted l : uncosted l -> run_cost l = 0.
Proof.
  unfold run_cost; intros H.
  assert (A : forall a, In a (flat_map stmt_attrs l) -> attr_cost a = 0).
  { intros a Ha; apply in_flat_map in Ha; destruct Ha as [s [Hs Ha]]; apply attr_cost_other; eapply H; eauto. }
  clear H; induction (flat_map stmt_attrs l) as [|a k IH]; cbn; auto.
  rewrite A by (left; auto). unfold sum in IH. rewrite IH; auto. intros; apply A; right; auto.
Qed.

Definition price_of (tti : instr -> Z) (i : instr) : option Z := if tti i =? 2 ^ 32 - 1 then None else Some (tti i).

Lemma isDbg_spec i : isDbgInfoIntrinsic i = true <-> debug_call i.
Proof.
  unfold isDbgInfoIntrinsic, debug_call. destruct (op i); try (split; [discriminate | intros [H _]; discriminate]).
  destruct (callee i) as [f|].
  - rewrite existsb_exists; split.
    + intros [x [H E]]; apply String.eqb_eq in E; subst; split; auto; exists x; auto.
    + intros [_ [g [E H]]]; injection E as ->; exists g; split; auto; apply String.eqb_refl.
  - split; [discriminate | intros [_ [f [H _]]]; discriminate].
Qed.

Section Cost.
  Variables (m : list instr) (c : config) (fname : string).
  Hypothesis NDm : NoDup (map id m).
  Hypothesis Plain : plain_names m.
  Hypothesis Timed : timing c = true.
  Hypothesis User : isAutogeneratedSmackFunction fname = false.

  Lemma skip_spec i : In i m ->
    (isCallInst i && match callee i with Some n => contains "llvm.dbg." n | None => false end = true <-> debug_call i).
  Proof.
    intros Hi. rewrite andb_true_iff, isCall_spec. split.
    - intros [H1 H2]. destruct (callee i) as [n|] eqn:E; [|discriminate]. apply contains_spec in H2. eapply Plain; eauto.
    - intros [H1 [f [E F]]]. split; [left; auto|]. rewrite E.
      unfold debug_functions in F. cbn in F.
      destruct F as [F|[F|[F|[F|[]]]]]; subst f; vm_compute; reflexivity.
  Qed.

  Lemma metadata_cost i : In i m ->
    forall k, cost m (price_of (tti c)) i k -> sum (map attr_cost (metadata c (mark_module m) fname i)) = k.
  Proof.
    intros Hi k K. unfold metadata. rewrite Timed, User. cbn [andb negb map].
    set (kk := getInstructionCost _ _ i).
    match goal with |- ?l = _ => assert (S : l = if kk =? NO_TIMING_INFO then 0 else kk) end.
    { cbv zeta. unfold sum. cbn [fold_right]. rewrite !(attr_cost_other (Attr _ _)) by discriminate.
      destruct (kk =? NO_TIMING_INFO); cbn; lia. }
    rewrite S. subst kk. clear S.
    assert (M := mark_module_spec m NDm i Hi). unfold getInstructionCost.
    destruct K as [[V ->]|[V ->]].
    - apply M in V; rewrite V. reflexivity.
    - destruct (isMarked (mark_module m) (id i)) eqn:B; [exfalso; apply V, M; auto|].
      unfold price_of. change (2 ^ 32 - 1) with NO_TIMING_INFO.
      destruct (op i); cbn [priced]; rewrite ?Z.eqb_refl; try reflexivity; destruct (tti c i =? NO_TIMING_INFO); reflexivity.
  Qed.

  Lemma run_cost_annots l : run_cost (map (fun a => Assume [a] (BoolLit true)) l) = sum (map attr_cost l).
  Proof.
    unfold run_cost. f_equal. f_equal. induction l as [|a l IH]; [reflexivity|]. cbn. rewrite IH; reflexivity.
  Qed.

  Lemma annotate_cost i : In i m -> ~ debug_call i ->
    forall k, cost m (price_of (tti c)) i k -> run_cost (annotate c (mark_module m) fname i) = k.
  Proof.
    intros Hi Nd k K. unfold annotate.
    destruct (_ && _) eqn:B; [exfalso; apply Nd, skip_spec; auto|].
    rewrite run_cost_app, run_cost_annots, (metadata_cost i Hi k K).
    replace (run_cost _) with 0; [lia|].
    destruct (loc i) as [[[f l] q]|]; [destruct (sourcelocs c)|]; reflexivity.
  Qed.
  Lemma annotate_debug i : In i m -> debug_call i -> annotate c (mark_module m) fname i = [].
  Proof. intros Hi D. unfold annotate. apply (skip_spec i Hi) in D. rewrite D. reflexivity. Qed.

  Variable gen : instr -> list stmt.
  Hypothesis Gen : forall i, uncosted (gen i).

  Lemma gen_block_cost b : incl b m -> forall b', code b b' -> forall t, total m (price_of (tti c)) b' t ->
    run_cost (gen_block c (mark_module m) gen fname b) = t.
  Proof.
    intros Hb b' C. unfold gen_block. induction C as [|i b b' D C IH|i b b' D C IH]; intros t T; cbn [flat_map].
    - inversion T; reflexivity.
    - rewrite !run_cost_app, annotate_debug, (run_cost_uncosted _ (Gen i)); auto; [|apply Hb; left; auto].
      rewrite (IH (fun x Hx => Hb x (or_intror Hx)) t T). reflexivity.
    - inversion T as [|? ? k t' K T']; subst.
      rewrite !run_cost_app, (run_cost_uncosted _ (Gen i)), (annotate_cost i (Hb i (or_introl eq_refl)) D k K).
      rewrite (IH (fun x Hx => Hb x (or_intror Hx)) t' T'). lia.
  Qed.

  Lemma code_app_split b1 : forall b2 r, code (b1 ++ b2) r -> exists r1 r2, r = r1 ++ r2 /\ code b1 r1 /\ code b2 r2.
  Proof.
    induction b1 as [|i b1 IH]; intros b2 r C; cbn in C.
    - exists [], r; split; auto; split; [constructor|auto].
    - inversion C; subst.
      + destruct (IH _ _ H3) as [r1 [r2 [-> [C1 C2]]]]. exists r1, r2; split; auto; split; auto; constructor; auto.
      + destruct (IH _ _ H3) as [r1 [r2 [-> [C1 C2]]]]. exists (i :: r1), r2; split; auto; split; auto. apply code_keep; auto.
  Qed.
  Lemma total_app_split p l1 : forall l2 t, total m p (l1 ++ l2) t -> exists t1 t2, t = t1 + t2 /\ total m p l1 t1 /\ total m p l2 t2.
  Proof.
    induction l1 as [|i l1 IH]; intros l2 t T; cbn in T.
    - exists 0, t; split; auto; split; [constructor|auto].
    - inversion T; subst. destruct (IH _ _ H3) as [t1 [t2 [-> [A B]]]].
      exists (c0 + t1), t2; split; [lia|split; [constructor; auto|auto]].
  Qed.

  Lemma gen_blocks_cost bs : (forall b, In b bs -> incl b m) -> forall b', code (List.concat bs) b' -> forall t, total m (price_of (tti c)) b' t ->
    run_cost (flat_map (gen_block c (mark_module m) gen fname) bs) = t.
  Proof.
    induction bs as [|b bs IH]; intros Hb b' C t T; cbn [List.concat flat_map] in C |- *.
    - inversion C; subst. inversion T; reflexivity.
    - destruct (code_app_split _ _ _ C) as [r1 [r2 [-> [C1 C2]]]].
      destruct (total_app_split _ _ _ _ T) as [t1 [t2 [-> [T1 T2]]]].
      rewrite run_cost_app, (gen_block_cost b (Hb b (or_introl eq_refl)) r1 C1 t1 T1).
      rewrite (IH (fun x Hx => Hb x (or_intror Hx)) r2 C2 t2 T2). reflexivity.
  Qed.

  Lemma find_first b : incl b m ->
    match find (fun i => negb (isDbgInfoIntrinsic i) && match loc i with Some _ => true | None => false end) b with
    | Some i => first_located b i
    | None => forall i, ~ first_located b i
    end.
  Proof.
    intros Hb. induction b as [|x b IH]; cbn [find].
    - intros i [b1 [b2 [E _]]]; destruct b1; discriminate.
    - destruct (negb (isDbgInfoIntrinsic x) && _) eqn:B.
      + apply andb_true_iff in B; destruct B as [B1 B2]; apply negb_true_iff in B1.
        exists [], b; repeat split; auto; [destruct (loc x); [discriminate|discriminate]| |intros ? []].
        intros D; apply isDbg_spec in D; congruence.
      + assert (N : loc x = None \/ debug_call x).
        { apply andb_false_iff in B; destruct B as [B|B].
          - right; apply isDbg_spec, negb_false_iff; auto.
          - left; destruct (loc x); [discriminate|auto]. }
        specialize (IH (fun y Hy => Hb y (or_intror Hy))).
        destruct (find _ b) as [i|].
        * destruct IH as [b1 [b2 [E [L [D A]]]]]. exists (x :: b1), b2; repeat split; auto; [cbn; congruence|].
          intros j [<-|Hj]; auto.
        * intros i [b1 [b2 [E [L [D A]]]]]. destruct b1 as [|y b1].
          -- cbn in E; injection E as <- <-. destruct N; auto.
          -- cbn in E; injection E as -> E. apply (IH i). exists b1, b2; repeat split; auto. intros; apply A; right; auto.
  Qed.
  Lemma first_located_fun b i j : first_located b i -> first_located b j -> i = j.
  Proof.
    intros [b1 [b2 [E [L [D A]]]]] [b3 [b4 [E' [L' [D' A']]]]]. subst b.
    revert b3 E' A'. induction b1 as [|x b1 IH]; intros [|y b3] E' A'; cbn in E'.
    - congruence.
    - injection E' as <- _. destruct (A' i (or_introl eq_refl)); tauto.
    - injection E' as -> _. destruct (A j (or_introl eq_refl)); tauto.
    - injection E' as <- E'. apply (IH (fun z Hz => A z (or_intror Hz)) b3 E'). intros z Hz; apply A'; right; auto.
  Qed.

  Lemma gen_entry_cost record b : uncosted record -> incl b m -> forall b', code b b' -> forall t, total m (price_of (tti c)) b' t ->
    (forall i k, first_located b i -> cost m (price_of (tti c)) i k ->
      run_cost (gen_entry c (mark_module m) gen record fname b) = k + t) /\
    ((forall i, ~ first_located b i) -> run_cost (gen_entry c (mark_module m) gen record fname b) = t).
  Proof.
    intros R Hb b' C t T. unfold gen_entry, entry_annotation. rewrite !run_cost_app, (run_cost_uncosted _ R).
    rewrite (gen_block_cost b Hb b' C t T). assert (F := find_first b Hb).
    destruct (find _ b) as [x|].
    - split.
      + intros i k Fi K. assert (i = x) by (eapply first_located_fun; eauto). subst.
        destruct Fi as [b1 [b2 [E [L [D A]]]]]. rewrite (annotate_cost x) with (k := k); auto.
        apply Hb; rewrite E; apply in_or_app; right; left; auto.
      + intros N; destruct (N x F).
    - split.
      + intros i k Fi; destruct (F i Fi).
      + reflexivity.
  Qed.
End Cost.
