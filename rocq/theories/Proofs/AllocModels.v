(** Verifier models of a history in which nothing but the live blocks is marked
    as allocated and addresses outside all blocks are their own base. *)
From Coq Require Import ZArith List Bool Lia.
From Verif.Base Require Import ZBits.
From Verif.Spec Require Import LLVMInt Blocks.
From Verif.Model Require Import Allocator.
From Verif.Proofs Require Import AllocProofs.
Import ListNotations.
Open Scope list_scope.
Open Scope Z_scope.

Section M.
  Context (bvptr : bool) (P : Z) (v : memory_model) (HP : P = 32 \/ P = 64) (G : list (Z * Z)) (HG : good_globals bvptr P G).
  Notation run := (run bvptr P v true).
  Notation ref := (is_ref bvptr P).

  Definition calm (h : list event) : Prop := v = Impls \/ no_null_free h.
  Lemma calm_tame : forall h, calm h -> tame v true h.
  Proof. unfold calm, tame. tauto. Qed.
  Lemma calm_cons : forall e h, calm (e :: h) -> calm h.
  Proof. unfold calm, no_null_free. cbn. tauto. Qed.
  Lemma calm_free : forall p h, calm (Free p :: h) -> v = Impls \/ p <> 0.
  Proof. intros p h [H|H]; [now left|]. right. intros ->. apply H. now left. Qed.

  (** What all models have in common. *)
  Lemma block_facts : forall R h s, run R G h s ->
    forall b, In b (blocks G h) -> placed bvptr P (MALLOC_TOP P - 1) b /\ forall q, inside q b -> base R q = start b.
  Proof.
    intros R h s Hrun b Hb. destruct v eqn:Ev.
    - destruct (noreuse_invariant bvptr P Impls true HP ltac:(congruence) R G h s HG Hrun) as (I1 & I2 & _ & I4).
      split; [apply (placed_mono bvptr P (CurrAddr s)); [lia|apply I2, Hb]|apply (I4 eq_refl), Hb].
    - destruct (reuse_invariant bvptr P Reuse true HP eq_refl R G h s HG ltac:(now left) Hrun) as (I1 & _).
      destruct (I1 b Hb) as [A B]. split; [exact A|now apply B].
    - destruct (noreuse_invariant bvptr P NoReuse true HP ltac:(congruence) R G h s HG Hrun) as (I1 & I2 & _ & I4).
      split; [apply (placed_mono bvptr P (CurrAddr s)); [lia|apply I2, Hb]|apply (I4 eq_refl), Hb].
  Qed.

  Lemma live_facts : forall R h s, run R G h s -> calm h -> forall b, In b (live G h) ->
    Alloc s (start b) = true /\
    match v with Reuse => SizeMap s (start b) = size b | _ => Size R (start b) = size b end.
  Proof.
    intros R h s Hrun Hc b Hb. pose proof (live_blocks G h b Hb) as Hb'. apply calm_tame in Hc. destruct v eqn:Ev.
    - destruct (noreuse_invariant bvptr P Impls true HP ltac:(congruence) R G h s HG Hrun) as (_ & _ & _ & I4).
      destruct (I4 eq_refl) as (J1 & J2). split; [now apply J2|now apply J1].
    - destruct (reuse_invariant bvptr P Reuse true HP eq_refl R G h s HG ltac:(now left) Hrun) as (_ & I2).
      destruct (I2 Hc) as (_ & J). apply J; auto.
    - destruct (noreuse_invariant bvptr P NoReuse true HP ltac:(congruence) R G h s HG Hrun) as (_ & _ & _ & I4).
      destruct (I4 eq_refl) as (J1 & J2). split; [now apply J2|now apply J1].
  Qed.

  Lemma live_apart : forall R h s, run R G h s -> calm h -> ForallOrdPairs apart (live G h).
  Proof.
    intros R h s Hrun Hc. apply calm_tame in Hc. destruct v eqn:Ev.
    2:{ destruct (reuse_invariant bvptr P Reuse true HP eq_refl R G h s HG ltac:(now left) Hrun) as (_ & I2). now apply I2. }
    1: destruct (noreuse_invariant bvptr P Impls true HP ltac:(congruence) R G h s HG Hrun) as (_ & _ & H & _).
    2: destruct (noreuse_invariant bvptr P NoReuse true HP ltac:(congruence) R G h s HG Hrun) as (_ & _ & H & _).
    all: clear - H; revert H; induction h as [|[n p|n p|p] h IH]; cbn; intros H; auto;
      try (now apply pairs_filter, IH);
      (destruct (0 <? n); [|now apply IH]); inversion H as [|? ? Ha Hb]; subst; constructor; auto;
      rewrite Forall_forall in *; intros b Hin; apply Ha; now apply live_blocks.
  Qed.

  Definition is_reuse : bool := match v with Reuse => true | _ => false end.
  Definition allocates (n : Z) : bool := (0 <? n) || is_reuse.

  (** The state of the chosen model after an allocation. *)
  Definition after_alloc (t s1 : state) (n p : Z) : state :=
    State (fun q => if allocates n && (q =? p) then true else Alloc t q) (SizeMap s1) (CurrAddr s1) (allocatedCounter s1).

  Definition follows (R' : rigid) (h : list event) (s t : state) : Prop :=
    run R' G h t /\ CurrAddr t = CurrAddr s /\ allocatedCounter t = allocatedCounter s /\
    (v = Reuse -> forall q, ref q -> SizeMap t q = SizeMap s q) /\
    (forall q, ref q -> Alloc t q = true ->
       (exists b, In b (live G h) /\ start b = q) \/ (v = Reuse /\ q = 0 /\ SizeMap t q = 0)) /\
    (forall q, ref q -> Alloc t q = true -> Alloc s q = true).

  Lemma alloc_follows : forall R R' h s t n p s1, 
    run R G h s -> follows R' h s t -> ref n -> ref p ->
    (forall x, Size R' x = Size R x) -> (0 < n -> forall q, p <= q < p + n -> base R' q = p) ->
    alloc bvptr P v true R s n p s1 -> alloc bvptr P v true R' t n p (after_alloc t s1 n p).
  Proof.
    intros R R' h s t n p s1 Hrun (F1 & F2 & F3 & F4 & F5 & F6) Hn Hp HS HB Ha. unfold alloc in *. destruct (top_half P HP) as [T1 T2].
    assert (forall top, top <= MALLOC_TOP P -> 0 < n -> 0 <= p -> p + n <= top -> based bvptr P R' p n) as Hbased.
    { intros top Htop Hpos Hp0 Hle. apply based_range; auto; lia. }
    unfold after_alloc, allocates, is_reuse. destruct v eqn:Ev; cbn [Alloc SizeMap CurrAddr allocatedCounter].
    - destruct (noreuse_invariant bvptr P Impls true HP ltac:(congruence) R G h s HG Hrun) as (I1 & _).
      destruct Ha as (H0 & H). split; [exact H0|]. destruct (0 <? n) eqn:En; cbn [orb andb].
      + destruct H as (Hb & H1 & H2 & H3). pose proof (bump_spec bvptr P HP s n p s1 Hn ltac:(lia) Hb) as (B1 & B2).
        split; [unfold bump in *; cbn; rewrite F2; exact Hb|]. rewrite HS. split; [exact H1|].
        split; [|reflexivity]. apply (Hbased (CurrAddr s1)); lia.
      + destruct H as (H1 & H2). split; [congruence|]. reflexivity.
    - destruct Ha as (H0 & H1 & H2 & H3 & H4 & H5 & H6 & H7 & H8 & H9). rewrite orb_true_r. cbn [andb].
      assert (forall q, ref q -> Alloc t q = true -> Alloc s q = true) as F6' by exact F6.
      split; [exact H0|]. split; [exact H1|]. split; [exact H2|]. split.
      { destruct (Alloc t p) eqn:E; [|reflexivity]. rewrite (F6 p Hp E) in H3. discriminate. }
      split; [intros q Hq Eq; apply H4; auto|]. rewrite Z.eqb_refl. split; [reflexivity|]. split; [exact H6|].
      split; [intros q Hq Hne; rewrite (F4 eq_refl q Hq); auto|].
      split; [intros q Hq Hne; destruct (q =? p) eqn:E; [lia|reflexivity]|].
      destruct (Z.eq_dec n 0) as [->|Hne].
      + intros q Hq A B. unfold add_ref in B. rewrite wrap_id in B; auto; [lia|]. rewrite Z.add_0_r. exact Hp.
      + destruct (H1 ltac:(lia)) as (A & B). unfold sub_ref in B.
        rewrite (wrap_id bvptr P HP) in B by (intros Hb; specialize (Hn Hb); unfold half in *; lia).
        apply (Hbased (MALLOC_TOP P)); lia.
    - destruct (noreuse_invariant bvptr P NoReuse true HP ltac:(congruence) R G h s HG Hrun) as (I1 & _).
      destruct Ha as (H0 & H1 & H2 & (H3a & H3b & H3c) & H4 & H5a & H5b). rewrite orb_false_r.
      split; [exact H0|]. split; [rewrite F2; exact H1|]. split; [exact H2|]. split; [|split].
      + split; [rewrite HS; exact H3a|]. split.
        * intros Hpos. destruct (H1 Hpos) as (A & B).
          pose proof (bump_spec bvptr P HP s n p s1 Hn Hpos ltac:(unfold bump; intuition)) as (B1 & B2).
          apply (Hbased (CurrAddr s1)); lia.
        * intros Hpos. destruct (0 <? n) eqn:E; [|lia]. cbn. now rewrite Z.eqb_refl.
      + rewrite F2. exact H4.
      + split.
        * intros ->. reflexivity.
        * intros q Hq Hne. destruct (q =? p) eqn:E; [lia|]. now rewrite andb_false_r.
  Qed.

  Lemma alloc_inv : forall R R' h s t n p s1 k e,
    follows R' h s t -> ref n -> ref p -> alloc bvptr P v true R s n p s1 ->
    live G (e :: h) = (if 0 <? n then Block k p n :: live G h else live G h) ->
    run R' G (e :: h) (after_alloc t s1 n p) -> follows R' (e :: h) s1 (after_alloc t s1 n p).
  Proof.
    intros R R' h s t n p s1 k e (F1 & F2 & F3 & F4 & F5 & F6) Hn Hp Ha El Hrun.
    split; [exact Hrun|]. split; [reflexivity|]. split; [reflexivity|]. split; [reflexivity|].
    assert (forall q, ref q -> q <> p -> Alloc s1 q = Alloc s q) as Hfr.
    { intros q Hq Hne. unfold alloc in Ha. destruct v.
      - destruct Ha as (_ & Ha). destruct (0 <? n).
        + destruct Ha as (_ & _ & _ & H). rewrite H. destruct (q =? p) eqn:E; [lia|reflexivity].
        + destruct Ha as (_ & H). apply H.
      - apply Ha; auto.
      - apply Ha; auto. }
    assert (allocates n = true -> Alloc s1 p = true) as Hnew.
    { unfold allocates, is_reuse. intros Hal. unfold alloc in Ha. destruct v.
      - destruct Ha as (_ & Ha). destruct (0 <? n); [|discriminate]. destruct Ha as (_ & _ & _ & H). now rewrite H, Z.eqb_refl.
      - apply Ha.
      - apply Ha. lia. }
    assert (allocates n = false -> Alloc s1 p = Alloc s p) as Hsame.
    { unfold allocates, is_reuse. intros Hal. unfold alloc in Ha. destruct v.
      - destruct Ha as (_ & Ha). destruct (0 <? n); [discriminate|]. destruct Ha as (_ & H). apply H.
      - rewrite orb_true_r in Hal. discriminate.
      - destruct Ha as (H0 & _ & _ & _ & _ & H5 & _). apply H5. lia. }
    split.
    - intros q Hq Eq. cbn [after_alloc Alloc SizeMap] in Eq |- *. rewrite El.
      destruct (allocates n && (q =? p)) eqn:E.
      + apply andb_true_iff in E as (E1 & E2). assert (q = p) as -> by lia. unfold allocates in E1.
        destruct (0 <? n) eqn:En; [left; exists (Block k p n); split; [now left|reflexivity]|].
        right. unfold is_reuse in E1. unfold alloc in Ha. destruct v; try discriminate. split; [reflexivity|].
        destruct Ha as (H0 & _ & H2 & _ & _ & _ & H6 & _). assert (n = 0) as -> by lia. split; [now apply H2|exact H6].
      + destruct (F5 q Hq Eq) as [(b & Hb & Es)|(Hv & Hq0 & Hz)].
        * left. exists b. split; [|exact Es]. destruct (0 <? n); [now right|exact Hb].
        * right. split; [exact Hv|]. split; [exact Hq0|].
          unfold allocates, is_reuse in E. unfold alloc in Ha. rewrite Hv in E, Ha. rewrite orb_true_r in E. cbn in E.
          destruct Ha as (_ & _ & _ & _ & _ & _ & _ & H7 & _). rewrite H7; auto; [|lia]. now rewrite <- (F4 Hv q Hq).
    - intros q Hq Eq. cbn [after_alloc Alloc] in Eq.
      destruct (Z.eq_dec q p) as [->|Hne].
      + destruct (allocates n) eqn:E; [now apply Hnew|]. rewrite (Hsame eq_refl). apply F6; auto.
      + rewrite Hfr; auto. apply F6; auto. destruct (q =? p) eqn:E'; [lia|]. now rewrite andb_false_r in Eq.
  Qed.

  Lemma gallocs_same : forall R R' (HS : forall x, Size R' x = Size R x) g s0 s1, good_globals bvptr P g ->
    (forall b n, In (b, n) g -> forall q, b <= q < b + n -> base R' q = b) ->
    gallocs bvptr P v R s0 g s1 -> forall t0, (forall q, ref q -> Alloc t0 q = true -> Alloc s0 q = true) ->
    CurrAddr t0 = CurrAddr s0 -> (forall q, ref q -> SizeMap t0 q = SizeMap s0 q) ->
    exists t1, gallocs bvptr P v R' t0 g t1 /\
      (forall q, ref q -> Alloc t1 q = true -> Alloc s1 q = true) /\
      (forall q, ref q -> Alloc t1 q = true -> Alloc t0 q = true \/ In q (map fst g)) /\
      (v = Reuse -> forall q, ref q -> SizeMap t1 q = SizeMap s1 q) /\ CurrAddr t1 = CurrAddr s1.
  Proof.
    intros R R' HS. induction g as [|[b n] g IH]; intros s0 s1 [Hg Hpair] HB H t0 Ht Hc Hz; cbn in H.
    - subst s1. exists t0. cbn. split; [reflexivity|]. split; [exact Ht|]. split; [auto|]. split; [auto|exact Hc].
    - destruct H as (s & (Hb & Ha & Hf & Hs & Hcu & Hk) & H). inversion Hpair as [|? ? Hall Hpair']; subst.
      destruct (Hg b n (or_introl eq_refl)) as (P1 & P2 & P3). destruct (top_half P HP) as [T1 T2].
      set (t := State (fun q => if q =? b then true else Alloc t0 q)  (SizeMap s) (CurrAddr t0) (allocatedCounter t0)).
      assert (galloc bvptr P v R' t0 b n t) as Hgal.
      { split; [apply based_range; auto; try lia; intros q; apply (HB b n); now left|]. cbn. rewrite Z.eqb_refl. split; [reflexivity|].
        split; [intros q _ Hne; destruct (q =? b) eqn:E; [lia|reflexivity]|]. split; [|auto].
        destruct v; [now rewrite HS| |now rewrite HS]. destruct Hs as (S1 & S2). split; [exact S1|]. intros q Hq Hne. rewrite Hz; auto. }
      destruct (IH s s1 ltac:(split; [intros; apply Hg; now right|exact Hpair']) ltac:(intros; eapply HB; eauto; now right) H t)
        as (t1 & A1 & A2 & A3 & A4 & A5).
      + intros q Hq. cbn. destruct (q =? b) eqn:E; [assert (q = b) as -> by lia; auto|]. intros Eq. rewrite Hf; auto. lia.
      + cbn. congruence.
      + reflexivity.
      + exists t1. split; [exists t; auto|]. split; [exact A2|]. split; [|auto].
        intros q Hq Eq. destruct (A3 q Hq Eq) as [B|B]; [|right; now right]. cbn in B. destruct (q =? b) eqn:E; [right; left; cbn; lia|now left].
  Qed.

  Theorem canonical : forall R R' h s, run R G h s -> calm h -> frees_ok G h ->
    (forall x, Size R' x = Size R x) -> (forall b, In b (blocks G h) -> forall q, inside q b -> base R' q = start b) ->
    exists t, follows R' h s t.
  Proof.
    intros R R' h s Hrun. induction Hrun as [s (s0 & s1 & H1 & H2 & H3 & H4 & H5)|h s e s1 Hrun IH Hstep]; intros Hc Hok HS HB.
    - destruct (gallocs_same R R' HS G s0 s1 HG) with (t0 := State (fun _ => false) (SizeMap s0) (CurrAddr s0) (allocatedCounter s0))
        as (t1 & A1 & A2 & A3 & A4 & A5); auto.
      { intros b n Hin q Hq. apply (HB (Block Global b n)); [|exact Hq]. cbn. apply in_map_iff. exists (b, n). auto. }
      { discriminate. }
      exists (State (Alloc t1) (SizeMap t1) 1024 0). split.
      { constructor. exists (State (fun _ => false) (SizeMap s0) (CurrAddr s0) (allocatedCounter s0)), t1. auto. }
      split; [cbn; lia|]. split; [cbn; lia|]. split; [intros Hv q Hq; cbn; rewrite H3; auto|]. split.
      + intros q Hq Eq. cbn in Eq. left. destruct (A3 q Hq Eq) as [B|B]; [discriminate|].
        apply in_map_iff in B as ([b n] & <- & Hin). exists (Block Global b n). split; [|reflexivity]. cbn. apply in_map_iff. exists (b, n). auto.
      + intros q Hq Eq. rewrite H2. apply A2; auto.
    - assert (calm h) as Hc' by (apply calm_cons in Hc; exact Hc).
      assert (run R G (e :: h) s1) as Hrun1 by (econstructor; eauto).
      destruct e as [n p|n p|p].
      + destruct IH as (t & Ft); auto. { intros b Hb. apply HB. cbn. destruct (0 <? n); [now right|exact Hb]. }
        destruct Hstep as (Hn & Hp & Ha & Hk). exists (after_alloc t s1 n p).
        assert (0 < n -> forall q, p <= q < p + n -> base R' q = p) as HB'.
        { intros Hpos q Hq. apply (HB (Block Heap p n)); [|exact Hq]. cbn. destruct (0 <? n) eqn:E; [now left|lia]. }
        apply (alloc_inv R R' h s t n p s1 Heap); auto. apply run_step with (s := t); [apply Ft|]. split; [exact Hn|]. split; [exact Hp|].
        split; [now apply (alloc_follows R R' h s t n p s1)|]. cbn [after_alloc allocatedCounter]. rewrite Hk.
        destruct Ft as (_ & _ & -> & _). reflexivity.
      + destruct IH as (t & Ft); auto. { intros b Hb. apply HB. cbn. destruct (0 <? n); [now right|exact Hb]. }
        destruct Hstep as (Hn & Hp & Ha & Hk). exists (after_alloc t s1 n p).
        assert (0 < n -> forall q, p <= q < p + n -> base R' q = p) as HB'.
        { intros Hpos q Hq. apply (HB (Block Stack p n)); [|exact Hq]. cbn. destruct (0 <? n) eqn:E; [now left|lia]. }
        apply (alloc_inv R R' h s t n p s1 Stack); auto. apply run_step with (s := t); [apply Ft|]. split; [exact Hn|]. split; [exact Hp|].
        split; [now apply (alloc_follows R R' h s t n p s1)|]. cbn [after_alloc allocatedCounter]. rewrite Hk.
        destruct Ft as (_ & _ & -> & _). reflexivity.
      + destruct Hok as (Hp0 & Hok). destruct IH as (t & Ft); auto. destruct Hstep as (Hp & Hchk & Hf).
        pose proof (free_alloc bvptr P v true HP s p s1 eq_refl Hf (calm_free p h Hc)) as (Fa & Fb).
        pose proof (calm_free p h Hc) as Hcf.
        destruct Ft as (F1 & F2 & F3 & F4 & F5 & F6).
        exists (State (fun q => if negb (p =? 0) && (q =? p) then false else Alloc t q) (SizeMap t) (CurrAddr t) (allocatedCounter s1)).
        assert (CurrAddr s1 = CurrAddr s) as Ec by apply Hf.
        split; [|split; [cbn; congruence|split; [reflexivity|split; [|split]]]].
        * apply run_step with (s := t); [exact F1|]. split; [exact Hp|]. split.
          -- intros _. unfold free_check. destruct (Z.eq_dec p 0) as [->|Hne]; [now left|]. right.
             assert (exists b, In b (live G h) /\ bk b <> Global /\ start b = p) as (b & Hb & Hbk & Es).
             { destruct Hp0 as [H|[(b & A & B & C)|(b & A & B & C)]]; [congruence| |]; exists b; repeat split; auto; congruence. }
             destruct (block_facts R' h t F1 b (live_blocks _ _ _ Hb)) as ((B1 & B2) & B3).
             subst p. split; [apply B3; unfold inside; lia|]. split; [apply (live_facts R' h t F1 Hc' b Hb)|].
             destruct (bk b); [congruence|lia|lia].
          -- destruct Hf as (_ & _ & Hf). split; [reflexivity|]. split; [reflexivity|]. destruct v; cbn [Alloc allocatedCounter].
             ++ destruct (p =? 0) eqn:E; cbn [negb andb] in *.
                ** split; [reflexivity|]. rewrite F3. apply Hf.
                ** split; [reflexivity|]. rewrite F3. apply Hf.
             ++ destruct Hf as (Q1 & Q2 & Q3 & Q4). destruct (p =? 0) eqn:E; cbn [negb andb].
                ** destruct Hcf; [congruence|lia].
                ** rewrite Z.eqb_refl. split; [reflexivity|]. split; [intros _ q Hq Hne; destruct (q =? p) eqn:E'; [lia|reflexivity]|].
                   rewrite F3. auto.
             ++ destruct Hf as (Q1 & Q2 & Q3 & Q4). destruct (p =? 0) eqn:E; cbn [negb andb].
                ** destruct Hcf; [congruence|lia].
                ** rewrite Z.eqb_refl. split; [reflexivity|]. split; [intros _ q Hq Hne; destruct (q =? p) eqn:E'; [lia|reflexivity]|].
                   rewrite F3. auto.
        * intros Hv q Hq. cbn. destruct Hf as (_ & -> & _). now apply F4.
        * intros q Hq Eq. cbn [Alloc SizeMap] in Eq |- *. destruct (negb (p =? 0) && (q =? p)) eqn:E; [discriminate|].
          destruct (F5 q Hq Eq) as [(b & Hb & Es)|H]; [left|right; exact H]. exists b. split; [|exact Es]. cbn [live]. apply filter_In.
          split; [exact Hb|]. destruct (placed_ref bvptr P HP b (proj1 (block_facts R' h t F1 b (live_blocks _ _ _ Hb)))) as (_ & Hn0 & _).
          rewrite Es. destruct (q =? p) eqn:E1; [|reflexivity]. destruct (p =? 0) eqn:E2; [lia|discriminate].
        * intros q Hq Eq. cbn [Alloc] in Eq. destruct (negb (p =? 0) && (q =? p)) eqn:E; [discriminate|].
          rewrite Fb; auto. destruct (q =? p) eqn:E1; [|left; lia]. destruct (p =? 0) eqn:E2; [right; lia|discriminate].
  Qed.

  (** The chosen interpretation of $base. *)
  Definition own_base (R : rigid) (h : list event) : rigid :=
    Rigid (fun q => if existsb (fun b => (start b <=? q) && (q <? start b + size b)) (blocks G h) then base R q else q) (Size R).
  Lemma own_base_in : forall R h s, run R G h s -> forall b, In b (blocks G h) -> forall q, inside q b -> base (own_base R h) q = start b.
  Proof.
    intros R h s Hrun b Hb q Hq. cbn. destruct (existsb _ _) eqn:E.
    - now apply (block_facts R h s Hrun b Hb).
    - exfalso. assert (existsb (fun b => (start b <=? q) && (q <? start b + size b)) (blocks G h) = true); [|congruence].
      apply existsb_exists. exists b. split; [exact Hb|]. unfold inside in Hq. lia.
  Qed.
  Lemma own_base_out : forall R h q, (forall b, In b (blocks G h) -> ~ inside q b) -> base (own_base R h) q = q.
  Proof.
    intros R h q H. cbn. destruct (existsb _ _) eqn:E; [|reflexivity]. apply existsb_exists in E as (b & Hb & Eb).
    exfalso. apply (H b Hb). unfold inside. lia.
  Qed.
  Lemma inside_dec : forall h q, (exists b, In b (blocks G h) /\ inside q b) \/ (forall b, In b (blocks G h) -> ~ inside q b).
  Proof.
    intros h q. destruct (existsb (fun b => (start b <=? q) && (q <? start b + size b)) (blocks G h)) eqn:E.
    - left. apply existsb_exists in E as (b & Hb & Eb). exists b. split; [exact Hb|]. unfold inside. lia.
    - right. intros b Hb Hq. assert (existsb (fun b => (start b <=? q) && (q <? start b + size b)) (blocks G h) = true); [|congruence].
      apply existsb_exists. exists b. split; [exact Hb|]. unfold inside in Hq. lia.
  Qed.

  Definition fits (p n : Z) : Prop := ref p /\ (bvptr = true -> p + n < half P).

  Theorem deref_sound : forall R h s p n, run R G h s -> calm h -> fits p n -> 0 <= n ->
    in_bounds G h p n -> deref_check bvptr P v R s p n.
  Proof.
    intros R h s p n Hrun Hc [Hp Hf] Hn (b & Hb & Hin & Hle). destruct (top_half P HP) as [T1 T2].
    destruct (block_facts R h s Hrun b (live_blocks _ _ _ Hb)) as (B1 & B2).
    destruct (live_facts R h s Hrun Hc b Hb) as (L1 & L2). unfold deref_check. rewrite (B2 p Hin).
    destruct (placed_ref bvptr P HP b B1) as (_ & _ & Hr). unfold add_ref. unfold inside in Hin.
    split; [exact L1|]. split; [lia|].
    rewrite (wrap_id bvptr P HP (p + n)) by (intros Hb'; specialize (Hf Hb'); specialize (Hp Hb'); unfold half in *; lia).
    destruct v; rewrite L2; rewrite wrap_id; auto.
  Qed.

  (** One model of the history decides: there the check passes only if the bytes
      are in a live block. *)
  Lemma deref_decides : forall R h s p n, run R G h s -> calm h -> frees_ok G h -> fits p n -> 0 < n ->
    exists R' s', run R' G h s' /\ (deref_check bvptr P v R' s' p n -> in_bounds G h p n).
  Proof.
    intros R h s p n Hrun Hc Hok [Hp Hf] Hn. destruct (top_half P HP) as [T1 T2].
    destruct (canonical R (own_base R h) h s Hrun Hc Hok (fun _ => eq_refl) (own_base_in R h s Hrun)) as (t & F1 & _ & _ & _ & F5 & _).
    exists (own_base R h), t. split; [exact F1|]. intros (C1 & C2 & C3).
    assert (wrap bvptr P (p + n) = p + n) as Ew.
    { apply wrap_id; auto. intros Hb'. specialize (Hf Hb'). specialize (Hp Hb'). unfold half in *. lia. }
    unfold add_ref in C3. rewrite Ew in C3. destruct (inside_dec h p) as [(b0 & Hb0 & Hi)|Hno].
    - pose proof (own_base_in R h s Hrun b0 Hb0 p Hi) as Eb. rewrite Eb in C1, C2, C3.
      destruct (placed_ref bvptr P HP b0 (proj1 (block_facts R h s Hrun b0 Hb0))) as (R1 & R2 & R3).
      destruct (F5 _ R1 C1) as [(b & Hb & Es)|(_ & E0 & _)]; [|congruence].
      exists b. split; [exact Hb|]. destruct (placed_ref bvptr P HP b (proj1 (block_facts _ h t F1 b (live_blocks _ _ _ Hb)))) as (_ & _ & Hr).
      pose proof (proj2 (live_facts _ h t F1 Hc b Hb)) as Esz. rewrite Es in Esz, Hr.
      assert (p + n <= start b0 + size b) as Hle.
      { destruct v; rewrite Esz in C3; rewrite wrap_id in C3; auto. }
      unfold inside in *. rewrite Es. lia.
    - rewrite (own_base_out R h p Hno) in C1, C2, C3. exfalso. destruct (F5 p Hp C1) as [(b & Hb & Es)|(Hv & E0 & Ez)].
      + apply (Hno b (live_blocks _ _ _ Hb)). destruct (block_facts _ h t F1 b (live_blocks _ _ _ Hb)) as ((B1 & _) & _). unfold inside. lia.
      + rewrite Hv, Ez, E0 in C3. rewrite wrap_id in C3; auto; [lia|]. intros _. lia.
  Qed.
  Theorem deref_complete : forall R h s p n, run R G h s -> calm h -> frees_ok G h -> fits p n -> 0 < n ->
    (forall R' s', run R' G h s' -> deref_check bvptr P v R' s' p n) -> in_bounds G h p n.
  Proof.
    intros R h s p n Hrun Hc Hok Hf Hn Hall. destruct (deref_decides R h s p n Hrun Hc Hok Hf Hn) as (R' & t & H1 & H2). auto.
  Qed.

  Theorem free_sound : forall R h s p, run R G h s -> calm h ->
    p = 0 \/ starts_live G h Heap p \/ starts_live G h Stack p -> free_check R s p.
  Proof.
    intros R h s p Hrun Hc H. unfold free_check. destruct H as [H|H]; [now left|right].
    assert (exists b, In b (live G h) /\ bk b <> Global /\ start b = p) as (b & Hb & Hbk & Es).
    { destruct H as [(b & A & B & C)|(b & A & B & C)]; exists b; repeat split; auto; congruence. }
    destruct (block_facts R h s Hrun b (live_blocks _ _ _ Hb)) as ((B1 & B2) & B3). subst p.
    split; [apply B3; unfold inside; lia|]. split; [apply (live_facts R h s Hrun Hc b Hb)|]. destruct (bk b); [congruence|lia|lia].
  Qed.

  Lemma free_decides : forall R h s p, run R G h s -> calm h -> frees_ok G h -> ref p ->
    exists R' s', run R' G h s' /\ (free_check R' s' p -> p = 0 \/ starts_live G h Heap p \/ starts_live G h Stack p).
  Proof.
    intros R h s p Hrun Hc Hok Hp.
    destruct (canonical R (own_base R h) h s Hrun Hc Hok (fun _ => eq_refl) (own_base_in R h s Hrun)) as (t & F1 & _ & _ & _ & F5 & _).
    exists (own_base R h), t. split; [exact F1|]. intros Hchk.
    destruct Hchk as [H|(C1 & C2 & C3)]; [now left|right].
    destruct (F5 p Hp C2) as [(b & Hb & Es)|(_ & E0 & _)]; [|lia].
    destruct (block_facts _ h t F1 b (live_blocks _ _ _ Hb)) as ((B1 & B2) & _).
    destruct (bk b) eqn:Ek; [lia|left|right]; exists b; auto.
  Qed.
  Theorem free_complete : forall R h s p, run R G h s -> calm h -> frees_ok G h -> ref p ->
    (forall R' s', run R' G h s' -> free_check R' s' p) -> p = 0 \/ starts_live G h Heap p \/ starts_live G h Stack p.
  Proof.
    intros R h s p Hrun Hc Hok Hp Hall. destruct (free_decides R h s p Hrun Hc Hok Hp) as (R' & t & H1 & H2). auto.
  Qed.
End M.
