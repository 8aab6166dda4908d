(** Invariants of the allocation models. *)
From Coq Require Import ZArith List Bool Lia.
From Verif.Base Require Import ZBits.
From Verif.Spec Require Import LLVMInt Blocks.
From Verif.Model Require Import Allocator.
Import ListNotations.
Open Scope list_scope.
Open Scope Z_scope.

Lemma live_blocks : forall G h b, In b (live G h) -> In b (blocks G h).
Proof.
  induction h as [|[n p|n p|p] h IH]; intros b Hb; cbn in Hb |- *; auto.
  - destruct (0 <? n); cbn in *; intuition.
  - destruct (0 <? n); cbn in *; intuition.
  - apply filter_In in Hb. now apply IH.
Qed.

Section A.
  Context (bvptr : bool) (P : Z) (v : memory_model) (safety : bool) (HP : P = 32 \/ P = 64).
  Notation alloc := (alloc bvptr P v safety).
  Notation run := (run bvptr P v safety).
  Notation step := (step bvptr P v safety).

  Definition half := 2 ^ (P - 1).
  Lemma top_half : MALLOC_TOP P = half - 1 /\ 1024 < half - 1.
  Proof. unfold MALLOC_TOP, half. destruct HP as [->| ->]; cbn; lia. Qed.
  Lemma wrap_id : forall z, (bvptr = true -> - half <= z < half) -> wrap bvptr P z = z.
  Proof.
    intros z H. unfold wrap. destruct bvptr; [|reflexivity].
    apply pat_signed; [destruct HP; lia|]. exact (H eq_refl).
  Qed.

  Definition range_ok (n p : Z) : Prop := 0 < p /\ p + n < MALLOC_TOP P.

  (** The effects of an allocation that succeeds. *)
  Lemma bump_spec : forall s n p s', is_ref bvptr P n -> 0 < n ->
    bump bvptr P s n p s' -> p = CurrAddr s /\ CurrAddr s + n <= CurrAddr s' < MALLOC_TOP P.
  Proof.
    intros s n p s' Hn Hpos (E & H1 & H2 & H3). split; [exact E|]. destruct top_half as [T1 T2].
    unfold sub_ref in H1. rewrite wrap_id in H1; [lia|]. intros Hb. unfold is_ref in Hn. specialize (Hn Hb). fold half in Hn. lia.
  Qed.

  Lemma based_range : forall R p n, (bvptr = true -> - half <= p) -> p + n < half -> 0 < n ->
    based bvptr P R p n <-> forall q, p <= q < p + n -> base R q = p.
  Proof.
    intros R p n Hp Hn Hpos. unfold based, add_ref. rewrite wrap_id by (intros Hb; specialize (Hp Hb); lia). split; intros H.
    - intros q Hq. apply H; try lia. intros Hb. specialize (Hp Hb). fold half. lia.
    - intros q _ H1 H2. apply H. lia.
  Qed.

  Lemma gallocs_spec : forall G R s s', good_globals bvptr P G -> gallocs bvptr P v R s G s' ->
    (forall b n, In (b, n) G -> Alloc s' b = true /\ (forall q, b <= q < b + n -> base R q = b) /\
       match v with Reuse => SizeMap s' b = n | _ => Size R b = n end) /\
    (forall q, is_ref bvptr P q -> ~ In q (map fst G) -> Alloc s' q = Alloc s q) /\
    CurrAddr s' = CurrAddr s /\ allocatedCounter s' = allocatedCounter s /\
    (forall q, is_ref bvptr P q -> ~ In q (map fst G) -> v = Reuse -> SizeMap s' q = SizeMap s q).
  Proof.
    induction G as [|[b n] G IH]; intros R s s' [Hg Hpair] H; cbn in H.
    - subst s'. cbn. intuition.
    - destruct H as (s1 & (Hb & Ha & Hf & Hs & Hc & Hk) & H).
      inversion Hpair as [|? ? Hall Hpair']; subst.
      destruct (IH R s1 s' ltac:(split; [intros; apply Hg; now right|exact Hpair']) H) as (I1 & I2 & I3 & I4 & I5).
      destruct (Hg b n (or_introl eq_refl)) as (P1 & P2 & P3).
      assert (is_ref bvptr P b) as Hrb by (intros E; specialize (P3 E); destruct top_half; unfold half in *; lia).
      assert (~ In b (map fst G)) as Hnb.
      { intros Hin. apply in_map_iff in Hin as ([b' n'] & E & Hin). cbn in E. subst b'.
        rewrite Forall_forall in Hall. specialize (Hall _ Hin). cbn in Hall. destruct (Hg b n' (or_intror Hin)). lia. }
      split; [|split; [|split; [congruence|split; [congruence|]]]].
      + intros b' n' [E|Hin]; [|now apply I1]. injection E as <- <-. split; [now rewrite I2|]. split.
        * apply based_range; auto. destruct top_half; lia.
        * clear IH I1 I2 H. destruct v; auto. destruct Hs as [Hs _]. now rewrite I5.
      + intros q Hq Hn. cbn in Hn. rewrite I2 by (auto; tauto). apply Hf; [exact Hq|]. intros ->; apply Hn; now left.
      + intros q Hq Hn Hv. cbn in Hn. rewrite I5 by tauto. rewrite Hv in Hs. apply (proj2 Hs); [exact Hq|intros ->; apply Hn; now left].
  Qed.

  (** Well-placed blocks. *)
  Definition placed (top : Z) (B : block) : Prop :=
    0 < size B /\
    match bk B with
    | Global => start B + size B < 0 /\ (bvptr = true -> - half <= start B)
    | Heap | Stack => 0 < start B /\ start B + size B <= top
    end.

  Definition apart (a b : block) : Prop := start a + size a <= start b \/ start b + size b <= start a.


  Definition tame (h : list event) : Prop := safety = false \/ v = Impls \/ no_null_free h.
  Lemma tame_cons : forall e h, tame (e :: h) -> tame h.
  Proof. unfold tame, no_null_free. cbn. tauto. Qed.

  Lemma globals_placed : forall G, good_globals bvptr P G -> forall top b,
    In b (blocks G []) -> placed top b.
  Proof.
    intros G [Hg _] top b Hb. cbn in Hb. apply in_map_iff in Hb as ([a n] & <- & Hin).
    destruct (Hg a n Hin) as (H1 & H2 & H3). unfold placed. cbn. auto.
  Qed.
  Lemma globals_apart : forall G, good_globals bvptr P G -> ForallOrdPairs apart (blocks G []).
  Proof.
    intros G [_ Hp]. cbn. induction Hp as [|g G Hall Hp IH]; cbn; constructor; auto.
    rewrite Forall_forall in *. intros b Hb. apply in_map_iff in Hb as (g' & <- & Hin).
    specialize (Hall g' Hin). unfold apart. cbn. lia.
  Qed.

  Lemma placed_mono : forall t t' b, t <= t' -> placed t b -> placed t' b.
  Proof. intros t t' b Ht (H1 & H2). split; [exact H1|]. destruct (bk b); lia. Qed.

  (** An allocation: what it says about the new block, whatever the model. *)
  Definition noreuse_inv (R : rigid) (G : list (Z * Z)) (h : list event) (s : state) : Prop :=
    1024 <= CurrAddr s < MALLOC_TOP P /\
    (forall b, In b (blocks G h) -> placed (CurrAddr s) b /\ (bk b <> Global -> 1024 <= start b)) /\
    ForallOrdPairs apart (blocks G h) /\
    (safety = true ->
       (forall b, In b (blocks G h) -> Size R (start b) = size b /\ forall q, inside q b -> base R q = start b) /\
       (tame h -> forall b, In b (blocks G h) -> (Alloc s (start b) = true <-> In b (live G h)))).

  Lemma starts_differ : forall t a b, placed t a -> placed t b -> apart a b -> start a <> start b.
  Proof. intros t a b [Ha _] [Hb _] H E. unfold apart in H. lia. Qed.

  Lemma noreuse_alloc : v <> Reuse -> forall R s n p s', is_ref bvptr P n -> 0 <= CurrAddr s < MALLOC_TOP P ->
    alloc R s n p s' ->
    (0 < n -> p = CurrAddr s /\ CurrAddr s + n <= CurrAddr s' < MALLOC_TOP P /\
       (safety = true -> Size R p = n /\ (forall q, p <= q < p + n -> base R q = p) /\ Alloc s' p = true)) /\
    (n <= 0 -> CurrAddr s' = CurrAddr s /\ (safety = true -> Alloc s' p = Alloc s p)) /\
    (safety = true -> forall q, is_ref bvptr P q -> q <> p -> Alloc s' q = Alloc s q).
  Proof.
    intros Hv R s n p s' Hn Hcur H. unfold alloc in H. destruct top_half as [T1 T2].
    assert (forall p, 0 < n -> p = CurrAddr s -> CurrAddr s + n <= CurrAddr s' < MALLOC_TOP P ->
      based bvptr P R p n -> forall q, p <= q < p + n -> base R q = p) as Hbased.
    { intros p0 Hp -> Hr. apply based_range; lia. }
    destruct v; [|congruence|].
    - destruct H as (H0 & H). destruct (0 <? n) eqn:E.
      + destruct H as (Hb & H). destruct (bump_spec s n p s' Hn ltac:(lia) Hb) as (Ep & Hr). split; [|split].
        * intros _. split; [exact Ep|]. split; [exact Hr|]. intros Hs. rewrite Hs in H. destruct H as (H1 & H2 & H3).
          split; [exact H1|]. split; [apply (Hbased p); auto; lia|]. now rewrite H3, Z.eqb_refl.
        * lia.
        * intros Hs. rewrite Hs in H. destruct H as (_ & _ & H3). intros q _ Hq. rewrite H3. destruct (q =? p) eqn:E'; [lia|reflexivity].
      + destruct H as (H1 & H2). split; [lia|]. split.
        * intros _. split; [exact H1|]. intros Hs. rewrite Hs in H2. apply H2.
        * intros Hs. rewrite Hs in H2. intros; apply H2.
    - destruct H as (H0 & H1 & H2 & H3 & H4 & H5). split; [|split].
      + intros Hp. destruct (H1 Hp) as (H1a & H1b).
        destruct (bump_spec s n p s' Hn Hp ltac:(unfold bump; intuition)) as (_ & Hr).
        split; [exact H1b|]. split; [exact Hr|]. intros Hs. rewrite Hs in H3. destruct H3 as (A & B & C).
        split; [now apply A|]. split; [|now apply C]. apply (Hbased p); auto.
      + intros Hle. assert (n = 0) as E by lia. destruct (H4 E) as (E1 & E2). split; [congruence|].
        intros Hs. rewrite Hs in H5. exact (proj1 H5 E).
      + intros Hs. rewrite Hs in H5. apply H5.
  Qed.

  Lemma noreuse_add : v <> Reuse -> forall R G h s n p s' k, k <> Global ->
    noreuse_inv R G h s -> is_ref bvptr P n -> is_ref bvptr P p -> alloc R s n p s' ->
    forall e, (tame (e :: h) -> tame h) ->
    blocks G (e :: h) = (if 0 <? n then Block k p n :: blocks G h else blocks G h) ->
    live G (e :: h) = (if 0 <? n then Block k p n :: live G h else live G h) ->
    noreuse_inv R G (e :: h) s'.
  Proof.
    intros Hv R G h s n p s' k Hk (I1 & I2 & I3 & I4) Hn Hp Ha e Ht Eb El. unfold noreuse_inv. rewrite Eb, El.
    destruct top_half as [T1 T2].
    destruct (noreuse_alloc Hv R s n p s' Hn ltac:(lia) Ha) as (A1 & A2 & A3).
    assert (forall b, In b (blocks G h) -> is_ref bvptr P (start b)) as Href.
    { intros b Hb Hbv. destruct (I2 b Hb) as [[Hs Hpl] _]. fold half. destruct (bk b); [|lia|lia].
      specialize (proj2 Hpl Hbv). lia. }
    destruct (0 <? n) eqn:En.
    - destruct (A1 ltac:(lia)) as (Ep & Hr & Hs). split; [lia|]. split; [|split].
      + intros b [<-|Hb].
        * unfold placed. cbn. split; [|lia]. split; [lia|]. destruct k; [congruence|lia|lia].
        * destruct (I2 b Hb) as [H1 H2]. split; [|exact H2]. apply (placed_mono (CurrAddr s)); [lia|exact H1].
      + constructor; [|exact I3]. rewrite Forall_forall. intros b Hb. destruct (I2 b Hb) as [[H1 H2] _].
        unfold apart. cbn. destruct (bk b); lia.
      + intros Hsafe. destruct (I4 Hsafe) as (J1 & J2). destruct (Hs Hsafe) as (S1 & S2 & S3). split.
        * intros b [<-|Hb]; [|now apply J1]. cbn. split; [exact S1|]. intros q Hq. apply S2. unfold inside in Hq. cbn in Hq. lia.
        * intros Htm b [<-|Hb]; cbn [start].
          -- rewrite S3. split; [now left|reflexivity].
          -- assert (start b <> p) as Hne.
             { destruct (I2 b Hb) as [[H1 H2] _]. destruct (bk b); lia. }
             rewrite A3 by auto. rewrite (J2 (Ht Htm) b Hb). split; [now right|]. intros [<-|H]; [cbn in Hne; congruence|exact H].
    - destruct (A2 ltac:(lia)) as (Ec & Hs). rewrite Ec. split; [exact I1|]. split; [exact I2|]. split; [exact I3|].
      intros Hsafe. destruct (I4 Hsafe) as (J1 & J2). split; [exact J1|]. intros Htm b Hb. rewrite <- (J2 (Ht Htm) b Hb).
      destruct (Z.eq_dec (start b) p) as [->|Hne]; [now rewrite (Hs Hsafe)|]. now rewrite A3 by auto.
  Qed.

  Lemma pairs_in : forall (l : list block) a b, ForallOrdPairs apart l -> In a l -> In b l -> a = b \/ apart a b.
  Proof.
    intros l a b H. induction H as [|x l Hx H IH]; intros Ha Hb; [destruct Ha|].
    rewrite Forall_forall in Hx. destruct Ha as [<-|Ha], Hb as [<-|Hb]; auto.
    right. unfold apart. specialize (Hx a Ha). unfold apart in Hx. tauto.
  Qed.

  (** A free: the map changes at the freed address only. *)
  Lemma free_alloc : forall s p s', safety = true -> free_effect bvptr P v safety s p s' -> v = Impls \/ p <> 0 ->
    (p <> 0 -> Alloc s' p = false) /\ (forall q, is_ref bvptr P q -> q <> p \/ p = 0 -> Alloc s' q = Alloc s q).
  Proof.
    intros s p s' Hs (_ & _ & H) Hp. rewrite Hs in H. destruct v.
    - destruct (p =? 0) eqn:E; cbn in H; destruct H as (H & _).
      + split; [lia|]. intros; apply H.
      + split; [intros _; now rewrite H, Z.eqb_refl|]. intros q _ Hq. rewrite H. destruct (q =? p) eqn:E'; [lia|reflexivity].
    - destruct H as (H1 & H2 & _). split; [exact H1|]. intros q Hq Hne. apply H2; auto; intuition congruence.
    - destruct H as (H1 & H2 & _). split; [exact H1|]. intros q Hq Hne. apply H2; auto; intuition congruence.
  Qed.

  Lemma tame_free : forall p h, tame (Free p :: h) -> safety = true -> v = Impls \/ p <> 0.
  Proof.
    intros p h [H|[H|H]] Hs; [congruence|now left|]. right. intros ->. apply H. now left.
  Qed.

  Theorem noreuse_invariant : v <> Reuse -> forall R G h s, good_globals bvptr P G -> run R G h s -> noreuse_inv R G h s.
  Proof.
    intros Hv R G h s Hg Hrun. destruct top_half as [T1 T2]. induction Hrun as [s (s0 & s1 & H1 & H2 & H3 & H4 & H5)|h s e s' Hrun IH Hstep].
    - split; [lia|]. split; [|split].
      + intros b Hb. split; [now apply (globals_placed G)|]. cbn in Hb. apply in_map_iff in Hb as (g & <- & _). cbn. congruence.
      + now apply globals_apart.
      + intros Hs. rewrite Hs in H1. destruct (gallocs_spec G R s0 s1 Hg H1) as (A & _). split.
        * intros b Hb. cbn in Hb. apply in_map_iff in Hb as ([a n] & <- & Hin). cbn. destruct (A a n Hin) as (_ & B & C).
          split; [destruct v; congruence|exact B].
        * intros _ b Hb. cbn in Hb |- *. split; [auto|]. intros _. apply in_map_iff in Hb as ([a n] & <- & Hin). cbn.
          rewrite H2. now apply (A a n).
    - destruct e as [n p|n p|p].
      + destruct Hstep as (Hn & Hp & Ha & _). apply (noreuse_add Hv R G h s n p s' Heap); auto; try congruence. apply tame_cons.
      + destruct Hstep as (Hn & Hp & Ha & _). apply (noreuse_add Hv R G h s n p s' Stack); auto; try congruence. apply tame_cons.
      + destruct Hstep as (Hp & Hc & Hf). destruct IH as (I1 & I2 & I3 & I4).
        pose proof Hf as (Ec & _ & _). unfold noreuse_inv. rewrite Ec. cbn [blocks]. split; [exact I1|]. split; [exact I2|]. split; [exact I3|].
        intros Hs. destruct (I4 Hs) as (J1 & J2). split; [exact J1|]. intros Htm b Hb. cbn [live]. rewrite filter_In.
        rewrite <- (J2 (tame_cons _ _ Htm) b Hb). destruct (free_alloc s p s' Hs Hf (tame_free p h Htm Hs)) as (F1 & F2).
        destruct (I2 b Hb) as [[Hsz Hpl] _].
        destruct (start b =? p) eqn:E; cbn [negb].
        * apply Z.eqb_eq in E. subst p. rewrite F1; [split; [discriminate|intuition discriminate]|destruct (bk b); lia].
        * rewrite F2; [tauto| |left; lia]. intros Hb'. fold half. destruct (bk b); [|lia|lia]. specialize (proj2 Hpl Hb'). lia.
  Qed.

  (** ** The model that reuses addresses *)
  Definition reuse_inv (R : rigid) (G : list (Z * Z)) (h : list event) (s : state) : Prop :=
    (forall b, In b (blocks G h) -> placed (MALLOC_TOP P - 1) b /\ (safety = true -> forall q, inside q b -> base R q = start b)) /\
    (tame h ->
       ForallOrdPairs apart (live G h) /\
       (safety = true \/ G = [] ->
        forall b, In b (live G h) -> Alloc s (start b) = true /\ SizeMap s (start b) = size b)).

  Lemma reuse_alloc : v = Reuse -> forall R s n p s', is_ref bvptr P n -> is_ref bvptr P p -> alloc R s n p s' -> 0 < n ->
    0 < p /\ p + n < MALLOC_TOP P /\ Alloc s' p = true /\ SizeMap s' p = n /\
    (safety = true -> forall q, p <= q < p + n -> base R q = p).
  Proof.
    intros Hv R s n p s' Hn Hp H Hpos. unfold alloc in H. rewrite Hv in H. destruct top_half as [T1 T2].
    destruct H as (_ & H1 & _ & _ & _ & H2 & H3 & _ & _ & H4). destruct (H1 Hpos) as (A & B).
    unfold sub_ref in B. rewrite wrap_id in B by (intros Hb; specialize (Hn Hb); fold half in Hn; lia).
    split; [exact A|]. split; [lia|]. split; [exact H2|]. split; [exact H3|]. intros Hs. rewrite Hs in H4.
    apply based_range; auto; lia.
  Qed.

  Lemma pairs_filter : forall (f : block -> bool) l, ForallOrdPairs apart l -> ForallOrdPairs apart (filter f l).
  Proof.
    intros f l H. induction H as [|x l Hx H IH]; cbn; [constructor|]. destruct (f x); [|exact IH]. constructor; [|exact IH].
    rewrite Forall_forall in *. intros y Hy. apply filter_In in Hy. now apply Hx.
  Qed.

  Lemma live_in_placed : forall R G h s, reuse_inv R G h s -> forall b, In b (live G h) -> placed (MALLOC_TOP P - 1) b.
  Proof. intros R G h s [H _] b Hb. apply H, live_blocks, Hb. Qed.
  Lemma placed_ref : forall b, placed (MALLOC_TOP P - 1) b -> is_ref bvptr P (start b) /\ start b <> 0 /\
    is_ref bvptr P (start b + size b).
  Proof.
    intros b [H1 H2]. destruct top_half as [T1 T2]. unfold is_ref. fold half.
    destruct (bk b); [|lia|lia]. destruct H2 as [H2 H3]. split; [intros Hb; specialize (H3 Hb); lia|].
    split; [lia|]. intros Hb. specialize (H3 Hb). lia.
  Qed.

  Lemma reuse_add : v = Reuse -> forall R G h s n p s' k, k <> Global -> good_globals bvptr P G ->
    (safety = true \/ G = []) ->
    reuse_inv R G h s -> is_ref bvptr P n -> is_ref bvptr P p -> alloc R s n p s' ->
    forall e, (tame (e :: h) -> tame h) ->
    blocks G (e :: h) = (if 0 <? n then Block k p n :: blocks G h else blocks G h) ->
    live G (e :: h) = (if 0 <? n then Block k p n :: live G h else live G h) ->
    reuse_inv R G (e :: h) s'.
  Proof.
    intros Hv R G h s n p s' k Hk Hg HG I Hn Hp Ha e Ht Eb El. pose proof (live_in_placed R G h s I) as Hpl.
    destruct I as (I1 & I2). unfold reuse_inv. rewrite Eb, El. destruct top_half as [T1 T2].
    pose proof (reuse_alloc Hv R s n p s' Hn Hp Ha) as A. pose proof Ha as Ha'. unfold alloc in Ha'. rewrite Hv in Ha'.
    destruct Ha' as (N0 & _ & N1 & N2 & N3 & N4 & N5 & N6 & N7 & _). split.
    - destruct (0 <? n) eqn:En; [|exact I1]. destruct (A ltac:(lia)) as (A1 & A2 & A3 & A4 & A5).
      intros b [<-|Hb]; [|now apply I1]. split; [|intros Hs q Hq; apply A5; auto; unfold inside in Hq; cbn in Hq; lia].
      unfold placed. cbn. destruct k; [congruence|lia|lia].
    - intros Htm. destruct (I2 (Ht Htm)) as (J1 & J2). specialize (J2 HG).
      assert (forall b, In b (live G h) -> start b <> p /\ Alloc s' (start b) = true /\ SizeMap s' (start b) = size b) as Hold.
      { intros b Hb. destruct (J2 b Hb) as (B1 & B2). destruct (placed_ref b (Hpl b Hb)) as (R1 & R2 & R3).
        assert (start b <> p) as Hne by congruence. rewrite N7, N6; auto. }
      destruct (0 <? n) eqn:En.
      + destruct (A ltac:(lia)) as (A1 & A2 & A3 & A4 & A5). split.
        * constructor; [|exact J1]. rewrite Forall_forall. intros b Hb. destruct (J2 b Hb) as (B1 & B2).
          destruct (Hold b Hb) as (Hne & _ & _). destruct (placed_ref b (Hpl b Hb)) as (R1 & R2 & R3).
          specialize (N3 _ R1 B1). rewrite N6, B2 in N3; auto. unfold add_ref in N3.
          rewrite wrap_id in N3 by lia. rewrite wrap_id in N3 by exact R3. unfold apart. cbn. lia.
        * intros _ b [<-|Hb]; [cbn; auto|]. destruct (Hold b Hb) as (_ & B); exact B.
      + split; [exact J1|]. intros _ b Hb. destruct (Hold b Hb) as (_ & B); exact B.
  Qed.

  Theorem reuse_invariant : v = Reuse -> forall R G h s, good_globals bvptr P G -> (safety = true \/ G = []) ->
    run R G h s -> reuse_inv R G h s.
  Proof.
    intros Hv R G h s Hg HG Hrun. destruct top_half as [T1 T2]. induction Hrun as [s (s0 & s1 & H1 & H2 & H3 & H4 & H5)|h s e s' Hrun IH Hstep].
    - split.
      + intros b Hb. split; [now apply (globals_placed G)|]. intros Hs. rewrite Hs in H1.
        destruct (gallocs_spec G R s0 s1 Hg H1) as (A & _). cbn in Hb. apply in_map_iff in Hb as ([a n] & <- & Hin). cbn.
        now apply (A a n Hin).
      + intros _. split; [now apply globals_apart|]. intros _ b Hb. cbn in Hb. apply in_map_iff in Hb as ([a n] & <- & Hin). cbn.
        destruct HG as [Hs| ->]; [|destruct Hin]. rewrite Hs in H1.
        destruct (gallocs_spec G R s0 s1 Hg H1) as (A & _). destruct (A a n Hin) as (B & _ & C). rewrite Hv in C. now rewrite H2, H3.
    - destruct e as [n p|n p|p].
      + destruct Hstep as (Hn & Hp & Ha & _). apply (reuse_add Hv R G h s n p s' Heap); auto; try congruence. apply tame_cons.
      + destruct Hstep as (Hn & Hp & Ha & _). apply (reuse_add Hv R G h s n p s' Stack); auto; try congruence. apply tame_cons.
      + destruct Hstep as (Hp & Hc & Hf). pose proof (live_in_placed R G h s IH) as Hpl. destruct IH as (I1 & I2).
        pose proof Hf as (_ & Es & Hf'). split; [exact I1|].
        intros Htm. destruct (I2 (tame_cons _ _ Htm)) as (J1 & J2). cbn [live]. split; [now apply pairs_filter|].
        intros HG' b Hb. apply filter_In in Hb as (Hb & Hne). destruct (J2 HG' b Hb) as (B1 & B2). rewrite Es.
        split; [|exact B2]. destruct (placed_ref b (Hpl b Hb)) as (R1 & R2 & R3).
        destruct safety eqn:Hs.
        * destruct (free_alloc s p s' Hs) as (_ & F2); [rewrite Hs; exact Hf|apply (tame_free p h Htm Hs)|]. rewrite F2; auto. left. lia.
        * rewrite Hv in Hf'. destruct Hf' as (_ & _ & F). rewrite F; auto. lia.
  Qed.
End A.
