(** C20, C21: memory regions and type safety. *)
From Coq Require Import ZArith List Bool Arith Lia.
From Verif.Model Require Import Globals Regions.
From Verif.Spec Require Import Aliasing.
From Verif.Proofs Require Import RegionsProofs TypeSafe.
Import ListNotations.
Open Scope list_scope.
Open Scope Z_scope.

(** * C20: accesses that may overlap use the same memory map. *)

(** An access of at least one byte whose end is below 4 GiB. *)
Definition proper (a : access) : Prop := 0 <= ac_off a /\ 0 < ac_len a /\ ac_off a + ac_len a < 2 ^ 32.

(** The index of the region of [a] once the accesses [l] have been visited. *)
Definition region_of (bp nb : bool) (dsa : nat -> node_info) (l : list access) (a : access) : nat :=
  fst (idx bp (visit bp nb dsa [] l) (init bp nb dsa a)).

Theorem C20_same_region : forall bp nb dsa l a b,
  Forall proper l -> In a l -> In b l -> may_alias dsa a b ->
  region_of bp nb dsa l a = region_of bp nb dsa l b.
Proof. intros bp nb dsa l a b. exact (same_region bp nb dsa l a b). Qed.
Print Assumptions C20_same_region.

(** Distinct regions are disjoint: neither both incomplete nor both complicated,
    and, for regions of the same object, disjoint byte ranges. *)
Theorem C20_regions_disjoint : forall bp nb dsa l, Forall proper l ->
  forall i j g h, i <> j ->
    nth_error (visit bp nb dsa [] l) i = Some g -> nth_error (visit bp nb dsa [] l) j = Some h ->
    ~ (incomplete g = true /\ incomplete h = true) /\ ~ (complicated g = true /\ complicated h = true) /\
    (representative g = representative h ->
     offset g + length g <= offset h \/ offset h + length h <= offset g).
Proof.
  intros bp nb dsa l Hok.
  destruct (visit_inv bp nb dsa l [] Hok (Forall_nil _) apart_nil) as (W & A & _ & _).
  set (regs := visit bp nb dsa [] l) in *. clearbody regs.
  assert (forall i j g h, (i < j)%nat -> nth_error regs i = Some g -> nth_error regs j = Some h -> overlaps g h = false) as Hlt.
  { clear - A. induction A as [|g0 gs H0 A IH]; intros i j g h Hij Hi Hj; [destruct i; discriminate|].
    destruct j as [|j]; [lia|]. destruct i as [|i]; cbn in Hi, Hj.
    - injection Hi as <-. apply H0. eapply nth_error_In; exact Hj.
    - apply (IH i j); auto. lia. }
  intros i j g h Hij Hi Hj.
  assert (wf bp dsa g /\ wf bp dsa h) as [Wg Wh].
  { rewrite Forall_forall in W. split; apply W; eapply nth_error_In; eassumption. }
  assert (overlaps g h = false) as Ho.
  { destruct (Nat.lt_ge_cases i j) as [H|H]; [exact (Hlt i j g h H Hi Hj)|].
    rewrite (overlaps_sym bp dsa) by assumption. apply (Hlt j i); auto. lia. }
  unfold overlaps in Ho. apply orb_false_iff in Ho as [Ho1 Ho2]. apply orb_false_iff in Ho1 as [Ha Hb].
  split; [intros [H1 H2]; rewrite H1, H2 in Ha; discriminate|].
  split; [intros [H1 H2]; rewrite H1, H2 in Hb; discriminate|].
  intros E. rewrite (proj2 (node_eqb_eq _ _) E) in Ho2. cbn in Ho2. apply orb_false_iff in Ho2 as [_ Hd].
  rewrite (isDisjoint_eq g h (wf_bounds _ _ _ Wg) (wf_bounds _ _ _ Wh)) in Hd. unfold meets in Hd. clear - Hd. lia.
Qed.
Print Assumptions C20_regions_disjoint.

(** The translator, which asks for the region of every access again, gets the
    same answers whenever it asks: asking changes no region except possibly its
    cell type, and the index is the same after any further queries. *)
Theorem C20_stable : forall bp nb dsa l a, Forall proper l -> In a l ->
  let same g h := representative g = representative h /\ offset g = offset h /\ length g = length h /\
    rsingleton g = rsingleton h /\ allocated g = allocated h /\ rbytewise g = rbytewise h in
  Forall2 same (snd (idx bp (visit bp nb dsa [] l) (init bp nb dsa a))) (visit bp nb dsa [] l) /\
  forall l', (forall b, In b l' -> In b l) -> region_of bp nb dsa (l ++ l') a = region_of bp nb dsa l a.
Proof.
  intros bp nb dsa l a Hok Ha same.
  destruct (visit_inv bp nb dsa l [] Hok (Forall_nil _) apart_nil) as (W & A & _ & C).
  assert (forall b, In b l -> proper b) as Hp by (rewrite Forall_forall in Hok; exact Hok).
  split.
  - destruct (idx_stable bp dsa _ _ W (wf_init bp nb dsa a (Hp a Ha)) A (C a Ha)) as (n & g & _ & _ & _ & Hs & _).
    remember (snd (idx bp (visit bp nb dsa [] l) (init bp nb dsa a))) as regs'.
    remember (visit bp nb dsa [] l) as regs. clear - Hs. revert regs Hs.
    induction regs' as [|g gs IH]; intros [|h hs] Hs; try discriminate; constructor.
    + cbn in Hs. injection Hs as E1 E2 E3 E4 E5 E6 E7 E8 E9 _. unfold same. auto 10.
    + apply IH. cbn in Hs. injection Hs; auto.
  - intros l' Hl'. unfold region_of.
    assert (forall regs, Forall (wf bp dsa) regs -> apart regs -> (forall b, In b l -> covered regs (init bp nb dsa b)) ->
      fst (idx bp (visit bp nb dsa regs l') (init bp nb dsa a)) = fst (idx bp regs (init bp nb dsa a))) as H.
    { clear W A C. induction l' as [|b l' IH]; intros regs W A C; [reflexivity|]. cbn [visit].
      assert (In b l) as Hb by (apply Hl'; now left).
      destruct (idx bp regs (init bp nb dsa b)) as [n regs'] eqn:E. cbn [snd].
      destruct (idx_spec bp dsa regs _ n regs' W (wf_init bp nb dsa b (Hp b Hb)) A E) as (W' & A' & _).
      destruct (idx_covers bp dsa regs _ n regs' W (wf_init bp nb dsa b (Hp b Hb)) A E) as (C' & _).
      rewrite IH; [|intros c Hc; apply Hl'; now right|assumption|assumption|].
      2:{ intros c Hc. apply C'; [apply wf_init, Hp, Hc|now apply C]. }
      (* one query does not change the index found *)
      destruct (idx_stable bp dsa regs _ W (wf_init bp nb dsa b (Hp b Hb)) A (C b Hb)) as (nb' & gb & _ & _ & _ & Hs & _).
      rewrite E in Hs. cbn [snd] in Hs. clear - Hs. revert regs Hs.
      induction regs' as [|g gs IH]; intros [|h hs] Hs; try discriminate; [reflexivity|].
      cbn [map] in Hs. assert (shape g = shape h /\ map shape gs = map shape hs) as [H1 H2] by (split; [congruence|injection Hs; auto]).
      cbn [idx]. rewrite (shape_overlaps g h _ H1). destruct (overlaps h (init bp nb dsa a)).
      - destruct (absorb bp (merge bp g _) gs), (absorb bp (merge bp h _) hs). reflexivity.
      - specialize (IH hs H2). destruct (idx bp gs _), (idx bp hs _). cbn in *. congruence. }
    assert (forall regs, visit bp nb dsa regs (l ++ l') = visit bp nb dsa (visit bp nb dsa regs l) l') as Happ.
    { clear. induction l as [|b l IH]; intros regs; [reflexivity|]. cbn. apply IH. }
    rewrite Happ. apply H; assumption.
Qed.
Print Assumptions C20_stable.

(** A node with two int fields at 0 and 4, a third access covering bytes 2-6, and
    an unrelated incomplete node. *)
Definition plain_node : node_info :=
  NodeInfo false true false false false false false false false false 0 [(0, [(1, 4)]); (4, [(1, 4)])].
Definition incomplete_node : node_info :=
  NodeInfo false false false false false false true false false false 0 [].
Definition demo_dsa (k : nat) : node_info := match k with 0%nat => plain_node | _ => incomplete_node end.
Definition fa : access := Access (Some 0%nat) 0 4 1 false.
Definition fb : access := Access (Some 0%nat) 4 4 1 false.
Definition fab : access := Access (Some 0%nat) 2 4 1 false.
Definition fx : access := Access (Some 1%nat) 0 4 1 false.
Example C20_nonvacuous :
  map (region_of true false demo_dsa [fa; fx; fb]) [fa; fx; fb] = [0; 1; 2]%nat /\
  map (region_of true false demo_dsa [fa; fx; fb; fab]) [fa; fx; fb; fab] = [0; 1; 0; 0]%nat /\
  Forall proper [fa; fx; fb; fab] /\ may_alias demo_dsa fab fb.
Proof.
  split; [reflexivity|]. split; [reflexivity|]. split; [repeat constructor; cbn; lia|].
  right. right. split; [reflexivity|]. right. exists 5. cbn. lia.
Qed.

(** Without the bound: a memset of unknown length (modelled as 2^32 - 1 bytes)
    starting at byte 8 of an object is put in another region than the bytes from
    16 on, because the end of its range wraps around. *)
Theorem C20_unknown_length_refuted : exists l a b,
  In a l /\ In b l /\ may_alias demo_dsa a b /\ ac_len a = 2 ^ 32 - 1 /\ proper b /\
  region_of true false demo_dsa l a <> region_of true false demo_dsa l b.
Proof.
  exists [Access (Some 0%nat) 16 4 1 false; Access (Some 0%nat) 8 (2 ^ 32 - 1) 2 true],
         (Access (Some 0%nat) 8 (2 ^ 32 - 1) 2 true), (Access (Some 0%nat) 16 4 1 false).
  split; [cbn; tauto|]. split; [cbn; tauto|]. split.
  - right. right. split; [reflexivity|]. right. exists 17. cbn. lia.
  - split; [reflexivity|]. split; [unfold proper; cbn; lia|]. vm_compute. discriminate.
Qed.
Print Assumptions C20_unknown_length_refuted.

(** * C21: type safety. *)

(** The type [t] of size [s] is accessed at offset [o] of the object. *)
Definition accessed (n : node_info) (o t s : Z) : Prop :=
  exists ts, In (o, ts) (nd_types n) /\ In (t, s) ts.

(** The recorded accesses form a map from offsets to non-empty sets of types. *)
Definition proper_types (n : node_info) : Prop :=
  NoDup (map fst (nd_types n)) /\
  (forall o ts, In (o, ts) (nd_types n) -> ts <> [] /\ NoDup ts) /\
  (forall o t s, accessed n o t s -> 0 <= o /\ 0 < s /\ o + s < 2 ^ 32).

Definition known_object (n : node_info) : Prop :=
  nd_collapsed n = false /\ nd_external n = false /\ nd_incomplete n = false /\ nd_unknown n = false /\
  nd_inttoptr n = false /\ nd_ptrtoint n = false /\ nd_memopd n = false.

Lemma types_at_in : forall l, NoDup (map fst l) -> forall o ts, In (o, ts) l -> types_at l o = ts.
Proof.
  induction l as [|[o' ts'] l IH]; intros Hn o ts H; [destruct H|]. cbn in Hn |- *. inversion Hn as [|? ? Hni Hn']; subst.
  destruct H as [E|H]; [injection E as -> ->; now rewrite Z.eqb_refl|].
  destruct (o' =? o) eqn:E; [|auto]. exfalso. apply Hni. apply in_map_iff. exists (o, ts). split; [cbn; lia|exact H].
Qed.

(** An offset is declared safe exactly when the object is fully known, one type
    is accessed there, and no byte of it belongs to an access at another offset. *)
Theorem C21_type_safe : forall n o, proper_types n ->
  isTypeSafe n o = true <->
  known_object n /\
  exists t s, accessed n o t s /\ (forall t' s', accessed n o t' s' -> t' = t /\ s' = s) /\
    forall o' t' s', accessed n o' t' s' -> o' <> o ->
      ~ exists b, o <= b < o + s /\ o' <= b < o' + s'.
Proof.
  intros n o (Hnd & Hset & Hpos). unfold isTypeSafe.
  assert ((nd_collapsed n || nd_external n || nd_incomplete n || nd_unknown n || nd_inttoptr n || nd_ptrtoint n || nd_memopd n) = false
          <-> known_object n) as Hk.
  { unfold known_object. rewrite !orb_false_iff. tauto. }
  destruct (_ || nd_memopd n).
  { split; [discriminate|]. intros [H _]. apply Hk in H. discriminate. }
  assert (known_object n) as HK by now apply Hk. clear Hk.
  set (T := nd_types n) in *.
  assert (forall o ts, In (o, ts) T -> types_at T o = ts) as Hat by (intros; now apply types_at_in).
  assert (forall o ts, In (o, ts) T -> end_of T o = o + field_length ts /\
            exists t s, In (t, s) ts /\ s = field_length ts) as Hend.
  { intros o1 ts H1. destruct (field_length_in ts (proj1 (Hset _ _ H1))) as ([t s] & Ht & Es).
    { intros [t s] Ht. cbn. apply (Hpos o1 t s). now exists ts. }
    destruct (Hpos o1 t s ltac:(now exists ts)) as (P1 & P2 & P3). cbn in Es. split; [|exists t, s; auto].
    unfold end_of. rewrite (Hat _ _ H1), <- Es. apply Z.mod_small. lia. }
  transitivity (check_fields T (offset_set T) (fun _ => None) o = Some true).
  { destruct (check_fields _ _ _ o) as [[]|]; split; congruence. }
  rewrite scan_safe, offset_set_in. split.
  - intros ((ts & Hin) & Hm & Hhi & Hlo). split; [exact HK|]. rewrite (Hat _ _ Hin) in Hm.
    destruct ts as [|[t s] [|]]; [destruct (Hset _ _ Hin); congruence| |discriminate].
    destruct (Hend _ _ Hin) as (E & _). exists t, s.
    assert (field_length [(t, s)] = s) as Hfl.
    { destruct (Hpos o t s ltac:(exists [(t, s)]; split; [exact Hin|now left])) as (_ & P & _).
      unfold field_length. cbn. destruct (0 <? s) eqn:E'; lia. }
    rewrite Hfl in E. split; [exists [(t, s)]; split; [exact Hin|now left]|]. split.
    + intros t' s' (ts' & H1 & H2). rewrite <- (Hat _ _ H1), (Hat _ _ Hin) in H2. destruct H2 as [H2|[]]. split; congruence.
    + intros o' t' s' (ts' & H1 & H2) Hne (b & B1 & B2).
      assert (In o' (offset_set T)) as Ho' by (apply offset_set_in; now exists ts').
      destruct (Hend _ _ H1) as (E' & _). pose proof (field_length_ge ts' (t', s') H2) as Hge. cbn in Hge.
      destruct (Z.lt_ge_cases o o') as [H|H].
      * specialize (Hhi o' Ho' H). lia.
      * specialize (Hlo o' Ho' ltac:(lia)). lia.
  - intros (_ & t & s & (ts & Hin & Hts) & Hone & Hdis). split; [now exists ts|].
    assert (ts = [(t, s)]) as ->.
    { destruct (Hset _ _ Hin) as [_ Hnd']. destruct ts as [|x ts]; [destruct Hts|].
      assert (forall y, In y (x :: ts) -> y = (t, s)) as Hall.
      { intros [t' s'] Hy. destruct (Hone t' s' ltac:(exists (x :: ts); auto)) as [-> ->]. reflexivity. }
      rewrite (Hall x (or_introl eq_refl)) in *. destruct ts as [|y ts]; [reflexivity|].
      exfalso. inversion Hnd' as [|? ? Hni _]; subst. apply Hni. left. apply Hall. right. now left. }
    destruct (Hpos o t s ltac:(exists [(t, s)]; auto)) as (P1 & P2 & P3).
    assert (end_of T o = o + s) as Eo.
    { destruct (Hend _ _ Hin) as (E & _). rewrite E. unfold field_length. cbn. destruct (0 <? s) eqn:E'; lia. }
    split; [now rewrite (Hat _ _ Hin)|]. split.
    + intros o' Ho' Hlt. rewrite Eo. apply offset_set_in in Ho' as (ts' & H').
      destruct (Hend _ _ H') as (_ & t' & s' & Ht' & _).
      destruct (Hpos o' t' s' ltac:(now exists ts')) as (Q1 & Q2 & Q3).
      destruct (Z.le_gt_cases (o + s) o') as [H|H]; [exact H|]. exfalso.
      apply (Hdis o' t' s' ltac:(now exists ts') ltac:(lia)). exists o'. lia.
    + intros o' Ho' Hlt. apply offset_set_in in Ho' as (ts' & H').
      destruct (Hend _ _ H') as (E' & t' & s' & Ht' & Es').
      destruct (Hpos o' t' s' ltac:(now exists ts')) as (Q1 & Q2 & Q3). rewrite E', <- Es'.
      destruct (Z.le_gt_cases (o' + s') o) as [H|H]; [exact H|]. exfalso.
      apply (Hdis o' t' s' ltac:(now exists ts') ltac:(lia)). exists o. lia.
Qed.
Print Assumptions C21_type_safe.

(** Fields at 0 (8 bytes), 4 and 8: 0 and 4 overlap, 8 is safe; offset 16 has two types. *)
Definition overlap_node : node_info :=
  NodeInfo false true false false false false false false false false 0
    [(8, [(1, 4)]); (0, [(2, 8)]); (4, [(1, 4)]); (16, [(1, 4); (3, 2)])].
Example C21_nonvacuous :
  proper_types overlap_node /\
  map (isTypeSafe overlap_node) [0; 4; 8; 16; 20] = [false; false; true; false; false].
Proof.
  split; [|reflexivity]. split; [|split].
  - cbn. repeat constructor; cbn; intuition lia.
  - intros o ts H. cbn in H. decompose [or] H; try tauto; match goal with E : (_, _) = (_, _) |- _ => injection E as <- <- end;
      (split; [discriminate|]); repeat constructor; cbn; intuition congruence.
  - intros o t s (ts & H & Hts). cbn in H. decompose [or] H; try tauto;
      match goal with E : (_, _) = (_, _) |- _ => injection E as <- <- end; cbn in Hts; decompose [or] Hts; try tauto;
      match goal with E : (_, _) = (_, _) |- _ => injection E as <- <- end; lia.
Qed.
