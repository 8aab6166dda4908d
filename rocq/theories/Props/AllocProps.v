(** C24-C27: allocation, dereference, free and leak checks. *)
From Coq Require Import ZArith List String Bool Lia ZifyBool.
From Verif.Base Require Import ZBits.
From Verif.Spec Require Import LLVMInt IR Encodings Pointers Blocks.
From Verif.Model Require Import Boogie PreludeInt SmackRepInt PreludeMem Allocator.
From Verif.Proofs Require Import Lookup PreludeCalls ExprSim EvalCompose MemCalls PtrProofs PtrCmp AllocProofs AllocModels.
Import ListNotations.
Open Scope string_scope.
Open Scope list_scope.
Open Scope Z_scope.

Lemma apart_disjoint : forall a b, apart a b -> disjoint a b.
Proof. unfold apart, disjoint, inside. lia. Qed.
Lemma pairs_disjoint : forall l, ForallOrdPairs apart l -> ForallOrdPairs disjoint l.
Proof.
  induction 1 as [|x l H Hl IH]; constructor; auto. eapply Forall_impl; [|exact H]. apply apart_disjoint.
Qed.

(** * C24: allocated blocks. *)

(** The operations on references used in the model are those of the generated
    prelude.  (With wrapped integers and bit-vector pointers $eq.ref.bool and
    $ne.ref.bool are ill-typed, see C50.) *)
Definition ref_val (bvptr : bool) (P a : Z) : val := pointer bvptr P (if bvptr then pat P a else a).
Theorem C24_operators : forall enc bvptr P prog I,
  extends prog (preludeMem (flags enc bvptr) P) -> P = 32 \/ P = 64 ->
  ~ (enc = WrappedInteger /\ bvptr = true) ->
  forall r x y a b, is_ref bvptr P a -> is_ref bvptr P b ->
    evaluates prog I r x (ref_val bvptr P a) -> evaluates prog I r y (ref_val bvptr P b) ->
    let op2 f := EFun (indexedName f [NRef; NBool]) [x; y] in
    evaluates prog I r (op2 "$sle") (VBool (a <=? b)) /\ evaluates prog I r (op2 "$slt") (VBool (a <? b)) /\
    evaluates prog I r (op2 "$sge") (VBool (b <=? a)) /\ evaluates prog I r (op2 "$sgt") (VBool (b <? a)) /\
    evaluates prog I r (op2 "$eq") (VBool (a =? b)) /\ evaluates prog I r (op2 "$ne") (VBool (negb (a =? b))) /\
    evaluates prog I r (EFun (indexedName "$add" [NRef]) [x; y]) (ref_val bvptr P (add_ref bvptr P a b)) /\
    evaluates prog I r (EFun (indexedName "$sub" [NRef]) [x; y]) (ref_val bvptr P (sub_ref bvptr P a b)).
Proof.
  intros enc bvptr P prog I Hext HP Henc r x y a b Ha Hb Hx Hy op2.
  assert (forall z, ptr (flags enc bvptr) P (if bvptr then pat P z else z) = ref_val bvptr P z) as Hptr.
  { intros z. unfold ptr, ref_val, pointer. rewrite flags_bpp. reflexivity. }
  assert (1 <= P) as HP1 by (destruct HP; lia).
  assert (forall f v, calls prog I (indexedName f [NRef; NBool]) [ref_val bvptr P a; ref_val bvptr P b] v ->
            evaluates prog I r (op2 f) v) as Hcall.
  { intros f v Hc. apply ev_fun with [ref_val bvptr P a; ref_val bvptr P b]; [|exact Hc]. repeat constructor; assumption. }
  assert (forall op z, In op ["$add"; "$sub"; "$mul"] -> pwrap (flags enc bvptr) P (bop op (if bvptr then pat P a else a) (if bvptr then pat P b else b)) = (if bvptr then pat P z else z) ->
            evaluates prog I r (EFun (indexedName op [NRef]) [x; y]) (ref_val bvptr P z)) as Harith.
  { intros op z Hop E. pose proof (ev_ref_op enc bvptr P prog I Hext HP op r x y (if bvptr then pat P a else a) (if bvptr then pat P b else b) Hop) as H.
    rewrite !Hptr in H. specialize (H Hx Hy). rewrite E, Hptr in H. exact H. }
  assert (forall z, pat P (wrap bvptr P z) = pat P z) as Hwrap.
  { intros z. unfold wrap. destruct bvptr; [|reflexivity]. rewrite signed_pat; [reflexivity|exact HP1|apply pat_range; lia]. }
  assert (forall p t, t = (match p with EQ => a =? b | NE => negb (a =? b) | UGT | SGT => b <? a | UGE | SGE => b <=? a
                            | ULT | SLT => a <? b | ULE | SLE => a <=? b end) -> In p [SLE; SLT; SGE; SGT; EQ; NE] ->
            evaluates prog I r (op2 (CMPINST_TABLE p)) (VBool t)) as Hcmp.
  { intros p t -> Hin. apply Hcall. unfold ref_val, pointer. destruct bvptr.
    - pose proof (calls_cmpbool_bv enc true P prog I Hext HP p (pat P a) (pat P b) eq_refl ltac:(intros E; tauto)) as H.
      assert (forall z, is_ref true P z -> signed P (pat P z) = z) as Hs by (intros z Hz; apply pat_signed; [exact HP1|exact (Hz eq_refl)]).
      assert (pat P a = pat P b <-> a = b) as Heq.
      { split; [|congruence]. intros E. rewrite <- (Hs a Ha), <- (Hs b Hb), E. reflexivity. }
      cbn in Hin. decompose [or] Hin; try tauto; subst p; cbn [llvm_icmp] in H; rewrite ?(Hs a Ha), ?(Hs b Hb) in H; try exact H.
      + replace (a =? b) with (pat P a =? pat P b) by lia. exact H.
      + replace (a =? b) with (pat P a =? pat P b) by lia. exact H.
    - pose proof (calls_cmpbool_int enc false P prog I Hext p a b eq_refl) as H.
      cbn in Hin. decompose [or] Hin; try tauto; subst p; exact H. }
  split; [now apply (Hcmp SLE); [|cbn; tauto]|]. split; [now apply (Hcmp SLT); [|cbn; tauto]|].
  split; [now apply (Hcmp SGE); [|cbn; tauto]|]. split; [now apply (Hcmp SGT); [|cbn; tauto]|].
  split; [now apply (Hcmp EQ); [|cbn; tauto]|]. split; [now apply (Hcmp NE); [|cbn; tauto]|].
  split; apply Harith; [cbn; tauto| |cbn; tauto|].
  - unfold bop, add_ref, pwrap. cbn [String.eqb Ascii.eqb Bool.eqb]. rewrite flags_bpp. destruct bvptr; [|reflexivity].
    rewrite Hwrap. apply pat_add.
  - unfold bop, sub_ref, pwrap. cbn [String.eqb Ascii.eqb Bool.eqb]. rewrite flags_bpp. destruct bvptr; [|reflexivity].
    rewrite Hwrap. apply pat_sub.
Qed.
Print Assumptions C24_operators.

(** The two models that do not reuse addresses: all blocks ever allocated are
    pairwise disjoint, freed or not, and lie between address 1024 (above all
    globals, which are below 0) and the top of the heap. *)
Theorem C24_no_reuse : forall bvptr P v safety R G h s, P = 32 \/ P = 64 -> v <> Reuse -> good_globals bvptr P G ->
  run bvptr P v safety R G h s ->
  ForallOrdPairs disjoint (blocks G h) /\
  (forall b, In b (blocks G h) -> bk b = Global /\ start b + size b < 0 \/
     1024 <= start b /\ 0 < size b /\ start b + size b < MALLOC_TOP P).
Proof.
  intros bvptr P v safety R G h s HP Hv HG Hrun.
  destruct (noreuse_invariant bvptr P v safety HP Hv R G h s HG Hrun) as (I1 & I2 & I3 & _).
  split; [now apply pairs_disjoint|]. intros b Hb. destruct (I2 b Hb) as ((H1 & H2) & H3).
  destruct (bk b); [left; split; [reflexivity|lia]|right|right]; specialize (H3 ltac:(congruence)); lia.
Qed.
Print Assumptions C24_no_reuse.

(** The model that reuses addresses: live blocks are pairwise disjoint and inside
    the heap, as long as null has not been passed to free (with memory safety). *)
Theorem C24_reuse : forall bvptr P safety R G h s, P = 32 \/ P = 64 -> good_globals bvptr P G ->
  (safety = true -> no_null_free h) -> (safety = false -> G = []) ->
  run bvptr P Reuse safety R G h s ->
  ForallOrdPairs disjoint (live G h) /\
  (forall b, In b (live G h) -> bk b = Global /\ start b + size b < 0 \/
     0 < start b /\ 0 < size b /\ start b + size b < MALLOC_TOP P).
Proof.
  intros bvptr P safety R G h s HP HG Hn HGs Hrun.
  assert (safety = true \/ G = []) as HGs' by (destruct safety; auto).
  destruct (reuse_invariant bvptr P Reuse safety HP eq_refl R G h s HG HGs' Hrun) as (I1 & I2).
  destruct I2 as (J1 & _). { unfold tame. destruct safety; auto. }
  split; [now apply pairs_disjoint|]. intros b Hb. apply live_blocks in Hb. destruct (I1 b Hb) as ((H1 & H2) & _).
  destruct (bk b); [left; split; [reflexivity|lia]|right; lia|right; lia].
Qed.
Print Assumptions C24_reuse.

(** Requests are granted as long as there is room: any list of mallocs of
    positive sizes that fits in the heap (with one byte in between) is possible
    in all models. *)
Fixpoint lay (a : Z) (l : list Z) : list (Z * Z) :=
  match l with [] => [] | n :: l' => (a, n) :: lay (a + n + 1) l' end.
Fixpoint room (l : list Z) : Z := match l with [] => 0 | n :: l' => n + 1 + room l' end.

Definition lay_rigid (L : list (Z * Z)) : rigid :=
  Rigid (fun q => match find (fun x => (fst x <=? q) && (q <? fst x + snd x)) L with Some x => fst x | None => q end)
        (fun q => match find (fun x => (fst x <=? q) && (q <? fst x + snd x)) L with Some x => snd x | None => 0 end).

Lemma lay_find : forall l a, (forall n, In n l -> 0 < n) -> forall b n q, In (b, n) (lay a l) -> b <= q < b + n ->
  a <= b /\ find (fun x => (fst x <=? q) && (q <? fst x + snd x)) (lay a l) = Some (b, n).
Proof.
  induction l as [|m l IH]; intros a Hpos b n q Hin Hq; [destruct Hin|]. cbn [lay] in *. cbn [find fst snd].
  specialize (Hpos m (or_introl eq_refl)) as Hm.
  destruct Hin as [E|Hin].
  - injection E as <- <-. split; [lia|]. destruct ((a <=? q) && (q <? a + m)) eqn:E; [reflexivity|lia].
  - destruct (IH (a + m + 1) ltac:(intros; apply Hpos; now right) b n q Hin Hq) as (H1 & H2). split; [lia|].
    destruct ((a <=? q) && (q <? a + m)) eqn:E; [lia|exact H2].
Qed.

Theorem C24_feasible : forall bvptr P v safety l, P = 32 \/ P = 64 ->
  (forall n, In n l -> 0 < n) -> 1024 + room l < MALLOC_TOP P ->
  exists R s, run bvptr P v safety R [] (rev (map (fun x => Malloc (snd x) (fst x)) (lay 1024 l))) s.
Proof.
  intros bvptr P v safety l HP Hpos Hroom. exists (lay_rigid (lay 1024 l)).
  destruct (top_half P HP) as [T1 T2].
  set (R := lay_rigid (lay 1024 l)).
  assert (forall x, In x (lay 1024 l) -> Size R (fst x) = snd x /\ forall q, fst x <= q < fst x + snd x -> base R q = fst x) as HR.
  { assert (forall l a, (forall n, In n l -> 0 < n) -> forall x, In x (lay a l) -> 0 < snd x) as Hp'.
    { clear. induction l as [|m l IH]; intros a Hp x Hx; [destruct Hx|]. destruct Hx as [<-|Hx]; [apply Hp; now left|].
      apply (IH (a + m + 1)); auto. intros; apply Hp; now right. }
    intros [b n] Hin. specialize (Hp' l 1024 Hpos _ Hin). cbn [fst snd] in *. split.
    - cbn. destruct (lay_find l 1024 Hpos b n b Hin ltac:(lia)) as (_ & ->). reflexivity.
    - intros q Hq. cbn. destruct (lay_find l 1024 Hpos b n q Hin Hq) as (_ & ->). reflexivity. }
  assert (forall l0 a h s, (forall n, In n l0 -> 0 < n) -> 1024 <= a -> a + room l0 < MALLOC_TOP P ->
    (forall x, In x (lay a l0) -> Size R (fst x) = snd x /\ forall q, fst x <= q < fst x + snd x -> base R q = fst x) ->
    run bvptr P v safety R [] h s -> CurrAddr s = a ->
    (forall q, Alloc s q = true -> 0 < q /\ q < a /\ 0 < SizeMap s q /\ q + SizeMap s q < a) ->
    exists s', run bvptr P v safety R [] (rev (map (fun x => Malloc (snd x) (fst x)) (lay a l0)) ++ h) s') as Hmain.
  2:{ destruct (Hmain l 1024 [] (State (fun _ => false) (fun _ => 0) 1024 0)) as (s & Hs); auto; try lia.
      - constructor. exists (State (fun _ => false) (fun _ => 0) 1024 0), (State (fun _ => false) (fun _ => 0) 1024 0).
        repeat split. destruct safety; reflexivity.
      - discriminate.
      - exists s. now rewrite app_nil_r in Hs. }
  induction l0 as [|n l0 IH]; intros a h s Hp Ha Hr HRl Hrun Ec Hal; [exists s; exact Hrun|].
  cbn [room] in Hr. cbn [lay map rev]. rewrite <- app_assoc. cbn [app fst snd].
  assert (forall l, (forall n, In n l -> 0 < n) -> 0 <= room l) as Hroom0.
  { clear. induction l as [|m l IH]; intros H; cbn; [lia|]. specialize (H m (or_introl eq_refl)) as H1.
    specialize (IH (fun n Hn => H n (or_intror Hn))). lia. }
  specialize (Hroom0 l0 ltac:(intros; apply Hp; now right)).
  pose proof (Hp n (or_introl eq_refl)) as Hn.
  set (s1 := State (fun q => if q =? a then true else Alloc s q) (fun q => if q =? a then n else SizeMap s q) (a + n + 1)
              (if negb (n =? 0) && safety then allocatedCounter s + 1 else allocatedCounter s)).
  destruct (HRl (a, n) (or_introl eq_refl)) as (HS & HB). cbn [fst snd] in HS, HB.
  assert (based bvptr P R a n) as Hbased by (apply based_range; auto; lia).
  assert (wrap bvptr P (a + n + 1 - n) = a + 1) as Ew by (rewrite wrap_id; auto; lia).
  assert (wrap bvptr P (a + n) = a + n) as Ew2 by (rewrite wrap_id; auto; lia).
  assert (alloc bvptr P v safety R s n a s1) as Halloc.
  { unfold alloc, bump, sub_ref, add_ref. cbn [s1 Alloc SizeMap CurrAddr allocatedCounter]. rewrite ?Ec, ?Ew, ?Ew2, ?Z.eqb_refl. destruct v.
    - split; [lia|]. destruct (0 <? n) eqn:E; [|lia]. split; [lia|]. destruct safety; auto.
    - split; [lia|]. split; [intros _; split; [lia|]; rewrite wrap_id; auto; lia|]. split; [lia|].
      split; [destruct (Alloc s a) eqn:E; [destruct (Hal a E); lia|reflexivity]|].
      split. { intros q Hq E. right. destruct (Hal q E) as (Q1 & Q2 & Q3 & Q4). destruct (q =? a) eqn:E'; [lia|]. rewrite wrap_id; auto; lia. }
      split; [reflexivity|]. split; [reflexivity|].
      split; [intros q _ Hne; destruct (q =? a) eqn:E'; [lia|reflexivity]|].
      split; [intros q _ Hne; destruct (q =? a) eqn:E'; [lia|reflexivity]|]. destruct safety; auto.
    - split; [lia|]. split; [lia|]. split; [lia|]. split; [destruct safety; auto|]. split; [lia|].
      destruct safety; [|exact I]. split; [lia|]. intros q _ Hne. destruct (q =? a) eqn:E'; [lia|reflexivity]. }
  apply (IH (a + n + 1) (Malloc n a :: h) s1); auto; try lia.
  - intros m Hm. apply Hp. now right.
  - intros x Hx. apply HRl. now right.
  - apply run_step with (s := s); [exact Hrun|]. split; [intros _; unfold half in *; lia|]. split; [intros _; unfold half in *; lia|].
    split; [exact Halloc|]. reflexivity.
  - intros q. cbn [s1 Alloc SizeMap]. destruct (q =? a) eqn:E; [lia|]. intros Eq. destruct (Hal q Eq) as (Q1 & Q2 & Q3 & Q4). lia.
Qed.
Print Assumptions C24_feasible.

(** Three blocks in the reuse model. *)
Example C24_nonvacuous : exists R s,
  run true 64 Reuse true R [] [Malloc 16 1074; Malloc 40 1033; Malloc 8 1024] s /\
  live [] [Malloc 16 1074; Malloc 40 1033; Malloc 8 1024] = [Block Heap 1074 16; Block Heap 1033 40; Block Heap 1024 8].
Proof.
  destruct (C24_feasible true 64 Reuse true [8; 40; 16]) as (R & s & H); auto; [cbn; lia|reflexivity|].
  exists R, s. split; [exact H|reflexivity].
Qed.

Definition one_block : rigid := Rigid (fun q => if (1024 <=? q) && (q <? 1032) then 1024 else q) (fun _ => 8).
Definition st (A : Z -> bool) (c k : Z) : state := State A (fun _ => 8) c k.
Definition none (q : Z) : bool := false.
Definition only (a q : Z) : bool := if q =? a then true else false.

(** free(NULL) leaves the whole map $Alloc unconstrained in the two models given
    by specifications: in the reuse model the same block can be handed out twice. *)
Theorem C24_reuse_null_free_refuted : exists R s, let h := [Malloc 8 1024; Free 0; Malloc 8 1024] in
  run false 64 Reuse true R [] h s /\ live [] h = [Block Heap 1024 8; Block Heap 1024 8].
Proof.
  exists one_block, (st (only 1024) 1024 2). cbv zeta. split; [|reflexivity].
  assert (based false 64 one_block 1024 8) as Hb.
  { intros q _ H1 H2. unfold add_ref, wrap in H2. cbn in *. destruct ((1024 <=? q) && (q <? 1032)) eqn:E; [reflexivity|lia]. }
  assert (forall k, step false 64 Reuse true one_block (st none 1024 k) (Malloc 8 1024) (st (only 1024) 1024 (k + 1))) as Hm.
  { intros k. split; [discriminate|]. split; [discriminate|]. split; [|reflexivity]. unfold alloc, sub_ref, wrap, MALLOC_TOP, st, only. cbn -[Z.eqb].
    split; [lia|]. split; [split; reflexivity|]. split; [lia|]. split; [reflexivity|]. split; [discriminate|]. split; [reflexivity|]. split; [reflexivity|].
    split; [reflexivity|]. split; [|exact Hb]. intros q _ Hne. destruct (q =? 1024) eqn:E; [lia|reflexivity]. }
  apply run_step with (s := st none 1024 1); [|apply (Hm 1)].
  apply run_step with (s := st (only 1024) 1024 1).
  - apply run_step with (s := st none 1024 0); [|apply (Hm 0)]. constructor. exists (st none 1024 0), (st none 1024 0). repeat split.
  - split; [discriminate|]. split; [now left|]. split; [reflexivity|]. split; [reflexivity|]. cbn. intuition lia.
Qed.
Print Assumptions C24_reuse_null_free_refuted.

(** * C25: the dereference check. *)

(** null was not passed to free, except in the model with implementations *)
Definition null_free_free (v : memory_model) (h : list event) : Prop := v = Impls \/ no_null_free h.
(** the end of the access is in the pointer range *)
Definition representable (bvptr : bool) (P p n : Z) : Prop :=
  is_ref bvptr P p /\ (bvptr = true -> p + n < 2 ^ (P - 1)).

(** After any possible history of valid calls, the check of an access of [n]
    bytes at [p] passes in every model of the history if the bytes lie in a live
    block, and fails in some model otherwise. *)
Theorem C25_exact : forall bvptr P v G h, P = 32 \/ P = 64 -> good_globals bvptr P G ->
  null_free_free v h -> frees_ok G h -> (exists R s, run bvptr P v true R G h s) ->
  forall p n, representable bvptr P p n -> 0 < n ->
    (forall R s, run bvptr P v true R G h s -> deref_check bvptr P v R s p n) <-> in_bounds G h p n.
Proof.
  intros bvptr P v G h HP HG Hc Hok (R & s & Hrun) p n Hf Hn. split.
  - exact (deref_complete bvptr P v HP G HG R h s p n Hrun Hc Hok Hf Hn).
  - intros Hin R' s' Hrun'. apply (deref_sound bvptr P v HP G HG R' h s'); auto. lia.
Qed.
Print Assumptions C25_exact.

(** Also for accesses of no bytes inside a live block, and whatever was freed. *)
Theorem C25_no_false_alarm : forall bvptr P v R G h s, P = 32 \/ P = 64 -> good_globals bvptr P G ->
  null_free_free v h -> run bvptr P v true R G h s ->
  forall p n, representable bvptr P p n -> 0 <= n -> in_bounds G h p n -> deref_check bvptr P v R s p n.
Proof. intros bvptr P v R G h s HP HG Hc Hrun p n. exact (deref_sound bvptr P v HP G HG R h s p n Hrun Hc). Qed.
Print Assumptions C25_no_false_alarm.

Lemma no_globals : forall bvptr P, good_globals bvptr P [].
Proof. intros. split; [intros b n []|constructor]. Qed.

Example C25_nonvacuous : let h := [Free 1024; Malloc 40 1033; Malloc 8 1024] in
  frees_ok [] h /\ null_free_free NoReuse h /\ in_bounds [] h 1069 4 /\ ~ in_bounds [] h 1070 4 /\ ~ in_bounds [] h 1024 1 /\
  exists R s, run false 64 NoReuse true R [] h s.
Proof.
  cbv zeta. split; [split; [right; left; exists (Block Heap 1024 8); cbn; tauto|exact I]|].
  split; [right; cbn; unfold no_null_free; cbn; intuition discriminate|].
  assert (live [] [Free 1024; Malloc 40 1033; Malloc 8 1024] = [Block Heap 1033 40]) as El by reflexivity.
  split; [exists (Block Heap 1033 40); rewrite El; split; [now left|unfold inside; cbn; lia]|].
  split; [intros (b & Hb & H1 & H2); rewrite El in Hb; destruct Hb as [<-|[]]; unfold inside in *; cbn in *; lia|].
  split; [intros (b & Hb & H1 & H2); rewrite El in Hb; destruct Hb as [<-|[]]; unfold inside in *; cbn in *; lia|].
  destruct (C24_feasible false 64 NoReuse true [8; 40]) as (R & s & H); auto; [cbn; lia|reflexivity|]. cbn in H.
  exists R, (State (fun q => if q =? 1024 then false else Alloc s q) (SizeMap s) (CurrAddr s) (allocatedCounter s - 1)).
  apply run_step with (s := s); [exact H|]. split; [discriminate|]. split.
  - intros _. apply (free_sound false 64 NoReuse (or_intror eq_refl) [] (no_globals _ _) R _ s 1024 H).
    + right. unfold no_null_free. cbn. intuition discriminate.
    + right. left. exists (Block Heap 1024 8). cbn. tauto.
  - split; [reflexivity|]. split; [reflexivity|]. cbn -[Z.eqb]. split; [intros _; reflexivity|].
    split; [|lia]. intros _ q _ Hne. destruct (q =? 1024) eqn:E; [lia|reflexivity].
Qed.

(** After free(NULL), in the default-specification no-reuse model, the check of a
    valid access can fail (a false alarm). *)
Theorem C25_null_free_refuted : exists R s, let h := [Free 0; Malloc 8 1024] in
  run false 64 NoReuse true R [] h s /\ frees_ok [] h /\ in_bounds [] h 1024 8 /\ ~ deref_check false 64 NoReuse R s 1024 8.
Proof.
  exists one_block, (st none 1032 1). cbv zeta. split; [|split; [|split]].
  - apply run_step with (s := st (only 1024) 1032 1).
    + apply run_step with (s := st none 1024 0).
      * constructor. exists (st none 1024 0), (st none 1024 0). repeat split.
      * split; [discriminate|]. split; [discriminate|]. split; [|reflexivity]. unfold alloc, sub_ref, wrap, MALLOC_TOP, st, only. cbn -[Z.eqb].
        split; [lia|]. split; [lia|]. split; [split; reflexivity|]. split.
        { split; [reflexivity|]. split; [|reflexivity]. intros _ q _ H1 H2. unfold add_ref, wrap in H2. cbn in *.
          destruct ((1024 <=? q) && (q <? 1032)) eqn:E; [reflexivity|lia]. }
        split; [lia|]. split; [lia|]. intros q _ Hne. destruct (q =? 1024) eqn:E; [lia|reflexivity].
    + split; [discriminate|]. split; [now left|]. split; [reflexivity|]. split; [reflexivity|]. cbn. intuition lia.
  - cbn. auto.
  - exists (Block Heap 1024 8). split; [now left|unfold inside; cbn; lia].
  - intros (H & _). cbn in H. discriminate.
Qed.
Print Assumptions C25_null_free_refuted.

(** The size is a signed number: a memset of 2^64 - 1 bytes inside an 8-byte block
    passes the check in every model. *)
Theorem C25_huge_length_refuted : let h := [Malloc 8 1024] in
  (exists R s, run true 64 NoReuse true R [] h s) /\
  forall R s, run true 64 NoReuse true R [] h s -> deref_check true 64 NoReuse R s 1028 (signed 64 (2 ^ 64 - 1)).
Proof.
  cbv zeta. split.
  - destruct (C24_feasible true 64 NoReuse true [8]) as (R & s & H); auto; [cbn; lia|reflexivity|]. exists R, s. exact H.
  - intros R s Hrun. change (signed 64 (2 ^ 64 - 1)) with (-1).
    assert (calm NoReuse [Malloc 8 1024]) as Hc by (right; unfold no_null_free; cbn; intuition discriminate).
    pose proof (block_facts true 64 NoReuse (or_intror eq_refl) [] (no_globals _ _) R _ s Hrun (Block Heap 1024 8) ltac:(cbn; tauto)) as (_ & B).
    pose proof (live_facts true 64 NoReuse (or_intror eq_refl) [] (no_globals _ _) R _ s Hrun Hc (Block Heap 1024 8) ltac:(cbn; tauto)) as (L1 & L2).
    unfold deref_check. rewrite (B 1028) by (unfold inside; cbn; lia). cbn [start size] in *. rewrite L2.
    split; [exact L1|]. split; [lia|]. vm_compute. discriminate.
Qed.
Print Assumptions C25_huge_length_refuted.

(** * C26: free. *)

(** After any possible history of valid calls, free(p) passes its checks in every
    model if p is null or the start of a live heap or stack block, and fails in
    some model otherwise. *)
Theorem C26_exact : forall bvptr P v G h, P = 32 \/ P = 64 -> good_globals bvptr P G ->
  null_free_free v h -> frees_ok G h -> (exists R s, run bvptr P v true R G h s) ->
  forall p, is_ref bvptr P p ->
    (forall R s, run bvptr P v true R G h s -> free_check R s p) <->
    (p = 0 \/ starts_live G h Heap p \/ starts_live G h Stack p).
Proof.
  intros bvptr P v G h HP HG Hc Hok (R & s & Hrun) p Hp. split.
  - exact (free_complete bvptr P v HP G HG R h s p Hrun Hc Hok Hp).
  - intros Hin R' s' Hrun'. exact (free_sound bvptr P v HP G HG R' h s' p Hrun' Hc Hin).
Qed.
Print Assumptions C26_exact.

(** A pointer into the middle of a block, a global variable, and a pointer just
    freed are rejected in every model; without address reuse so is any block
    freed before. *)
Theorem C26_always_rejected : forall bvptr P v R G h s, P = 32 \/ P = 64 -> good_globals bvptr P G ->
  null_free_free v h -> run bvptr P v true R G h s -> forall p,
  (exists b, In b (blocks G h) /\ inside p b /\ p <> start b) \/
  (exists b, In b (blocks G h) /\ bk b = Global /\ p = start b) \/
  (exists h', h = Free p :: h' /\ p <> 0) \/
  (v <> Reuse /\ exists b, In b (blocks G h) /\ ~ In b (live G h) /\ p = start b) ->
  p <> 0 -> ~ free_check R s p.
Proof.
  intros bvptr P v R G h s HP HG Hc Hrun p H Hp [Hf|(F1 & F2 & F3)]; [congruence|].
  destruct H as [(b & Hb & Hi & Hne)|[(b & Hb & Hk & ->)|[(h' & -> & _)|(Hv & b & Hb & Hl & ->)]]].
  - apply Hne. rewrite <- F1. apply (block_facts bvptr P v HP G HG R h s Hrun b Hb). exact Hi.
  - destruct (block_facts bvptr P v HP G HG R h s Hrun b Hb) as ((B1 & B2) & _). rewrite Hk in B2. lia.
  - inversion Hrun as [|? s0 ? ? Hrun0 Hstep]; subst. destruct Hstep as (_ & _ & Hf).
    destruct (free_alloc bvptr P v true HP s0 p s eq_refl Hf) as (Hfa & _).
    { destruct Hc as [Hc|Hc]; [now left|]. right. exact Hp. }
    rewrite Hfa in F2 by exact Hp. discriminate.
  - destruct (noreuse_invariant bvptr P v true HP Hv R G h s HG Hrun) as (_ & _ & _ & I4). destruct (I4 eq_refl) as (_ & J2).
    apply Hl, (J2 (calm_tame P v HP h Hc) b Hb). exact F2.
Qed.
Print Assumptions C26_always_rejected.

Example C26_nonvacuous : let h := [Malloc 8 1024] in
  starts_live [(-2048, 8)] h Heap 1024 /\ ~ starts_live [(-2048, 8)] h Heap 1028 /\ ~ starts_live [(-2048, 8)] h Heap (-2048) /\
  good_globals true 64 [(-2048, 8)] /\ (exists R s, run true 64 Impls true R [] h s).
Proof.
  cbv zeta. split; [exists (Block Heap 1024 8); cbn; tauto|].
  split; [intros (b & Hb & Hk & Hs); cbn in Hb; destruct Hb as [<-|[<-|[]]]; cbn in *; lia|].
  split; [intros (b & Hb & Hk & Hs); cbn in Hb; destruct Hb as [<-|[<-|[]]]; cbn in *; [lia|congruence]|].
  split; [split; [intros b n [E|[]]; injection E as <- <-; cbn; lia|repeat constructor]|].
  destruct (C24_feasible true 64 Impls true [8]) as (R & s & H); auto; [cbn; lia|reflexivity|]. exists R, s. exact H.
Qed.

(** Freeing a stack variable is not reported. *)
Theorem C26_stack_refuted : forall R s, run false 64 Impls true R [] [Alloca 8 1024] s -> free_check R s 1024.
Proof.
  intros R s Hrun. apply (free_sound false 64 Impls (or_intror eq_refl) [] (no_globals _ _) R _ s 1024 Hrun).
  - now left.
  - right. right. exists (Block Stack 1024 8). cbn. tauto.
Qed.
Print Assumptions C26_stack_refuted.

(** * C27: the leak check. *)

(** All calls of free were for null or the start of a live heap block. *)
Fixpoint heap_frees (G : list (Z * Z)) (h : list event) : Prop :=
  match h with
  | [] => True
  | Free p :: h' => (p = 0 \/ starts_live G h' Heap p) /\ heap_frees G h'
  | _ :: h' => heap_frees G h'
  end.
Definition is_heap (b : block) : bool := match bk b with Heap => true | _ => false end.

Lemma remove_one : forall l p b, ForallOrdPairs apart l -> (forall x, In x l -> 0 < size x) -> In b l -> start b = p -> is_heap b = true ->
  Z.of_nat (List.length (filter is_heap (filter (fun x => negb (start x =? p)) l))) = Z.of_nat (List.length (filter is_heap l)) - 1.
Proof.
  induction l as [|x l IH]; intros p b Hp Hs Hb Es Hh; [destruct Hb|]. inversion Hp as [|? ? Hall Hp']; subst. cbn [filter].
  assert (forall l0, (forall y, In y l0 -> start y <> start b) -> filter (fun x => negb (start x =? start b)) l0 = l0) as Hkeep.
  { clear. induction l0 as [|y l0 IH]; intros H; [reflexivity|]. cbn. specialize (H y (or_introl eq_refl)) as H1.
    destruct (start y =? start b) eqn:E; [lia|]. cbn. f_equal. apply IH. intros; apply H; now right. }
  rewrite Forall_forall in Hall. destruct Hb as [->|Hb].
  - rewrite Z.eqb_refl. cbn [negb]. rewrite Hkeep.
    + rewrite Hh. cbn [List.length]. lia.
    + intros y Hy E. specialize (Hall y Hy). unfold apart in Hall. pose proof (Hs b (or_introl eq_refl)). pose proof (Hs y (or_intror Hy)). lia.
  - specialize (Hall b Hb). unfold apart in Hall. pose proof (Hs b (or_intror Hb)). pose proof (Hs x (or_introl eq_refl)).
    destruct (start x =? start b) eqn:E; [lia|]. cbn [negb filter].
    specialize (IH (start b) b Hp' ltac:(intros; apply Hs; now right) Hb eq_refl Hh).
    destruct (is_heap x); cbn [List.length]; lia.
Qed.

Lemma counter_value : forall bvptr P v R G h s, P = 32 \/ P = 64 -> good_globals bvptr P G -> null_free_free v h ->
  run bvptr P v true R G h s -> heap_frees G h ->
  allocatedCounter s = Z.of_nat (List.length (filter is_heap (live G h))).
Proof.
  intros bvptr P v R G h s HP HG Hc Hrun. induction Hrun as [s (s0 & s1 & H1 & H2 & H3 & H4 & H5)|h s e s1 Hrun IH Hstep]; intros Hok.
  - rewrite H5. cbn. replace (filter is_heap (map (fun g => Block Global (fst g) (snd g)) G)) with (@nil block); [reflexivity|].
    clear. induction G; auto.
  - assert (null_free_free v h) as Hc' by (destruct Hc as [Hc|Hc]; [now left|right; intros H; apply Hc; now right]).
    destruct e as [n p|n p|p].
    + destruct Hstep as (_ & _ & Ha & Hk). rewrite Hk, (IH Hc' Hok). cbn [live].
      assert (0 <= n) as Hn by (unfold alloc in Ha; destruct v; apply Ha).
      destruct (n =? 0) eqn:E, (0 <? n) eqn:E'; try lia; cbn [negb andb filter is_heap bk List.length]; lia.
    + destruct Hstep as (_ & _ & Ha & Hk). rewrite Hk, (IH Hc' Hok). cbn [live]. destruct (0 <? n); reflexivity.
    + destruct Hok as (Hp & Hok). destruct Hstep as (Hr & _ & _ & _ & Hf). cbn [live].
      destruct (Z.eq_dec p 0) as [->|Hne].
      * assert (allocatedCounter s1 = allocatedCounter s) as -> by (destruct v; cbn in Hf; apply Hf; reflexivity).
        rewrite (IH Hc' Hok). f_equal. f_equal. f_equal.
        assert (forall l, (forall x, In x l -> start x <> 0) -> l = filter (fun b => negb (start b =? 0)) l) as Hkeep.
        { clear. induction l as [|y l IH]; intros H; [reflexivity|]. cbn. specialize (H y (or_introl eq_refl)) as H1.
          destruct (start y =? 0) eqn:E; [lia|]. cbn. f_equal. apply IH. intros; apply H; now right. }
        apply Hkeep. intros x Hx. apply (placed_ref bvptr P HP x).
        apply (block_facts bvptr P v HP G HG R h s Hrun x). now apply live_blocks.
      * assert (allocatedCounter s1 = allocatedCounter s - 1) as ->.
        { destruct v; [|apply Hf; exact Hne..]. destruct (p =? 0) eqn:E; [lia|]. apply Hf. }
        rewrite (IH Hc' Hok). destruct Hp as [Hp|(b & Hb & Hk & Hs)]; [congruence|].
        symmetry. apply (remove_one _ p b); auto.
        -- apply (live_apart bvptr P v HP G HG R h s Hrun Hc').
        -- intros x Hx. apply (block_facts bvptr P v HP G HG R h s Hrun x). now apply live_blocks.
        -- unfold is_heap. now rewrite Hk.
Qed.

(** The leak check passes, in every model, exactly when no heap block is live. *)
Theorem C27_leak_check : forall bvptr P v R G h s, P = 32 \/ P = 64 -> good_globals bvptr P G -> null_free_free v h ->
  run bvptr P v true R G h s -> heap_frees G h ->
  leak_check s <-> ~ exists b, In b (live G h) /\ bk b = Heap.
Proof.
  intros bvptr P v R G h s HP HG Hc Hrun Hok. unfold leak_check. rewrite (counter_value bvptr P v R G h s HP HG Hc Hrun Hok).
  split.
  - intros E (b & Hb & Hk). assert (In b (filter is_heap (live G h))) as Hin.
    { apply filter_In. split; [exact Hb|]. unfold is_heap. now rewrite Hk. }
    destruct (filter is_heap (live G h)); [destruct Hin|discriminate].
  - intros Hno. destruct (filter is_heap (live G h)) as [|b l] eqn:E; [reflexivity|]. exfalso. apply Hno. exists b.
    assert (In b (filter is_heap (live G h))) as Hin by (rewrite E; now left). apply filter_In in Hin as (Hb & Hk).
    split; [exact Hb|]. unfold is_heap in Hk. destruct (bk b); congruence.
Qed.
Print Assumptions C27_leak_check.

(** The counter is the number of live heap blocks. *)
Theorem C27_counter : forall bvptr P v R G h s, P = 32 \/ P = 64 -> good_globals bvptr P G -> null_free_free v h ->
  run bvptr P v true R G h s -> heap_frees G h ->
  allocatedCounter s = Z.of_nat (List.length (filter is_heap (live G h))).
Proof. exact counter_value. Qed.
Print Assumptions C27_counter.

Example C27_nonvacuous : exists R s, let h := [Malloc 16 1033; Malloc 8 1024] in
  run false 64 NoReuse true R [] h s /\ heap_frees [] h /\ ~ leak_check s.
Proof.
  destruct (C24_feasible false 64 NoReuse true [8; 16]) as (R & s & H); auto; [cbn; lia|reflexivity|].
  exists R, s. cbn in H. split; [exact H|]. split; [exact I|].
  assert (null_free_free NoReuse [Malloc 16 1033; Malloc 8 1024]) as Hc by (right; unfold no_null_free; cbn; intuition discriminate).
  rewrite (C27_leak_check false 64 NoReuse R [] _ s (or_intror eq_refl) (no_globals _ _) Hc H I).
  intros Hn. apply Hn. exists (Block Heap 1033 16). cbn. tauto.
Qed.

(** A freed stack variable hides a leak: the check passes in every model although
    a heap block is live. *)
Definition two_blocks : rigid := Rigid (fun q => if (1024 <=? q) && (q <? 1032) then 1024 else if (1032 <=? q) && (q <? 1040) then 1032 else q) (fun _ => 8).
Theorem C27_stack_free_refuted : let h := [Free 1032; Alloca 8 1032; Malloc 8 1024] in
  starts_live [] h Heap 1024 /\ (exists R s, run false 64 Impls true R [] h s) /\
  forall R s, run false 64 Impls true R [] h s -> leak_check s.
Proof.
  cbv zeta. split; [exists (Block Heap 1024 8); cbn; tauto|]. split.
  - pose (A q := if q =? 1032 then true else only 1024 q).
    pose (B q := if q =? 1032 then false else A q).
    exists two_blocks, (st B 1040 0).
    apply run_step with (s := st A 1040 1); [apply run_step with (s := st (only 1024) 1032 1); [apply run_step with (s := st none 1024 0)|]|].
    + constructor. exists (st none 1024 0), (st none 1024 0). repeat split.
    + split; [discriminate|]. split; [discriminate|]. split; [|reflexivity]. split; [lia|]. cbn.
      split; [unfold bump, sub_ref, wrap, MALLOC_TOP; cbn; lia|]. split; [reflexivity|]. split; [|reflexivity].
      intros q _ H1 H2. unfold add_ref, wrap in H2. cbn in *. destruct ((1024 <=? q) && (q <? 1032)) eqn:E; [reflexivity|lia].
    + split; [discriminate|]. split; [discriminate|]. split; [|reflexivity]. split; [lia|]. cbn.
      split; [unfold bump, sub_ref, wrap, MALLOC_TOP; cbn; lia|]. split; [reflexivity|]. split; [|reflexivity].
      intros q _ H1 H2. unfold add_ref, wrap in H2. cbn in *. destruct ((1024 <=? q) && (q <? 1032)) eqn:E; [lia|].
      destruct ((1032 <=? q) && (q <? 1040)) eqn:E'; [reflexivity|lia].
    + split; [discriminate|]. split; [intros _; right; cbn; repeat split; lia|]. split; [reflexivity|]. split; [reflexivity|].
      cbn. split; [reflexivity|lia].
  - intros R s Hrun. inversion Hrun as [|? s2 ? ? Hrun2 St3]; subst. inversion Hrun2 as [|? s1 ? ? Hrun1 St2]; subst.
    inversion Hrun1 as [|? s0 ? ? Hrun0 St1]; subst. inversion Hrun0 as [? (x & y & _ & _ & _ & _ & E0)|]; subst.
    destruct St3 as (_ & _ & _ & _ & _ & E3). destruct St2 as (_ & _ & _ & E2). destruct St1 as (_ & _ & _ & E1).
    cbn in E1. unfold leak_check. lia.
Qed.
Print Assumptions C27_stack_free_refuted.
