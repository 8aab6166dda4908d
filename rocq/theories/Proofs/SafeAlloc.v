(** Histories of allocator calls as in Spec/SafeProgram.v, and executions of
    SMACK's allocator. *)
From Coq Require Import ZArith List Bool Lia.
From Verif.Spec Require Import LLVMInt Blocks SafeProgram.
From Verif.Model Require Import Allocator.
From Verif.Proofs Require Import AllocProofs AllocModels.
From Verif.Props Require Import AllocProps.
Import ListNotations.
Open Scope list_scope.
Open Scope Z_scope.

Notation ref64 := (is_ref true 64).
Notation run64 := (Allocator.run true 64 Impls true).
Notation step64 := (Allocator.step true 64 Impls true).
Notation alloc64 := (Allocator.alloc true 64 Impls true).
Notation check64 := (Allocator.deref_check true 64 Impls).
Definition H64 : 64 = 32 \/ 64 = 64 := or_intror eq_refl.

Lemma ref64_range : forall a, ref64 a <-> - 2 ^ 63 <= a < 2 ^ 63.
Proof. intros a. unfold is_ref. change (64 - 1) with 63. split; auto. Qed.
Lemma top64 : MALLOC_TOP 64 = 2 ^ 63 - 1.
Proof. reflexivity. Qed.
Lemma signed_range : forall a, is_iN 64 a -> ref64 (signed 64 a).
Proof. intros a H. apply ref64_range. unfold is_iN, signed in *. change (64 - 1) with 63. destruct (a <? 2 ^ 63) eqn:E; lia. Qed.

(** All calls so far were possible. *)
Fixpoint possible (G : list (Z * Z)) (h : list event) : Prop :=
  match h with
  | [] => True
  | Malloc n p :: h' | Alloca n p :: h' => ref64 n /\ ref64 p /\ may_be_placed h' n p /\ possible G h'
  | Free p :: h' => ref64 p /\ (p = 0 \/ starts_live G h' Heap p) /\ possible G h'
  end.
Definition suffix (h hf : list event) : Prop := exists l, hf = l ++ h.
Lemma suffix_refl : forall h, suffix h h.
Proof. intros h. now exists []. Qed.
Lemma suffix_tail : forall e h hf, suffix (e :: h) hf -> suffix h hf.
Proof. intros e h hf (l & ->). exists (l ++ [e]). now rewrite <- app_assoc. Qed.
Lemma suffix_trans : forall a b c, suffix a b -> suffix b c -> suffix a c.
Proof. intros a b c (l & ->) (k & ->). exists (k ++ l). now rewrite app_assoc. Qed.
Lemma possible_suffix : forall G h hf, suffix h hf -> possible G hf -> possible G h.
Proof.
  intros G h hf (l & ->). induction l as [|[n p|n p|p] l IH]; cbn; intros H; [exact H|..]; apply IH; tauto.
Qed.

Lemma possible_heap_frees : forall G h, possible G h -> heap_frees G h.
Proof. induction h as [|[n p|n p|p] h IH]; cbn; intros H; auto; try (apply IH; tauto). split; [tauto|apply IH; tauto]. Qed.
Lemma possible_frees_ok : forall G h, possible G h -> frees_ok G h.
Proof. induction h as [|[n p|n p|p] h IH]; cbn; intros H; auto; try (apply IH; tauto). split; [tauto|apply IH; tauto]. Qed.
Lemma calm64 : forall h, calm Impls h.
Proof. intros h. now left. Qed.

(** ** Blocks are laid out upwards *)
Lemma upward : forall G h, good_globals true 64 G -> possible G h ->
  1024 <= next_free h < 2 ^ 63 - 1 /\
  (none_yet h = true -> next_free h = 1024) /\
  forall b, In b (blocks G h) -> (bk b = Global /\ In (start b, size b) G) \/ (1024 <= start b /\ 0 < size b /\ start b + size b <= next_free h).
Proof.
  intros G h HG. induction h as [|[n p|n p|p] h IH]; cbn [possible]; intros H.
  - cbn [next_free none_yet blocks]. split; [lia|]. split; [reflexivity|]. intros b Hb. apply in_map_iff in Hb as ([a n] & <- & Hin). left. cbn. auto.
  - destruct H as (Hn & Hp & Hm & H). destruct (IH H) as (I1 & I2 & I3). cbn [next_free none_yet blocks].
    destruct (0 <? n) eqn:E; [|split; [exact I1|split; [exact I2|exact I3]]].
    destruct Hm as [->|(M1 & M2 & M3 & M4)]; [discriminate|]. split; [lia|]. split; [discriminate|].
    intros b [<-|Hb]; [right; cbn; lia|]. destruct (I3 b Hb) as [Hg|Hg]; [now left|right; lia].
  - destruct H as (Hn & Hp & Hm & H). destruct (IH H) as (I1 & I2 & I3). cbn [next_free none_yet blocks].
    destruct (0 <? n) eqn:E; [|split; [exact I1|split; [exact I2|exact I3]]].
    destruct Hm as [->|(M1 & M2 & M3 & M4)]; [discriminate|]. split; [lia|]. split; [discriminate|].
    intros b [<-|Hb]; [right; cbn; lia|]. destruct (I3 b Hb) as [Hg|Hg]; [now left|right; lia].
  - apply IH. tauto.
Qed.

Definition in_block (q : Z) (b : block) : bool := (start b <=? q) && (q <? start b + size b).
Lemma find_global : forall G, good_globals true 64 G -> forall b n q, In (b, n) G -> b <= q < b + n ->
  find (in_block q) (blocks G []) = Some (Block Global b n).
Proof.
  intros G [Hg Hp]. induction Hp as [|[b0 n0] G Hall Hp IH]; intros b n q Hin Hq; [destruct Hin|].
  cbn [blocks map find]. unfold in_block at 1. cbn [start size fst snd]. destruct Hin as [E|Hin].
  - injection E as -> ->. destruct ((b <=? q) && (q <? b + n)) eqn:E; [reflexivity|lia].
  - rewrite Forall_forall in Hall. specialize (Hall _ Hin). cbn [fst snd] in Hall.
    destruct (Hg b n (or_intror Hin)) as (P1 & P2 & P3). destruct (Hg b0 n0 (or_introl eq_refl)) as (P4 & P5 & P6).
    destruct ((b0 <=? q) && (q <? b0 + n0)) eqn:E; [lia|]. apply (IH ltac:(intros; apply Hg; now right) b n q Hin Hq).
Qed.
Lemma find_block : forall G h, good_globals true 64 G -> possible G h -> forall b q, In b (blocks G h) -> inside q b ->
  find (in_block q) (blocks G h) = Some b.
Proof.
  intros G h HG.
  assert (forall k n p h b q, possible G h -> may_be_placed h n p ->
            (forall b q, In b (blocks G h) -> inside q b -> find (in_block q) (blocks G h) = Some b) ->
            In b (if 0 <? n then Block k p n :: blocks G h else blocks G h) -> inside q b ->
            find (in_block q) (if 0 <? n then Block k p n :: blocks G h else blocks G h) = Some b) as Hadd.
  { intros k n p h0 b q Hps Hm IH Hb Hq. destruct (0 <? n) eqn:E; [|now apply IH].
    destruct Hm as [->|(M1 & M2 & M3 & M4)]; [discriminate|]. destruct (upward G h0 HG Hps) as (U1 & U2 & U3).
    cbn [find]. unfold in_block at 1. cbn [start size]. unfold inside in Hq. destruct Hb as [<-|Hb].
    - cbn [start size] in Hq. destruct ((p <=? q) && (q <? p + n)) eqn:E2; [reflexivity|lia].
    - destruct ((p <=? q) && (q <? p + n)) eqn:E2; [|now apply IH]. exfalso.
      destruct (U3 b Hb) as [[_ Hg]|Hg]; [|lia]. destruct HG as [HG _]. destruct (HG _ _ Hg) as (P1 & P2 & _). lia. }
  induction h as [|[n p|n p|p] h IH]; cbn [possible]; intros Hps b q Hb Hq.
  - apply in_map_iff in Hb as ([a n] & <- & Hin). cbn [fst snd] in *. apply find_global; auto.
  - cbn [blocks] in *. apply Hadd; tauto.
  - cbn [blocks] in *. apply Hadd; tauto.
  - cbn [blocks] in *. apply IH; tauto.
Qed.

(** The functions $base and $Size for a history. *)
Definition laid (G : list (Z * Z)) (h : list event) : rigid :=
  Rigid (fun q => match find (in_block q) (blocks G h) with Some b => start b | None => q end)
        (fun q => match find (in_block q) (blocks G h) with Some b => size b | None => 0 end).
Lemma blocks_suffix : forall G h hf, suffix h hf -> forall b, In b (blocks G h) -> In b (blocks G hf).
Proof.
  intros G h hf (l & ->). induction l as [|[n p|n p|p] l IH]; intros b Hb; cbn; auto.
  - destruct (0 <? n); cbn; auto.
  - destruct (0 <? n); cbn; auto.
Qed.
Lemma positive : forall G h, good_globals true 64 G -> possible G h -> forall b, In b (blocks G h) -> 0 < size b.
Proof.
  intros G h HG Hp b Hb. destruct (upward G h HG Hp) as (_ & _ & U). destruct (U b Hb) as [[_ Hg]|Hg]; [|lia].
  destruct HG as [HG _]. apply (HG _ _ Hg).
Qed.
Lemma laid_ok : forall G hf, good_globals true 64 G -> possible G hf -> forall b, In b (blocks G hf) ->
  Size (laid G hf) (start b) = size b /\ forall q, start b <= q < start b + size b -> base (laid G hf) q = start b.
Proof.
  intros G hf HG Hp b Hb. pose proof (positive G hf HG Hp b Hb) as Hs. split.
  - cbn. rewrite (find_block G hf HG Hp b (start b) Hb); [reflexivity|]. unfold inside. lia.
  - intros q Hq. cbn. rewrite (find_block G hf HG Hp b q Hb); [reflexivity|]. unfold inside. lia.
Qed.

Lemma gallocs_exist : forall R g s, good_globals true 64 g ->
  (forall b n, In (b, n) g -> Size R b = n /\ forall q, b <= q < b + n -> base R q = b) ->
  exists s', gallocs true 64 Impls R s g s'.
Proof.
  intros R. induction g as [|[b n] g IH]; intros s Hg HR; [now exists s|].
  destruct Hg as [Hg Hp]. inversion Hp as [|? ? Hall Hp']; subst.
  destruct (IH (State (fun q => if q =? b then true else Alloc s q) (SizeMap s) (CurrAddr s) (allocatedCounter s))) as (s' & Hs').
  { split; [intros; apply Hg; now right|exact Hp']. } { intros; apply HR; now right. }
  exists s'. cbn [gallocs]. eexists. split; [|exact Hs']. destruct (HR b n (or_introl eq_refl)) as (R1 & R2).
  destruct (Hg b n (or_introl eq_refl)) as (P1 & P2 & P3).
  unfold galloc. cbn [Alloc SizeMap CurrAddr allocatedCounter]. split.
  - apply (based_range true 64 H64); auto. unfold half. lia.
  - rewrite Z.eqb_refl. split; [reflexivity|]. split; [|auto]. intros q _ Hne. destruct (q =? b) eqn:E; [lia|reflexivity].
Qed.

(** Every possible history is one of SMACK's allocator. *)
Definition room_for (h : list event) (c : Z) : Prop :=
  if none_yet h then c = 1024 else next_free h <= c < 2 ^ 63 - 1.
Lemma possible_run : forall G hf, good_globals true 64 G -> possible G hf -> exists R s, run64 R G hf s.
Proof.
  intros G hf HG Hpf. set (R := laid G hf). exists R. pose proof (laid_ok G hf HG Hpf) as HR. fold R in HR.
  assert (forall h, suffix h hf -> forall c, room_for h c -> exists s, run64 R G h s /\ CurrAddr s = c) as Hgo.
  2:{ destruct (Hgo hf (suffix_refl hf) (next_free hf)) as (s & Hs & _); [|now exists s].
      destruct (upward G hf HG Hpf) as (U1 & U2 & _). unfold room_for. destruct (none_yet hf); [now apply U2|lia]. }
  assert (forall h, suffix h hf -> forall e n p, suffix (e :: h) hf -> (e = Malloc n p \/ e = Alloca n p) ->
    (forall c, room_for h c -> exists s, run64 R G h s /\ CurrAddr s = c) -> forall c, room_for (e :: h) c ->
    exists s s1, run64 R G h s /\ alloc64 R s n p s1 /\ CurrAddr s1 = c) as Halloc.
  { intros h Hh e n p He Hcase IH c Hc. pose proof (possible_suffix G (e :: h) hf He Hpf) as Hps.
    assert (ref64 n /\ ref64 p /\ may_be_placed h n p /\ possible G h) as (Hn & Hp & Hm & Hph) by (destruct Hcase as [-> | ->]; exact Hps).
    destruct (upward G h HG Hph) as (U1 & U2 & U3).
    destruct (0 <? n) eqn:En.
    - destruct Hm as [->|(M1 & M2 & M3 & M4)]; [discriminate|].
      destruct (IH p) as (s & Hs & Ec). { unfold room_for. destruct (none_yet h); [auto|lia]. }
      assert (p + n <= c < 2 ^ 63 - 1) as Hc'.
      { unfold room_for in Hc. destruct Hcase as [-> | ->]; cbn [none_yet next_free] in Hc; rewrite En in Hc; exact Hc. }
      exists s, (State (fun q => if q =? p then true else Alloc s q) (SizeMap s) c (allocatedCounter s)).
      split; [exact Hs|]. split; [|reflexivity]. unfold alloc. cbn [Alloc SizeMap CurrAddr allocatedCounter]. rewrite En.
      split; [lia|]. split.
      + unfold bump. cbn [CurrAddr]. split; [now symmetry|]. unfold sub_ref. rewrite (wrap_id true 64 H64).
        * rewrite top64. lia.
        * intros _. unfold half. change (64 - 1) with 63. lia.
      + assert (exists k, In (Block k p n) (blocks G hf)) as (k & Hk).
        { destruct Hcase as [-> | ->]; [exists Heap|exists Stack]; apply (blocks_suffix G _ hf He); cbn [blocks]; rewrite En; now left. }
        destruct (HR _ Hk) as (R1 & R2). cbn [start size] in R1, R2. split; [exact R1|]. split; [|reflexivity].
        apply (based_range true 64 H64); auto; unfold half; change (64 - 1) with 63; lia.
    - destruct Hm as [->|M]; [|lia].
      destruct (IH c) as (s & Hs & Ec). { destruct Hcase as [-> | ->]; exact Hc. }
      exists s, s. split; [exact Hs|]. split; [|exact Ec]. unfold alloc. cbn. split; [lia|]. auto. }
  intros h. induction h as [|e h IH]; intros Hh c Hc.
  - unfold room_for in Hc. cbn in Hc. subst c.
    destruct (gallocs_exist R G (State (fun _ => false) (fun _ => 0) 0 0) HG) as (s1 & Hs1).
    { intros b n Hin. apply (HR (Block Global b n)). apply (blocks_suffix G [] hf); [exists hf; now rewrite app_nil_r|].
      cbn. apply in_map_iff. exists (b, n). auto. }
    exists (State (Alloc s1) (SizeMap s1) 1024 0). split; [|reflexivity]. constructor.
    exists (State (fun _ => false) (fun _ => 0) 0 0), s1. auto.
  - specialize (IH (suffix_tail _ _ _ Hh)). pose proof (possible_suffix G (e :: h) hf Hh Hpf) as Hps.
    destruct e as [n p|n p|p].
    + destruct (Halloc h (suffix_tail _ _ _ Hh) (Malloc n p) n p Hh (or_introl eq_refl) IH c Hc) as (s & s1 & Hs & Ha & Ec).
      exists (State (Alloc s1) (SizeMap s1) (CurrAddr s1) (if negb (n =? 0) && true then allocatedCounter s + 1 else allocatedCounter s)).
      split; [|exact Ec]. apply run_step with s; [exact Hs|]. destruct Hps as (P1 & P2 & _). split; [exact P1|]. split; [exact P2|].
      split; [exact Ha|reflexivity].
    + destruct (Halloc h (suffix_tail _ _ _ Hh) (Alloca n p) n p Hh (or_intror eq_refl) IH c Hc) as (s & s1 & Hs & Ha & Ec).
      exists (State (Alloc s1) (SizeMap s1) (CurrAddr s1) (allocatedCounter s)).
      split; [|exact Ec]. apply run_step with s; [exact Hs|]. destruct Hps as (P1 & P2 & _). split; [exact P1|]. split; [exact P2|].
      split; [exact Ha|reflexivity].
    + destruct (IH c) as (s & Hs & Ec). { exact Hc. }
      destruct Hps as (P1 & P2 & P3).
      exists (State (fun q => if negb (p =? 0) then if q =? p then false else Alloc s q else Alloc s q) (SizeMap s) (CurrAddr s)
                (if negb (p =? 0) then allocatedCounter s - 1 else allocatedCounter s)).
      split; [|exact Ec]. apply run_step with s; [exact Hs|]. split; [exact P1|]. split.
      * intros _. apply (free_sound true 64 Impls H64 G HG R h s p Hs (calm64 h)). tauto.
      * unfold free_effect. cbn [Alloc SizeMap CurrAddr allocatedCounter]. split; [reflexivity|]. split; [reflexivity|].
        destruct (negb (p =? 0)); auto.
Qed.

(** Conversely. *)
Lemma run_room : forall G R h s, run64 R G h s -> next_free h <= CurrAddr s < 2 ^ 63 - 1 /\ (none_yet h = true -> CurrAddr s = 1024).
Proof.
  intros G R h s H. induction H as [s (s0 & s1 & _ & _ & _ & Hc & _)|h s e s' Hr IH Hs]; [cbn; lia|].
  assert (forall n p, ref64 n -> alloc64 R s n p s' ->
            (if 0 <? n then p + n else next_free h) <= CurrAddr s' < 2 ^ 63 - 1 /\ (negb (0 <? n) && none_yet h = true -> CurrAddr s' = 1024)) as Ha.
  { intros n p Hn (_ & Ha). destruct (0 <? n) eqn:E; cbn [negb andb].
    - destruct Ha as (Hb & _). destruct (bump_spec true 64 H64 s n p s' Hn ltac:(lia) Hb) as (-> & Hc). rewrite top64 in Hc. split; [lia|discriminate].
    - destruct Ha as (-> & _). exact IH. }
  destruct e as [n p|n p|p]; cbn [next_free none_yet].
  - destruct Hs as (Hn & _ & Hm & _). now apply Ha.
  - destruct Hs as (Hn & _ & Hm & _). now apply Ha.
  - destruct Hs as (_ & _ & (-> & _)). exact IH.
Qed.
Lemma alloc_placed : forall G R h s n p s', run64 R G h s -> ref64 n -> alloc64 R s n p s' -> may_be_placed h n p.
Proof.
  intros G R h s n p s' Hr Hn (H0 & Ha). destruct (run_room G R h s Hr) as (R1 & R2). destruct (0 <? n) eqn:E; [|left; lia].
  destruct Ha as (Hb & _). destruct (bump_spec true 64 H64 s n p s' Hn ltac:(lia) Hb) as (-> & Hc). rewrite top64 in Hc.
  right. repeat split; try lia.
Qed.

(** ** The states of the allocator during an execution *)
Definition timeline (R : rigid) (G : list (Z * Z)) (hf : list event) (tau : nat -> state) : Prop :=
  forall h, suffix h hf -> run64 R G h (tau (List.length h)) /\
    forall e h', h = e :: h' -> step64 R (tau (List.length h')) e (tau (List.length h)).
Lemma run_timeline : forall R G hf s, run64 R G hf s -> exists tau, timeline R G hf tau /\ tau (List.length hf) = s.
Proof.
  intros R G hf s H. induction H as [s Hs|h s e s' Hr (tau & Ht & Es) Hst].
  - exists (fun _ => s). split; [|reflexivity]. intros h (l & Hl). symmetry in Hl. apply app_eq_nil in Hl as [_ ->]. split; [now constructor|discriminate].
  - exists (fun k => if Nat.eqb k (S (List.length h)) then s' else tau k). split; [|cbn; now rewrite Nat.eqb_refl].
    intros h1 ([|e1 l] & Hl); cbn [app] in Hl.
    + subst h1. cbn [List.length]. rewrite Nat.eqb_refl. split; [now apply run_step with s|]. intros e1 h' E. injection E as <- <-.
      destruct (Nat.eqb_spec (List.length h) (S (List.length h))) as [E|_]; [lia|]. now rewrite Es.
    + injection Hl as <- Hl. destruct (Ht h1 (ex_intro _ l Hl)) as (T1 & T2).
      assert (List.length h1 <= List.length h)%nat as Hle by (rewrite Hl, app_length; lia).
      destruct (Nat.eqb_spec (List.length h1) (S (List.length h))) as [E|_]; [lia|]. split; [exact T1|].
      intros e2 h' ->. cbn [List.length] in Hle. destruct (Nat.eqb_spec (List.length h') (S (List.length h))) as [E|_]; [lia|]. now apply T2.
Qed.

(** ** Checks *)
Section Checks.
  Context (G : list (Z * Z)) (HG : good_globals true 64 G).
  Lemma check_ok : forall R h s a n, run64 R G h s -> ref64 a -> a + n < 2 ^ 63 -> 0 <= n -> in_bounds G h a n -> check64 R s a n.
  Proof.
    intros R h s a n Hr Ha Hn H0 Hin. apply (deref_sound true 64 Impls H64 G HG R h s a n Hr (calm64 h)); auto.
    split; [exact Ha|]. intros _. exact Hn.
  Qed.
  Lemma in_bounds_top : forall R h s a n, run64 R G h s -> in_bounds G h a n -> a + n < 2 ^ 63.
  Proof.
    intros R h s a n Hr (b & Hb & _ & Hle). destruct (block_facts true 64 Impls H64 G HG R h s Hr b (live_blocks G h b Hb)) as [[P1 P2] _].
    rewrite top64 in P2. destruct (bk b); lia.
  Qed.
  Lemma check_bad : forall h a n, possible G h -> ref64 a -> a + n < 2 ^ 63 -> 0 < n -> ~ in_bounds G h a n ->
    exists R s, run64 R G h s /\ ~ check64 R s a n.
  Proof.
    intros h a n Hp Ha Hn H0 Hno. destruct (possible_run G h HG Hp) as (R & s & Hr).
    assert (fits true 64 a n) as Hf by (split; [exact Ha|intros _; exact Hn]).
    destruct (deref_decides true 64 Impls H64 G HG R h s a n Hr (calm64 h) (possible_frees_ok G h Hp) Hf H0) as (R' & s' & H1 & H2).
    exists R', s'. split; [exact H1|]. intros Hc. exact (Hno (H2 Hc)).
  Qed.
  Lemma free_ok : forall R h s p, run64 R G h s -> p = 0 \/ starts_live G h Heap p \/ starts_live G h Stack p -> free_check R s p.
  Proof. intros R h s p Hr. exact (free_sound true 64 Impls H64 G HG R h s p Hr (calm64 h)). Qed.
  Lemma free_bad : forall h p, possible G h -> ref64 p -> p <> 0 -> ~ starts_live G h Heap p -> ~ starts_live G h Stack p ->
    exists R s, run64 R G h s /\ ~ free_check R s p.
  Proof.
    intros h p Hp Hr H0 H1 H2. destruct (possible_run G h HG Hp) as (R & s & Hrun).
    destruct (free_decides true 64 Impls H64 G HG R h s p Hrun (calm64 h) (possible_frees_ok G h Hp) Hr) as (R' & s' & H3 & H4).
    exists R', s'. split; [exact H3|]. intros Hc. destruct (H4 Hc) as [E|[E|E]]; auto.
  Qed.
  Lemma leak_ok : forall R h s, run64 R G h s -> possible G h -> leak_check s <-> ~ leaks G h.
  Proof.
    intros R h s Hr Hp. exact (C27_leak_check true 64 Impls R G h s H64 HG (calm64 h) Hr (possible_heap_frees G h Hp)).
  Qed.
  Lemma in_bounds_dec : forall h a n, in_bounds G h a n \/ ~ in_bounds G h a n.
  Proof.
    intros h a n. destruct (existsb (fun b => (start b <=? a) && (a <? start b + size b) && (a + n <=? start b + size b)) (live G h)) eqn:E.
    - left. apply existsb_exists in E as (b & Hb & E). exists b. split; [exact Hb|]. unfold inside. lia.
    - right. intros (b & Hb & H1 & H2). unfold inside in H1. rewrite <- not_true_iff_false in E. apply E, existsb_exists. exists b. split; [exact Hb|lia].
  Qed.
  Definition kind_eqb (a b : kind) : bool := match a, b with Global, Global | Heap, Heap | Stack, Stack => true | _, _ => false end.
  Lemma starts_live_dec : forall h k p, starts_live G h k p \/ ~ starts_live G h k p.
  Proof.
    intros h k p. destruct (existsb (fun b => kind_eqb (bk b) k && (start b =? p)) (live G h)) eqn:E.
    - left. apply existsb_exists in E as (b & Hb & E). exists b. split; [exact Hb|]. destruct (bk b), k; cbn in E; try discriminate; split; (reflexivity || lia).
    - right. intros (b & Hb & H1 & H2). rewrite <- not_true_iff_false in E. apply E, existsb_exists. exists b. split; [exact Hb|]. rewrite H1. destruct k; cbn; lia.
  Qed.
  Lemma leaks_dec : forall h, leaks G h \/ ~ leaks G h.
  Proof.
    intros h. destruct (existsb (fun b => kind_eqb (bk b) Heap) (live G h)) eqn:E.
    - left. apply existsb_exists in E as (b & Hb & E). exists b. split; [exact Hb|]. destruct (bk b); (discriminate || reflexivity).
    - right. intros (b & Hb & H1). rewrite <- not_true_iff_false in E. apply E, existsb_exists. exists b. split; [exact Hb|]. now rewrite H1.
  Qed.
End Checks.
