(** C61: the functions of stdlib.c behave as C says, or may behave so. *)
From Coq Require Import ZArith List Bool Lia.
From Verif.Spec Require Import CString StdLib.
From Verif.Model Require Import StringLib StdLib.
From Verif.Proofs Require Import StdLibProofs.
From Verif.Props Require StringProps.
Import ListNotations.
Open Scope list_scope.
Open Scope Z_scope.

Definition size_range (n : Z) : Prop := 0 <= n < 2 ^ 64.

(** calloc returns NULL and changes nothing, or returns a new block of num * size zero
    bytes; no check fails.  (If the product is zero, any pointer may be returned.) *)
Theorem C61_calloc : forall wraps nd a junk num size s r, size_range num -> size_range size ->
  (wraps = true -> num * size < 2 ^ 64) -> calloc wraps nd a junk num size s = r ->
  r = Blocked \/ r = Ret (0, s) \/ (num * size = 0 /\ exists p, r = Ret (p, s)) \/
  exists p s', r = Ret (p, s') /\ 0 < num * size /\ calloced s s' p (num * size).
Proof.
  intros wraps nd a junk num size s r [Hn _] [Hs _] Hw H. unfold calloc in H. destruct (negb (nd =? 0)); [auto|].
  assert (Hm : mul_size wraps num size = num * size).
  { unfold mul_size. destruct wraps; [|reflexivity]. apply Z.mod_small. specialize (Hw eq_refl). nia. }
  rewrite Hm in H. assert (0 <= num * size) by nia. destruct (Z.eq_dec (num * size) 0) as [E|E].
  - rewrite E in H. rewrite malloc_zero in H. cbn in H. right. right. left. split; [exact E|]. exists a. now rewrite <- H.
  - destruct (malloc_cases a junk (num * size) s) as [[[p s1] Hr]|Hr]; rewrite Hr in H; cbn [bind fst snd] in H; [|auto].
    destruct (malloc_spec a junk (num * size) s p s1 ltac:(lia) Hr) as (Hp & _ & Hp0 & Hpt & Hf & Hh & Ho & Hb1 & Hb2).
    destruct (memset_ok p 0 (num * size) s1) as (s2 & E2 & Hh2 & Ho2 & Hb3 & Hb4).
    { exists (p, num * size). rewrite Hh. split; [now left|]. unfold within. cbn. lia. }
    { lia. }
    rewrite E2 in H. cbn [bind] in H. right. right. right. exists p, s2. split; [now rewrite <- H|]. split; [lia|].
    unfold calloced. rewrite Hh2, Ho2, Hh, Ho. split; [reflexivity|]. split; [reflexivity|]. split; [exact Hp0|]. split; [exact Hpt|]. split; [exact Hf|].
    split; [exact Hb3|]. intros x Hx. rewrite Hb4, Hb2; auto.
Qed.
Print Assumptions C61_calloc.

(** Both outcomes, with every new block there is room for, are possible. *)
Theorem C61_calloc_covers : forall wraps num size s, size_range num -> size_range size ->
  (exists nd a junk, calloc wraps nd a junk num size s = Ret (0, s)) /\
  forall p s', 0 < num * size -> calloced s s' p (num * size) ->
    exists nd a junk s2, calloc wraps nd a junk num size s = Ret (p, s2) /\ same s2 s'.
Proof.
  intros wraps num size s Hn Hs. split; [exists 1, 0, (fun _ => 0); reflexivity|].
  intros p s' Hpos (Hh & Ho & Hp & Ht & Hf & Hz & Hk). exists 0, p, (fun _ => 0). unfold calloc. cbn [Z.eqb negb].
  assert (Hm : mul_size wraps num size = num * size).
  { unfold mul_size. destruct wraps; [|reflexivity]. apply Z.mod_small. change (2 ^ 63) with 9223372036854775808 in Ht. change (2 ^ 64) with 18446744073709551616. lia. }
  rewrite Hm. destruct (malloc_ok p (fun _ => 0) (num * size) s Hpos Hp Ht Hf) as (s1 & E1). rewrite E1. cbn [bind fst snd].
  destruct (malloc_spec _ _ _ _ _ _ Hpos E1) as (_ & _ & _ & _ & _ & Hh1 & Ho1 & Hb1 & Hb2).
  destruct (memset_ok p 0 (num * size) s1) as (s2 & E2 & Hh2 & Ho2 & Hb3 & Hb4).
  { exists (p, num * size). rewrite Hh1. split; [now left|]. unfold within. cbn. lia. }
  { lia. }
  rewrite E2. cbn [bind]. exists s2. split; [reflexivity|]. unfold same. rewrite Hh2, Ho2, Hh1, Ho1, Hh, Ho. split; [reflexivity|]. split; [reflexivity|].
  intros x. destruct (Z_le_dec p x) as [H1|H1]; [destruct (Z_lt_dec x (p + num * size)) as [H2|H2]|].
  - rewrite Hb3, Hz by lia. reflexivity.
  - rewrite Hb4, Hb2, Hk by lia. reflexivity.
  - rewrite Hb4, Hb2, Hk by lia. reflexivity.
Qed.
Print Assumptions C61_calloc_covers.

(** realloc of NULL or of a heap block never fails a check; it releases the block and
    returns a new one of the length asked for.  (For length zero: any pointer.) *)
Theorem C61_realloc : forall a junk ptr n s r old, good s -> size_range n ->
  (ptr = 0 /\ old = [] \/ exists m, In (ptr, m) (heap s) /\ old = [(ptr, m)]) ->
  realloc a junk ptr n s = r ->
  r = Blocked \/
  (n = 0 /\ exists q s' l h, r = Ret (q, s') /\ heap s = l ++ old ++ h /\ heap s' = l ++ h /\ objects s' = objects s /\ bytes s' = bytes s) \/
  (0 < n /\ exists q s', r = Ret (q, s') /\ replaced s s' old q n).
Proof.
  intros a junk ptr n s r old Hg [Hn _] Hold H. unfold realloc in H.
  assert (Hfree : exists s1 l h, free ptr s = Ret s1 /\ heap s = l ++ old ++ h /\ heap s1 = l ++ h /\ objects s1 = objects s /\ bytes s1 = bytes s).
  { destruct Hold as [[-> ->]|(m & Hin & ->)].
    - exists s, [], (heap s). repeat (split; [reflexivity|]). reflexivity.
    - unfold free. pose proof (good_bounds s (ptr, m) Hg ltac:(apply in_or_app; now left)) as Hpos. cbn in Hpos.
      replace (ptr =? 0) with false by lia. destruct (release ptr (heap s)) as [h|] eqn:E.
      + destruct (release_some _ _ _ E) as (l1 & b & l2 & Hl & Hb & ->). rewrite (block_unique s ptr m l1 b l2 Hg Hin Hl Hb) in Hl.
        exists (Store (bytes s) (l1 ++ l2) (objects s)), l1, l2. split; [reflexivity|]. split; [exact Hl|]. repeat (split; [reflexivity|]). reflexivity.
      + exfalso. exact (release_none _ _ E (ptr, m) Hin eq_refl). }
  destruct Hfree as (s1 & l & h & Ef & Hl & Hh & Ho & Hb). rewrite Ef in H. cbn [bind] in H.
  destruct (Z.eq_dec n 0) as [->|E].
  - rewrite malloc_zero in H. right. left. split; [reflexivity|]. exists a, s1, l, h. rewrite <- H. repeat (split; [first [reflexivity|assumption]|]). assumption.
  - destruct (malloc_cases a junk n s1) as [[[q s'] Hr]|Hr]; rewrite Hr in H; [|auto].
    destruct (malloc_spec a junk n s1 q s' ltac:(lia) Hr) as (_ & _ & Hp0 & Hpt & Hf & Hh' & Ho' & Hb1 & Hb2).
    right. right. split; [lia|]. exists q, s'. split; [now rewrite <- H|].
    unfold replaced. rewrite Hh', Ho', Ho, Hh. unfold fresh in Hf. rewrite Hh, Ho in Hf. rewrite Hb in Hb2.
    split; [reflexivity|]. split; [exact Hp0|]. split; [exact Hpt|]. split; [exact Hb2|]. exists l, h. split; [exact Hl|]. split; [reflexivity|].
    intros b Hin. apply Hf. now rewrite <- app_assoc.
Qed.
Print Assumptions C61_realloc.

(** What C's realloc gives, old contents included, is one of the outcomes. *)
Theorem C61_realloc_covers : forall s p m q n s', good s -> In (p, m) (heap s) -> 0 < n -> replaced s s' [(p, m)] q n ->
  exists a junk s2, realloc a junk p n s = Ret (q, s2) /\ same s2 s'.
Proof.
  intros s p m q n s' Hg Hin Hn (Ho & Hq & Ht & Hk & l & h & Hl & Hh & Hf). exists q, (bytes s'). unfold realloc, free.
  pose proof (good_bounds s (p, m) Hg ltac:(apply in_or_app; now left)) as Hpos. cbn in Hpos. replace (p =? 0) with false by lia.
  destruct (release p (heap s)) as [h'|] eqn:E; [|exfalso; exact (release_none _ _ E (p, m) Hin eq_refl)].
  assert (Hh' : h' = l ++ h).
  { destruct (release_some _ _ _ E) as (l1 & b & l2 & Hl' & Hb & ->). pose proof (block_unique s p m l1 b l2 Hg Hin Hl' Hb) as ->.
    rewrite Hl in Hl'. destruct Hg as (Hp' & _ & Hfop). rewrite Hl in Hfop. symmetry. revert Hl'.
    assert (Hni : ~ In (p, m) (l ++ h)).
    { intros Hi. rewrite <- app_assoc in Hfop. cbn in Hfop. destruct (fop_in _ _ l (p, m) (h ++ objects s) (p, m) Hfop) as [H|H];
        [rewrite in_app_iff in Hi; rewrite !in_app_iff; tauto|unfold apart in H; cbn in H; lia|unfold apart in H; cbn in H; lia]. }
    clear - Hni. revert l1. induction l as [|b l IH]; intros [|c x] Hxy; cbn in *.
    - now injection Hxy.
    - injection Hxy as <- Hxy. exfalso. apply Hni. rewrite Hxy. apply in_or_app. right. now left.
    - injection Hxy as -> Hxy. exfalso. apply Hni. now left.
    - injection Hxy as -> Hxy. f_equal. apply IH; [tauto|exact Hxy]. }
  subst h'. cbn [bind]. set (s1 := Store (bytes s) (l ++ h) (objects s)).
  assert (Hf1 : fresh s1 q n) by (intros b Hb; apply Hf; cbn in Hb; now rewrite app_assoc).
  destruct (malloc_ok q (bytes s') n s1 Hn Hq Ht Hf1) as (s2 & E2). rewrite E2. exists s2. split; [reflexivity|].
  destruct (malloc_spec _ _ _ _ _ _ Hn E2) as (_ & _ & _ & _ & _ & Hh2 & Ho2 & Hb1 & Hb2).
  unfold same. rewrite Hh2, Ho2, Hh, Ho. split; [reflexivity|]. split; [reflexivity|]. intros x.
  destruct (Z_le_dec q x) as [H1|H1]; [destruct (Z_lt_dec x (q + n)) as [H2|H2]|].
  - apply Hb1. lia.
  - rewrite Hb2, Hk by lia. reflexivity.
  - rewrite Hb2, Hk by lia. reflexivity.
Qed.
Print Assumptions C61_realloc_covers.

(** realloc of anything else is reported. *)
Theorem C61_realloc_invalid : forall a junk ptr n s, ptr <> 0 -> (forall m, ~ In (ptr, m) (heap s)) -> realloc a junk ptr n s = UB.
Proof.
  intros a junk ptr n s H0 H. unfold realloc, free. replace (ptr =? 0) with false by lia.
  destruct (release ptr (heap s)) as [h|] eqn:E; [|reflexivity]. exfalso.
  destruct (release_some _ _ _ E) as (l1 & b & l2 & Hl & Hb & _). apply (H (snd b)). rewrite Hl, <- Hb. apply in_or_app. right. left. now destruct b.
Qed.
Print Assumptions C61_realloc_invalid.

(** strtol, strtoul, strtoull and strtod: on a string, and with endptr NULL or the address
    of a pointer, no check fails; *endptr becomes a place in the string (its end included)
    and nothing else changes; the result is a value of its type. *)
Definition outcome (s : store) (nptr : Z) (l : list Z) (endptr lo hi : Z) (r : Z * store) : Prop :=
  lo <= fst r <= hi /\
  (endptr = 0 -> snd r = s) /\
  (endptr <> 0 -> only_bytes s (snd r) endptr 8 /\ exists k, 0 <= k <= len l /\ holds (snd r) endptr (nptr + k)).
Definition conversion (f : nat -> Z -> Z -> Z -> Z -> Z -> store -> res (Z * store)) (lo hi : Z) : Prop :=
  forall s nptr endptr base l, good s -> string_at (view s) nptr l -> (endptr = 0 \/ accessible s endptr 8) ->
  forall nd v k, (length l < k)%nat ->
    f k nd v nptr endptr base s = Blocked \/ exists r, f k nd v nptr endptr base s = Ret r /\ outcome s nptr l endptr lo hi r.
Ltac conv f :=
  let s := fresh "s" in let nptr := fresh "nptr" in let endptr := fresh "endptr" in
  intros s nptr endptr base l Hg Hs Ha nd v k Hk; cbn beta; unfold f, nondet_unsigned, nondet;
  destruct ((0 <=? nd) && (nd <=? 2 ^ 32 - 1)) eqn:End; [|now left]; apply andb_true_iff in End as [End _]; apply Z.leb_le in End; cbn [bind];
  pose proof (set_endptr_ok s nd nptr endptr l Hg Hs End Ha k Hk) as H;
  destruct (endptr =? 0) eqn:E0;
  [ rewrite H; cbn [bind]; apply Z.eqb_eq in E0
  | apply Z.eqb_neq in E0; destruct (nd <=? len l) eqn:El; [destruct H as (s' & H & Ho & Hh)|]; rewrite H; cbn [bind]; [|now left]; apply Z.leb_le in El];
  unfold nondet_long, nondet_unsigned_long, nondet_double, nondet;
  match goal with |- context [(?x <=? v) && (v <=? ?y)] => destruct (Z.leb_spec x v); destruct (Z.leb_spec v y); cbn [andb bind]; try (now left) end;
  right; eexists; (split; [reflexivity|]); (split; [cbn [fst]; auto|]); cbn [snd];
  (split; intros; [first [reflexivity|contradiction]|first [contradiction|split; [assumption|exists nd; auto]]]).
Theorem C61_strto : conversion strtol (- 2 ^ 63) (2 ^ 63 - 1) /\ conversion strtoul 0 (2 ^ 64 - 1) /\
  conversion strtoull 0 (2 ^ 64 - 1) /\ conversion (fun k nd v p e _ => strtod k nd v p e) 0 (2 ^ 64 - 1).
Proof. split; [conv strtol|]. split; [conv strtoul|]. split; [conv strtoull|conv strtod]. Qed.
Print Assumptions C61_strto.

(** What C's strtol, strtoul and strtoull give for a string (of less than 2^32
    characters) is one of the outcomes, and so are all values and places for strtod. *)
Definition covers (f : nat -> Z -> Z -> Z -> Z -> Z -> store -> res (Z * store)) (P : Z -> list Z -> nat -> Z -> Prop) : Prop :=
  forall s nptr endptr base l k v, good s -> string_at (view s) nptr l -> len l < 2 ^ 32 -> (endptr = 0 \/ accessible s endptr 8) -> P base l k v ->
  exists nd w s', (forall m, (length l < m)%nat -> f m nd w nptr endptr base s = Ret (v, s')) /\ (endptr = 0 -> s' = s) /\
    (endptr <> 0 -> only_bytes s s' endptr 8 /\ holds s' endptr (nptr + Z.of_nat k)).
Lemma nondet_in : forall lo hi v, lo <= v <= hi -> nondet lo hi v = Ret v.
Proof. intros lo hi v H. unfold nondet. replace ((lo <=? v) && (v <=? hi)) with true by (symmetry; apply andb_true_iff; lia). reflexivity. Qed.
Lemma covers_intro : forall f (P : Z -> list Z -> nat -> Z -> Prop) lo hi,
  (forall m nd w p e b s, f m nd w p e b s = (n <- nondet_unsigned nd ;; s' <- set_endptr m n p e s ;; r <- nondet lo hi w ;; Ret (r, s'))) ->
  (forall b l k v, P b l k v -> (k <= length l)%nat /\ lo <= v <= hi) -> covers f P.
Proof.
  intros f P lo hi Hf HP s nptr endptr base l k v Hg Hs Hl Ha H. destruct (HP _ _ _ _ H) as [Hk Hv].
  exists (Z.of_nat k), v. assert (Hn : nondet_unsigned (Z.of_nat k) = Ret (Z.of_nat k)) by (apply nondet_in; unfold len in Hl; lia).
  destruct (Z.eq_dec endptr 0) as [E|E].
  - exists s. split; [|split; [reflexivity|contradiction]]. intros m Hm. rewrite Hf, Hn. cbn [bind].
    pose proof (set_endptr_ok s (Z.of_nat k) nptr endptr l Hg Hs ltac:(lia) Ha m Hm) as He. subst endptr. cbn [Z.eqb] in He. rewrite He. cbn [bind].
    rewrite (nondet_in _ _ _ Hv). reflexivity.
  - assert (He : exists s', set_endptr (S (length l)) (Z.of_nat k) nptr endptr s = Ret s' /\ only_bytes s s' endptr 8 /\ holds s' endptr (nptr + Z.of_nat k)).
    { pose proof (set_endptr_ok s (Z.of_nat k) nptr endptr l Hg Hs ltac:(lia) Ha (S (length l)) ltac:(lia)) as He.
      replace (endptr =? 0) with false in He by lia. replace (Z.of_nat k <=? len l) with true in He by (unfold len; lia). exact He. }
    destruct He as (s' & He & H1 & H2). exists s'. split; [|split; [contradiction|auto]]. intros m Hm. rewrite Hf, Hn. cbn [bind].
    assert (Hm' : set_endptr m (Z.of_nat k) nptr endptr s = Ret s').
    { rewrite <- He. unfold set_endptr. replace (endptr =? 0) with false by lia. cbn [negb].
      assert (Hlen : forall m, (length l < m)%nat -> strlen m (view s) nptr = Ret (len l)).
      { intros m' Hm'. pose proof (StringProps.string_bound l (view s) nptr (view_is_mem s Hg) Hs) as Hb.
        unfold strlen. rewrite (StringProps.strlen_ok l); [reflexivity|now rewrite Z.add_0_r|lia|lia|lia]. }
      rewrite !Hlen by lia. reflexivity. }
    rewrite Hm'. cbn [bind]. rewrite (nondet_in _ _ _ Hv). reflexivity.
Qed.
Theorem C61_strto_covers :
  covers strtol (fun base l k v => c_strtol base l = (k, v)) /\
  covers strtoul (fun base l k v => c_strtoul base l = (k, v)) /\
  covers strtoull (fun base l k v => c_strtoul base l = (k, v)) /\
  covers (fun m nd v p e _ => strtod m nd v p e) (fun _ l k v => (k <= length l)%nat /\ 0 <= v <= 2 ^ 64 - 1).
Proof.
  split; [eapply covers_intro; [reflexivity|intros b l k v; apply strtol_range]|].
  split; [eapply covers_intro; [reflexivity|intros b l k v; apply strtoul_range]|].
  split; [eapply covers_intro; [reflexivity|intros b l k v; apply strtoul_range]|].
  eapply covers_intro; [reflexivity|auto].
Qed.
Print Assumptions C61_strto_covers.

(** getenv returns NULL and changes nothing, or returns a string of at most two
    characters, and every one of these is possible. *)
Theorem C61_getenv : forall env s, good s -> In (env, 3) (objects s) -> bytes s (env + 2) = 0 ->
  (forall nd c0 c1 r, getenv env nd c0 c1 s = r -> r = Ret (0, s) \/
     exists s' l, r = Ret (env, s') /\ only_bytes s s' env 2 /\ string_at (view s') env l /\ (length l <= 2)%nat) /\
  (exists nd c0 c1, getenv env nd c0 c1 s = Ret (0, s)) /\
  (forall l, (length l <= 2)%nat -> Forall (fun c => 0 < c < 256) l ->
     exists nd c0 c1 s', - 128 <= c0 <= 127 /\ - 128 <= c1 <= 127 /\ getenv env nd c0 c1 s = Ret (env, s') /\ string_at (view s') env l).
Proof.
  intros env s Hg Hin Hz.
  assert (Hacc : forall s1 i, heap s1 = heap s -> objects s1 = objects s -> 0 <= i <= 2 -> accessible s1 (env + i) 1).
  { intros s1 i H1 H2 Hi. exists (env, 3). rewrite H1, H2. split; [apply in_or_app; now right|]. unfold within. cbn. lia. }
  assert (Hmain : forall c0 c1, exists s', getenv env 0 c0 c1 s = Ret (env, s') /\ only_bytes s s' env 2 /\
    view s' env = Some (c0 mod 256) /\ view s' (env + 1) = Some (c1 mod 256) /\ view s' (env + 2) = Some 0).
  { intros c0 c1. unfold getenv. cbn [Z.eqb negb].
    destruct (store_byte_ok env c0 s) as (s1 & E1 & (Hh1 & Ho1 & Hk1) & Hb1). { rewrite <- (Z.add_0_r env). apply Hacc; auto; lia. }
    rewrite E1. cbn [bind].
    destruct (store_byte_ok (env + 1) c1 s1) as (s2 & E2 & (Hh2 & Ho2 & Hk2) & Hb2). { apply Hacc; auto; lia. }
    rewrite E2. cbn [bind]. exists s2. split; [reflexivity|].
    assert (Hv : forall i, 0 <= i <= 2 -> view s2 (env + i) = Some (bytes s2 (env + i))).
    { intros i Hi. unfold view. assert (Ha : accessible s2 (env + i) 1) by (apply Hacc; [congruence|congruence|exact Hi]). apply valid_spec in Ha. now rewrite Ha. }
    split; [split; [congruence|split; [congruence|intros a Ha; rewrite Hk2, Hk1 by lia; reflexivity]]|].
    pose proof (Hv 0 ltac:(lia)) as Hv0. rewrite Z.add_0_r in Hv0. rewrite Hv0, (Hv 1), (Hv 2) by lia.
    rewrite Hb2. rewrite !Hk2 by lia. rewrite Hb1, Hk1 by lia. rewrite Hz. auto. }
  split; [|split].
  - intros nd c0 c1 r H. destruct (Z.eq_dec nd 0) as [->|Hnd].
    + right. destruct (Hmain c0 c1) as (s' & E & Ho & H0 & H1 & H2). rewrite E in H.
      destruct (Z.eq_dec (c0 mod 256) 0) as [Z0|Z0]; [exists s', []|destruct (Z.eq_dec (c1 mod 256) 0) as [Z1|Z1]; [exists s', [c0 mod 256]|exists s', [c0 mod 256; c1 mod 256]]];
        (split; [now rewrite <- H|]); (split; [exact Ho|]); cbn [string_at length]; replace (env + 1 + 1) with (env + 2) by lia; rewrite ?H0, ?H1, ?H2, ?Z0, ?Z1;
        (split; [|lia]); repeat split; auto.
    + left. unfold getenv in H. replace (nd =? 0) with false in H by lia. now rewrite <- H.
  - exists 1, 0, 0. reflexivity.
  - intros l Hl HF. set (ch := fun c => if c <? 128 then c else c - 256).
    assert (Hch : forall c, 0 <= c < 256 -> - 128 <= ch c <= 127 /\ ch c mod 256 = c).
    { intros c Hc. unfold ch. destruct (c <? 128) eqn:E; split; try lia; [apply Z.mod_small; lia|].
      symmetry. apply (Z.mod_unique _ _ (-1)); lia. }
    set (c0 := nth 0 l 0). set (c1 := nth 1 l 0).
    assert (Hc : 0 <= c0 < 256 /\ 0 <= c1 < 256).
    { rewrite Forall_forall in HF. unfold c0, c1. destruct l as [|x [|y l]]; cbn; split; try lia.
      - specialize (HF x (or_introl eq_refl)). lia.
      - specialize (HF x (or_introl eq_refl)). lia.
      - specialize (HF y (or_intror (or_introl eq_refl))). lia. }
    destruct Hc as [Hc0 Hc1]. destruct (Hch c0 Hc0) as [R0 M0]. destruct (Hch c1 Hc1) as [R1 M1].
    destruct (Hmain (ch c0) (ch c1)) as (s' & E & Ho & H0 & H1 & H2). exists 0, (ch c0), (ch c1), s'.
    split; [exact R0|]. split; [exact R1|]. split; [exact E|]. rewrite M0 in H0. rewrite M1 in H1.
    unfold c0, c1 in *. clear - HF Hl H0 H1 H2. rewrite Forall_forall in HF. destruct l as [|x [|y [|z l]]]; cbn in *; [exact H0| | |lia].
    + split; [specialize (HF x); lia|]. auto.
    + split; [specialize (HF x); lia|]. split; [auto|]. split; [specialize (HF y); lia|]. split; [auto|]. now replace (env + 1 + 1) with (env + 2) by lia.
Qed.
Print Assumptions C61_getenv.

(** exit and abort do not return; a leak is reported if and only if memory safety is
    checked and some heap block has not been freed. *)
Theorem C61_exit : forall safety s, exit safety s <> Returned /\ abort safety s <> Returned /\
  (exit safety s = Leak <-> safety = true /\ exists b, In b (heap s)) /\
  (abort safety s = Leak <-> safety = true /\ exists b, In b (heap s)).
Proof.
  intros safety s. unfold exit, abort. destruct safety; destruct (heap s) as [|b h]; cbn [length andb].
  - cbn. split; [discriminate|]. split; [discriminate|]. split; (split; [discriminate|intros (_ & b & [])]).
  - assert (E : (Z.of_nat (S (length h)) =? 0) = false) by (apply Z.eqb_neq; rewrite Nat2Z.inj_succ; pose proof (Nat2Z.is_nonneg (length h)); lia).
    rewrite E. cbn [negb].
    split; [discriminate|]. split; [discriminate|]. split; (split; [intros _; split; [reflexivity|exists b; now left]|reflexivity]).
  - split; [discriminate|]. split; [discriminate|]. split; (split; [discriminate|intros [H _]; discriminate]).
  - split; [discriminate|]. split; [discriminate|]. split; (split; [discriminate|intros [H _]; discriminate]).
Qed.
Print Assumptions C61_exit.

(** With wrapping integers, a product above 2^64 gives a block that is too small:
    calloc(2^33, 2^31 + 1) has eight gigabytes. *)
Theorem C61_calloc_overflow_refuted : exists s s', good s /\
  calloc true 0 1024 (fun _ => 7) (2 ^ 33) (2 ^ 31 + 1) s = Ret (1024, s') /\ heap s' = [(1024, 2 ^ 33)] /\ 2 ^ 33 < 2 ^ 33 * (2 ^ 31 + 1).
Proof.
  exists (Store (fun _ => 0) [] []). eexists. split; [split; [intros b []|split; [intros a; cbn; lia|constructor]]|].
  split; [reflexivity|]. split; [reflexivity|]. reflexivity.
Qed.
Print Assumptions C61_calloc_overflow_refuted.

(** calloc of zero bytes may return a pointer that is not NULL and that free rejects. *)
Theorem C61_calloc_zero_refuted : exists s p s', good s /\ calloc false 0 p (fun _ => 7) 0 8 s = Ret (p, s') /\ free p s' = UB.
Proof.
  exists (Store (fun _ => 0) [] []), 5. eexists. split; [split; [intros b []|split; [intros a; cbn; lia|constructor]]|].
  split; reflexivity.
Qed.
Print Assumptions C61_calloc_zero_refuted.

(** realloc may lose the contents of the block ... *)
Theorem C61_realloc_contents_refuted : exists s s', good s /\ In (1024, 1) (heap s) /\
  realloc 2048 (fun _ => 7) 1024 1 s = Ret (2048, s') /\ ~ kept s s' 1024 1 2048 1.
Proof.
  exists (Store (fun _ => 0) [(1024, 1)] []). eexists.
  split; [split; [intros b [<-|[]]; cbn; lia|split; [intros a; cbn; lia|cbn; constructor; [constructor|constructor]]]|].
  split; [now left|]. split; [reflexivity|]. intros H. specialize (H 0 ltac:(cbn; lia)). discriminate.
Qed.
Print Assumptions C61_realloc_contents_refuted.

(** ... and never fails: the executions in which it returns NULL and keeps the old block
    are missed. *)
Theorem C61_realloc_null_refuted : forall a junk ptr n s q s', size_range n -> 0 < n -> realloc a junk ptr n s = Ret (q, s') -> q <> 0.
Proof.
  intros a junk ptr n s q s' _ Hn H. unfold realloc in H. destruct (free ptr s); cbn [bind] in H; try discriminate.
  destruct (malloc_spec _ _ _ _ _ _ Hn H) as (_ & _ & Hq & _). lia.
Qed.
Print Assumptions C61_realloc_null_refuted.

(** *endptr is never 2^32 characters or more into the string. *)
Theorem C61_endptr_refuted : forall k nd v nptr endptr base s r s', 0 < nptr < 2 ^ 63 -> endptr <> 0 ->
  strtol k nd v nptr endptr base s = Ret (r, s') -> exists d, 0 <= d < 2 ^ 32 /\ holds s' endptr (nptr + d).
Proof.
  intros k nd v nptr endptr base s r s' Hp He H. unfold strtol, nondet_unsigned, nondet in H.
  destruct ((0 <=? nd) && (nd <=? 2 ^ 32 - 1)) eqn:E; [|discriminate]. apply andb_true_iff in E as [E1 E2]. apply Z.leb_le in E1. apply Z.leb_le in E2.
  cbn [bind] in H. unfold set_endptr in H. replace (endptr =? 0) with false in H by lia. cbn [negb] in H.
  destruct (strlen k (view s) nptr) as [n| | |]; cbn [bind] in H; try discriminate. destruct (nd <=? n); cbn [bind] in H; [|discriminate].
  destruct (store_ptr endptr (nptr + nd) s) as [s1| | |] eqn:Es; cbn [bind] in H; try discriminate.
  assert (Hs1 : s1 = s') by (destruct (nondet_long v); cbn [bind] in H; [injection H; auto|discriminate..]). subst s1.
  unfold store_ptr in Es. destruct (valid s endptr 8) eqn:Ev; [|discriminate]. apply valid_spec in Ev.
  destruct (store_ptr_ok endptr (nptr + nd) s Ev) as (s2 & E3 & _ & Hh). unfold store_ptr in E3. apply valid_spec in Ev. rewrite Ev in E3.
  rewrite Es in E3. injection E3 as <-. exists nd. split; [lia|exact Hh].
Qed.
Print Assumptions C61_endptr_refuted.

(** No value of an environment variable has three characters. *)
Theorem C61_getenv_refuted : forall env s nd c0 c1 p s' l, good s -> In (env, 3) (objects s) -> bytes s (env + 2) = 0 ->
  getenv env nd c0 c1 s = Ret (p, s') -> p <> 0 -> string_at (view s') p l -> (length l < 3)%nat.
Proof.
  intros env s nd c0 c1 p s' l Hg Hin Hz H Hp Hs. destruct (C61_getenv env s Hg Hin Hz) as (H1 & _).
  destruct (H1 nd c0 c1 _ H) as [E|(s2 & l2 & E & Ho & Hs2 & Hl)]; [injection E; congruence|].
  injection E as -> ->. clear - Hs Hs2 Hl. revert env l2 Hs Hs2 Hl. assert (G : forall m p l l2, string_at m p l -> string_at m p l2 -> length l = length l2).
  { clear. intros m p l. revert p. induction l as [|c l IH]; intros p [|d l2] H1 H2; cbn in *; auto.
    - destruct H2 as (H & H2 & _). rewrite H1 in H2. congruence.
    - destruct H1 as (H & H1 & _). rewrite H2 in H1. congruence.
    - f_equal. destruct H1 as (_ & _ & H1), H2 as (_ & _ & H2). eauto. }
  intros env l2 Hs Hs2 Hl. rewrite (G _ _ _ _ Hs Hs2). lia.
Qed.
Print Assumptions C61_getenv_refuted.

(** A store with the string " -12x" at 100, a heap block, a pointer variable and the
    environment string. *)
Definition example_bytes : Z -> Z := fun a =>
  if a =? 100 then 32 else if a =? 101 then 45 else if a =? 102 then 49 else if a =? 103 then 50 else if a =? 104 then 120
  else if a =? 300 then 120 else if a =? 301 then 120 else 0.
Definition example : store := Store example_bytes [(1024, 16)] [(100, 6); (200, 8); (300, 3)].
Lemma example_good : good example.
Proof.
  split; [|split].
  - cbn. intros b H. repeat (destruct H as [<-|H]; [cbn; lia|]). contradiction.
  - intros a. cbn. unfold example_bytes. repeat (match goal with |- context [if ?c then _ else _] => destruct c; [lia|] end). lia.
  - cbn. repeat (constructor; [repeat (constructor; [unfold apart; cbn; lia|]); constructor|]). constructor.
Qed.
Example C61_nonvacuous :
  good example /\ string_at (view example) 100 [32; 45; 49; 50; 120] /\ accessible example 200 8 /\
  c_strtol 10 [32; 45; 49; 50; 120] = (4%nat, -12) /\ c_strtoul 0 [48; 120; 102; 70; 103] = (4%nat, 255) /\ c_strtoul 10 [45; 49] = (2%nat, 2 ^ 64 - 1) /\
  c_strtol 10 [32; 43; 120] = (0%nat, 0) /\
  (exists nd w s', strtol 10 nd w 100 200 10 example = Ret (-12, s') /\ holds s' 200 104) /\
  (exists s', calloc false 0 2048 (fun _ => 7) 4 8 example = Ret (2048, s') /\ calloced example s' 2048 32) /\
  (exists s', realloc 2048 (fun _ => 7) 1024 32 example = Ret (2048, s') /\ replaced example s' [(1024, 16)] 2048 32) /\
  In (300, 3) (objects example) /\ exit true example = Leak.
Proof.
  split; [exact example_good|].
  assert (Hs : string_at (view example) 100 [32; 45; 49; 50; 120]) by (repeat (split; [discriminate || reflexivity|]); reflexivity).
  assert (Ha : accessible example 200 8) by (exists (200, 8); split; [cbn; tauto|unfold within; cbn; lia]).
  split; [exact Hs|]. split; [exact Ha|].
  do 4 (split; [vm_compute; reflexivity|]).
  split.
  { destruct C61_strto_covers as [H _].
    destruct (H example 100 200 10 [32; 45; 49; 50; 120] 4%nat (-12) example_good Hs eq_refl (or_intror Ha) ltac:(vm_compute; reflexivity)) as (nd & w & s' & H1 & _ & H2).
    exists nd, w, s'. split; [apply H1; cbn; lia|]. apply H2. discriminate. }
  split.
  { destruct (calloc false 0 2048 (fun _ => 7) 4 8 example) as [[p s']| | |] eqn:E; try discriminate.
    destruct (C61_calloc false 0 2048 (fun _ => 7) 4 8 example _ ltac:(split; [lia|reflexivity]) ltac:(split; [lia|reflexivity]) ltac:(discriminate) E)
      as [H|[H|[[H _]|(q & s2 & H & _ & Hc)]]]; try discriminate; [exfalso; rewrite H in E; discriminate E|].
    injection H as <- <-. assert (p = 2048) as -> by (clear Hc; unfold calloc, malloc in E; cbn in E; injection E; auto). exists s'. split; [reflexivity|exact Hc]. }
  split.
  { destruct (realloc 2048 (fun _ => 7) 1024 32 example) as [[p s']| | |] eqn:E; try discriminate.
    destruct (C61_realloc 2048 (fun _ => 7) 1024 32 example _ [(1024, 16)] example_good ltac:(split; [lia|reflexivity]) ltac:(right; exists 16; split; [now left|reflexivity]) E)
      as [H|[[H _]|(_ & q & s2 & H & Hc)]]; try discriminate.
    injection H as <- <-. assert (p = 2048) as -> by (clear Hc; unfold realloc, free, malloc in E; cbn in E; injection E; auto). exists s'. split; [reflexivity|exact Hc]. }
  split; [cbn; tauto|reflexivity].
Qed.
