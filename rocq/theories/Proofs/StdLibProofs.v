(** Lemmas about the functions of stdlib.c. *)
From Coq Require Import ZArith List Bool Lia.
From Verif.Spec Require Import CString StdLib.
From Verif.Model Require Import StringLib StdLib.
From Verif.Props Require Import StringProps.
Import ListNotations.
Open Scope list_scope.
Open Scope Z_scope.

Lemma valid_spec : forall s p n, valid s p n = true <-> accessible s p n.
Proof.
  intros s p n. unfold valid, accessible. rewrite existsb_exists. unfold inb, within.
  split; intros (b & Hb & H); exists b; split; auto; [apply andb_true_iff in H as [H1 H2]; lia|apply andb_true_iff; lia].
Qed.
Lemma disjoint_spec : forall s p n, forallb (disjoint p n) (heap s ++ objects s) = true <-> fresh s p n.
Proof.
  intros s p n. rewrite forallb_forall. unfold fresh, disjoint, apart.
  split; intros H b Hb; specialize (H b Hb); [apply orb_true_iff in H; lia|apply orb_true_iff; lia].
Qed.

Lemma malloc_spec : forall a junk n s p s', 0 < n -> malloc a junk n s = Ret (p, s') ->
  p = a /\ n < 2 ^ 63 /\ 0 < p /\ p + n < 2 ^ 63 - 1 /\ fresh s p n /\ heap s' = (p, n) :: heap s /\ objects s' = objects s /\
  (forall x, p <= x < p + n -> bytes s' x = junk x) /\ (forall x, ~ p <= x < p + n -> bytes s' x = bytes s x).
Proof.
  intros a junk n s p s' Hn H. unfold malloc in H.
  destruct ((n <? 0) || (2 ^ 63 <=? n)) eqn:E1; [discriminate|]. apply orb_false_iff in E1 as [_ E1]. apply Z.leb_gt in E1.
  destruct (n =? 0) eqn:E2; [lia|].
  destruct ((0 <? a) && (a + n <? 2 ^ 63 - 1) && forallb (disjoint a n) (heap s ++ objects s)) eqn:E3; [|discriminate].
  apply andb_true_iff in E3 as [E3 E4]. apply andb_true_iff in E3 as [E3 E5]. apply disjoint_spec in E4.
  injection H as <- <-. cbn [heap objects bytes]. apply Z.ltb_lt in E3. apply Z.ltb_lt in E5.
  split; [reflexivity|]. split; [exact E1|]. split; [exact E3|]. split; [exact E5|]. split; [exact E4|]. split; [reflexivity|]. split; [reflexivity|].
  split; intros x Hx.
  - replace ((a <=? x) && (x <? a + n)) with true by (symmetry; apply andb_true_iff; lia). reflexivity.
  - replace ((a <=? x) && (x <? a + n)) with false by (symmetry; apply andb_false_iff; lia). reflexivity.
Qed.
Lemma malloc_zero : forall a junk s, malloc a junk 0 s = Ret (a, s). Proof. reflexivity. Qed.
Lemma malloc_ok : forall a junk n s, 0 < n -> 0 < a -> a + n < 2 ^ 63 - 1 -> fresh s a n -> exists s', malloc a junk n s = Ret (a, s').
Proof.
  intros a junk n s Hn Ha Hb Hf. unfold malloc.
  replace ((n <? 0) || (2 ^ 63 <=? n)) with false by (symmetry; apply orb_false_iff; lia).
  replace (n =? 0) with false by lia. apply disjoint_spec in Hf. rewrite Hf.
  replace ((0 <? a) && (a + n <? 2 ^ 63 - 1)) with true by (symmetry; apply andb_true_iff; lia). eexists. reflexivity.
Qed.
Lemma malloc_cases : forall a junk n s, (exists r, malloc a junk n s = Ret r) \/ malloc a junk n s = Blocked.
Proof. intros. unfold malloc. destruct (_ || _); [auto|]. destruct (n =? 0); [eauto|]. destruct (_ && _ && _); eauto. Qed.

Lemma memset_ok : forall p c n s, accessible s p n -> 0 < n -> exists s', memset p c n s = Ret s' /\ heap s' = heap s /\ objects s' = objects s /\
  (forall x, p <= x < p + n -> bytes s' x = c) /\ (forall x, ~ p <= x < p + n -> bytes s' x = bytes s x).
Proof.
  intros p c n s H Hn. unfold memset. replace (n =? 0) with false by lia. apply valid_spec in H. rewrite H. eexists. split; [reflexivity|].
  cbn [heap objects bytes]. split; [reflexivity|]. split; [reflexivity|]. split; intros x Hx.
  - replace ((p <=? x) && (x <? p + n)) with true by (symmetry; apply andb_true_iff; lia). reflexivity.
  - replace ((p <=? x) && (x <? p + n)) with false by (symmetry; apply andb_false_iff; lia). reflexivity.
Qed.

Lemma release_some : forall p l h, release p l = Some h -> exists l1 b l2, l = l1 ++ [b] ++ l2 /\ fst b = p /\ h = l1 ++ l2.
Proof.
  induction l as [|b l IH]; cbn; intros h H; [discriminate|]. destruct (fst b =? p) eqn:E.
  - injection H as <-. exists [], b, l. apply Z.eqb_eq in E. auto.
  - destruct (release p l) as [h'|]; [|discriminate]. injection H as <-. destruct (IH _ eq_refl) as (l1 & c & l2 & -> & Hc & ->).
    exists (b :: l1), c, l2. auto.
Qed.
Lemma release_none : forall p l, release p l = None -> forall b, In b l -> fst b <> p.
Proof.
  induction l as [|b l IH]; cbn; intros H c Hc; [contradiction|]. destruct (fst b =? p) eqn:E; [discriminate|].
  destruct (release p l); [discriminate|]. destruct Hc as [<-|Hc]; [lia|eauto].
Qed.

Lemma good_bounds : forall s b, good s -> In b (heap s ++ objects s) -> 0 < fst b /\ 0 < snd b /\ fst b + snd b < 2 ^ 63.
Proof. intros s b (H & _) Hb. auto. Qed.
Lemma fop_in : forall (A : Type) (R : A -> A -> Prop) l1 b l2 c, ForallOrdPairs R (l1 ++ b :: l2) -> In c (l1 ++ l2) -> R b c \/ R c b.
Proof.
  induction l1 as [|x l1 IH]; cbn; intros b l2 c H Hc.
  - inversion H; subst. rewrite Forall_forall in H2. auto.
  - inversion H; subst. destruct Hc as [<-|Hc].
    + rewrite Forall_forall in H2. right. apply H2, in_or_app. right. now left.
    + eauto.
Qed.
(** The block with a given address is unique. *)
Lemma block_unique : forall s p m l1 b l2, good s -> In (p, m) (heap s) -> heap s = l1 ++ [b] ++ l2 -> fst b = p -> b = (p, m).
Proof.
  intros s p m l1 b l2 Hg Hin Hl Hb. destruct Hg as (Hpos & _ & Hfop).
  rewrite Hl in Hin. apply in_app_or in Hin.
  assert (Hin' : b = (p, m) \/ In (p, m) (l1 ++ l2)).
  { destruct Hin as [H|H]; [right; apply in_or_app; now left|]. cbn in H. destruct H as [H|H]; [now left|right; apply in_or_app; now right]. }
  destruct Hin' as [H|H]; [exact H|exfalso].
  rewrite Hl in Hfop, Hpos. rewrite <- app_assoc in Hfop. cbn in Hfop.
  pose proof (fop_in _ _ l1 b (l2 ++ objects s) (p, m) Hfop) as Hr.
  assert (Hi : In (p, m) (l1 ++ l2 ++ objects s)) by (apply in_app_or in H; rewrite !in_app_iff; tauto).
  assert (Hb' : 0 < fst b /\ 0 < snd b /\ fst b + snd b < 2 ^ 63) by (apply Hpos; rewrite !in_app_iff; cbn; tauto).
  assert (Hc' : 0 < p /\ 0 < m /\ p + m < 2 ^ 63) by (apply (Hpos (p, m)); rewrite in_app_iff in H; rewrite !in_app_iff; cbn; tauto).
  unfold apart in Hr. cbn in Hr. destruct (Hr Hi); lia.
Qed.

Lemma store_ptr_ok : forall p v s, accessible s p 8 -> exists s', store_ptr p v s = Ret s' /\ only_bytes s s' p 8 /\ holds s' p v.
Proof.
  intros p v s H. unfold store_ptr. apply valid_spec in H. rewrite H. eexists. split; [reflexivity|].
  split; [split; [reflexivity|split; [reflexivity|]]|]; cbn [bytes].
  - intros a Ha. replace ((p <=? a) && (a <? p + 8)) with false by (symmetry; apply andb_false_iff; lia). reflexivity.
  - intros i Hi. cbn [bytes]. replace ((p <=? p + i) && (p + i <? p + 8)) with true by (symmetry; apply andb_true_iff; lia).
    replace (p + i - p) with i by lia. reflexivity.
Qed.
Lemma store_byte_ok : forall p v s, accessible s p 1 -> exists s', store_byte p v s = Ret s' /\ only_bytes s s' p 1 /\ bytes s' p = v mod 256.
Proof.
  intros p v s H. unfold store_byte. apply valid_spec in H. rewrite H. eexists. split; [reflexivity|].
  split; [split; [reflexivity|split; [reflexivity|]]|]; cbn [bytes].
  - intros a Ha. replace (a =? p) with false by lia. reflexivity.
  - now rewrite Z.eqb_refl.
Qed.

Lemma view_is_mem : forall s, good s -> is_mem (view s).
Proof.
  intros s Hg a v H. unfold view in H. destruct (valid s a 1) eqn:E; [|discriminate]. injection H as <-.
  apply valid_spec in E as (b & Hb & Hw). pose proof (good_bounds s b Hg Hb). destruct Hg as (_ & Hby & _). unfold within in Hw.
  change (2 ^ 63) with 9223372036854775808 in *. change (2 ^ 64) with 18446744073709551616. specialize (Hby a). lia.
Qed.

Lemma set_endptr_ok : forall s nd nptr endptr l, good s -> string_at (view s) nptr l -> 0 <= nd -> (endptr = 0 \/ accessible s endptr 8) ->
  forall k, (length l < k)%nat ->
  if endptr =? 0 then set_endptr k nd nptr endptr s = Ret s
  else if nd <=? len l then exists s', set_endptr k nd nptr endptr s = Ret s' /\ only_bytes s s' endptr 8 /\ holds s' endptr (nptr + nd)
  else set_endptr k nd nptr endptr s = Blocked.
Proof.
  intros s nd nptr endptr l Hg Hs Hnd Hacc k Hk. unfold set_endptr. destruct (endptr =? 0) eqn:E0; [reflexivity|]. cbn [negb].
  pose proof (string_bound l (view s) nptr (view_is_mem s Hg) Hs) as Hbd.
  assert (Hl : strlen k (view s) nptr = Ret (len l)).
  { unfold strlen. rewrite (strlen_ok l); [reflexivity|now rewrite Z.add_0_r|lia|lia|lia]. }
  rewrite Hl. cbn [bind]. destruct (nd <=? len l); [|reflexivity].
  destruct Hacc as [->|Hacc]; [discriminate|]. apply store_ptr_ok, Hacc.
Qed.

(** ** Scanning *)
Lemma skip_le : forall f l, (skip f l <= length l)%nat.
Proof. induction l as [|c l IH]; cbn; [lia|destruct (f c); lia]. Qed.
Lemma scan_le : forall base l k v, parse_number base l = (k, v) -> (k <= length l)%nat.
Proof.
  intros base l k v H. unfold parse_number in H. pose proof (skip_le space l) as H1.
  set (w := skip space l) in *. destruct (signs (skipn w l)) as [g sg] eqn:Eg.
  destruct (radix base (skipn g (skipn w l))) as [x b] eqn:Ex.
  pose proof (skip_le (fun c => digit c <? b) (skipn x (skipn g (skipn w l)))) as H4.
  set (d := skip (fun c => digit c <? b) (skipn x (skipn g (skipn w l)))) in *.
  clearbody d w.
  destruct (d =? 0)%nat eqn:E; [injection H as <- _; lia|]. apply Nat.eqb_neq in E. injection H as <- _.
  rewrite !skipn_length in H4.
  assert (Hg : (g <= length (skipn w l))%nat).
  { unfold signs in Eg. destruct (skipn w l) as [|c r]; [injection Eg as <- _; cbn; lia|]. cbn.
    destruct (c =? 45); [injection Eg as <- _; lia|]. destruct (c =? 43); injection Eg as <- _; lia. }
  rewrite skipn_length in Hg.
  assert (Hx : (x <= length (skipn g (skipn w l)))%nat).
  { unfold radix in Ex. destruct (((base =? 0) || (base =? 16)) && prefixed (skipn g (skipn w l))) eqn:Ep.
    - injection Ex as <- _. apply andb_true_iff in Ep as [_ Ep]. destruct (skipn g (skipn w l)) as [|? [|? ?]]; cbn in *; try discriminate; lia.
    - destruct (base =? 0); injection Ex as <- _; lia. }
  rewrite !skipn_length in Hx. lia.
Qed.
Lemma strtol_range : forall base l k v, c_strtol base l = (k, v) -> (k <= length l)%nat /\ - 2 ^ 63 <= v <= 2 ^ 63 - 1.
Proof.
  intros base l k v H. unfold c_strtol in H. destruct (parse_number base l) as [k' v'] eqn:E. injection H as <- <-.
  split; [eapply scan_le; eassumption|]. change (2 ^ 63) with 9223372036854775808. lia.
Qed.
Lemma strtoul_range : forall base l k v, c_strtoul base l = (k, v) -> (k <= length l)%nat /\ 0 <= v <= 2 ^ 64 - 1.
Proof.
  intros base l k v H. unfold c_strtoul in H. destruct (parse_number base l) as [k' v'] eqn:E. injection H as <- <-.
  split; [eapply scan_le; eassumption|]. pose proof (Z.mod_pos_bound v' (2 ^ 64) eq_refl) as Hm. change (2 ^ 64) with 18446744073709551616 in *. change (Z.pow_pos 2 64) with 18446744073709551616.
  match goal with |- context [if ?c then _ else _] => destruct c end; lia.
Qed.
