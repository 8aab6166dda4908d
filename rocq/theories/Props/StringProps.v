(** C39: the string functions. *)
From Coq Require Import ZArith List Bool Lia.
From Verif.Spec Require Import CString.
From Verif.Model Require Import StringLib.
Import ListNotations.
Open Scope list_scope.
Open Scope Z_scope.

(** The function returns this with every sufficiently large bound on its steps. *)
Definition returns {A} (f : nat -> res A) (P : A -> Prop) : Prop := exists k0 v, P v /\ forall k, (k0 <= k)%nat -> f k = Ret v.

Lemma len_nonneg : forall l, 0 <= len l.
Proof. intros l. unfold len. lia. Qed.
Lemma len_cons : forall c l, len (c :: l) = len l + 1.
Proof. intros c l. unfold len. cbn [length]. lia. Qed.
Lemma len_app : forall a b, len (a ++ b) = len a + len b.
Proof. intros a b. unfold len. rewrite app_length. lia. Qed.
Lemma ld_some : forall m p v, m p = Some v -> ld m p = Ret v.
Proof. intros m p v H. unfold ld. now rewrite H. Qed.
Lemma string_zero : forall l m p, string_at m p l -> m (p + len l) = Some 0.
Proof. induction l as [|c l IH]; intros m p H; [cbn in *; now rewrite Z.add_0_r|]. destruct H as (_ & _ & H). rewrite len_cons. replace (p + (len l + 1)) with (p + 1 + len l) by lia. auto. Qed.
Lemma string_mem : forall l m p, string_at m p l -> forall a, p <= a <= p + len l -> m a <> None.
Proof.
  induction l as [|c l IH]; intros m p H a Ha; [cbn in *; replace a with p by lia; congruence|]. rewrite len_cons in Ha. destruct H as (_ & H & H2).
  destruct (Z.eq_dec a p) as [->|N]; [congruence|]. apply (IH m (p + 1)); auto. lia.
Qed.
Lemma string_bound : forall l m p, is_mem m -> string_at m p l -> 0 < p /\ p + len l < 2 ^ 64.
Proof.
  intros l m p Hm H. pose proof (string_zero l m p H) as Hz. apply Hm in Hz. destruct l as [|c l]; [apply Hm in H; cbn in *; lia|]. destruct H as (_ & H & _). apply Hm in H. lia.
Qed.
Lemma string_bytes : forall l m p, is_mem m -> string_at m p l -> Forall (fun c => 0 < c < 256) l.
Proof. induction l as [|c l IH]; intros m p Hm H; constructor; destruct H as (H & H1 & H2); [apply Hm in H1; lia|]. eauto. Qed.
Lemma upd_same : forall m a v, upd m a v a = Some v.
Proof. intros. unfold upd. now rewrite Z.eqb_refl. Qed.
Lemma upd_other : forall m a v b, b <> a -> upd m a v b = m b.
Proof. intros m a v b H. unfold upd. apply Z.eqb_neq in H. now rewrite H. Qed.
Lemma string_upd : forall l m p a v, string_at m p l -> ~ p <= a <= p + len l -> string_at (upd m a v) p l.
Proof.
  induction l as [|c l IH]; intros m p a v H Ha; cbn [string_at] in *; [rewrite upd_other; [exact H|unfold len in Ha; cbn in Ha; lia]|]. rewrite len_cons in Ha. pose proof (len_nonneg l).
  destruct H as (H & H1 & H2). repeat split; auto; [rewrite upd_other; [exact H1|lia]|]. apply IH; auto. lia.
Qed.
Lemma string_ext : forall l m m' p, string_at m p l -> (forall a, p <= a <= p + len l -> m' a = m a) -> string_at m' p l.
Proof.
  induction l as [|c l IH]; intros m m' p H He; cbn [string_at] in *; [rewrite He; [exact H|unfold len; cbn; lia]|]. rewrite len_cons in He. pose proof (len_nonneg l).
  destruct H as (H & H1 & H2). repeat split; auto; [rewrite He; [exact H1|lia]|]. apply (IH m); auto. intros. apply He. lia.
Qed.
Lemma size_small : forall z, 0 <= z < 2 ^ 64 -> size_t z = z.
Proof. intros z H. apply Z.mod_small. exact H. Qed.
Lemma alloc_upd : forall m p n a v, allocated m p n -> allocated (upd m a v) p n.
Proof. intros m p n a v H b Hb. unfold upd. destruct (b =? a); [discriminate|auto]. Qed.
Lemma alloc_sub : forall m p n q k, allocated m p n -> p <= q -> q + k <= p + n -> allocated m q k.
Proof. intros m p n q k H H1 H2 a Ha. apply H. lia. Qed.
Lemma st_some : forall m p n a v, allocated m p n -> p <= a < p + n -> st m a v = Ret (upd m a v).
Proof. intros m p n a v H Ha. unfold st. specialize (H a Ha). now destruct (m a). Qed.
Lemma written_nil : forall m p, written m m p [].
Proof. intros m p. split; [exact I|auto]. Qed.
Lemma bytes_ext : forall l m m' p, bytes_at m p l -> (forall a, p <= a < p + len l -> m' a = m a) -> bytes_at m' p l.
Proof.
  induction l as [|c l IH]; intros m m' p H He; [exact I|]. rewrite len_cons in He. pose proof (len_nonneg l). destruct H as (H & H2). split; [rewrite He; [exact H|lia]|]. apply (IH m); auto. intros. apply He. lia.
Qed.
Lemma written_cons : forall m m' p c l, written (upd m p c) m' (p + 1) l -> written m m' p (c :: l).
Proof.
  intros m m' p c l (H1 & H2). pose proof (len_nonneg l). split; [split; [rewrite H2 by lia; apply upd_same|exact H1]|]. intros a Ha. rewrite len_cons in Ha. rewrite H2 by lia. apply upd_other. lia.
Qed.
Lemma bytes_app : forall a b m p, bytes_at m p a -> bytes_at m (p + len a) b -> bytes_at m p (a ++ b).
Proof.
  induction a as [|c a IH]; intros b m p H H2; [cbn in *; now rewrite Z.add_0_r in H2|]. destruct H as (H & H1). split; [exact H|]. apply IH; [exact H1|]. rewrite len_cons in H2. now replace (p + 1 + len a) with (p + (len a + 1)) by lia.
Qed.
Lemma written_app : forall m m1 m2 p a b, written m m1 p a -> written m1 m2 (p + len a) b -> written m m2 p (a ++ b).
Proof.
  intros m m1 m2 p a b (H1 & H2) (H3 & H4). pose proof (len_nonneg a). pose proof (len_nonneg b). split.
  - apply bytes_app; [|exact H3]. apply (bytes_ext a m1); auto. intros. apply H4. lia.
  - intros x Hx. rewrite len_app in Hx. rewrite H4 by lia. apply H2. lia.
Qed.
Lemma written_alloc : forall m m' p l q n, written m m' p l -> allocated m q n -> allocated m' q n.
Proof.
  intros m m' p l q n (H1 & H2) H a Ha. destruct (Z_lt_dec a p); [rewrite H2 by lia; auto|]. destruct (Z_lt_dec a (p + len l)); [|rewrite H2 by lia; auto].
  clear H2 H. revert p H1 n0 l0. induction l as [|c l IH]; intros p H1 Hp Hl; [cbn in *; unfold len in Hl; cbn in Hl; lia|]. rewrite len_cons in Hl. destruct H1 as (H & H1).
  destruct (Z.eq_dec a p) as [->|N]; [congruence|]. apply (IH (p + 1)); auto; lia.
Qed.

Lemma string_nz : forall l m p, string_at m p l -> Forall (fun c => c <> 0) l.
Proof. induction l as [|c l IH]; intros m p H; constructor; destruct H as (? & ? & H2); eauto. Qed.
Lemma bytes_string : forall l m p, Forall (fun c => c <> 0) l -> bytes_at m p (l ++ [0]) -> string_at m p l.
Proof. induction l as [|c l IH]; intros m p HF H; cbn in *; [tauto|]. inversion_clear HF. destruct H as (HA & HB). auto. Qed.
Lemma string_to_bytes : forall l m p, string_at m p l -> bytes_at m p (l ++ [0]).
Proof. induction l as [|c l IH]; intros m p H; cbn in *; [tauto|]. destruct H as (? & ? & H2). auto. Qed.
Lemma bytes_app_inv : forall a b m p, bytes_at m p (a ++ b) -> bytes_at m p a /\ bytes_at m (p + len a) b.
Proof.
  induction a as [|c a IH]; intros b m p H; [cbn in *; now rewrite Z.add_0_r|]. destruct H as (H & H1). apply IH in H1 as (H1 & H2). rewrite len_cons. replace (p + (len a + 1)) with (p + 1 + len a) by lia. repeat split; auto.
Qed.
Lemma string_app : forall l1 l2 m p, Forall (fun c => c <> 0) l1 -> bytes_at m p l1 -> string_at m (p + len l1) l2 -> string_at m p (l1 ++ l2).
Proof.
  induction l1 as [|c l1 IH]; intros l2 m p HF H1 H2; [cbn in *; now rewrite Z.add_0_r in H2|]. inversion_clear HF. destruct H1 as (HA & HB). rewrite len_cons in H2. repeat split; auto. apply IH; auto. now replace (p + 1 + len l1) with (p + (len l1 + 1)) by lia.
Qed.

(** strlen *)
Lemma strlen_ok : forall l k m str count, string_at m (str + count) l -> 0 <= count -> count + len l < 2 ^ 64 -> (length l < k)%nat ->
  strlen_loop k m str count = Ret (count + len l).
Proof.
  induction l as [|c l IH]; intros k m str count H Hc Hb Hk; (destruct k as [|k]; [cbn in Hk; lia|]); cbn [strlen_loop].
  - cbn in H. rewrite (ld_some _ _ _ H). cbn. now rewrite Z.add_0_r.
  - destruct H as (H0 & H1 & H2). rewrite (ld_some _ _ _ H1). cbn [bind]. apply Z.eqb_neq in H0. rewrite H0, len_cons in *. pose proof (len_nonneg l). rewrite size_small by lia.
    rewrite IH; [f_equal; lia| |lia|lia|cbn in Hk; lia]. now replace (str + (count + 1)) with (str + count + 1) by lia.
Qed.
Theorem C39_strlen : forall m p l, is_mem m -> string_at m p l -> returns (fun k => strlen k m p) (fun r => r = len l).
Proof.
  intros m p l Hm H. exists (S (length l)), (len l). split; [reflexivity|]. intros k Hk. unfold strlen. pose proof (string_bound l m p Hm H). rewrite (strlen_ok l); [reflexivity|now rewrite Z.add_0_r|lia|lia|lia].
Qed.
Print Assumptions C39_strlen.

(** strcpy, strcat *)
Lemma copy_ok : forall l m d s, string_at m s l -> allocated m d (len l + 1) -> apart d (len l + 1) s (len l + 1) ->
  exists m', written m m' d (l ++ [0]) /\ forall k, (length l < k)%nat -> copy_loop k m d s = Ret m'.
Proof.
  induction l as [|c l IH]; intros m d s H Ha Hp.
  - cbn [string_at] in H. exists (upd m d 0). split; [apply written_cons, written_nil|]. intros [|k] Hk; [cbn in Hk; lia|]. cbn [copy_loop]. rewrite (ld_some _ _ _ H). cbn [bind].
    rewrite (st_some m d 1) by (try exact Ha; lia). reflexivity.
  - destruct H as (H0 & H1 & H2). rewrite len_cons in *. pose proof (len_nonneg l). apply Z.eqb_neq in H0.
    destruct (IH (upd m d c) (d + 1) (s + 1)) as (m' & W & E).
    + apply string_upd; auto. unfold apart in Hp. lia.
    + apply alloc_upd. apply (alloc_sub m d (len l + 1 + 1)); auto; lia.
    + unfold apart in *. lia.
    + exists m'. split; [now apply written_cons|]. intros [|k] Hk; [lia|]. cbn [copy_loop]. rewrite (ld_some _ _ _ H1). cbn [bind]. rewrite (st_some m d (len l + 1 + 1)) by (auto; lia). cbn [bind]. rewrite H0. apply E. cbn in Hk. lia.
Qed.
Theorem C39_strcpy : forall m d s l, string_at m s l -> allocated m d (len l + 1) -> apart d (len l + 1) s (len l + 1) ->
  returns (fun k => strcpy k m d s) (fun '(r, m') => r = d /\ written m m' d (l ++ [0])).
Proof.
  intros m d s l H Ha Hp. destruct (copy_ok l m d s H Ha Hp) as (m' & W & E). exists (S (length l)), (d, m'). split; [auto|]. intros k Hk. unfold strcpy. now rewrite E by lia.
Qed.
Print Assumptions C39_strcpy.

Lemma end_ok : forall l m d k, string_at m d l -> (length l < k)%nat -> end_loop k m d = Ret (d + len l).
Proof.
  induction l as [|c l IH]; intros m d [|k] H Hk; try (cbn in Hk; lia); cbn [end_loop].
  - cbn [string_at] in H. rewrite (ld_some _ _ _ H). cbn. now rewrite Z.add_0_r.
  - destruct H as (H0 & H1 & H2). rewrite (ld_some _ _ _ H1). cbn [bind]. apply Z.eqb_neq in H0. rewrite H0. rewrite IH; [f_equal; rewrite len_cons; lia|exact H2|cbn in Hk; lia].
Qed.
Theorem C39_strcat : forall m d s l1 l2, string_at m d l1 -> string_at m s l2 -> allocated m d (len l1 + len l2 + 1) ->
  apart d (len l1 + len l2 + 1) s (len l2 + 1) ->
  returns (fun k => strcat k m d s) (fun '(r, m') => r = d /\ written m m' (d + len l1) (l2 ++ [0]) /\ string_at m' d (l1 ++ l2)).
Proof.
  intros m d s l1 l2 H1 H2 Ha Hp. pose proof (len_nonneg l1). pose proof (len_nonneg l2).
  destruct (copy_ok l2 m (d + len l1) s H2) as (m' & W & E); [apply (alloc_sub m d (len l1 + len l2 + 1)); auto; lia|unfold apart in *; lia|].
  exists (S (length l1 + length l2)), (d, m'). split.
  - split; [reflexivity|]. split; [exact W|]. destruct W as (W1 & W2). apply string_app; [eapply string_nz; eauto| |apply bytes_string; [eapply string_nz; eauto|exact W1]].
    apply string_to_bytes, bytes_app_inv in H1 as (H1 & _). apply (bytes_ext l1 m); auto. intros a Hx. apply W2. lia.
  - intros k Hk. unfold strcat. rewrite (end_ok l1) by (auto; lia). cbn [bind]. now rewrite E by lia.
Qed.
Print Assumptions C39_strcat.

(** strncpy *)
Lemma strncpy_1_ok : forall l m d s n i, string_at m (s + i) l -> 0 <= i <= n -> n < 2 ^ 64 -> allocated m d n -> apart (d + i) (n - i) (s + i) (len l + 1) ->
  let c := firstn (Z.to_nat (n - i)) l in
  exists m', written m m' (d + i) c /\ forall k, (length l < k)%nat -> strncpy_1 k m d s n i = Ret (i + len c, m').
Proof.
  induction l as [|c l IH]; intros m d s n i H Hi Hn Ha Hp.
  - cbn zeta. rewrite firstn_nil. exists m. split; [apply written_nil|]. intros [|k] Hk; [lia|]. cbn [strncpy_1]. cbn [string_at] in H. unfold len; cbn [length]. change (Z.of_nat 0) with 0. rewrite Z.add_0_r.
    destruct (i <? n); [|reflexivity]. rewrite (ld_some _ _ _ H). reflexivity.
  - cbn zeta. destruct (Z.eq_dec i n) as [->|N].
    + rewrite Z.sub_diag. cbn [Z.to_nat firstn]. exists m. split; [apply written_nil|]. intros [|k] Hk; [lia|]. cbn [strncpy_1]. rewrite Z.ltb_irrefl. unfold len. cbn. now rewrite Z.add_0_r.
    + destruct H as (H0 & H1 & H2). replace (Z.to_nat (n - i)) with (S (Z.to_nat (n - (i + 1)))) by lia. cbn [firstn]. rewrite len_cons in Hp. pose proof (len_nonneg l).
      destruct (IH (upd m (d + i) c) d s n (i + 1)) as (m' & W & E); [| |lia|now apply alloc_upd|unfold apart in *; lia|].
      * replace (s + (i + 1)) with (s + i + 1) by lia. apply string_upd; auto. unfold apart in Hp. lia.
      * lia.
      * exists m'. split; [apply written_cons; now replace (d + i + 1) with (d + (i + 1)) by lia|]. intros [|k] Hk; [lia|]. cbn [strncpy_1]. replace (i <? n) with true by (symmetry; apply Z.ltb_lt; lia).
        rewrite (ld_some _ _ _ H1). cbn [bind]. apply Z.eqb_neq in H0. rewrite H0. cbn [negb]. rewrite (st_some m d n) by (auto; lia). cbn [bind]. rewrite size_small by lia. rewrite E by (cbn in Hk; lia). rewrite len_cons. f_equal. f_equal. lia.
Qed.
Lemma strncpy_2_ok : forall j m d n i, n - i = Z.of_nat j -> 0 <= i -> n < 2 ^ 64 -> allocated m d n ->
  exists m', written m m' (d + i) (repeat 0 j) /\ forall k, (j < k)%nat -> strncpy_2 k m d n i = Ret m'.
Proof.
  induction j as [|j IH]; intros m d n i Hj Hi Hn Ha.
  - exists m. split; [apply written_nil|]. intros [|k] Hk; [lia|]. cbn [strncpy_2]. replace (i <? n) with false by (symmetry; apply Z.ltb_ge; lia). reflexivity.
  - destruct (IH (upd m (d + i) 0) d n (i + 1)) as (m' & W & E); [lia|lia|lia|now apply alloc_upd|]. exists m'. split; [cbn [repeat]; apply written_cons; now replace (d + i + 1) with (d + (i + 1)) by lia|].
    intros [|k] Hk; [lia|]. cbn [strncpy_2]. replace (i <? n) with true by (symmetry; apply Z.ltb_lt; lia). rewrite (st_some m d n) by (auto; lia). cbn [bind]. rewrite size_small by lia. apply E. lia.
Qed.
Theorem C39_strncpy : forall m d s l n, string_at m s l -> 0 <= n < 2 ^ 64 -> allocated m d n -> apart d n s (len l + 1) ->
  returns (fun k => strncpy k m d s n) (fun '(r, m') => r = d /\
    written m m' d (firstn (Z.to_nat n) l ++ repeat 0 (Z.to_nat n - length l))).
Proof.
  intros m d s l n H Hn Ha Hp. destruct (strncpy_1_ok l m d s n 0) as (m1 & W1 & E1); [now rewrite Z.add_0_r|lia|lia|auto|now rewrite !Z.add_0_r, Z.sub_0_r|]. cbv zeta in *. rewrite Z.sub_0_r, Z.add_0_r, Z.add_0_l in *.
  set (c := firstn (Z.to_nat n) l) in *. assert (len c = Z.min n (len l)) as Hc by (unfold c, len; rewrite firstn_length; lia).
  destruct (strncpy_2_ok (Z.to_nat n - length l) m1 d n (len c)) as (m2 & W2 & E2); [unfold len in *; lia|unfold len; lia|lia|eapply written_alloc; eauto|].
  exists (S (length l + Z.to_nat n)), (d, m2). split; [split; [reflexivity|]; eapply written_app; eauto|]. intros k Hk. unfold strncpy. rewrite E1 by lia. cbn [bind fst snd]. now rewrite E2 by lia.
Qed.
Print Assumptions C39_strncpy.

(** strncat *)
Lemma strncat_ok : forall l r m d s, bytes_at m s l -> allocated m d (len l) -> apart d (len l) s (len l) -> len l + r < 2 ^ 64 -> r = 0 ->
  exists m', written m m' d l /\ forall k, (length l < k)%nat -> strncat_loop k m d s (len l) = Ret (d + len l, m').
Proof.
  intros l r m d s H Ha Hp Hb ->. revert m d s H Ha Hp Hb. induction l as [|c l IH]; intros m d s H Ha Hp Hb.
  - exists m. split; [apply written_nil|]. intros [|k] Hk; [lia|]. cbn. now rewrite Z.add_0_r.
  - destruct H as (H & H1). rewrite len_cons in *. pose proof (len_nonneg l). destruct (IH (upd m d c) (d + 1) (s + 1)) as (m' & W & E).
    + apply (bytes_ext l m); auto. intros a Hx. apply upd_other. unfold apart in Hp. lia.
    + apply alloc_upd, (alloc_sub m d (len l + 1)); auto; lia.
    + unfold apart in *. lia.
    + lia.
    + exists m'. split; [now apply written_cons|]. intros [|k] Hk; [lia|]. cbn [strncat_loop]. replace (len l + 1 =? 0) with false by (symmetry; apply Z.eqb_neq; lia). rewrite (ld_some _ _ _ H). cbn [bind].
      rewrite (st_some m d (len l + 1)) by (auto; lia). cbn [bind]. rewrite size_small by lia. replace (len l + 1 - 1) with (len l) by lia. rewrite E by (cbn in Hk; lia). f_equal. f_equal. lia.
Qed.
(** As long as the string appended has at least [n] characters. *)
Theorem C39_strncat : forall m d s l1 l2 n, is_mem m -> string_at m d l1 -> string_at m s l2 -> 0 <= n <= len l2 ->
  allocated m d (len l1 + n + 1) -> apart d (len l1 + n + 1) s (len l2 + 1) ->
  returns (fun k => strncat k m d s n) (fun '(r, m') => r = d /\ written m m' (d + len l1) (firstn (Z.to_nat n) l2 ++ [0])).
Proof.
  intros m d s l1 l2 n Hm H1 H2 Hn Ha Hp. set (c := firstn (Z.to_nat n) l2) in *. assert (len c = n) as Hc by (unfold c, len in *; rewrite firstn_length; lia). pose proof (len_nonneg l1). pose proof (string_bound _ _ _ Hm H2).
  assert (bytes_at m s c) as HB. { apply string_to_bytes, bytes_app_inv in H2 as (H2 & _). rewrite <- (firstn_skipn (Z.to_nat n) l2) in H2. now apply bytes_app_inv in H2 as (H2 & _). }
  destruct (strncat_ok c 0 m (d + len l1) s HB) as (m1 & W & E); [rewrite Hc; apply (alloc_sub m d (len l1 + n + 1)); auto; lia|rewrite Hc; unfold apart in *; lia|lia|reflexivity|]. rewrite Hc in *.
  exists (S (length l1 + length c)), (d, upd m1 (d + len l1 + n) 0). split.
  - split; [reflexivity|]. eapply written_app; [exact W|]. rewrite Hc. apply written_cons, written_nil.
  - intros k Hk. unfold strncat. rewrite (end_ok l1) by (auto; lia). cbn [bind]. rewrite E by lia. cbn [bind fst snd]. rewrite (st_some m1 d (len l1 + n + 1)); [reflexivity|eapply written_alloc; eauto|lia].
Qed.
Print Assumptions C39_strncat.

(** With a shorter string the zero is copied and the copying goes on behind it. *)
Definition abc : mem := fun a => if a =? 1 then Some 97 else if a =? 2 then Some 0 else if a =? 3 then Some 99 else if a =? 4 then Some 0
  else if a =? 11 then Some 0 else if (12 <=? a) && (a <? 20) then Some 120 else None.
Theorem C39_strncat_refuted : is_mem abc /\ string_at abc 11 [] /\ string_at abc 1 [97] /\
  exists m', (forall k, (9 <= k)%nat -> strncat k abc 11 1 3 = Ret (11, m')) /\ m' 13 = Some 99 /\ abc 13 = Some 120.
Proof.
  split; [intros a v H; unfold abc in H; repeat match type of H with context [if ?b then _ else _] => destruct b eqn:? end; try discriminate; injection H as <-; lia|].
  split; [reflexivity|]. split; [cbn; repeat split; discriminate|]. eexists. split; [|split; [|reflexivity]].
  - intros k Hk. do 9 (destruct k as [|k]; [lia|]). reflexivity.
  - reflexivity.
Qed.
Print Assumptions C39_strncat_refuted.

(** *** Comparison *)
Lemma order_eq : forall a b, order a b = Eq <-> a = b.
Proof.
  induction a as [|x a IH]; intros [|y b]; cbn; split; intros H; try discriminate; try reflexivity.
  - destruct (x ?= y) eqn:E; try discriminate. apply Z.compare_eq in E. apply IH in H. congruence.
  - injection H as -> ->. rewrite Z.compare_refl. now apply IH.
Qed.
Lemma schar_small : forall x, 0 <= x < 128 -> schar x = x.
Proof. intros x H. unfold schar. replace (x <? 128) with true by (symmetry; apply Z.ltb_lt; lia). reflexivity. Qed.
Lemma schar_inj : forall x y, 0 <= x < 256 -> 0 <= y < 256 -> schar x = schar y -> x = y.
Proof. intros x y Hx Hy. unfold schar. destruct (Z.ltb_spec x 128), (Z.ltb_spec y 128); lia. Qed.

(** memcmp: for every memory contents. *)
Lemma memcmp_ok : forall l1 l2 m nd s1 s2 k, bytes_at m s1 l1 -> bytes_at m s2 l2 -> length l1 = length l2 -> len l1 < 2 ^ 64 -> (length l1 < k)%nat ->
  memcmp k m nd s1 s2 (len l1) = match order l1 l2 with Eq => Ret 0 | Lt => if nd <? 0 then Ret nd else Blocked | Gt => if 0 <? nd then Ret nd else Blocked end.
Proof.
  induction l1 as [|x l1 IH]; intros [|y l2] m nd s1 s2 k H1 H2 Hl Hb Hk; try discriminate; (destruct k as [|k]; [lia|]); cbn [memcmp]; [reflexivity|].
  rewrite len_cons in *. pose proof (len_nonneg l1). replace (len l1 + 1 =? 0) with false by (symmetry; apply Z.eqb_neq; lia). destruct H1 as (A1 & H1). destruct H2 as (A2 & H2).
  rewrite (ld_some _ _ _ A1), (ld_some _ _ _ A2). cbn [bind order]. destruct (Z.compare_spec x y) as [->|L|L].
  - rewrite Z.eqb_refl. cbn [negb]. rewrite size_small by lia. replace (len l1 + 1 - 1) with (len l1) by lia. apply IH; auto; cbn in Hl, Hk; lia.
  - replace (x =? y) with false by (symmetry; apply Z.eqb_neq; lia). replace (x <? y) with true by (symmetry; apply Z.ltb_lt; lia). reflexivity.
  - replace (x =? y) with false by (symmetry; apply Z.eqb_neq; lia). replace (x <? y) with false by (symmetry; apply Z.ltb_ge; lia). reflexivity.
Qed.
(** Every run returns a number of the right sign or is blocked, and every number of
    the right sign can be returned. *)
Theorem C39_memcmp : forall m s1 s2 l1 l2, bytes_at m s1 l1 -> bytes_at m s2 l2 -> length l1 = length l2 -> len l1 < 2 ^ 64 ->
  forall r, has_sign r (order l1 l2) <-> exists nd k0, forall k, (k0 <= k)%nat -> memcmp k m nd s1 s2 (len l1) = Ret r.
Proof.
  intros m s1 s2 l1 l2 H1 H2 Hl Hb r. split.
  - intros Hs. exists r, (S (length l1)). intros k Hk. rewrite (memcmp_ok l1 l2) by (auto; lia). destruct (order l1 l2); cbn in Hs; [now subst| |].
    + apply Z.ltb_lt in Hs. now rewrite Hs.
    + apply Z.ltb_lt in Hs. now rewrite Hs.
  - intros (nd & k0 & E). specialize (E (Nat.max k0 (S (length l1))) ltac:(lia)). rewrite (memcmp_ok l1 l2) in E by (auto; lia). destruct (order l1 l2); cbn.
    + congruence.
    + destruct (Z.ltb_spec nd 0); [|discriminate]. congruence.
    + destruct (Z.ltb_spec 0 nd); [|discriminate]. congruence.
Qed.
Print Assumptions C39_memcmp.

Definition ascii7 (l : list Z) : Prop := Forall (fun c => 0 < c < 128) l.
Lemma strcmp_ok : forall l1 l2 m s1 s2 n, is_mem m -> string_at m (s1 + n) l1 -> string_at m (s2 + n) l2 -> 0 <= n -> 0 < s1 ->
  exists r, (r = 0 <-> l1 = l2) /\ (ascii7 l1 -> ascii7 l2 -> has_sign r (order l1 l2)) /\ forall k, (length l1 < k)%nat -> strcmp_loop k m s1 s2 n = Ret r.
Proof.
  induction l1 as [|x l1 IH]; intros l2 m s1 s2 n Hm H1 H2 Hn Hs; destruct l2 as [|y l2]; cbn [string_at] in H1, H2.
  - exists 0. split; [tauto|]. split; [reflexivity|]. intros [|k] Hk; [lia|]. cbn [strcmp_loop]. rewrite (ld_some _ _ _ H1), (ld_some _ _ _ H2). reflexivity.
  - destruct H2 as (B & B1 & B2). assert (0 <= y < 256) as Hy by (now apply Hm in B1). exists (schar 0 - schar y). assert (schar y <> schar 0) as Ny by (intros E; apply schar_inj in E; lia).
    split; [split; [lia|discriminate]|]. split.
    + intros _ A. inversion_clear A. rewrite !schar_small by lia. cbn. lia.
    + intros [|k] Hk; [lia|]. cbn [strcmp_loop]. rewrite (ld_some _ _ _ H1), (ld_some _ _ _ B1). cbn [bind]. replace (schar 0 =? schar y) with false by (symmetry; apply Z.eqb_neq; lia). reflexivity.
  - destruct H1 as (B & B1 & B2). assert (0 <= x < 256) as Hx by (now apply Hm in B1). exists (schar x - schar 0). assert (schar x <> schar 0) as Nx by (intros E; apply schar_inj in E; lia).
    split; [split; [lia|discriminate]|]. split.
    + intros A _. inversion_clear A. rewrite !schar_small by lia. cbn. lia.
    + intros [|k] Hk; [lia|]. cbn [strcmp_loop]. rewrite (ld_some _ _ _ H2), (ld_some _ _ _ B1). cbn [bind]. replace (schar x =? schar 0) with false by (symmetry; apply Z.eqb_neq; lia). reflexivity.
  - destruct H1 as (A & A1 & A2), H2 as (B & B1 & B2). assert (0 <= x < 256) as Hx by (now apply Hm in A1). assert (0 <= y < 256) as Hy by (now apply Hm in B1). destruct (Z.eq_dec x y) as [->|N].
    + destruct (IH l2 m s1 s2 (n + 1)) as (r & R1 & R2 & E); auto; [now replace (s1 + (n + 1)) with (s1 + n + 1) by lia|now replace (s2 + (n + 1)) with (s2 + n + 1) by lia|lia|].
      exists r. split; [rewrite R1; split; congruence|]. split.
      * intros F1 F2. inversion_clear F1. inversion_clear F2. cbn. rewrite Z.compare_refl. auto.
      * intros [|k] Hk; [lia|]. cbn [strcmp_loop]. rewrite (ld_some _ _ _ A1), (ld_some _ _ _ B1). cbn [bind]. rewrite Z.eqb_refl. assert (schar y <> 0) as Ny by (intros X; apply A; apply schar_inj; [lia|lia|exact X]).
        apply Z.eqb_neq in Ny. rewrite Ny. apply Hm in A1. rewrite size_small by lia. apply E. cbn in Hk. lia.
    + exists (schar x - schar y). assert (schar x <> schar y) as Nx by (intros E; apply schar_inj in E; lia). split; [split; [lia|congruence]|]. split.
      * intros F1 F2. inversion_clear F1. inversion_clear F2. rewrite !schar_small by lia. cbn. destruct (Z.compare_spec x y); cbn; lia.
      * intros [|k] Hk; [lia|]. cbn [strcmp_loop]. rewrite (ld_some _ _ _ A1), (ld_some _ _ _ B1). cbn [bind]. replace (schar x =? schar y) with false by (symmetry; apply Z.eqb_neq; lia). reflexivity.
Qed.
Theorem C39_strcmp : forall m s1 s2 l1 l2, is_mem m -> string_at m s1 l1 -> string_at m s2 l2 ->
  returns (fun k => strcmp k m s1 s2) (fun r => (r = 0 <-> l1 = l2) /\ (ascii7 l1 -> ascii7 l2 -> has_sign r (order l1 l2))).
Proof.
  intros m s1 s2 l1 l2 Hm H1 H2. pose proof (string_bound _ _ _ Hm H1). destruct (strcmp_ok l1 l2 m s1 s2 0) as (r & R1 & R2 & E); rewrite ?Z.add_0_r; auto; [lia|lia|]. exists (S (length l1)), r. split; [auto|]. intros k Hk. apply E. lia.
Qed.
Print Assumptions C39_strcmp.
Definition cafe : mem := fun a => if a =? 1 then Some 233 else if a =? 2 then Some 0 else if a =? 3 then Some 97 else if a =? 4 then Some 0 else None.
Theorem C39_strcmp_refuted : is_mem cafe /\ string_at cafe 1 [233] /\ string_at cafe 3 [97] /\ order [233] [97] = Gt /\ exists r, r < 0 /\ forall k, (1 <= k)%nat -> strcmp k cafe 1 3 = Ret r.
Proof.
  split; [intros a v H; unfold cafe in H; repeat match type of H with context [if ?b then _ else _] => destruct b eqn:? end; try discriminate; injection H as <-; lia|].
  split; [cbn; repeat split; discriminate|]. split; [cbn; repeat split; discriminate|]. split; [reflexivity|]. exists (-120). split; [reflexivity|]. intros [|k] Hk; [lia|]. reflexivity.
Qed.
Print Assumptions C39_strcmp_refuted.

Lemma strncmp_ok : forall l1 l2 m s1 s2 n, is_mem m -> string_at m s1 l1 -> string_at m s2 l2 -> 0 <= n < 2 ^ 64 -> n <= len l1 + 1 \/ l1 <> l2 ->
  exists r, (r = 0 <-> firstn (Z.to_nat n) l1 = firstn (Z.to_nat n) l2) /\ (ascii7 l1 -> ascii7 l2 -> has_sign r (order (firstn (Z.to_nat n) l1) (firstn (Z.to_nat n) l2))) /\
  forall k, (length l1 + 1 < k)%nat -> strncmp k m s1 s2 n = Ret r.
Proof.
  induction l1 as [|x l1 IH]; intros l2 m s1 s2 n Hm H1 H2 Hn Hc; (destruct (Z.eq_dec n 0) as [->|N0]; [exists 0; cbn; split; [tauto|split; [reflexivity|]]; intros [|k] Hk; [lia|reflexivity]|]);
  replace (Z.to_nat n) with (S (Z.to_nat (n - 1))) by lia; destruct l2 as [|y l2]; cbn [string_at] in H1, H2; cbn [firstn].
  - exists 0. split; [tauto|]. split; [reflexivity|]. intros [|[|k]] Hk; [cbn in Hk; lia|cbn in Hk; lia|]. destruct Hc as [Hc|Hc]; [|congruence]. assert (n = 1) as -> by (unfold len in Hc; cbn in Hc; lia).
    cbn [strncmp]. rewrite (ld_some _ _ _ H1), (ld_some _ _ _ H2). reflexivity.
  - destruct H2 as (B & B1 & B2). assert (0 <= y < 256) as Hy by (now apply Hm in B1). exists (schar 0 - schar y). assert (schar y <> schar 0) as Ny by (intros E; apply schar_inj in E; lia).
    split; [split; [lia|discriminate]|]. split.
    + intros _ A. inversion_clear A. rewrite !schar_small by lia. cbn. lia.
    + intros [|k] Hk; [lia|]. cbn [strncmp]. apply Z.eqb_neq in N0. rewrite N0, (ld_some _ _ _ H1), (ld_some _ _ _ B1). cbn [bind]. replace (schar 0 =? schar y) with false by (symmetry; apply Z.eqb_neq; lia). reflexivity.
  - destruct H1 as (B & B1 & B2). assert (0 <= x < 256) as Hx by (now apply Hm in B1). exists (schar x - schar 0). assert (schar x <> schar 0) as Nx by (intros E; apply schar_inj in E; lia).
    split; [split; [lia|discriminate]|]. split.
    + intros A _. inversion_clear A. rewrite !schar_small by lia. cbn. lia.
    + intros [|k] Hk; [lia|]. cbn [strncmp]. apply Z.eqb_neq in N0. rewrite N0, (ld_some _ _ _ H2), (ld_some _ _ _ B1). cbn [bind]. replace (schar x =? schar 0) with false by (symmetry; apply Z.eqb_neq; lia). reflexivity.
  - destruct H1 as (A & A1 & A2), H2 as (B & B1 & B2). assert (0 <= x < 256) as Hx by (now apply Hm in A1). assert (0 <= y < 256) as Hy by (now apply Hm in B1). destruct (Z.eq_dec x y) as [->|N].
    + destruct (IH l2 m (s1 + 1) (s2 + 1) (n - 1)) as (r & R1 & R2 & E); auto; [lia|rewrite len_cons in Hc; destruct Hc as [Hc|Hc]; [left; lia|right; congruence]|].
      exists r. split; [rewrite R1; split; congruence|]. split.
      * intros F1 F2. inversion_clear F1. inversion_clear F2. cbn. rewrite Z.compare_refl. auto.
      * intros [|k] Hk; [lia|]. cbn [strncmp]. apply Z.eqb_neq in N0. rewrite N0, (ld_some _ _ _ A1), (ld_some _ _ _ B1). cbn [bind]. rewrite Z.eqb_refl. cbn [negb]. rewrite size_small by lia. apply E. cbn in Hk. lia.
    + exists (schar x - schar y). assert (schar x <> schar y) as Nx by (intros E; apply schar_inj in E; lia). split; [split; [lia|congruence]|]. split.
      * intros F1 F2. inversion_clear F1. inversion_clear F2. rewrite !schar_small by lia. cbn. destruct (Z.compare_spec x y); cbn; lia.
      * intros [|k] Hk; [lia|]. cbn [strncmp]. apply Z.eqb_neq in N0. rewrite N0, (ld_some _ _ _ A1), (ld_some _ _ _ B1). cbn [bind]. replace (schar x =? schar y) with false by (symmetry; apply Z.eqb_neq; lia). reflexivity.
Qed.
(** If the strings differ or the bound does not go beyond them. *)
Theorem C39_strncmp : forall m s1 s2 l1 l2 n, is_mem m -> string_at m s1 l1 -> string_at m s2 l2 -> 0 <= n < 2 ^ 64 -> n <= len l1 + 1 \/ l1 <> l2 ->
  returns (fun k => strncmp k m s1 s2 n) (fun r =>
    (r = 0 <-> firstn (Z.to_nat n) l1 = firstn (Z.to_nat n) l2) /\ (ascii7 l1 -> ascii7 l2 -> has_sign r (order (firstn (Z.to_nat n) l1) (firstn (Z.to_nat n) l2)))).
Proof.
  intros m s1 s2 l1 l2 n Hm H1 H2 Hn Hc. destruct (strncmp_ok l1 l2 m s1 s2 n) as (r & R1 & R2 & E); auto. exists (S (S (length l1))), r. split; [auto|]. intros k Hk. apply E. lia.
Qed.
Print Assumptions C39_strncmp.
(** Otherwise the bytes behind the strings are compared too. *)
Definition twice : mem := fun a => if (a =? 1) || (a =? 4) then Some 97 else if (a =? 2) || (a =? 5) then Some 0 else if a =? 3 then Some 98 else if a =? 6 then Some 99 else None.
Theorem C39_strncmp_refuted : is_mem twice /\ string_at twice 1 [97] /\ string_at twice 4 [97] /\ exists r, r <> 0 /\ forall k, (3 <= k)%nat -> strncmp k twice 1 4 3 = Ret r.
Proof.
  split; [intros a v H; unfold twice in H; repeat match type of H with context [if ?b then _ else _] => destruct b eqn:? end; try discriminate; injection H as <-; lia|].
  split; [cbn; repeat split; discriminate|]. split; [cbn; repeat split; discriminate|]. exists (-1). split; [discriminate|]. intros k Hk. do 3 (destruct k as [|k]; [lia|]). reflexivity.
Qed.
Print Assumptions C39_strncmp_refuted.

(** *** Searching *)

(** A place in the string, or the null pointer. *)
Definition found_at (p : Z) (l : list Z) (at_ : list Z -> (Z -> Prop) -> nat -> Prop) (P : Z -> Prop) (r : Z) : Prop :=
  (exists i, at_ l P i /\ r = p + Z.of_nat i) \/ (nowhere l P /\ r = 0).

Lemma first_here : forall c l (P : Z -> Prop), P c -> first_at (c :: l) P 0.
Proof. intros c l P H. split; [exists c; auto|]. intros j d Hj. lia. Qed.
Lemma first_later : forall c l (P : Z -> Prop) i, ~ P c -> first_at l P i -> first_at (c :: l) P (S i).
Proof. intros c l P i H (H1 & H2). split; [exact H1|]. intros [|j] d Hj E; [injection E as <-; exact H|]. apply (H2 j d); [lia|exact E]. Qed.
Lemma found_cons : forall p c l (P : Z -> Prop) r, ~ P c -> found_at (p + 1) l first_at P r -> found_at p (c :: l) first_at P r.
Proof.
  intros p c l P r H [(i & F & ->)|(F & ->)]; [left; exists (S i); split; [now apply first_later|lia]|]. right. split; [|reflexivity]. intros d [<-|Hd]; auto.
Qed.

Lemma schar_mod : forall x c, 0 <= x < 256 -> -128 <= c < 128 -> (schar x = c <-> x = c mod 256).
Proof.
  intros x c Hx Hc. unfold schar. destruct (Z_lt_dec c 0).
  - assert (c mod 256 = c + 256) as ->. { symmetry. apply Z.mod_unique with (q := -1); lia. } destruct (Z.ltb_spec x 128); lia.
  - rewrite Z.mod_small by lia. destruct (Z.ltb_spec x 128); lia.
Qed.

(** A character: 7.24.5.2 converts the int to char. *)
Definition is_char (c x : Z) : Prop := x = c mod 256.

Theorem C39_strchr : forall l m p c, is_mem m -> string_at m p l -> -128 <= c < 128 -> c <> 0 ->
  returns (fun k => strchr k m p c) (found_at p l first_at (is_char c)).
Proof.
  intros l m p c Hm H Hc H0. assert (exists r, found_at p l first_at (is_char c) r /\ forall k, (length l < k)%nat -> strchr k m p c = Ret r) as (r & F & E); [|exists (S (length l)), r; split; [exact F|intros k Hk; apply E; lia]].
  revert p H. induction l as [|x l IH]; intros p H; cbn [string_at] in H.
  - exists 0. split; [right; split; [intros d []|reflexivity]|]. intros [|k] Hk; [lia|]. cbn [strchr]. rewrite (ld_some _ _ _ H). reflexivity.
  - destruct H as (N & H1 & H2). assert (0 <= x < 256) as Hx by (now apply Hm in H1). apply Z.eqb_neq in N. destruct (Z.eq_dec (schar x) c) as [E|E].
    + exists p. split; [left; exists 0%nat; split; [apply first_here; now apply schar_mod|lia]|]. intros [|k] Hk; [lia|]. cbn [strchr]. rewrite (ld_some _ _ _ H1). cbn [bind]. rewrite N. apply Z.eqb_eq in E. now rewrite E.
    + destruct (IH (p + 1) H2) as (r & F & R). exists r. split; [apply found_cons; auto; intros X; apply E; now apply schar_mod|]. intros [|k] Hk; [lia|]. cbn [strchr]. rewrite (ld_some _ _ _ H1). cbn [bind]. rewrite N. apply Z.eqb_neq in E. rewrite E. apply R. cbn in Hk. lia.
Qed.
Print Assumptions C39_strchr.

Theorem C39_strrchr : forall l m p c, is_mem m -> string_at m p l -> -128 <= c < 128 -> c <> 0 ->
  returns (fun k => strrchr k m p c) (found_at p l last_at (is_char c)).
Proof.
  intros l m p c Hm H Hc H0.
  assert (forall l p r0, string_at m p l -> exists r, ((exists i, last_at l (is_char c) i /\ r = p + Z.of_nat i) \/ (nowhere l (is_char c) /\ r = r0)) /\ forall k, (length l < k)%nat -> strrchr_loop k m p c r0 = Ret r) as HL.
  { clear p H. induction l0 as [|x l0 IH]; intros p r0 H; cbn [string_at] in H.
    - exists r0. split; [right; split; [intros d []|reflexivity]|]. intros [|k] Hk; [lia|]. cbn [strrchr_loop]. rewrite (ld_some _ _ _ H). reflexivity.
    - destruct H as (N & H1 & H2). assert (0 <= x < 256) as Hx by (now apply Hm in H1). apply Z.eqb_neq in N.
      destruct (IH (p + 1) (if schar x =? c then p else r0) H2) as (r & F & R). exists r. split.
      + destruct F as [(i & (F1 & F2) & ->)|(F & ->)].
        * left. exists (S i). split; [split; [exact F1|]|lia]. intros [|j] d Hj E; [lia|]. apply (F2 j d); [lia|exact E].
        * destruct (Z.eqb_spec (schar x) c) as [E|E].
          -- left. exists 0%nat. split; [split; [exists x; split; [reflexivity|now apply schar_mod]|]|lia]. intros [|j] d Hj Ej; [lia|]. apply F. eapply nth_error_In. exact Ej.
          -- right. split; [|reflexivity]. intros d [<-|Hd]; [intros X; apply E; now apply schar_mod|auto].
      + intros [|k] Hk; [lia|]. cbn [strrchr_loop]. rewrite (ld_some _ _ _ H1). cbn [bind]. rewrite N. apply R. cbn in Hk. lia. }
  destruct (HL l p 0 H) as (r & F & R). exists (S (length l)), r. split; [exact F|]. intros k Hk. apply R. lia.
Qed.
Print Assumptions C39_strrchr.

(** The terminating zero belongs to the string, but is not found. *)
Theorem C39_strchr_refuted : is_mem cafe /\ string_at cafe 3 [97] /\
  (forall k, (2 <= k)%nat -> strchr k cafe 3 0 = Ret 0 /\ strrchr k cafe 3 0 = Ret 0) /\ first_at ([97] ++ [0]) (is_char 0) 1 /\
  string_at cafe 1 [233] /\ (forall k, (2 <= k)%nat -> strchr k cafe 1 233 = Ret 0) /\ first_at [233] (is_char 233) 0.
Proof.
  split; [apply C39_strcmp_refuted|]. split; [cbn; repeat split; discriminate|]. split; [intros [|[|k]] Hk; [lia|lia|split; reflexivity]|].
  split; [apply first_later; [discriminate|]; apply first_here; reflexivity|]. split; [cbn; repeat split; discriminate|]. split; [intros [|[|k]] Hk; [lia|lia|reflexivity]|]. apply first_here. reflexivity.
Qed.
Print Assumptions C39_strchr_refuted.

Lemma scan_ok : forall l m x q k, string_at m q l -> x <> 0 -> (length l < k)%nat ->
  exists p y, scan k m x q = Ret p /\ ld m p = Ret y /\ (y = 0 <-> ~ In x l).
Proof.
  induction l as [|c l IH]; intros m x q [|k] H Hx Hk; try (cbn in Hk; lia); cbn [scan string_at] in *.
  - rewrite (ld_some _ _ _ H). cbn. exists q, 0. rewrite (ld_some _ _ _ H). cbn. tauto.
  - destruct H as (N & H1 & H2). rewrite (ld_some _ _ _ H1). cbn [bind]. apply Z.eqb_neq in N. rewrite N. cbn [negb andb]. destruct (Z.eqb_spec c x) as [->|Nx]; cbn [negb].
    + exists q, x. rewrite (ld_some _ _ _ H1). cbn. tauto.
    + destruct (IH m x (q + 1) k H2 Hx ltac:(cbn in Hk; lia)) as (p & y & E1 & E2 & E3). exists p, y. repeat split; auto; [intros Hy [X|X]; [congruence|]; now apply E3 in X|]. intros Hy. apply E3. intros X. apply Hy. now right.
Qed.
Lemma span_ok : forall (neg : bool) l1 l2 m s1 s2 n, is_mem m -> string_at m s1 l1 -> string_at m s2 l2 -> 0 <= n -> n + len l1 < 2 ^ 64 ->
  exists j, span l1 (fun c => if neg then In c l2 else ~ In c l2) j /\ forall k, (length l1 + length l2 < k)%nat -> span_loop neg k m s1 s2 n = Ret (n + Z.of_nat j).
Proof.
  induction l1 as [|x l1 IH]; intros l2 m s1 s2 n Hm H1 H2 Hn Hb; cbn [string_at] in H1.
  - exists 0%nat. split; [split; [constructor|now left]|]. intros [|k] Hk; [lia|]. cbn [span_loop]. rewrite (ld_some _ _ _ H1). cbn. now rewrite Z.add_0_r.
  - destruct H1 as (N & A1 & A2). rewrite len_cons in Hb. pose proof (len_nonneg l1). assert (Bool.eqb (if in_dec Z.eq_dec x l2 then false else true) neg = true \/ Bool.eqb (if in_dec Z.eq_dec x l2 then false else true) neg = false) as HD by (destruct (Bool.eqb _ _); auto).
    assert (forall k p y, (length l2 < k)%nat -> scan k m x s2 = Ret p -> ld m p = Ret y -> (y =? 0) = (if in_dec Z.eq_dec x l2 then false else true)) as HY.
    { intros k p y Hk Ep Ey. destruct (scan_ok l2 m x s2 k H2 N Hk) as (p' & y' & E1 & E2 & E3). rewrite Ep in E1. injection E1 as <-. rewrite Ey in E2. injection E2 as <-. destruct (in_dec Z.eq_dec x l2); [apply Z.eqb_neq; tauto|apply Z.eqb_eq; tauto]. }
    assert (forall k, (length (x :: l1) + length l2 < S k)%nat -> span_loop neg (S k) m s1 s2 n = if Bool.eqb (if in_dec Z.eq_dec x l2 then false else true) neg then Ret n else span_loop neg k m (s1 + 1) s2 (size_t (n + 1))) as HS.
    { intros k Hk. cbn [span_loop]. rewrite (ld_some _ _ _ A1). cbn [bind]. apply Z.eqb_neq in N as N'. rewrite N'. destruct (scan_ok l2 m x s2 (S k) H2 N ltac:(lia)) as (p & y & E1 & E2 & E3). cbn [length] in Hk.
      rewrite E1. cbn [bind]. rewrite E2. cbn [bind]. now rewrite (HY (S k) p y) by (auto; lia). }
    destruct HD as [HD|HD].
    + exists 0%nat. split; [split; [constructor|]|].
      * right. exists x. split; [reflexivity|]. apply Bool.eqb_prop in HD. destruct (in_dec Z.eq_dec x l2); subst neg; tauto.
      * intros [|k] Hk; [lia|]. rewrite HS by lia. rewrite HD, Z.add_0_r. reflexivity.
    + destruct (IH l2 m (s1 + 1) s2 (n + 1)) as (j & (J1 & J2) & E); auto; [lia|lia|]. exists (S j). split; [split|].
      * cbn [firstn]. constructor; [|exact J1]. destruct (in_dec Z.eq_dec x l2), neg; cbn in HD; auto; discriminate.
      * cbn [length nth_error]. destruct J2 as [->|J2]; auto.
      * intros [|k] Hk; [lia|]. rewrite HS by lia. rewrite HD, size_small by lia. rewrite E by (cbn in Hk; lia). f_equal. lia.
Qed.
Theorem C39_strspn : forall m s1 s2 l1 l2, is_mem m -> string_at m s1 l1 -> string_at m s2 l2 ->
  returns (fun k => strspn k m s1 s2) (fun r => exists n, span l1 (fun c => In c l2) n /\ r = Z.of_nat n).
Proof.
  intros m s1 s2 l1 l2 Hm H1 H2. pose proof (string_bound _ _ _ Hm H1). destruct (span_ok true l1 l2 m s1 s2 0) as (j & J & E); auto; [lia|lia|]. exists (S (length l1 + length l2)), (Z.of_nat j). split; [eauto|]. intros k Hk. apply E. lia.
Qed.
Print Assumptions C39_strspn.
Theorem C39_strcspn : forall m s1 s2 l1 l2, is_mem m -> string_at m s1 l1 -> string_at m s2 l2 ->
  returns (fun k => strcspn k m s1 s2) (fun r => exists n, span l1 (fun c => ~ In c l2) n /\ r = Z.of_nat n).
Proof.
  intros m s1 s2 l1 l2 Hm H1 H2. pose proof (string_bound _ _ _ Hm H1). destruct (span_ok false l1 l2 m s1 s2 0) as (j & J & E); auto; [lia|lia|]. exists (S (length l1 + length l2)), (Z.of_nat j). split; [eauto|]. intros k Hk. apply E. lia.
Qed.
Print Assumptions C39_strcspn.

Lemma pbrk_inner_ok : forall l m x q k, string_at m q l -> (length l < k)%nat -> pbrk_inner k m x q = Ret (if in_dec Z.eq_dec x l then true else false).
Proof.
  induction l as [|c l IH]; intros m x q [|k] H Hk; try (cbn in Hk; lia); cbn [pbrk_inner string_at] in *.
  - rewrite (ld_some _ _ _ H). reflexivity.
  - destruct H as (N & H1 & H2). rewrite (ld_some _ _ _ H1). cbn [bind]. apply Z.eqb_neq in N. rewrite N. destruct (Z.eqb_spec x c) as [->|Nx].
    + destruct (in_dec Z.eq_dec c (c :: l)) as [i|n]; [reflexivity|exfalso; apply n; now left].
    + rewrite IH by (auto; cbn in Hk; lia). f_equal. destruct (in_dec Z.eq_dec x l) as [i|n], (in_dec Z.eq_dec x (c :: l)) as [i2|n2]; auto; exfalso; [apply n2; now right|]. destruct i2 as [->|i2]; auto.
Qed.
Lemma strpbrk_ok : forall l1 l2 m s1 s2, string_at m s1 l1 -> string_at m s2 l2 ->
  exists r, found_at s1 l1 first_at (fun c => In c l2) r /\ forall k, (length l1 + length l2 < k)%nat -> strpbrk k m s1 s2 = Ret r.
Proof.
  induction l1 as [|x l1 IH]; intros l2 m s1 s2 H1 H2; cbn [string_at] in H1.
  - exists 0. split; [right; split; [intros d []|reflexivity]|]. intros [|k] Hk; [lia|]. cbn [strpbrk]. rewrite (ld_some _ _ _ H1). reflexivity.
  - destruct H1 as (N & A1 & A2). apply Z.eqb_neq in N. assert (forall k, (length (x :: l1) + length l2 < S k)%nat -> strpbrk (S k) m s1 s2 = if in_dec Z.eq_dec x l2 then Ret s1 else strpbrk k m (s1 + 1) s2) as HS.
    { intros k Hk. cbn [strpbrk]. rewrite (ld_some _ _ _ A1). cbn [bind]. rewrite N, (pbrk_inner_ok l2) by (auto; lia). cbn [bind]. now destruct (in_dec Z.eq_dec x l2). }
    destruct (in_dec Z.eq_dec x l2) as [i|n].
    + exists s1. split; [left; exists 0%nat; split; [now apply first_here|lia]|]. intros [|k] Hk; [lia|]. apply HS. lia.
    + destruct (IH l2 m (s1 + 1) s2 A2 H2) as (r & F & E). exists r. split; [now apply found_cons|]. intros [|k] Hk; [lia|]. rewrite HS by lia. apply E. cbn in Hk. lia.
Qed.
Theorem C39_strpbrk : forall m s1 s2 l1 l2, string_at m s1 l1 -> string_at m s2 l2 ->
  returns (fun k => strpbrk k m s1 s2) (found_at s1 l1 first_at (fun c => In c l2)).
Proof.
  intros m s1 s2 l1 l2 H1 H2. destruct (strpbrk_ok l1 l2 m s1 s2 H1 H2) as (r & F & E). exists (S (length l1 + length l2)), r. split; [exact F|]. intros k Hk. apply E. lia.
Qed.
Print Assumptions C39_strpbrk.

Lemma prefix_cons : forall x a y b, prefix (x :: a) (y :: b) <-> x = y /\ prefix a b.
Proof. intros x a y b. split; [intros (r & E); injection E as -> ->; split; [reflexivity|now exists r]|]. intros (-> & r & ->). now exists r. Qed.
Lemma str_inner_ok : forall hs ns m h n, string_at m h hs -> string_at m n ns ->
  exists n' y, ld m n' = Ret y /\ (y = 0 <-> prefix ns hs) /\ forall k, (length hs < k)%nat -> str_inner k m h n = Ret n'.
Proof.
  induction hs as [|x hs IH]; intros ns m h n H1 H2; cbn [string_at] in H1.
  - assert (exists y, ld m n = Ret y /\ (y = 0 <-> prefix ns [])) as (y & Ey & Py).
    { destruct ns as [|c ns]; cbn [string_at] in H2; [exists 0; split; [now apply ld_some|split; [intros _; now exists []|reflexivity]]|]. destruct H2 as (N & H2 & _). exists c. split; [now apply ld_some|]. split; [tauto|]. intros (r & E). discriminate. }
    exists n, y. repeat split; auto; try apply Py. intros [|k] Hk; [lia|]. cbn [str_inner]. rewrite (ld_some _ _ _ H1). reflexivity.
  - destruct H1 as (N & A1 & A2). apply Z.eqb_neq in N as N'. destruct ns as [|c ns]; cbn [string_at] in H2.
    + exists n, 0. split; [now apply ld_some|]. split; [split; [intros _; now exists (x :: hs)|reflexivity]|]. intros [|k] Hk; [lia|]. cbn [str_inner]. rewrite (ld_some _ _ _ A1). cbn [bind]. rewrite N', (ld_some _ _ _ H2). reflexivity.
    + destruct H2 as (M & B1 & B2). apply Z.eqb_neq in M as M'. destruct (Z.eq_dec x c) as [->|D].
      * destruct (IH ns m (h + 1) (n + 1) A2 B2) as (n' & y & E1 & E2 & E3). exists n', y. split; [exact E1|]. split; [rewrite E2, prefix_cons; tauto|]. intros [|k] Hk; [lia|]. cbn [str_inner].
        rewrite (ld_some _ _ _ A1). cbn [bind]. rewrite N', (ld_some _ _ _ B1). cbn [bind]. rewrite N', Z.eqb_refl. cbn [negb andb]. apply E3. cbn in Hk. lia.
      * exists n, c. split; [now apply ld_some|]. split; [split; [tauto|intros P; apply prefix_cons in P; destruct P; congruence]|]. intros [|k] Hk; [lia|]. cbn [str_inner].
        rewrite (ld_some _ _ _ A1). cbn [bind]. rewrite N', (ld_some _ _ _ B1). cbn [bind]. rewrite M'. apply Z.eqb_neq in D. now rewrite D.
Qed.
(** strstr, unless both strings are empty. *)
Theorem C39_strstr : forall m h n hs ns, string_at m h hs -> string_at m n ns -> hs <> [] \/ ns <> [] ->
  returns (fun k => strstr k m h n) (fun r => (exists i, first_sub hs ns i /\ r = h + Z.of_nat i) \/ (no_sub hs ns /\ r = 0)).
Proof.
  intros m h n hs ns H1 H2 Hne. enough (exists r, ((exists i, first_sub hs ns i /\ r = h + Z.of_nat i) \/ (no_sub hs ns /\ r = 0)) /\ forall k, (length hs < k)%nat -> strstr k m h n = Ret r) as (r & R & E).
  { exists (S (length hs)), r. split; [exact R|]. intros k Hk. apply E. lia. }
  revert h H1 Hne. induction hs as [|x hs IH]; intros h H1 Hne; cbn [string_at] in H1.
  - destruct Hne as [Hne|Hne]; [congruence|]. exists 0. split.
    + right. split; [|reflexivity]. intros i Hi (r & E). rewrite skipn_nil in E. destruct ns; [congruence|discriminate].
    + intros [|k] Hk; [lia|]. cbn [strstr]. rewrite (ld_some _ _ _ H1). reflexivity.
  - destruct H1 as (N & A1 & A2). apply Z.eqb_neq in N as N'. destruct (str_inner_ok (x :: hs) ns m h n) as (n' & y & E1 & E2 & E3); [cbn; auto|exact H2|].
    assert (forall k, (length (x :: hs) < S k)%nat -> strstr (S k) m h n = if y =? 0 then Ret h else strstr k m (h + 1) n) as HS.
    { intros k Hk. cbn [strstr]. rewrite (ld_some _ _ _ A1). cbn [bind]. rewrite N', E3 by lia. cbn [bind]. rewrite E1. reflexivity. }
    destruct (Z.eqb_spec y 0) as [Y|Y].
    + exists h. split; [left; exists 0%nat; split; [|lia]|]; [split; [lia|]; split; [now apply E2|intros j Hj; lia]|]. intros [|k] Hk; [lia|]. apply HS. lia.
    + assert (ns <> []) as Hns by (intros ->; apply Y, E2; now exists (x :: hs)). destruct (IH (h + 1) A2 (or_intror Hns)) as (r & R & E). exists r. split.
      * destruct R as [(i & (I1 & I2 & I3) & ->)|(R & ->)].
        -- left. exists (S i). split; [|lia]. split; [cbn; lia|]. split; [exact I2|]. intros [|j] Hj; [cbn; intros P; now apply E2 in P|]. cbn. apply I3. lia.
        -- right. split; [|reflexivity]. intros [|i] Hi; [cbn; intros P; now apply E2 in P|]. cbn. apply R. cbn in Hi. lia.
      * intros [|k] Hk; [lia|]. rewrite HS by lia. apply E. cbn in Hk. lia.
Qed.
Print Assumptions C39_strstr.
Theorem C39_strstr_refuted : exists m p, string_at m p [] /\ first_sub [] [] 0 /\ forall k, (1 <= k)%nat -> strstr k m p p = Ret 0.
Proof.
  exists cafe, 2. split; [reflexivity|]. split; [split; [cbn; lia|]; split; [now exists []|intros j Hj; lia]|]. intros [|k] Hk; [lia|]. reflexivity.
Qed.
Print Assumptions C39_strstr_refuted.

(** *** strtok *)
Lemma span_unique : forall P l n n', span l P n -> span l P n' -> (n <= length l)%nat -> (n' <= length l)%nat -> n = n'.
Proof.
  intros P. assert (forall l n n', span l P n -> span l P n' -> (n <= length l)%nat -> (n' <= length l)%nat -> (n <= n')%nat) as H; [|intros; apply Nat.le_antisymm; eapply H; eauto].
  intros l n n' (H1 & _) (_ & H2) Hn Hn'. destruct H2 as [->|(c & E & N)]; [exact Hn|]. destruct (Nat.le_gt_cases n n') as [L|L]; [exact L|]. exfalso. apply N. rewrite Forall_forall in H1. apply H1.
  apply nth_error_In with n'. rewrite <- E. clear - L Hn. revert n' L l Hn. induction n as [|n IH]; intros n' L [|x l] Hn; cbn in *; try lia. destruct n'; [reflexivity|]. cbn. apply IH; lia.
Qed.
Lemma span_le : forall P l n, span l P n -> (n <= length l)%nat.
Proof. intros P l n (_ & [->|(c & E & _)]); [lia|]. apply Nat.lt_le_incl. apply nth_error_Some. congruence. Qed.
Lemma span_split : forall (P : Z -> Prop) a b, Forall P a -> (b = [] \/ exists c b', b = c :: b' /\ ~ P c) -> span (a ++ b) P (length a).
Proof.
  intros P a b Ha Hb. split; [rewrite firstn_app, Nat.sub_diag, firstn_O, app_nil_r, firstn_all; exact Ha|]. destruct Hb as [->|(c & b' & -> & N)]; [left; now rewrite app_nil_r|]. right. exists c. split; [|exact N]. rewrite nth_error_app2, Nat.sub_diag by lia. reflexivity.
Qed.
Lemma string_split : forall a b m p, string_at m p (a ++ b) -> string_at m (p + len a) b.
Proof. induction a as [|c a IH]; intros b m p H; [cbn in *; now rewrite Z.add_0_r|]. destruct H as (_ & _ & H). rewrite len_cons. replace (p + (len a + 1)) with (p + 1 + len a) by lia. auto. Qed.

(** A call that finds a token: delimiters, the token, and the rest, which is empty or
    starts with a delimiter. *)
Theorem C39_strtok : forall m olds str delim d A T R, is_mem m -> let q := if str =? 0 then olds else str in
  string_at m q (A ++ T ++ R) -> string_at m delim d ->
  Forall (fun c => In c d) A -> T <> [] -> Forall (fun c => ~ In c d) T -> (R = [] \/ exists c R', R = c :: R' /\ In c d) ->
  returns (fun k => strtok k m olds str delim) (fun '(tok, olds', m') => tok = q + len A /\
    match R with
    | [] => olds' = 0 /\ m' = m
    | _ :: R' => olds' = q + len A + len T + 1 /\ written m m' (q + len A + len T) [0] /\ string_at m' tok T /\ string_at m' olds' R'
    end).
Proof.
  intros m olds str delim d A T R Hm q H Hd HA HT0 HT HR. pose proof (string_bound _ _ _ Hm H) as Hq. pose proof (string_split A (T ++ R) m q H) as HTR.
  destruct (span_ok true (A ++ T ++ R) d m q delim 0) as (j & J & E); auto; [lia|lia|].
  assert (j = length A) as ->.
  { eapply span_unique; [exact J| |eapply span_le; exact J|rewrite app_length; lia]. apply span_split; auto. right. destruct T as [|c T]; [congruence|]. inversion_clear HT. exists c, (T ++ R). auto. }
  destruct (strpbrk_ok (T ++ R) d m (q + len A) delim HTR Hd) as (s & F & Es).
  destruct T as [|t T]; [congruence|]. assert (m (q + len A) = Some t /\ t <> 0) as (Ht & Nt) by (cbn in HTR; tauto).
  assert (forall k, (length (A ++ (t :: T) ++ R) + length d < k)%nat -> strtok k m olds str delim = if s =? 0 then Ret (q + len A, 0, m) else (m' <- st m s 0 ;; Ret (q + len A, s + 1, m'))) as HS.
  { intros k Hk. unfold strtok. fold q. replace (q =? 0) with false by (symmetry; apply Z.eqb_neq; lia). unfold strspn. rewrite E by exact Hk. cbn [bind]. rewrite Z.add_0_l. fold (len A). rewrite (ld_some _ _ _ Ht). cbn [bind].
    apply Z.eqb_neq in Nt. rewrite Nt, Es by (rewrite app_length in Hk; lia). reflexivity. }
  destruct HR as [->|(c & R' & -> & Hc)].
  - assert (s = 0) as ->.
    { destruct F as [(i & ((c & Ec & Pc) & _) & _)|(_ & ->)]; [|reflexivity]. exfalso. rewrite app_nil_r in Ec. apply nth_error_In in Ec. rewrite Forall_forall in HT. now apply (HT c). }
    exists (S (length (A ++ (t :: T) ++ []) + length d)), (q + len A, 0, m). split; [auto|]. intros k Hk. rewrite HS by lia. reflexivity.
  - assert (s = q + len A + len (t :: T)) as Hs.
    { destruct F as [(i & ((x & Ex & Px) & Fx) & ->)|(F & _)].
      - assert (i = length (t :: T)) as ->; [|unfold len; lia]. destruct (Nat.lt_trichotomy i (length (t :: T))) as [L|[L|L]]; [|exact L|].
        + exfalso. rewrite nth_error_app1 in Ex by exact L. apply nth_error_In in Ex. rewrite Forall_forall in HT. now apply (HT x).
        + exfalso. apply (Fx (length (t :: T)) c L); [|exact Hc]. rewrite nth_error_app2, Nat.sub_diag by lia. reflexivity.
      - exfalso. apply (F c); [|exact Hc]. apply in_or_app. right. now left. }
    pose proof (string_split _ _ _ _ HTR) as HcR. destruct HcR as (Nc & Mc & HR'). pose proof (len_nonneg A). pose proof (len_nonneg (t :: T)).
    exists (S (length (A ++ (t :: T) ++ c :: R') + length d)), (q + len A, s + 1, upd m s 0). subst s. split.
    + split; [reflexivity|]. split; [reflexivity|]. split; [apply written_cons, written_nil|]. split.
      * apply bytes_string; [apply string_nz in HTR; now apply Forall_app in HTR as (HTR & _)|]. apply string_to_bytes in HTR. rewrite <- app_assoc in HTR. apply bytes_app_inv in HTR as (HTR & _).
        apply bytes_app; [apply (bytes_ext (t :: T) m); auto; intros a Ha; apply upd_other; lia|]. split; [apply upd_same|exact I].
      * pose proof (len_nonneg R'). apply string_upd; [exact HR'|lia].
    + intros k Hk. rewrite HS by lia. replace (q + len A + len (t :: T) =? 0) with false by (symmetry; apply Z.eqb_neq; lia). unfold st. rewrite Mc. reflexivity.
Qed.
Print Assumptions C39_strtok.

(** No more tokens: the null pointer. *)
Theorem C39_strtok_end : forall m olds str delim d A, is_mem m -> let q := if str =? 0 then olds else str in
  (q = 0 \/ string_at m q A) -> string_at m delim d -> Forall (fun c => In c d) A ->
  returns (fun k => strtok k m olds str delim) (fun '(tok, _, m') => tok = 0 /\ m' = m).
Proof.
  intros m olds str delim d A Hm q Hq Hd HA. destruct (Z.eq_dec q 0) as [E0|N0].
  - exists 0%nat, (0, olds, m). split; [auto|]. intros k _. unfold strtok. fold q. now rewrite E0.
  - destruct Hq as [Hq|Hq]; [congruence|]. pose proof (string_bound _ _ _ Hm Hq) as Hb. destruct (span_ok true A d m q delim 0) as (j & J & E); auto; [lia|lia|].
    assert (j = length A) as ->. { eapply span_unique; [exact J| |eapply span_le; exact J|lia]. rewrite <- (app_nil_r A) at 1. apply span_split; auto. }
    exists (S (length A + length d)), (0, olds, m). split; [auto|]. intros k Hk. unfold strtok. fold q. apply Z.eqb_neq in N0. rewrite N0. unfold strspn. rewrite E by lia. cbn [bind]. rewrite Z.add_0_l. fold (len A).
    pose proof (string_zero _ _ _ Hq) as Hz. rewrite (ld_some _ _ _ Hz). reflexivity.
Qed.
Print Assumptions C39_strtok_end.

(** But the position of an earlier string is kept: after a call with an empty string
    the next one goes on in the earlier string, instead of returning NULL. *)
Definition tokens : mem := fun a => if a =? 1 then Some 97 else if a =? 2 then Some 32 else if a =? 3 then Some 98 else if a =? 4 then Some 0 else if a =? 5 then Some 32 else if a =? 6 then Some 0 else None.
Theorem C39_strtok_refuted : string_at tokens 1 [97; 32; 98] /\ string_at tokens 5 [32] /\ string_at tokens 4 [] /\
  exists olds1 m1 olds2 m2, (forall k, (6 <= k)%nat ->
    strtok k tokens 0 1 5 = Ret (1, olds1, m1) /\ strtok k m1 olds1 4 5 = Ret (0, olds2, m2) /\ exists o m', strtok k m2 olds2 0 5 = Ret (3, o, m')).
Proof.
  split; [cbn; repeat split; discriminate|]. split; [cbn; repeat split; discriminate|]. split; [reflexivity|]. do 4 eexists. intros k Hk. do 6 (destruct k as [|k]; [lia|]). split; [reflexivity|]. split; [reflexivity|]. eexists. eexists. reflexivity.
Qed.
Print Assumptions C39_strtok_refuted.

Example C39_nonvacuous :
  is_mem tokens /\ string_at tokens 1 ([] ++ [97] ++ [32; 98]) /\ string_at tokens 5 [32] /\ Forall (fun c => ~ In c [32]) [97] /\
  strlen 5 tokens 1 = Ret 3 /\ strcspn 5 tokens 1 5 = Ret 1 /\ strpbrk 6 tokens 1 5 = Ret 2 /\ strstr 5 tokens 1 3 = Ret 3 /\ strrchr 5 tokens 1 98 = Ret 3 /\
  allocated tokens 1 2 /\ apart 1 2 5 2 /\ memcmp 4 tokens 7 1 3 2 = Blocked.
Proof.
  split; [intros a v H; unfold tokens in H; repeat match type of H with context [if ?b then _ else _] => destruct b eqn:? end; try discriminate; injection H as <-; lia|].
  split; [cbn; repeat split; discriminate|]. split; [cbn; repeat split; discriminate|]. split; [repeat constructor; cbn; lia|]. repeat (split; [reflexivity|]). split; [|split; [unfold apart; lia|reflexivity]].
  intros a Ha. assert (a = 1 \/ a = 2) as [-> | ->] by lia; discriminate.
Qed.
