(** C33: the names of values. *)
From Coq Require Import List Bool String Ascii Arith Lia DecimalString DecimalNat NArith.
From Verif.Spec Require Import Identifiers.
From Verif.Model Require Import Naming.
Import ListNotations.
Open Scope string_scope.
Open Scope list_scope.
Infix "+++" := String.append (at level 60, right associativity).

(** ** Characters and strings *)
Definition ascii_all (P : ascii -> bool) : bool := forallb (fun n => P (ascii_of_nat n)) (seq 0 256).
Lemma ascii_forall : forall P, ascii_all P = true -> forall c, P c = true.
Proof.
  intros P H c. unfold ascii_all in H. rewrite forallb_forall in H. rewrite <- (ascii_nat_embedding c). apply H. apply in_seq. pose proof (nat_ascii_bounded c). lia.
Qed.
Lemma escape_spec : forall c, escape_char c = (if dot c then "." else if under c then "_" else c)%char.
Proof.
  intros c. enough (Ascii.eqb (escape_char c) (if dot c then "." else if under c then "_" else c)%char = true) as H by (now apply Ascii.eqb_eq).
  apply (ascii_forall (fun c => Ascii.eqb (escape_char c) (if dot c then "." else if under c then "_" else c)%char)). vm_compute. reflexivity.
Qed.
Lemma dot_under : forall c, dot c = true -> under c = true -> False.
Proof.
  intros c H1 H2. enough (negb (dot c && under c) = true) as X by (rewrite H1, H2 in X; discriminate).
  apply (ascii_forall (fun c => negb (dot c && under c))). vm_compute. reflexivity.
Qed.
Lemma escape_same : forall a b, escape_char a = escape_char b <-> same a b.
Proof.
  intros a b. rewrite !escape_spec. unfold same. split.
  - destruct (dot a) eqn:Da, (dot b) eqn:Db; auto.
    + destruct (under b) eqn:Ub; [discriminate|]. intros <-. discriminate.
    + destruct (under a) eqn:Ua; [discriminate|]. intros ->. discriminate.
    + destruct (under a) eqn:Ua, (under b) eqn:Ub; auto; [intros <-|intros ->]; discriminate.
  - intros [->|[(Ha & Hb)|(Ha & Hb)]]; [reflexivity| |now rewrite Ha, Hb].
    destruct (dot a) eqn:Da; [now destruct (dot_under a)|]. destruct (dot b) eqn:Db; [now destruct (dot_under b)|]. now rewrite Ha, Hb.
Qed.
Lemma escape_alike : forall s t, escape s = escape t <-> alike s t.
Proof.
  unfold alike. induction s as [|a s IH]; intros [|b t]; cbn; try (split; intros H; [discriminate|inversion H]); [split; auto|].
  split.
  - intros H. injection H as H1 H2. constructor; [now apply escape_same|now apply IH].
  - intros H. inversion H; subst. f_equal; [now apply escape_same|now apply IH].
Qed.
Lemma escape_app : forall s t, escape (s +++ t) = escape s +++ escape t.
Proof. induction s as [|a s IH]; intros t; cbn; congruence. Qed.
Lemma kw_spec : forall s, isBplKeyword s = true <-> In s keywords.
Proof.
  intros s. unfold isBplKeyword. rewrite existsb_exists. change BPL_KW with keywords. split; [intros (x & H & E); apply String.eqb_eq in E; now subst|]. intros H. exists s. split; [exact H|apply String.eqb_refl].
Qed.
(** Reserved words are letters. *)
Lemma kw_letters : forall s, In s keywords -> all letter s = true.
Proof. intros s H. assert (forallb (all letter) keywords = true) as X by reflexivity. rewrite forallb_forall in X. now apply X. Qed.
Lemma letter_fixed : forall c, letter (escape_char c) = true -> escape_char c = c.
Proof.
  intros c H. enough (implb (letter (escape_char c)) (Ascii.eqb (escape_char c) c) = true) as X by (rewrite H in X; now apply Ascii.eqb_eq).
  apply (ascii_forall (fun c => implb (letter (escape_char c)) (Ascii.eqb (escape_char c) c))). vm_compute. reflexivity.
Qed.
Lemma escape_letters : forall s, all letter (escape s) = true -> escape s = s.
Proof. induction s as [|c s IH]; cbn; [auto|]. intros H. apply andb_true_iff in H as (H1 & H2). f_equal; [now apply letter_fixed|auto]. Qed.
Lemma escape_kw : forall s, In (escape s) keywords -> escape s = s.
Proof. intros s H. apply escape_letters. now apply kw_letters. Qed.
Lemma kw_escape : forall s, In s keywords -> escape s = s.
Proof.
  intros s H. apply kw_letters in H. induction s as [|c s IH]; cbn in *; [auto|]. apply andb_true_iff in H as (H1 & H2). f_equal; [|auto].
  enough (implb (letter c) (Ascii.eqb (escape_char c) c) = true) as X by (rewrite H1 in X; now apply Ascii.eqb_eq).
  apply (ascii_forall (fun c => implb (letter c) (Ascii.eqb (escape_char c) c))). vm_compute. reflexivity.
Qed.
Lemma append_inj : forall s t u, u +++ s = u +++ t -> s = t.
Proof. intros s t. induction u as [|c u IH]; cbn; [auto|]. intros H. injection H. auto. Qed.
Lemma append_last_inj : forall s t c d, s +++ String c "" = t +++ String d "" -> s = t /\ c = d.
Proof.
  induction s as [|a s IH]; intros [|b t] c d H; cbn in H.
  - injection H as ->. auto.
  - destruct t; discriminate.
  - destruct s; discriminate.
  - injection H as -> H2. apply IH in H2 as (-> & ->). auto.
Qed.
Lemma under_escape : forall c, escape_char c = "_"%char <-> under c = true.
Proof.
  intros c. rewrite escape_spec. split.
  - destruct (dot c) eqn:D; [discriminate|]. destruct (under c) eqn:U; auto. intros ->. discriminate.
  - intros H. destruct (dot c) eqn:D; [now destruct (dot_under c)|]. now rewrite H.
Qed.
Lemma escape_last : forall t s, escape t = s +++ "_" -> exists t' c, t = t' +++ String c "" /\ escape t' = s /\ under c = true.
Proof.
  induction t as [|a t IH]; intros s H; cbn in H.
  - destruct s; discriminate.
  - destruct s as [|b s]; cbn in H; injection H as H1 H2.
    + destruct t; [|discriminate]. exists "", a. split; [reflexivity|]. split; [reflexivity|]. now apply under_escape.
    + destruct (IH s H2) as (t' & c & -> & E & U). exists (String a t'), c. cbn. split; [reflexivity|]. split; [congruence|exact U].
Qed.

(** Two source names get the same Boogie name exactly if they clash: equal up to the
    characters that are replaced, or a reserved word and that word with such a
    character added. *)
Theorem C33_clash : forall s t, base s = base t <-> clash s t.
Proof.
  assert (forall s t, isBplKeyword (escape s) = true -> isBplKeyword (escape t) = false -> (escape s +++ "_" = escape t <-> reserved_clash s t)) as H1.
  { intros s t Hs Ht. apply kw_spec in Hs. pose proof (escape_kw s Hs) as Es. rewrite Es in *. unfold reserved_clash. split.
    - intros H. split; [exact Hs|]. symmetry in H. apply escape_last in H as (t' & c & -> & E & U). exists c. split; [exact U|]. assert (In (escape t') keywords) as X by (now rewrite E). apply escape_kw in X. congruence.
    - intros (_ & c & U & ->). rewrite escape_app, Es. cbn. apply under_escape in U. now rewrite U. }
  assert (forall s t, In s keywords -> reserved_clash t s -> False) as H2.
  { intros s t Hs (Ht & c & U & ->). apply kw_letters in Hs. clear Ht. induction t as [|a t IH]; cbn in Hs; [|apply andb_true_iff in Hs as (_ & Hs); auto].
    apply andb_true_iff in Hs as (Hs & _). enough (negb (letter c && under c) = true) as X by (rewrite Hs, U in X; discriminate). apply (ascii_forall (fun c => negb (letter c && under c))). vm_compute. reflexivity. }
  intros s t. unfold base, clash. destruct (isBplKeyword (escape s)) eqn:Ks, (isBplKeyword (escape t)) eqn:Kt.
  - apply kw_spec in Ks, Kt. pose proof (escape_kw s Ks) as Es. pose proof (escape_kw t Kt) as Et. rewrite <- escape_alike, Es, Et in *. split.
    + intros H. apply append_last_inj in H. left. tauto.
    + intros [->|[H|H]]; [reflexivity| |]; exfalso; eapply H2; [|exact H| |exact H]; auto.
  - rewrite H1 by assumption. split; [auto|]. intros [H|[H|H]]; [|exact H|].
    + apply escape_alike in H. congruence.
    + exfalso. apply kw_spec in Ks. pose proof (escape_kw s Ks) as Es. rewrite Es in Ks. eapply H2; eauto.
  - split; [intros H; right; right; apply H1; auto|]. intros [H|[H|H]].
    + apply escape_alike in H. congruence.
    + exfalso. apply kw_spec in Kt. pose proof (escape_kw t Kt) as Et. rewrite Et in Kt. eapply H2; eauto.
    + symmetry. apply H1; auto.
  - rewrite escape_alike. split; [auto|]. intros [H|[H|H]]; [exact H| |]; exfalso; destruct H as (H & _); apply kw_spec in H; [rewrite <- (kw_escape s) in H by (now apply kw_spec)|rewrite <- (kw_escape t) in H by (now apply kw_spec)]; congruence.
Qed.
Print Assumptions C33_clash.

(** For identifiers of C only a reserved word of Boogie and the same word with '_'
    appended get the same name. *)
Theorem C33_c_names : forall s t, c_name s -> c_name t -> s <> t -> base s = base t -> In s keywords /\ t = s +++ "_" \/ In t keywords /\ s = t +++ "_".
Proof.
  assert (forall c, c_char c = true -> under c = true -> c = "_"%char) as HU.
  { intros c H1 H2. enough (implb (c_char c && under c) (Ascii.eqb c "_") = true) as X by (rewrite H1, H2 in X; now apply Ascii.eqb_eq). apply (ascii_forall (fun c => implb (c_char c && under c) (Ascii.eqb c "_"))). vm_compute. reflexivity. }
  assert (forall c, c_char c = true -> dot c = false) as HD.
  { intros c H1. enough (negb (c_char c && dot c) = true) as X by (rewrite H1 in X; now destruct (dot c)). apply (ascii_forall (fun c => negb (c_char c && dot c))). vm_compute. reflexivity. }
  assert (forall s t, c_name s -> c_name t -> alike s t -> s = t) as HA.
  { unfold c_name, alike. induction s as [|a s IH]; intros [|b t] Hs Ht H; inversion H; subst; [reflexivity|]. cbn in Hs, Ht. apply andb_true_iff in Hs as (Ha & Hs). apply andb_true_iff in Ht as (Hb & Ht). f_equal; [|auto].
    destruct H3 as [E|[(X & Y)|(X & Y)]]; [exact E| |rewrite HD in X by exact Ha; discriminate]. rewrite (HU a), (HU b); auto. }
  assert (forall s c, c_name (s +++ String c "") -> c_char c = true) as HL.
  { unfold c_name. induction s as [|a s IH]; intros c H; cbn in H; apply andb_true_iff in H as (H1 & H2); auto. }
  intros s t Hs Ht N E. apply C33_clash in E as [E|[(E & c & U & ->)|(E & c & U & ->)]].
  - exfalso. apply N. auto.
  - left. split; [exact E|]. rewrite (HU c); [reflexivity| |exact U]. now apply HL in Ht.
  - right. split; [exact E|]. rewrite (HU c); [reflexivity| |exact U]. now apply HL in Hs.
Qed.
Print Assumptions C33_c_names.

(** ** Numbers *)
Lemma uint_nonnil : forall n, Nat.to_uint n <> Decimal.Nil.
Proof. intros n E. assert (n = 0) as -> by (rewrite <- (Unsigned.of_to n), E; reflexivity). discriminate. Qed.
Lemma dec_inj : forall m n, dec m = dec n -> m = n.
Proof.
  unfold dec. intros m n H. apply (f_equal NilZero.uint_of_string) in H. rewrite !NilZero.usu in H by apply uint_nonnil. injection H as H. now apply Unsigned.to_uint_inj.
Qed.
Lemma dec_digits : forall n, all digit (dec n) = true /\ dec n <> "".
Proof.
  intros n. unfold dec. assert (forall d, all digit (NilEmpty.string_of_uint d) = true) as H by (induction d; cbn; auto).
  pose proof (uint_nonnil n) as N. unfold NilZero.string_of_uint. destruct (Nat.to_uint n) eqn:E; [congruence|..]; (split; [apply H|discriminate]).
Qed.

(** ** Histories *)
Definition together (V W : value) : Prop := match owner V, owner W with Some f, Some g => f = g | _, _ => True end.
Definition named (V : value) : Prop := v_name V <> "" /\ v_kind V <> KInst.
(** Globals and undefined values belong to no function, other values to one. *)
Definition owners (env : nat -> value) : Prop := forall v, match v_kind (env v) with KGlobal | KUndef => owner (env v) = None | KOther => True | _ => exists f, owner (env v) = Some f end.
(** A translation: each function is translated once; meanwhile its own values and those
    without a function are named. *)
Fixpoint translation (env : nat -> value) (cur : option nat) (seen : list nat) (l : list op) : Prop :=
  match l with
  | [] => True
  | OReset f :: l' => ~ In f seen /\ translation env (Some f) (f :: seen) l'
  | OGet v :: l' => (owner (env v) = None \/ owner (env v) = cur) /\ translation env cur seen l'
  | OBlock :: l' => translation env cur seen l'
  end.
(** No two source names that can meet clash, and none looks like an invented one. *)
Definition clean (env : nat -> value) : Prop :=
  (forall v w, v <> w -> together (env v) (env w) -> named (env v) -> named (env w) -> ~ clash (v_name (env v)) (v_name (env w))) /\
  (forall v, named (env v) -> ~ invented (v_name (env v))).

Definition prefix (V : value) : string := match v_kind V with KGlobal => "$g" | KBlock => "$bb" | KUndef => "$u" | _ => var_prefix (v_ty V) end.
Definition counter (V : value) (n : naming) : nat := match v_kind V with KGlobal => globalNum n | KBlock => blockNum n | KUndef => undefNum n | _ => varNum n end.
Lemma prefix_in : forall V, In (prefix V) ["$g"; "$bb"; "$u"; "$f"; "$i"; "$v"; "$p"].
Proof. intros [[] [] s o]; cbn; tauto. Qed.
Lemma invented_fresh : forall V k, invented (prefix V +++ dec k).
Proof. intros V k. exists (prefix V), (dec k). destruct (dec_digits k). split; [apply prefix_in|]. auto. Qed.
Lemma fresh_inj : forall p q j k, In p ["$g"; "$bb"; "$u"; "$f"; "$i"; "$v"; "$p"] -> In q ["$g"; "$bb"; "$u"; "$f"; "$i"; "$v"; "$p"] -> p +++ dec j = q +++ dec k -> p = q /\ j = k.
Proof.
  intros p q j k Hp Hq E. assert (p = q) as ->.
  { cbn in Hp, Hq. repeat (destruct Hp as [<-|Hp]; [repeat (destruct Hq as [<-|Hq]; [first [reflexivity|discriminate E]|]); destruct Hq|]). destruct Hp. }
  split; [reflexivity|]. apply append_inj in E. now apply dec_inj.
Qed.

(** Invented names come only from themselves. *)
Definition plain (c : ascii) : bool := letter c || digit c || Ascii.eqb c "$".
Lemma plain_fixed : forall s, all plain (escape s) = true -> escape s = s.
Proof.
  induction s as [|c s IH]; cbn; [auto|]. intros H. apply andb_true_iff in H as (H1 & H2). f_equal; [|auto].
  enough (implb (plain (escape_char c)) (Ascii.eqb (escape_char c) c) = true) as X by (rewrite H1 in X; now apply Ascii.eqb_eq).
  apply (ascii_forall (fun c => implb (plain (escape_char c)) (Ascii.eqb (escape_char c) c))). vm_compute. reflexivity.
Qed.
Lemma all_app : forall P s t, all P (s +++ t) = all P s && all P t.
Proof. intros P. induction s as [|c s IH]; intros t; cbn; [reflexivity|]. now rewrite IH, andb_assoc. Qed.
Lemma all_impl : forall (P Q : ascii -> bool) s, (forall c, P c = true -> Q c = true) -> all P s = true -> all Q s = true.
Proof. intros P Q s H. induction s as [|c s IH]; cbn; [auto|]. intros X. apply andb_true_iff in X as (X1 & X2). now rewrite H, IH. Qed.
Lemma invented_base : forall s, invented (base s) -> invented s.
Proof.
  intros s (p & d & Hp & E & Hd & Ha). unfold base in E. destruct (isBplKeyword (escape s)) eqn:K.
  - exfalso. apply kw_spec in K. apply kw_letters in K. cbn in Hp. destruct (escape s) as [|c r].
    + repeat (destruct Hp as [<-|Hp]; [discriminate E|]). destruct Hp.
    + cbn in K. apply andb_true_iff in K as (K & _). repeat (destruct Hp as [<-|Hp]; [injection E as -> _; discriminate K|]). destruct Hp.
  - assert (all plain (escape s) = true) as HP.
    { rewrite E, all_app. apply andb_true_iff. split; [cbn in Hp; repeat (destruct Hp as [<-|Hp]; [reflexivity|]); destruct Hp|]. eapply all_impl; [|exact Ha]. intros c H. unfold plain. rewrite H. now rewrite orb_true_r. }
    exists p, d. repeat split; auto. now rewrite <- (plain_fixed s HP).
Qed.

Section History.
Variable env : nat -> value.
Hypothesis HO : owners env.
Hypothesis HC : clean env.

Record inv (cur : option nat) (seen : list nat) (n : naming) : Prop := {
  i_shape : forall v s, names n v = Some s -> v_kind (env v) <> KOther ->
    named (env v) /\ s = base (v_name (env v)) \/ ~ named (env v) /\ exists k, s = prefix (env v) +++ dec k /\ (owner (env v) = None \/ owner (env v) = cur -> k < counter (env v) n);
  i_seen : forall v s f, names n v = Some s -> owner (env v) = Some f -> In f seen;
  i_cur : forall f, cur = Some f -> In f seen;
  i_apart : forall v w s t, v <> w -> v_kind (env v) <> KOther -> v_kind (env w) <> KOther -> together (env v) (env w) -> names n v = Some s -> names n w = Some t -> s <> t
}.

Lemma named_dec : forall V, named V \/ ~ named V.
Proof. intros V. unfold named. destruct (string_dec (v_name V) ""), (v_kind V); try (left; split; [assumption|discriminate]); right; tauto. Qed.

(** A new name. *)
Lemma get_new : forall n v, names n v = None -> v_kind (env v) <> KOther -> exists n',
  get env n v = (if (negb (String.eqb (v_name (env v)) "") && match v_kind (env v) with KInst => false | _ => true end) then base (v_name (env v)) else prefix (env v) +++ dec (counter (env v) n), n') /\
  (forall y, names n' y = if Nat.eqb y v then Some (fst (get env n v)) else names n y) /\
  (forall W, counter W n <= counter W n') /\ (~ named (env v) -> counter (env v) n < counter (env v) n').
Proof.
  intros n v H N. unfold get. rewrite H. unfold named, prefix, counter. destruct (env v) as [k ty s o]. cbn [v_kind v_ty v_name owner] in *.
  destruct (String.eqb_spec s "") as [->|Ns]; destruct k; cbn [negb andb fst]; try congruence; eexists; (split; [reflexivity|]); (split; [reflexivity|]); (split; [intros [[] ? ? ?]; cbn; lia|]); cbn; intros X; try lia; exfalso; apply X; (split; [exact Ns|discriminate]).
Qed.
Lemma named_test : forall V, named V <-> negb (String.eqb (v_name V) "") && match v_kind V with KInst => false | _ => true end = true.
Proof.
  intros V. unfold named. destruct (String.eqb_spec (v_name V) ""); cbn; [split; [tauto|discriminate]|]. destruct (v_kind V); split; try tauto; try discriminate; intros _; (split; [assumption|discriminate]).
Qed.

Lemma inv_get : forall cur seen n v, inv cur seen n -> owner (env v) = None \/ owner (env v) = cur -> inv cur seen (snd (get env n v)).
Proof.
  intros cur seen n v I Hv. destruct (names n v) as [s0|] eqn:Hn; [unfold get; rewrite Hn; exact I|].
  destruct (v_kind (env v)) eqn:Hk; cycle 5.
  { (* not an entity of its own *)
    assert (exists s, get env n v = (s, Naming (fun y => if Nat.eqb y v then Some s else names n y) (globalNum n) (blockNum n) (undefNum n) (varNum n))) as (s & ->) by (unfold get; rewrite Hn, Hk; destruct (negb _ && _); eexists; reflexivity).
    cbn [snd]. constructor; cbn [names].
    - intros w t H Nk. destruct (Nat.eqb_spec w v) as [->|Nw]; [congruence|]. destruct (i_shape _ _ _ I w t H Nk) as [X|(X & k & Y & Z)]; [now left|right; split; [exact X|]]. exists k. split; [exact Y|]. intros U. specialize (Z U). unfold counter in *. destruct (v_kind (env w)); exact Z.
    - intros w t f H E. destruct (Nat.eqb_spec w v) as [->|Nw]; [|eapply i_seen; eauto]. destruct Hv as [X|X]; [congruence|]. eapply i_cur; [exact I|congruence].
    - apply (i_cur _ _ _ I).
    - intros x y s1 t1 N1 K1 K2 T H1 H2. destruct (Nat.eqb_spec x v) as [->|]; [congruence|]. destruct (Nat.eqb_spec y v) as [->|]; [congruence|]. eapply (i_apart _ _ _ I x y); eauto. }
  all: assert (v_kind (env v) <> KOther) as Nk by congruence; destruct (get_new n v Hn Nk) as (n' & Eg & En & Hm & Hi); clear Hk.
  all: set (s := if negb (String.eqb (v_name (env v)) "") && match v_kind (env v) with KInst => false | _ => true end then base (v_name (env v)) else prefix (env v) +++ dec (counter (env v) n)) in *.
  all: assert (named (env v) /\ s = base (v_name (env v)) \/ ~ named (env v) /\ s = prefix (env v) +++ dec (counter (env v) n)) as Hs by
    (subst s; destruct (negb (String.eqb (v_name (env v)) "") && match v_kind (env v) with KInst => false | _ => true end) eqn:B; [left; split; [now apply named_test|reflexivity]|right; split; [rewrite named_test, B; discriminate|reflexivity]]).
  all: rewrite Eg in *; cbn [fst snd] in *; clearbody s.
  all: assert (forall w t, w <> v -> v_kind (env w) <> KOther -> together (env v) (env w) -> names n w = Some t -> s <> t) as Hap.
  1, 3, 5, 7, 9: intros w t Nw Kw T Hw E; subst t; destruct HC as (HC1 & HC2); destruct (i_shape _ _ _ I w s Hw Kw) as [(X & Y)|(X & k & Y & Z)]; destruct Hs as [(P & Q)|(P & Q)];
    [apply (HC1 v w); auto; apply C33_clash; congruence
    |apply (HC2 w X), invented_base; rewrite <- Y, Q; apply invented_fresh
    |apply (HC2 v P), invented_base; rewrite <- Q, Y; apply invented_fresh
    |rewrite Y in Q; apply fresh_inj in Q as (Q1 & Q2); [|apply prefix_in..]].
  1, 2, 3, 4, 5: pose proof (HO v) as Ov; pose proof (HO w) as Ow; unfold together in T;
    assert (owner (env w) = None \/ owner (env w) = cur) as Cw by
      (destruct (owner (env w)) as [g|] eqn:E1; [right|now left]; destruct Hv as [E2|E2]; [|rewrite E2 in T; destruct cur; [congruence|]];
       unfold prefix in Q1; destruct (env v) as [kv tv sv ov], (env w) as [kw tw sw ow]; cbn in *; destruct kv, kw; try congruence; try discriminate; try (destruct tw; discriminate); try (destruct Ov; congruence));
    specialize (Z Cw); assert (counter (env v) n = counter (env w) n) as Ec by
      (unfold prefix, counter in *; destruct (env v) as [kv tv sv ov], (env w) as [kw tw sw ow]; cbn in *; destruct kv, kw; try reflexivity; try discriminate; try congruence; try (destruct tw; discriminate); try (destruct tv; discriminate)); lia.
  all: constructor.
  all: try (apply (i_cur _ _ _ I)).
  all: try (intros w t H Kw; rewrite En in H; destruct (Nat.eqb_spec w v) as [->|Nw];
    [injection H as <-; destruct Hs as [X|(X & Y)]; [now left|right; split; [exact X|]; exists (counter (env v) n); split; [exact Y|auto]]
    |destruct (i_shape _ _ _ I w t H Kw) as [X|(X & k & Y & Z)]; [now left|right; split; [exact X|]; exists k; split; [exact Y|]; intros U; specialize (Z U); specialize (Hm (env w)); lia]]; fail).
  all: try (intros w t f H E; rewrite En in H; destruct (Nat.eqb_spec w v) as [->|Nw]; [destruct Hv as [X|X]; [congruence|eapply i_cur; [exact I|congruence]]|eapply i_seen; eauto]; fail).
  all: intros x y s1 t1 N1 K1 K2 T H1 H2; rewrite En in H1, H2; destruct (Nat.eqb_spec x v) as [->|Nx]; [injection H1 as <-; destruct (Nat.eqb_spec y v) as [->|Ny]; [congruence|eapply Hap; eauto]|].
  all: destruct (Nat.eqb_spec y v) as [->|Ny]; [injection H2 as <-; intros E; symmetry in E; revert E; eapply Hap; eauto; unfold together in *; destruct (owner (env x)), (owner (env v)); auto|eapply (i_apart _ _ _ I x y); eauto].
Qed.

Lemma inv_run : forall l cur seen n, inv cur seen n -> translation env cur seen l -> exists cur' seen', inv cur' seen' (run env n l).
Proof.
  induction l as [|o l IH]; intros cur seen n I T; [eauto|]. destruct o as [f|v|]; cbn [run do translation] in *.
  - destruct T as (Nf & T). cbn [snd]. apply (IH (Some f) (f :: seen)); [|exact T]. constructor; cbn [reset names].
    + intros v s H K. destruct (i_shape _ _ _ I v s H K) as [X|(X & k & Y & Z)]; [now left|right; split; [exact X|]]. exists k. split; [exact Y|]. intros [U|U].
      * specialize (Z (or_introl U)). pose proof (HO v) as Ov. unfold counter in *. destruct (v_kind (env v)); cbn; auto; destruct Ov; congruence.
      * exfalso. apply Nf. eapply i_seen; eauto.
    + intros v s g H E. right. eapply i_seen; eauto.
    + intros g E. injection E as ->. now left.
    + intros v w s t. apply (i_apart _ _ _ I).
  - destruct T as (Hv & T). pose proof (inv_get cur seen n v I Hv) as I'. destruct (get env n v) as [s n']. cbn [snd] in *. eauto.
  - apply (IH cur seen); [|exact T]. constructor; cbn.
    + intros v s H K. destruct (i_shape _ _ _ I v s H K) as [X|(X & k & Y & Z)]; [now left|right; split; [exact X|]]. exists k. split; [exact Y|]. intros U. specialize (Z U). unfold counter in *. destruct (v_kind (env v)); cbn; auto.
    + apply (i_seen _ _ _ I).
    + apply (i_cur _ _ _ I).
    + apply (i_apart _ _ _ I).
Qed.
End History.

(** In every translation different values that can occur in the same procedure get
    different names, if the source names do not clash. *)
Theorem C33_distinct : forall env l v w s t, owners env -> clean env -> translation env None [] l -> v <> w -> v_kind (env v) <> KOther -> v_kind (env w) <> KOther -> together (env v) (env w) ->
  names (run env fresh_naming l) v = Some s -> names (run env fresh_naming l) w = Some t -> s <> t.
Proof.
  intros env l v w s t HO HC T N K1 K2 HT H1 H2. destruct (inv_run env HO HC l None [] fresh_naming) as (cur & seen & I); [|exact T|eapply (i_apart _ _ _ _ I v w); eauto].
  constructor; cbn; try discriminate.
Qed.
Print Assumptions C33_distinct.

(** Names do not change: whatever happens in between, the same value gets the same name. *)
Lemma names_run : forall env l n v s, names n v = Some s -> names (run env n l) v = Some s.
Proof.
  intros env. induction l as [|o l IH]; intros n v s H; cbn [run]; [exact H|]. apply IH. destruct o as [f|w|]; cbn; auto.
  unfold get. destruct (names n w) eqn:Hw; [exact H|].
  destruct (negb _ && _); [|destruct (v_kind (env w))]; cbn; (destruct (Nat.eqb_spec v w) as [->|]; [congruence|exact H]).
Qed.
Theorem C33_stable : forall env l1 l2 v, let n := run env fresh_naming l1 in
  fst (get env (run env (snd (get env n v)) l2) v) = fst (get env n v).
Proof.
  intros env l1 l2 v n. assert (names (snd (get env n v)) v = Some (fst (get env n v))) as H.
  { unfold get. destruct (names n v) eqn:Hn; [exact Hn|]. destruct (negb _ && _); [|destruct (v_kind (env v))]; cbn; now rewrite Nat.eqb_refl. }
  apply (names_run env l2) in H. set (m := run env (snd (get env n v)) l2) in *. clearbody m. set (x := fst (get env n v)) in *. clearbody x. unfold get. now rewrite H.
Qed.
Print Assumptions C33_stable.

(** The labels made for one procedure are different. *)
Fixpoint labels (env : nat -> value) (n : naming) (l : list op) : list string :=
  match l with
  | [] => []
  | OBlock :: l' => fst (freshBlockName n) :: labels env (snd (freshBlockName n)) l'
  | o :: l' => labels env (snd (do env n o)) l'
  end.
Lemma block_mono : forall env n v, blockNum n <= blockNum (snd (get env n v)).
Proof. intros env n v. unfold get. destruct (names n v); [cbn; lia|]. destruct (negb _ && _); [|destruct (v_kind (env v))]; cbn; lia. Qed.
Lemma labels_later : forall env l n s, (forall f, ~ In (OReset f) l) -> In s (labels env n l) -> exists k, s = "$bb" +++ dec k /\ blockNum n <= k.
Proof.
  intros env. induction l as [|o l IH]; intros n s HR H; [destruct H|]. assert (forall f, ~ In (OReset f) l) as HR' by (intros f X; apply (HR f); now right).
  destruct o as [f|v|]; cbn [labels do] in H.
  - exfalso. apply (HR f). now left.
  - pose proof (block_mono env n v) as B. destruct (get env n v) as [x n']. cbn [snd] in *. apply IH in H as (k & E & L); [|exact HR']. exists k. split; [exact E|lia].
  - destruct H as [<-|H]; [exists (blockNum n); split; [reflexivity|lia]|]. apply IH in H as (k & E & L); [|exact HR']. exists k. cbn in L. split; [exact E|lia].
Qed.
Theorem C33_labels : forall env l n, (forall f, ~ In (OReset f) l) -> NoDup (labels env n l).
Proof.
  intros env. induction l as [|o l IH]; intros n HR; [constructor|]. assert (forall f, ~ In (OReset f) l) as HR' by (intros f X; apply (HR f); now right).
  destruct o as [f|v|]; cbn [labels do].
  - exfalso. apply (HR f). now left.
  - destruct (get env n v) as [x n']. auto.
  - constructor; [|auto]. intros X. apply labels_later in X as (k & E & L); [|exact HR']. cbn in E, L. injection E as E. apply dec_inj in E. lia.
Qed.
Print Assumptions C33_labels.

(** Names are legal identifiers of Boogie and not reserved, if the source names have
    only characters that are legal or replaced and do not begin with a digit. *)
Definition admissible (s : string) : Prop :=
  all (fun c => nondigit c || digit c || under c || dot c) s = true /\ match s with EmptyString => True | String c _ => digit c = false end.
Lemma base_identifier : forall s, s <> "" -> admissible s -> identifier (base s).
Proof.
  intros s N (H1 & H2). 
  assert (forall s, all (fun c => nondigit c || digit c || under c || dot c) s = true -> all (fun c => nondigit c || digit c) (escape s) = true) as HA.
  { induction s0 as [|c s0 IH]; cbn; [auto|]. intros H. apply andb_true_iff in H as (Hc & H). rewrite IH by exact H. rewrite andb_true_r.
    enough (implb (nondigit c || digit c || under c || dot c) (nondigit (escape_char c) || digit (escape_char c)) = true) as X by (now rewrite Hc in X).
    apply (ascii_forall (fun c => implb (nondigit c || digit c || under c || dot c) (nondigit (escape_char c) || digit (escape_char c)))). vm_compute. reflexivity. }
  destruct s as [|c s]; [congruence|]. cbn in H1. apply andb_true_iff in H1 as (Hc & Hs).
  assert (nondigit (escape_char c) = true) as Hn.
  { enough (implb ((nondigit c || digit c || under c || dot c) && negb (digit c)) (nondigit (escape_char c)) = true) as X by (rewrite Hc, H2 in X; exact X).
    apply (ascii_forall (fun c => implb ((nondigit c || digit c || under c || dot c) && negb (digit c)) (nondigit (escape_char c)))). vm_compute. reflexivity. }
  unfold base. cbn [escape]. destruct (isBplKeyword (String (escape_char c) (escape s))) eqn:K; cbn [String.append]; split.
  - split; [exact Hn|]. rewrite all_app, HA by exact Hs. reflexivity.
  - intros X. apply kw_letters in X. change (String (escape_char c) (escape s +++ "_")) with (String (escape_char c) (escape s) +++ "_") in X. rewrite all_app in X. apply andb_true_iff in X as (_ & X). discriminate.
  - split; [exact Hn|]. now apply HA.
  - rewrite <- kw_spec, K. discriminate.
Qed.
Lemma fresh_identifier : forall V k, identifier (prefix V +++ dec k).
Proof.
  intros V k. destruct (dec_digits k) as (D & _). assert (all (fun c => nondigit c || digit c) (dec k) = true) as H by (eapply all_impl; [|exact D]; intros c ->; apply orb_true_r).
  unfold identifier. split; [|intros X; apply kw_letters in X; unfold prefix in X; destruct V as [[] [] s o]; discriminate].
  destruct V as [[] [] s o]; cbn; (split; [reflexivity|rewrite ?H; reflexivity]).
Qed.
Theorem C33_legal : forall env l v, (forall w, named (env w) -> admissible (v_name (env w))) -> v_kind (env v) <> KOther -> identifier (fst (get env (run env fresh_naming l) v)).
Proof.
  intros env l v HA HK.
  assert (forall n, (forall w s, names n w = Some s -> v_kind (env w) <> KOther -> identifier s) -> forall w, v_kind (env w) <> KOther -> identifier (fst (get env n w))) as H1.
  { intros n IN w Kw. destruct (names n w) as [s|] eqn:Hw; [unfold get; rewrite Hw; cbn; eauto|]. destruct (get_new env n w Hw Kw) as (n' & -> & _). cbn [fst].
    destruct (negb (String.eqb (v_name (env w)) "") && match v_kind (env w) with KInst => false | _ => true end) eqn:B; [|apply fresh_identifier].
    apply (named_test (env w)) in B. pose proof (HA w B). destruct B. now apply base_identifier. }
  assert (forall l n, (forall w s, names n w = Some s -> v_kind (env w) <> KOther -> identifier s) -> forall w s, names (run env n l) w = Some s -> v_kind (env w) <> KOther -> identifier s) as H2.
  { clear l v HK. induction l as [|o l IH]; intros n IN; cbn [run]; [exact IN|]. apply IH. destruct o as [f|x|]; cbn; [exact IN| |exact IN]. intros w s Hw Kw.
    destruct (get env n x) as [y n'] eqn:Eg. cbn in Hw. destruct (names n x) as [z|] eqn:Hx; [unfold get in Eg; rewrite Hx in Eg; injection Eg as <- <-; eauto|].
    assert (names n' w = if Nat.eqb w x then Some y else names n w) as En by (unfold get in Eg; rewrite Hx in Eg; destruct (negb _ && _); [|destruct (v_kind (env x))]; injection Eg as <- <-; reflexivity).
    rewrite En in Hw. destruct (Nat.eqb_spec w x) as [->|]; [|eauto]. injection Hw as ->. specialize (H1 n IN x Kw). now rewrite Eg in H1. }
  apply H1; [|exact HK]. apply H2. discriminate.
Qed.
Print Assumptions C33_legal.

(** *** What can go wrong. *)
Definition two (V W : value) : nat -> value := fun v => match v with 0 => V | 1 => W | _ => Value KOther TElse "" None end.
(** Two globals whose names differ in a replaced character. *)
Theorem C33_escape_refuted : let env := two (Value KGlobal TElse "a-b" None) (Value KGlobal TElse "a_b" None) in
  names (run env fresh_naming [OGet 0; OGet 1]) 0 = names (run env fresh_naming [OGet 0; OGet 1]) 1.
Proof. reflexivity. Qed.
Print Assumptions C33_escape_refuted.
(** Two C globals, type and type_. *)
Theorem C33_keyword_refuted : let env := two (Value KGlobal TElse "type" None) (Value KGlobal TElse "type_" None) in
  c_name "type" /\ c_name "type_" /\ names (run env fresh_naming [OGet 0; OGet 1]) 0 = Some "type_" /\ names (run env fresh_naming [OGet 0; OGet 1]) 1 = Some "type_".
Proof. repeat split. Qed.
Print Assumptions C33_keyword_refuted.
(** A parameter with the name of a global hides it. *)
Theorem C33_shadow_refuted : let env := two (Value KGlobal TElse "x" None) (Value KArg TInt "x" (Some 7)) in
  together (env 0) (env 1) /\ names (run env fresh_naming [OGet 0; OReset 7; OGet 1]) 0 = Some "x" /\ names (run env fresh_naming [OGet 0; OReset 7; OGet 1]) 1 = Some "x".
Proof. repeat split. Qed.
Print Assumptions C33_shadow_refuted.
(** A parameter named like an invented name, and the first integer instruction. *)
Theorem C33_dollar_refuted : let env := two (Value KArg TInt "$i0" (Some 7)) (Value KInst TInt "" (Some 7)) in
  names (run env fresh_naming [OReset 7; OGet 0; OGet 1]) 0 = Some "$i0" /\ names (run env fresh_naming [OReset 7; OGet 0; OGet 1]) 1 = Some "$i0".
Proof. repeat split. Qed.
Print Assumptions C33_dollar_refuted.
(** Characters that are neither legal nor replaced. *)
Theorem C33_illegal_refuted : ~ identifier (base "pair<int,char>").
Proof. intros ((_ & H) & _). discriminate. Qed.
Print Assumptions C33_illegal_refuted.

Example C33_nonvacuous : exists env l, owners env /\ clean env /\ translation env None [] l /\ (forall w, named (env w) -> admissible (v_name (env w))) /\
  names (run env fresh_naming l) 0 = Some "type_" /\ names (run env fresh_naming l) 1 = Some "$i0" /\ names (run env fresh_naming l) 2 = Some "x" /\ names (run env fresh_naming l) 3 = Some "$i0" /\
  names (run env fresh_naming l) 4 = Some "$p1" /\ names (run env fresh_naming l) 5 = Some "$u0".
Proof.
  set (env := fun v => match v with
    | 0 => Value KGlobal TElse "type" None
    | 1 => Value KArg TInt "" (Some 7)
    | 2 => Value KArg TInt "x" (Some 8)
    | 3 => Value KInst TInt "" (Some 8)
    | 4 => Value KInst TElse "" (Some 8)
    | 5 => Value KUndef TInt "" None
    | _ => Value KOther TElse "" None end).
  exists env, [OGet 0; OReset 7; OGet 1; OBlock; OGet 5; OReset 8; OGet 2; OGet 3; OGet 0; OBlock; OGet 4; OGet 3].
  split; [intros [|[|[|[|[|[|v]]]]]]; cbn; eauto|]. split; [split|].
  - intros [|[|[|[|[|[|v]]]]]] [|[|[|[|[|[|w]]]]]] N T (V1 & V2) (W1 & W2); cbn in *; try congruence; intros C; apply C33_clash in C; discriminate.
  - intros [|[|[|[|[|[|v]]]]]] (V1 & V2); cbn in *; try congruence; intros (p & d & Hp & E & _); cbn in Hp; repeat (destruct Hp as [<-|Hp]; [discriminate E|]); destruct Hp.
  - split; [cbn; intuition congruence|]. split; [|repeat split; vm_compute; reflexivity]. intros [|[|[|[|[|[|v]]]]]] (V1 & V2); cbn in *; try congruence; split; reflexivity.
Qed.
