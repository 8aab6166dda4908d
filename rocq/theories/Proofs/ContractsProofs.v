(** Lemmas about the extraction of contracts. *)
From Coq Require Import List Bool Arith Lia.
From Verif.Spec Require Import Contracts.
From Verif.Model Require Import ExtractContracts.
Import ListNotations.

Lemma label_eqb_eq : forall x y, label_eqb x y = true <-> x = y.
Proof. intros [a b] [c d]. unfold label_eqb. cbn. rewrite andb_true_iff, !Nat.eqb_eq. split; [intros [-> ->]; reflexivity|intros [= -> ->]; auto]. Qed.
Lemma label_eqb_refl : forall x, label_eqb x x = true. Proof. intros. now apply label_eqb_eq. Qed.
Lemma mem_label_in : forall x l, mem_label x l = true <-> In x l.
Proof.
  intros x l. unfold mem_label. rewrite existsb_exists. split.
  - intros (y & H & E). apply label_eqb_eq in E. now subst.
  - intros H. exists x. split; [exact H|apply label_eqb_refl].
Qed.

(** ** Pieces *)
Definition pterm_of (tm : term) : pterm := match tm with Jump d => PJump (d, 0) true | Branch c d e => PBranch c (d, 0) (e, 0) | Return => PReturn end.
(** What a piece is: instructions from [s], then a contract or the end of the block. *)
Definition describes (l : nat) (items : list item) (tm : term) (s : nat) (p : piece) : Prop :=
  (forall j o, nth_error (ops p) j = Some o -> nth_error items (s + j) = Some (Do o)) /\
  match con p with
  | Some (k, e) => nth_error items (s + length (ops p)) = Some (Contract k e) /\ pt p = PJump (l, S (s + length (ops p))) false
  | None => length items = s + length (ops p) /\ pt p = pterm_of tm
  end.
Definition is_start_in (items : list item) (s : nat) : Prop := s = 0 \/ exists i k e, s = S i /\ nth_error items i = Some (Contract k e).

Lemma split_spec : forall rest l s i acc pre tm items,
  items = pre ++ map Do acc ++ rest -> length pre = s -> i = s + length acc -> is_start_in items s ->
  (forall x p, In (x, p) (split l s i acc rest tm) -> exists s', x = (l, s') /\ s <= s' /\ describes l items tm s' p /\ is_start_in items s') /\
  (exists p, In ((l, s), p) (split l s i acc rest tm)) /\
  (forall j k e, i <= j -> nth_error items j = Some (Contract k e) ->
     (exists s' p, In ((l, s'), p) (split l s i acc rest tm) /\ s' + length (ops p) = j /\ con p = Some (k, e)) /\ exists p, In ((l, S j), p) (split l s i acc rest tm)) /\
  NoDup (map fst (split l s i acc rest tm)).
Proof.
  induction rest as [|it rest IH]; intros l s i acc pre tm items Hit Hpre Hi Hst.
  - cbn [split]. split; [|split; [|split]].
    + intros x p [[= <- <-]|[]]. exists s. split; [reflexivity|]. split; [lia|]. split; [|exact Hst]. split.
      * cbn [ops]. intros j o Hj. rewrite Hit, nth_error_app2 by lia. replace (s + j - length pre) with j by lia.
        rewrite nth_error_app1 by (rewrite map_length; apply nth_error_Some; congruence). now rewrite nth_error_map, Hj.
      * cbn [con ops pt]. split; [rewrite Hit, !app_length, map_length; cbn; lia|destruct tm; reflexivity].
    + eexists. left. reflexivity.
    + intros j k e Hj Hn. exfalso. assert (j < length items) by (apply nth_error_Some; congruence). rewrite Hit, !app_length, map_length in H. cbn in H. lia.
    + repeat constructor. intros [].
  - destruct it as [o|k e]; cbn [split].
    + destruct (IH l s (S i) (acc ++ [o]) pre tm items) as (H1 & H2 & H3 & H4); auto.
      { rewrite Hit, map_app. cbn. now rewrite <- !app_assoc. } { rewrite app_length. cbn. lia. }
      split; [exact H1|]. split; [exact H2|]. split; [|exact H4]. intros j k e Hj Hn. destruct (Nat.eq_dec i j) as [->|Hne]; [|apply H3; [lia|exact Hn]].
      exfalso. rewrite Hit, nth_error_app2 in Hn by lia. rewrite nth_error_app2 in Hn by (rewrite map_length; lia). rewrite map_length in Hn.
      replace (j - length pre - length acc) with 0 in Hn by lia. discriminate.
    + assert (Hc : nth_error items i = Some (Contract k e)).
      { rewrite Hit, nth_error_app2 by lia. rewrite nth_error_app2 by (rewrite map_length; lia). rewrite map_length.
        replace (i - length pre - length acc) with 0 by lia. reflexivity. }
      destruct (IH l (S i) (S i) [] (pre ++ map Do acc ++ [Contract k e]) tm items) as (H1 & H2 & H3 & H4).
      { rewrite Hit. cbn. now rewrite <- !app_assoc. } { rewrite !app_length, map_length. cbn. lia. } { cbn. lia. } { right. eauto. }
      split; [|split; [|split]].
      * intros x p [[= <- <-]|Hin].
        -- exists s. split; [reflexivity|]. split; [lia|]. split; [|exact Hst]. split.
           ++ cbn [ops]. intros j o Hj. rewrite Hit, nth_error_app2 by lia. replace (s + j - length pre) with j by lia.
              rewrite nth_error_app1 by (rewrite map_length; apply nth_error_Some; congruence). now rewrite nth_error_map, Hj.
           ++ cbn [con ops pt]. rewrite <- Hi. auto.
        -- destruct (H1 x p Hin) as (s' & -> & Hs' & Hd & Hs2). exists s'. split; [reflexivity|]. split; [lia|]. auto.
      * eexists. left. reflexivity.
      * intros j k' e' Hj Hn. destruct (Nat.eq_dec i j) as [<-|Hne].
        -- rewrite Hc in Hn. injection Hn as <- <-. split; [|destruct H2 as [p Hp]; exists p; now right].
           exists s. eexists. split; [left; reflexivity|]. cbn. split; [lia|reflexivity].
        -- destruct (H3 j k' e' ltac:(lia) Hn) as [(s' & p & Hp & Hp2) (p' & Hp')]. split; [exists s', p; split; [now right|exact Hp2]|exists p'; now right].
      * cbn. constructor; [|exact H4]. intros Hin. apply in_map_iff in Hin as ([x p] & Hx & Hin). cbn in Hx. subst x.
        destruct (H1 _ _ Hin) as (s' & [= <-] & Hs' & _). lia.
Qed.

Section Pieces.
  Context (F : function).
  Definition is_start (l s : nat) : Prop := s = 0 \/ exists i k e, s = S i /\ contract_at F l i k e.
  Lemma pieces_from_spec : forall G n,
    (forall x p, In (x, p) (pieces_from n G) -> exists l s items tm, x = (n + l, s) /\ nth_error G l = Some (items, tm) /\ describes (n + l) items tm s p /\ is_start_in items s) /\
    (forall l items tm, nth_error G l = Some (items, tm) -> (exists p, In ((n + l, 0), p) (pieces_from n G)) /\
       forall j k e, nth_error items j = Some (Contract k e) ->
         (exists s p, In ((n + l, s), p) (pieces_from n G) /\ s + length (ops p) = j /\ con p = Some (k, e)) /\ exists p, In ((n + l, S j), p) (pieces_from n G)) /\
    NoDup (map fst (pieces_from n G)).
  Proof.
    induction G as [|[items tm] G IH]; intros n; cbn [pieces_from].
    - split; [intros x p []|]. split; [intros [|l] ? ? H; discriminate|constructor].
    - destruct (IH (S n)) as (I1 & I2 & I3).
      destruct (split_spec items n 0 0 [] [] tm items eq_refl eq_refl eq_refl (or_introl eq_refl)) as (S1 & S2 & S3 & S4).
      split; [|split].
      + intros x p Hin. apply in_app_or in Hin as [Hin|Hin].
        * destruct (S1 x p Hin) as (s' & -> & _ & Hd & Hst). exists 0, s', items, tm. rewrite Nat.add_0_r. auto.
        * destruct (I1 x p Hin) as (l & s & it & tm' & -> & Hn & Hd & Hst). exists (S l), s, it, tm'. rewrite Nat.add_succ_r. auto.
      + intros [|l] it tm' Hn.
        * injection Hn as <- <-. rewrite Nat.add_0_r. split; [destruct S2 as [p Hp]; exists p; apply in_or_app; now left|].
          intros j k e Hj. destruct (S3 j k e ltac:(lia) Hj) as [(s & p & Hp & H2) (p' & Hp')].
          split; [exists s, p; split; [apply in_or_app; now left|exact H2]|exists p'; apply in_or_app; now left].
        * destruct (I2 l it tm' Hn) as [(p & Hp) H2]. rewrite Nat.add_succ_r. split; [exists p; apply in_or_app; now right|].
          intros j k e Hj. destruct (H2 j k e Hj) as [(s & q & Hq & H3) (p' & Hp')].
          split; [exists s, q; split; [apply in_or_app; now right|exact H3]|exists p'; apply in_or_app; now right].
      + rewrite map_app. revert S1 S4. generalize (split n 0 0 [] items tm) as sp. intros sp S1 S4.
        assert (Hd : forall x, In x (map fst sp) -> ~ In x (map fst (pieces_from (S n) G))).
        { intros x Hx Hy. apply in_map_iff in Hx as ([x' p] & Hx' & Hx). apply in_map_iff in Hy as ([y' q] & Hy' & Hy). cbn in *. subst x' y'.
          destruct (S1 _ _ Hx) as (s & -> & _). destruct (I1 _ _ Hy) as (l & s2 & ? & ? & [= H1 _] & _). lia. }
        clear - S4 I3 Hd. induction sp as [|[x p] sp IHs]; cbn in *; [exact I3|]. inversion S4; subst. constructor.
        * intros Hin. apply in_app_or in Hin as [Hin|Hin]; [contradiction|]. eapply Hd; eauto.
        * apply IHs; auto.
  Qed.
  Lemma find_spec : forall x p, find_piece (pieces F) x = Some p <-> In (x, p) (pieces F).
  Proof.
    intros x p. unfold find_piece. pose proof (pieces_from_spec F 0) as (_ & _ & Hnd). change (pieces_from 0 F) with (pieces F) in Hnd.
    induction (pieces F) as [|[y q] ps IH]; cbn; [split; [discriminate|tauto]|]. cbn in Hnd. inversion Hnd; subst.
    destruct (label_eqb x y) eqn:E.
    - apply label_eqb_eq in E. subst y. cbn. split; [intros [= ->]; now left|]. intros [[= ->]|Hin]; [reflexivity|]. exfalso. apply H1.
      apply in_map_iff. exists (x, p). auto.
    - rewrite (IH H2). split; [now right|]. intros [[= -> ->]|Hin]; [rewrite label_eqb_refl in E; discriminate|exact Hin].
  Qed.
  Lemma find_describes : forall l s p, find_piece (pieces F) (l, s) = Some p -> exists items tm, nth_error F l = Some (items, tm) /\ describes l items tm s p /\ is_start l s.
  Proof.
    intros l s p H. apply find_spec in H. destruct (pieces_from_spec F 0) as (H1 & _). destruct (H1 _ _ H) as (l' & s' & items & tm & [= <- <-] & Hn & Hd & Hst).
    exists items, tm. split; [exact Hn|]. split; [exact Hd|]. destruct Hst as [->|(i & k & e & -> & Hi)]; [now left|]. right. exists i, k, e. split; [reflexivity|]. exists items, tm. auto.
  Qed.
  Lemma find_start : forall l s, is_start l s -> nth_error F l <> None -> exists p, find_piece (pieces F) (l, s) = Some p.
  Proof.
    intros l s Hs Hl. destruct (nth_error F l) as [[items tm]|] eqn:E; [|congruence]. destruct (pieces_from_spec F 0) as (_ & H2 & _).
    destruct (H2 l items tm E) as [(p & Hp) H3]. destruct Hs as [->|(i & k & e & -> & it' & tm' & E' & Hi)].
    - exists p. now apply find_spec.
    - rewrite E in E'. injection E' as <- <-. destruct (H3 i k e Hi) as [_ (q & Hq)]. exists q. now apply find_spec.
  Qed.
  Lemma find_contract : forall l i k e, contract_at F l i k e -> exists s p, find_piece (pieces F) (l, s) = Some p /\ s + length (ops p) = i /\ con p = Some (k, e).
  Proof.
    intros l i k e (items & tm & E & Hi). destruct (pieces_from_spec F 0) as (_ & H2 & _). destruct (H2 l items tm E) as [_ H3].
    destruct (H3 i k e Hi) as [(s & p & Hp & Hq) _]. exists s, p. split; [now apply find_spec|exact Hq].
  Qed.
  Lemma find_contract_at : forall l s p k e, find_piece (pieces F) (l, s) = Some p -> con p = Some (k, e) -> contract_at F l (s + length (ops p)) k e.
  Proof. intros l s p k e H Hc. destruct (find_describes _ _ _ H) as (items & tm & E & (_ & Hd) & _). rewrite Hc in Hd. exists items, tm. tauto. Qed.
  (** Pieces of a block do not overlap. *)
  Lemma starts_apart : forall l s p s', find_piece (pieces F) (l, s) = Some p -> is_start l s' -> s < s' -> s + length (ops p) < s'.
  Proof.
    intros l s p s' H Hs Hlt. destruct (find_describes _ _ _ H) as (items & tm & E & (Hd & _) & _). destruct Hs as [->|(i & k & e & -> & it' & tm' & E' & Hi)]; [lia|].
    rewrite E in E'. injection E' as <- <-. destruct (le_lt_dec (s + length (ops p)) i) as [|Hc]; [lia|exfalso].
    destruct (nth_error (ops p) (i - s)) as [o|] eqn:Eo; [|apply nth_error_None in Eo; lia]. specialize (Hd _ _ Eo). replace (s + (i - s)) with i in Hd by lia. congruence.
  Qed.
End Pieces.

(** ** Execution *)
Section Exec.
  Context {A T M : Type} (E : meaning A T M) (F : function) (a : A).
  Inductive uptoN (P : nat -> nat -> Prop) : nat -> outcome T M -> outcome T M -> Prop :=
  | un_out l i t m : ~ P l i -> uptoN P 0 (At l i t m) (At l i t m)
  | un_in n l i t m o : P l i -> uptoN P n (step E F a l i t m) o -> uptoN P (S n) (At l i t m) o
  | un_done m : uptoN P 0 (Done m) (Done m)
  | un_failed : uptoN P 0 Failed Failed.
  Lemma upto_N : forall P x o, upto E F a P x o <-> exists n, uptoN P n x o.
  Proof.
    intros P x o. split.
    - induction 1; [exists 0; now constructor| |exists 0; constructor|exists 0; constructor]. destruct IHupto as [n Hn]. exists (S n). now constructor.
    - intros [n H]. induction H; [now constructor|now constructor|constructor|constructor].
  Qed.
  Lemma upto_det : forall P x o, upto E F a P x o -> forall o', upto E F a P x o' -> o = o'.
  Proof. induction 1; intros o' H'; inversion H'; subst; auto; contradiction. Qed.

  (** The instructions of a piece. *)
  Lemma run_ops_steps : forall (P : nat -> nat -> Prop) l items tm os s t m, nth_error F l = Some (items, tm) ->
    (forall j o, nth_error os j = Some o -> nth_error items (s + j) = Some (Do o)) -> (forall j, j < length os -> P l (s + j)) ->
    match run_ops E a os t m with
    | Some (t', m') => (forall o, upto E F a P (At l (s + length os) t' m') o -> upto E F a P (At l s t m) o) /\
        (forall n o, uptoN P n (At l s t m) o -> exists n', n' <= n /\ uptoN P n' (At l (s + length os) t' m') o)
    | None => upto E F a P (At l s t m) Failed
    end.
  Proof.
    intros P l items tm os. induction os as [|o os IH]; intros s t m Hl Hd HP; cbn [run_ops length].
    - rewrite Nat.add_0_r. split; [auto|]. intros n o H. exists n. auto.
    - pose proof (Hd 0 o eq_refl) as H0. rewrite Nat.add_0_r in H0. pose proof (HP 0 ltac:(cbn; lia)) as HP0. rewrite Nat.add_0_r in HP0.
      assert (Hstep : step E F a l s t m = match act E o a t m with Some (t', m') => At l (S s) t' m' | None => Failed end) by (unfold step; now rewrite Hl, H0).
      destruct (act E o a t m) as [[t1 m1]|].
      + specialize (IH (S s) t1 m1 Hl). assert (IH' := IH (fun j o' Hj => eq_trans (f_equal (nth_error items) (Nat.add_succ_comm s j)) (Hd (S j) o' Hj))
          (fun j Hj => eq_ind_r (fun x => P l x) (HP (S j) (proj1 (Nat.succ_lt_mono _ _) Hj)) (Nat.add_succ_comm s j))). clear IH.
        destruct (run_ops E a os t1 m1) as [[t2 m2]|].
        * destruct IH' as [I1 I2]. replace (s + S (length os)) with (S s + length os) by lia. split.
          -- intros o' Ho. constructor; [exact HP0|]. rewrite Hstep. auto.
          -- intros n o' Hn. inversion Hn as [|n0 ? ? ? ? ? _ Hu| |]; subst; [contradiction|]. rewrite Hstep in Hu. destruct (I2 _ _ Hu) as (n' & Hle & Hn'). exists n'. split; [lia|exact Hn'].
        * constructor; [exact HP0|]. now rewrite Hstep.
      + constructor; [exact HP0|]. rewrite Hstep. constructor.
  Qed.
  (** The end of a piece. *)
  Lemma next_step : forall l s p t m, find_piece (pieces F) (l, s) = Some p ->
    step E F a l (s + length (ops p)) t m = match next E a (l, s) p t m with Some ((d, i), t') => At d i t' m | None => Done m end.
  Proof.
    intros l s p t m H. destruct (find_describes F l s p H) as (items & tm & El & (_ & Hd) & _). unfold step, next. rewrite El.
    destruct (con p) as [[k e]|].
    - destruct Hd as [Hn ->]. rewrite Hn. cbn. reflexivity.
    - destruct Hd as [Hn ->]. replace (nth_error items (s + length (ops p))) with (@None item) by (symmetry; apply nth_error_None; lia).
      destruct tm as [d|c d e|]; cbn; [reflexivity| |reflexivity]. destruct (test E c a t m); reflexivity.
  Qed.
  Lemma next_start : forall l s p t m d i t', find_piece (pieces F) (l, s) = Some p -> next E a (l, s) p t m = Some ((d, i), t') -> is_start F d i.
  Proof.
    intros l s p t m d i t' H Hn. destruct (find_describes F l s p H) as (items & tm & El & (_ & Hd) & _). unfold next in Hn.
    destruct (con p) as [[k e]|].
    - destruct Hd as [Hc Hp]. rewrite Hp in Hn. injection Hn as <- <- _. right. exists (s + length (ops p)), k, e. split; [reflexivity|]. exists items, tm. auto.
    - destruct Hd as [_ Hp]. rewrite Hp in Hn. destruct tm as [x|c x y|]; cbn in Hn; [|destruct (test E c a t m)|discriminate]; injection Hn as <- <- _; now left.
  Qed.

  (** ** Expressions *)
  Section Eval.
    Context (P : nat -> nat -> Prop) (region : list label).
    Hypothesis Hin : forall l s p, mem_label (l, s) region = true -> find_piece (pieces F) (l, s) = Some p -> forall j, j <= length (ops p) -> P l (s + j).
    Hypothesis Hout : forall l s, is_start F l s -> mem_label (l, s) region = false -> ~ P l s.
    Hypothesis Hex : forall x, mem_label x region = true -> find_piece (pieces F) x <> None.
    Context (lt st : nat) (pt : piece) (k : kind) (e : nat).
    Hypothesis Hpt : find_piece (pieces F) (lt, st) = Some pt.
    Hypothesis Hcon : con pt = Some (k, e).
    Hypothesis Htar : mem_label (lt, st) region = true.
    Let it := st + length (ops pt).
    Let Q := fun l i => P l i /\ ~ (l = lt /\ i = it).
    Definition classify (o : outcome T M) (r : value) : Prop :=
      match o with
      | At l i t m => r = Value (if (l =? lt) && (i =? it) then test E e a t m else true)
      | Done _ => r = Value true
      | Failed => r = Fails
      end.
    (** Only one piece reaches the position of the contract. *)
    Lemma target_unique : forall l s p, find_piece (pieces F) (l, s) = Some p -> l = lt -> forall j, j <= length (ops p) -> s + j = it -> (l, s) = (lt, st) /\ j = length (ops p).
    Proof.
      intros l s p H -> j Hj Hs. destruct (lt_eq_lt_dec s st) as [[Hlt|Heq]|Hlt].
      - exfalso. destruct (find_describes F _ _ _ Hpt) as (_ & _ & _ & _ & Hst). pose proof (starts_apart F lt s p st H Hst Hlt). unfold it in Hs. lia.
      - subst s. assert (p = pt) by congruence. subst p. unfold it in Hs. split; [reflexivity|lia].
      - exfalso. destruct (find_describes F _ _ _ H) as (_ & _ & _ & _ & Hst). pose proof (starts_apart F lt st pt s Hpt Hst Hlt). unfold it in Hs. lia.
    Qed.
    Lemma ops_in_Q : forall l s p, mem_label (l, s) region = true -> find_piece (pieces F) (l, s) = Some p -> forall j, j < length (ops p) -> Q l (s + j).
    Proof. intros l s p Hm H j Hj. split; [eapply Hin; eauto; lia|]. intros [-> Hs]. destruct (target_unique _ _ _ H eq_refl j ltac:(lia) Hs) as [_ ->]. lia. Qed.
    Lemma end_Q : forall l s p, mem_label (l, s) region = true -> find_piece (pieces F) (l, s) = Some p -> (l, s) <> (lt, st) -> Q l (s + length (ops p)).
    Proof. intros l s p Hm H Hne. split; [eapply Hin; eauto|]. intros [-> Hs]. destruct (target_unique _ _ _ H eq_refl _ (le_n _) Hs) as [Hc _]. contradiction. Qed.
    Lemma not_region : forall l s t m, is_start F l s -> mem_label (l, s) region = false -> uptoN Q 0 (At l s t m) (At l s t m) /\ classify (At l s t m) (Value true).
    Proof.
      intros l s t m Hs Hm. split; [constructor; intros [HP _]; exact (Hout l s Hs Hm HP)|]. cbn.
      destruct ((l =? lt) && (s =? it)) eqn:Eq; [|reflexivity]. exfalso. apply andb_true_iff in Eq as [E1 E2]. apply Nat.eqb_eq in E1. apply Nat.eqb_eq in E2. subst l s.
      (* a contract is not the start of a piece that is not itself *)
      destruct (find_start F lt it Hs) as [p Hp].
      { destruct (find_describes F _ _ _ Hpt) as (i' & t' & El & _). congruence. }
      destruct (target_unique lt it p Hp eq_refl 0 ltac:(lia) ltac:(lia)) as [[= Hst] Hz].
      rewrite <- Hst in Htar. congruence.
    Qed.
    Lemma eval_sound : forall fuel l s t m r, is_start F l s -> eval E (pieces F) a fuel region (lt, st) (l, s) t m = Some r ->
      exists o, upto E F a Q (At l s t m) o /\ classify o r.
    Proof.
      induction fuel as [|fuel IH]; intros l s t m r Hs H; [discriminate|]. cbn [eval] in H.
      destruct (mem_label (l, s) region) eqn:Em.
      2:{ injection H as <-. exists (At l s t m). destruct (not_region l s t m Hs Em) as [H1 H2]. split; [apply upto_N; eauto|exact H2]. }
      destruct (find_piece (pieces F) (l, s)) as [p|] eqn:Ep; [|exfalso; exact (Hex _ Em Ep)].
      destruct (find_describes F l s p Ep) as (items & tm & El & (Hd & _) & _).
      pose proof (run_ops_steps Q l items tm (ops p) s t m El Hd (ops_in_Q l s p Em Ep)) as Hr.
      destruct (run_ops E a (ops p) t m) as [[t' m']|]; [|injection H as <-; exists Failed; split; [exact Hr|reflexivity]].
      destruct Hr as [Hr _]. destruct (label_eqb (l, s) (lt, st)) eqn:Ee.
      - apply label_eqb_eq in Ee. injection Ee as E1 E2. subst l s. assert (p = pt) by congruence. subst p. rewrite Hcon in H. injection H as <-.
        exists (At lt it t' m'). split; [apply Hr; constructor; unfold Q, it; tauto|]. cbn. now rewrite !Nat.eqb_refl.
      - assert (Hne : (l, s) <> (lt, st)) by (intros Hc; rewrite Hc, label_eqb_refl in Ee; discriminate).
        assert (HQ := end_Q l s p Em Ep Hne). pose proof (next_step l s p t' m' Ep) as Hn. pose proof (next_start l s p t' m') as Hns.
        assert (H' : match next E a (l, s) p t' m' with Some (y, t2) => eval E (pieces F) a fuel region (lt, st) y t2 m' | None => Some (Value true) end = Some r) by (destruct (con p) as [[? ?]|]; exact H).
        clear H. destruct (next E a (l, s) p t' m') as [[[d i] t2]|].
        + destruct (IH d i t2 m' r (Hns d i t2 Ep eq_refl) H') as (o & Ho & Hc). exists o. split; [|exact Hc]. apply Hr. constructor; [exact HQ|]. now rewrite Hn.
        + injection H' as <-. exists (Done m'). split; [|reflexivity]. apply Hr. constructor; [exact HQ|]. rewrite Hn. constructor.
    Qed.
    Lemma eval_complete : forall n l s t m o, is_start F l s -> uptoN Q n (At l s t m) o ->
      exists fuel r, eval E (pieces F) a fuel region (lt, st) (l, s) t m = Some r /\ classify o r.
    Proof.
      induction n as [n IH] using (well_founded_induction lt_wf). intros l s t m o Hs H.
      destruct (mem_label (l, s) region) eqn:Em.
      2:{ exists 1. cbn [eval]. rewrite Em. exists (Value true). split; [reflexivity|]. destruct (not_region l s t m Hs Em) as [H1 H2].
          assert (o = At l s t m) as -> by (eapply upto_det; apply upto_N; eauto). exact H2. }
      destruct (find_piece (pieces F) (l, s)) as [p|] eqn:Ep; [|exfalso; exact (Hex _ Em Ep)].
      destruct (find_describes F l s p Ep) as (items & tm & El & (Hd & _) & _).
      pose proof (run_ops_steps Q l items tm (ops p) s t m El Hd (ops_in_Q l s p Em Ep)) as Hr.
      destruct (run_ops E a (ops p) t m) as [[t' m']|] eqn:Eo.
      2:{ exists 1. cbn [eval]. rewrite Em, Ep, Eo. exists Fails. split; [reflexivity|].
          assert (o = Failed) as -> by (eapply upto_det; [apply upto_N; eauto|exact Hr]). reflexivity. }
      destruct Hr as [_ Hr]. destruct (Hr n o H) as (n' & Hle & Hn'). clear Hr. destruct (label_eqb (l, s) (lt, st)) eqn:Ee.
      - exists 1. cbn [eval]. rewrite Em, Ep, Eo, Ee. apply label_eqb_eq in Ee. injection Ee as E1 E2. subst l s. assert (p = pt) by congruence. subst p. rewrite Hcon.
        eexists. split; [reflexivity|]. inversion Hn'; subst; [|exfalso; match goal with HQ : Q _ _ |- _ => unfold Q, it in HQ; tauto end].
        cbn. unfold it. now rewrite !Nat.eqb_refl.
      - assert (Hne : (l, s) <> (lt, st)) by (intros Hc; rewrite Hc, label_eqb_refl in Ee; discriminate).
        assert (HQ := end_Q l s p Em Ep Hne). pose proof (next_step l s p t' m' Ep) as Hn. pose proof (next_start l s p t' m') as Hns.
        inversion Hn'; subst; [contradiction|]. rewrite Hn in *.
        destruct (next E a (l, s) p t' m') as [[[d i] t2]|] eqn:En.
        + match goal with Hu : uptoN Q ?k (At d i t2 m') o |- _ => destruct (IH k ltac:(lia) d i t2 m' o (Hns d i t2 Ep eq_refl) Hu) as (fuel & r & Hf & Hc) end.
          exists (S fuel), r. split; [|exact Hc]. cbn [eval]. rewrite Em, Ep, Eo, Ee, En. destruct (con p) as [[? ?]|]; exact Hf.
        + exists 1, (Value true). cbn [eval]. rewrite Em, Ep, Eo, Ee, En. split; [destruct (con p) as [[? ?]|]; reflexivity|].
          match goal with Hu : uptoN Q _ (Done m') o |- _ => inversion Hu; subst end. reflexivity.
    Qed.
    Theorem eval_value : forall l s t m v, is_start F l s ->
      (exists fuel, eval E (pieces F) a fuel region (lt, st) (l, s) t m = Some (Value v)) <-> value_from E F a P (At l s t m) lt it v.
    Proof.
      intros l s t m v Hs. pose proof (find_contract_at F _ _ _ _ _ Hpt Hcon) as Hca. split.
      - intros [fuel H]. destruct (eval_sound fuel l s t m _ Hs H) as (o & Ho & Hc). exists k, e, o. split; [exact Hca|]. split; [exact Ho|].
        destruct o as [l' i' t' m'|m'|]; cbn in Hc; [|congruence|discriminate]. injection Hc as ->. destruct (_ && _); reflexivity.
      - intros (k' & e' & o & Hca' & Ho & Hv). assert (e' = e) as ->.
        { destruct Hca as (i1 & t1 & E1 & H1), Hca' as (i2 & t2 & E2 & H2). rewrite E1 in E2. injection E2 as <- <-. unfold it in *. congruence. }
        apply upto_N in Ho as [n Ho]. destruct (eval_complete n l s t m o Hs Ho) as (fuel & r & Hf & Hc). exists fuel. rewrite Hf. f_equal.
        destruct o as [l' i' t' m'|m'|]; cbn in Hc; [|subst; reflexivity|contradiction]. rewrite Hc. f_equal. destruct (_ && _); auto.
    Qed.
  End Eval.

  (** ** The code that remains *)
  Lemma execute_sound : forall fuel l s t m r, is_start F l s -> execute E (pieces F) a fuel (l, s) t m = Some r ->
    upto E F a (fun _ _ => True) (At l s t m) (match r with Ended m' => Done m' | Fault => Failed end).
  Proof.
    induction fuel as [|fuel IH]; intros l s t m r Hs H; [discriminate|]. cbn [execute] in H.
    destruct (find_piece (pieces F) (l, s)) as [p|] eqn:Ep.
    2:{ injection H as <-. constructor; [exact I|]. replace (step E F a l s t m) with (@Failed T M); [constructor|].
        unfold step. destruct (nth_error F l) eqn:El; [|reflexivity]. destruct (find_start F l s Hs ltac:(congruence)) as [p Hp]. congruence. }
    destruct (find_describes F l s p Ep) as (items & tm & El & (Hd & _) & _).
    pose proof (run_ops_steps (fun _ _ => True) l items tm (ops p) s t m El Hd (fun _ _ => I)) as Hr.
    destruct (run_ops E a (ops p) t m) as [[t' m']|]; [|injection H as <-; exact Hr]. destruct Hr as [Hr _]. apply Hr. constructor; [exact I|].
    rewrite (next_step l s p t' m' Ep). pose proof (next_start l s p t' m') as Hns.
    destruct (next E a (l, s) p t' m') as [[[d i] t2]|]; [eauto|injection H as <-; constructor].
  Qed.
  Lemma execute_complete : forall n l s t m o, is_start F l s -> uptoN (fun _ _ => True) n (At l s t m) o ->
    exists fuel r, execute E (pieces F) a fuel (l, s) t m = Some r /\ o = match r with Ended m' => Done m' | Fault => Failed end.
  Proof.
    induction n as [n IH] using (well_founded_induction lt_wf). intros l s t m o Hs H.
    destruct (find_piece (pieces F) (l, s)) as [p|] eqn:Ep.
    2:{ exists 1, Fault. cbn [execute]. rewrite Ep. split; [reflexivity|]. inversion H; subst; [tauto|].
        match goal with Hu : uptoN _ _ (step E F a l s t m) o |- _ => replace (step E F a l s t m) with (@Failed T M) in Hu; [inversion Hu; reflexivity|] end.
        unfold step. destruct (nth_error F l) eqn:El; [|reflexivity]. destruct (find_start F l s Hs ltac:(congruence)) as [p Hp]. congruence. }
    destruct (find_describes F l s p Ep) as (items & tm & El & (Hd & _) & _).
    pose proof (run_ops_steps (fun _ _ => True) l items tm (ops p) s t m El Hd (fun _ _ => I)) as Hr.
    destruct (run_ops E a (ops p) t m) as [[t' m']|] eqn:Eo.
    2:{ exists 1, Fault. cbn [execute]. rewrite Ep, Eo. split; [reflexivity|]. eapply upto_det; [apply upto_N; eauto|exact Hr]. }
    destruct Hr as [_ Hr]. destruct (Hr n o H) as (n' & Hle & Hn'). inversion Hn'; subst; [tauto|].
    rewrite (next_step l s p t' m' Ep) in *. pose proof (next_start l s p t' m') as Hns.
    destruct (next E a (l, s) p t' m') as [[[d i] t2]|] eqn:En.
    - match goal with Hu : uptoN _ ?k (At d i t2 m') o |- _ => destruct (IH k ltac:(lia) d i t2 m' o (Hns d i t2 Ep eq_refl) Hu) as (fuel & r & Hf & Hc) end.
      exists (S fuel), r. split; [|exact Hc]. cbn [execute]. now rewrite Ep, Eo, En.
    - exists 1, (Ended m'). cbn [execute]. rewrite Ep, Eo, En. split; [reflexivity|]. match goal with Hu : uptoN _ _ (Done m') o |- _ => inversion Hu; subst end. reflexivity.
  Qed.
  Lemma upto_then : forall P x o, upto E F a P x o -> forall o', upto E F a (fun _ _ => True) x o' <-> upto E F a (fun _ _ => True) o o'.
  Proof.
    induction 1; intros o'; [tauto| |tauto|tauto]. rewrite <- IHupto. split; intros H1; [inversion H1; subst; [tauto|assumption]|now constructor].
  Qed.
End Exec.
