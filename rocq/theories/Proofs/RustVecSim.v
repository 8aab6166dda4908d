(** Proofs about programs over the vectors of Model/RustVec.v. *)
From Coq Require Import ZArith List Bool Lia Permutation.
From Verif.Spec Require Import RustVec.
From Verif.Model Require Import RustVec.
From Verif.Proofs Require Import RustHeap RustVecProofs RustVecMore.
Import ListNotations.
Open Scope list_scope.
Open Scope Z_scope.

Section Env.
  Context {O : Type}.
  Implicit Types e : env O.
  Lemma get_put_eq x o e : get x e <> None -> get x (put x o e) = Some o.
  Proof. induction e as [|[y o'] e IH]; cbn; [congruence|]. destruct (Nat.eqb x y) eqn:E; cbn; rewrite E; auto. Qed.
  Lemma get_put_neq x z o e : z <> x -> get z (put x o e) = get z e.
  Proof.
    intros N. induction e as [|[y o'] e IH]; cbn; auto. destruct (Nat.eqb x y) eqn:E; cbn; [|rewrite IH; auto].
    apply Nat.eqb_eq in E; subst y. destruct (Nat.eqb z x) eqn:F; auto. apply Nat.eqb_eq in F; congruence.
  Qed.
  Lemma keys_put x o e : map fst (put x o e) = map fst e.
  Proof. induction e as [|[y o'] e IH]; cbn; auto. destruct (Nat.eqb x y); cbn; congruence. Qed.
  Lemma put_same x o e : get x e = Some o -> put x o e = e.
  Proof.
    induction e as [|[y o'] e IH]; cbn; auto. destruct (Nat.eqb x y) eqn:E; [|intros; f_equal; auto].
    intros [= ->]. auto.
  Qed.
  Lemma get_none x e : get x e = None <-> ~ In x (map fst e).
  Proof.
    induction e as [|[y o'] e IH]; cbn; [tauto|]. destruct (Nat.eqb x y) eqn:E.
    - apply Nat.eqb_eq in E; subst. split; [discriminate|intros H; exfalso; auto].
    - apply Nat.eqb_neq in E. rewrite IH. split; [intros H [->|]; auto|intros H J; apply H; auto].
  Qed.
  Lemma keys_del x e : forall {P} (e' : env P), map fst e = map fst e' -> map fst (del x e) = map fst (del x e').
  Proof.
    intros P. induction e as [|[y o'] e IH]; intros [|[y' p] e'] H; cbn in *; try discriminate; auto.
    injection H as -> H. destruct (Nat.eqb x y'); cbn; auto. f_equal; auto.
  Qed.
  Lemma del_in x z e : In z (map fst (del x e)) -> In z (map fst e).
  Proof. induction e as [|[y o'] e IH]; cbn; auto. destruct (Nat.eqb x y); cbn; [auto|]. intros [->|H]; auto. Qed.
  Lemma nodup_del x e : NoDup (map fst e) -> NoDup (map fst (del x e)).
  Proof.
    induction e as [|[y o'] e IH]; cbn; auto. intros H. inversion H; subst. destruct (Nat.eqb x y); cbn; auto.
    constructor; auto. intros J. apply del_in in J; auto.
  Qed.
  Lemma get_del_eq x e : NoDup (map fst e) -> get x (del x e) = None.
  Proof.
    induction e as [|[y o'] e IH]; cbn; auto. intros H. inversion H; subst. destruct (Nat.eqb x y) eqn:E; cbn.
    - apply Nat.eqb_eq in E; subst. apply get_none; auto.
    - rewrite E; auto.
  Qed.
  Lemma get_del_neq x z e : z <> x -> get z (del x e) = get z e.
  Proof.
    intros N. induction e as [|[y o'] e IH]; cbn; auto. destruct (Nat.eqb x y) eqn:E; cbn; [|rewrite IH; auto].
    apply Nat.eqb_eq in E; subst y. destruct (Nat.eqb z x) eqn:F; auto. apply Nat.eqb_eq in F; congruence.
  Qed.
  Lemma del_put_neq x y o e : x <> y -> del x (put y o e) = put y o (del x e).
  Proof.
    intros N. induction e as [|[z o'] e IH]; cbn; auto.
    destruct (Nat.eqb y z) eqn:E; destruct (Nat.eqb x z) eqn:F; cbn; rewrite ?E, ?F; auto.
    - apply Nat.eqb_eq in E, F; congruence.
    - rewrite IH; auto.
  Qed.
  Lemma perm_put {B} (f : O -> B) x o e : get x e <> None ->
    Permutation (map (fun b => f (snd b)) (put x o e)) (f o :: map (fun b => f (snd b)) (del x e)).
  Proof.
    induction e as [|[y o'] e IH]; cbn; [congruence|]. intros H. destruct (Nat.eqb x y) eqn:E; cbn; auto.
    rewrite IH; auto. constructor.
  Qed.
  Lemma perm_get {B} (f : O -> B) x o e : get x e = Some o ->
    Permutation (map (fun b => f (snd b)) e) (f o :: map (fun b => f (snd b)) (del x e)).
  Proof. intros H. rewrite <- (put_same x o e H) at 1. apply perm_put. congruence. Qed.
  Lemma get_in {B} (f : O -> B) x o e : get x e = Some o -> In (f o) (map (fun b => f (snd b)) e).
  Proof. intros H. eapply Permutation_in; [symmetry; apply perm_get; eauto|left; auto]. Qed.
End Env.
Lemma keys_get {O P} (e : env O) (e' : env P) x o : map fst e = map fst e' -> get x e = Some o -> exists a, get x e' = Some a.
Proof.
  intros K G. destruct (get x e') eqn:E; eauto. apply get_none in E. rewrite <- K in E. apply get_none in E. congruence.
Qed.
Lemma keys_none {O P} (e : env O) (e' : env P) x : map fst e = map fst e' -> get x e = None -> get x e' = None.
Proof. rewrite !get_none. intros ->. auto. Qed.

Section Sim.
  Context {T : Type} (sz : Z) (enc : T -> list Z) (dec : list Z -> T).
  Context (Sz : 0 < sz) (Small : sz < 2 ^ 58) (Enc : forall t, Z.of_nat (List.length (enc t)) = sz) (Dec : forall t, dec (enc t) = t).
  Notation heap := (@heap T).
  Notation elem := (option T).
  Notation astep := (astep true sz).
  Notation step := (step sz enc dec).

  Definition blk (o : obj) : Z * Z := match o with OVec v => own sz v | OIter i => iown sz i | OBox p => (p, sz) end.
  Definition orel (h : heap) (o : obj) (a : aobj T) : Prop :=
    match o, a with
    | OVec v, AVec l cap => vrep sz enc h v l cap
    | OIter i, AIter l => irep sz enc h i l
    | OBox p, ABox t => holds sz enc h p (Some t)
    | _, _ => False
    end.
  Lemma orel_ext h h' o a : same_on [blk o] h h' -> orel h o a -> orel h' o a.
  Proof.
    destruct o, a; cbn [orel blk]; auto; intros S H.
    - eapply vrep_ext; eauto.
    - eapply irep_ext; eauto.
    - eapply holds_ext with (h := h); [|exact H]. intros k Hk. apply (S (p, sz)); [left; auto|cbn; lia].
  Qed.
  Definition blks (e : env obj) : list (Z * Z) := map (fun b => blk (snd b)) e.
  Definition erel (h : heap) (e : env obj) (ae : env (aobj T)) : Prop :=
    map fst e = map fst ae /\ NoDup (map fst e) /\ forall x o a, get x e = Some o -> get x ae = Some a -> orel h o a.

  Section Fixed.
    Context (h0 : heap).
    Notation L0 := (live h0).
    Definition Inv (h : heap) (e : env obj) (s : astate T) : Prop :=
      erel h e (avars s) /\
      (exists K, List.length K = leaked s /\ state h (blks e) (K ++ L0)) /\
      same_on L0 h0 h /\ exists ts, Forall2 known (dropped s) ts /\ log h = ts ++ log h0.

    Lemma state_perm (h : heap) B R B' R' : Permutation (B ++ R) (B' ++ R') -> state h B R -> state h B' R'.
    Proof. intros P [W Q]. split; auto. rewrite Q; auto. Qed.

    Lemma erel_ext h h' e ae : same_on (blks e) h h' -> erel h e ae -> erel h' e ae.
    Proof.
      intros S [K [N R]]. split; auto. split; auto. intros x o a G1 G2. eapply orel_ext; [|eapply R; eauto].
      eapply same_on_incl; [|exact S]. intros b [<-|[]]. apply (get_in blk x o e G1).
    Qed.
    Lemma erel_put h e ae x o a : erel h (del x e) (del x ae) -> map fst e = map fst ae -> NoDup (map fst e) -> get x e <> None -> get x ae <> None ->
      orel h o a -> erel h (put x o e) (put x a ae).
    Proof.
      intros [K [N R]] K' N' G1 G2 H. split; [rewrite !keys_put; auto|]. split; [rewrite keys_put; auto|].
      intros z o' a'. destruct (Nat.eq_dec z x) as [->|NE].
      - rewrite !get_put_eq by auto. intros [= <-] [= <-]. auto.
      - rewrite !get_put_neq by auto. intros H1 H2. apply (R z); rewrite get_del_neq; auto.
    Qed.
    Lemma erel_del h e ae x : erel h e ae -> erel h (del x e) (del x ae).
    Proof.
      intros [K [N R]]. split; [apply keys_del; auto|]. split; [apply nodup_del; auto|].
      intros z o a. destruct (Nat.eq_dec z x) as [->|NE].
      - rewrite get_del_eq by auto. discriminate.
      - rewrite !get_del_neq by auto. apply R.
    Qed.

    (** Operations on one variable *)
    Lemma focus h e s x o : Inv h e s -> get x e = Some o ->
      exists a R, get x (avars s) = Some a /\ state h [blk o] R /\ orel h o a /\
        (forall h' o' a' K' ds ts, state h' [blk o'] (K' ++ R) -> orel h' o' a' -> same_on R h h' ->
           Forall2 known ds ts -> log h' = ts ++ log h ->
           Inv h' (put x o' e) (AState (put x a' (avars s)) (ds ++ dropped s) (List.length K' + leaked s))) /\
        (forall h' K' ds ts, state h' [] (K' ++ R) -> same_on R h h' -> Forall2 known ds ts -> log h' = ts ++ log h ->
           Inv h' (del x e) (AState (del x (avars s)) (ds ++ dropped s) (List.length K' + leaked s))).
    Proof.
      intros [[EK [EN ER]] [[K [LK S]] [M [ts0 [F0 G0]]]]] G.
      destruct (keys_get _ _ _ _ EK G) as [a Ga]. exists a, (blks (del x e) ++ K ++ L0). split; auto.
      assert (D : erel h (del x e) (del x (avars s))) by (apply erel_del; split; auto).
      split. { eapply state_perm; [|exact S]. cbn. apply (perm_get blk) in G. unfold blks. rewrite G. reflexivity. }
      split; [eapply ER; eauto|]. split.
      - intros h' o' a' K' ds ts S' O' M' F' G'.
        split; [|split; [|split]]; cbn [avars dropped leaked].
        + apply erel_put; auto; try congruence. eapply erel_ext; [|exact D]. eapply same_on_incl; [|exact M']. intros b Hb. apply in_or_app; auto.
        + exists (K' ++ K). split; [rewrite app_length; lia|]. eapply state_perm; [|exact S'].
          unfold blks at 2. rewrite (perm_put blk) by congruence. cbn. constructor. fold (blks (del x e)).
          rewrite <- app_assoc. rewrite !app_assoc. apply Permutation_app_tail. apply Permutation_app_tail. apply Permutation_app_comm.
        + eapply same_on_trans; [exact M|]. eapply same_on_incl; [|exact M']. intros b Hb. apply in_or_app; right. apply in_or_app; auto.
        + exists (ts ++ ts0). split; [apply Forall2_app; auto|]. rewrite G', G0, app_assoc; auto.
      - intros h' K' ds ts S' M' F' G'.
        split; [|split; [|split]]; cbn [avars dropped leaked].
        + eapply erel_ext; [|exact D]. eapply same_on_incl; [|exact M']. intros b Hb. apply in_or_app; auto.
        + exists (K' ++ K). split; [rewrite app_length; lia|]. eapply state_perm; [|exact S'].
          cbn. rewrite <- app_assoc. rewrite !app_assoc. apply Permutation_app_tail. apply Permutation_app_tail. apply Permutation_app_comm.
        + eapply same_on_trans; [exact M|]. eapply same_on_incl; [|exact M']. intros b Hb. apply in_or_app; right. apply in_or_app; auto.
        + exists (ts ++ ts0). split; [apply Forall2_app; auto|]. rewrite G', G0, app_assoc; auto.
    Qed.

    (** A new variable *)
    Lemma create h e s x : Inv h e s -> get x e = None ->
      get x (avars s) = None /\ exists R, state h [] R /\
        (forall h' o' a' K', state h' [blk o'] (K' ++ R) -> orel h' o' a' -> same_on R h h' -> log h' = log h ->
           Inv h' ((x, o') :: e) (AState ((x, a') :: avars s) (dropped s) (List.length K' + leaked s))).
    Proof.
      intros [[EK [EN ER]] [[K [LK S]] [M [ts0 [F0 G0]]]]] G. split; [eapply keys_none; eauto|].
      exists (blks e ++ K ++ L0). split; [exact S|].
      intros h' o' a' K' S' O' M' G'.
      split; [|split; [|split]]; cbn [avars dropped leaked].
      - split; [cbn; congruence|]. split; [cbn; constructor; auto; apply get_none; auto|].
        assert (D : erel h' e (avars s)).
        { eapply erel_ext; [|split; eauto]. eapply same_on_incl; [|exact M']. intros b Hb. apply in_or_app; auto. }
        intros z o a. cbn. destruct (Nat.eqb z x); [intros [= <-] [= <-]; auto|]. apply D.
      - exists (K' ++ K). split; [rewrite app_length; lia|]. eapply state_perm; [|exact S'].
        cbn. constructor. fold (blks e). rewrite <- app_assoc. rewrite !app_assoc. apply Permutation_app_tail. apply Permutation_app_tail. apply Permutation_app_comm.
      - eapply same_on_trans; [exact M|]. eapply same_on_incl; [|exact M']. intros b Hb. apply in_or_app; right. apply in_or_app; auto.
      - exists ts0. split; auto. congruence.
    Qed.

    (** Two variables *)
    Lemma focus2 h e s x y v w : Inv h e s -> x <> y -> get x e = Some v -> get y e = Some w ->
      exists a b R, get x (avars s) = Some a /\ get y (avars s) = Some b /\ state h [blk v] (blk w :: R) /\ orel h v a /\ orel h w b /\
        (forall h' v' w' a' b' K', state h' [blk v'] (blk w' :: K' ++ R) -> orel h' v' a' -> orel h' w' b' -> same_on R h h' -> log h' = log h ->
           Inv h' (put x v' (put y w' e)) (AState (put x a' (put y b' (avars s))) (dropped s) (List.length K' + leaked s))).
    Proof.
      intros [[EK [EN ER]] [[K [LK S]] [M [ts0 [F0 G0]]]]] NE Gx Gy.
      destruct (keys_get _ _ _ _ EK Gx) as [a Ga]. destruct (keys_get _ _ _ _ EK Gy) as [b Gb].
      assert (Gy' : get y (del x e) = Some w) by (rewrite get_del_neq; auto).
      exists a, b, (blks (del y (del x e)) ++ K ++ L0). split; auto. split; auto.
      assert (D : erel h (del x e) (del x (avars s))) by (apply erel_del; split; auto).
      assert (D2 : erel h (del y (del x e)) (del y (del x (avars s)))) by (apply erel_del; auto).
      split. { eapply state_perm; [|exact S]. cbn. apply (perm_get blk) in Gx, Gy'. unfold blks. rewrite Gx, Gy'. reflexivity. }
      split; [eapply ER; eauto|]. split; [eapply ER; eauto|].
      intros h' v' w' a' b' K' S' O1 O2 M' G'.
      split; [|split; [|split]]; cbn [avars dropped leaked].
      - apply erel_put; auto; rewrite ?keys_put; auto; rewrite ?get_put_neq by auto; try congruence.
        rewrite !del_put_neq by auto. destruct D as [DK [DN DR]].
        apply erel_put; auto; rewrite ?get_del_neq by auto; try congruence.
        eapply erel_ext; [|exact D2]. eapply same_on_incl; [|exact M']. intros z Hz. apply in_or_app; auto.
      - exists (K' ++ K). split; [rewrite app_length; lia|]. eapply state_perm; [|exact S'].
        unfold blks at 2. rewrite (perm_put blk) by (rewrite get_put_neq; congruence). rewrite del_put_neq by auto.
        rewrite (perm_put blk) by congruence.
        cbn. constructor. constructor. fold (blks (del y (del x e))).
        rewrite <- app_assoc. rewrite !app_assoc. apply Permutation_app_tail. apply Permutation_app_tail. apply Permutation_app_comm.
      - eapply same_on_trans; [exact M|]. eapply same_on_incl; [|exact M']. intros z Hz. apply in_or_app; right. apply in_or_app; auto.
      - exists ts0. split; auto. congruence.
    Qed.

    Definition agree {A B} (R : heap -> A -> B -> Prop) (m : outcome (heap * A)) (a : outcome B) : Prop :=
      match m, a with
      | Ok (h', r), Ok b => R h' r b
      | Blocked, _ => True
      | Panicked, Panicked => True
      | AssertFailed, AssertFailed => True
      | Rejected, Rejected => True
      | _, _ => False
      end.
    Lemma agree_sat {A B} (R : heap -> A -> B -> Prop) m h (b : B) : sat m h (fun h' r => R h' r b) -> agree R (m h) (Ok b).
    Proof. unfold sat, agree. destruct (m h) as [[h' r]| | | | |]; auto. Qed.
    Definition good_step (h' : heap) (r : env obj * obs T) (b : astate T * obs elem) : Prop := Inv h' (fst r) (fst b) /\ predicted (snd b) (snd r).

    Lemma Inv_same h e s : Inv h e s -> Inv h e (AState (avars s) (dropped s) (leaked s)).
    Proof. destruct s; auto. Qed.

    Lemma vec_case h e s x (P : outcome (heap * (env obj * obs T)) -> outcome (astate T * obs elem) -> Prop) f g :
      Inv h e s -> P Rejected Rejected ->
      (forall v l cap, get x e = Some (OVec v) -> get x (avars s) = Some (AVec l cap) -> P (f v h) (g l cap)) ->
      P (RustVec.with_vec x e f h) (Spec.RustVec.with_vec x s g).
    Proof.
      intros I PR H. unfold RustVec.with_vec, Spec.RustVec.with_vec, reject.
      destruct (get x e) as [o|] eqn:G.
      - destruct (focus h e s x o I G) as [a [R [Ga [S [O _]]]]]. rewrite Ga.
        destruct o, a; cbn in O; try contradiction; auto.
      - destruct I as [[EK _] _]. rewrite (keys_none _ _ _ EK G). auto.
    Qed.
    Lemma iter_case h e s x (P : outcome (heap * (env obj * obs T)) -> outcome (astate T * obs elem) -> Prop) f g :
      Inv h e s -> P Rejected Rejected ->
      (forall i l, get x e = Some (OIter i) -> get x (avars s) = Some (AIter l) -> P (f i h) (g l)) ->
      P (RustVec.with_iter x e f h) (match get x (avars s) with Some (AIter l) => g l | _ => Rejected end).
    Proof.
      intros I PR H. unfold RustVec.with_iter, reject.
      destruct (get x e) as [o|] eqn:G.
      - destruct (focus h e s x o I G) as [a [R [Ga [S [O _]]]]]. rewrite Ga.
        destruct o, a; cbn in O; try contradiction; auto.
      - destruct I as [[EK _] _]. rewrite (keys_none _ _ _ EK G). auto.
    Qed.

    Definition sized (o : op T) : Prop := match o with VecWithCapacity x n => 0 < n | _ => True end.

    Ltac fin := split; [|constructor].
    Theorem step_sim h e s o : Inv h e s -> sized o -> agree good_step (step e o h) (astep s o).
    Proof.
      intros I Ho. destruct o; cbn [RustVec.step Spec.RustVec.astep].
      - (* VecNew *)
        unfold fresh, declare. destruct (get x e) as [o|] eqn:G.
        + destruct (focus _ _ _ _ _ I G) as [a [R [Ga _]]]. rewrite Ga. exact Logic.I.
        + destruct (create _ _ _ _ I G) as [Ga [R [S C]]]. rewrite Ga. apply agree_sat.
          eapply sat_bind; [eapply (sat_vec_new sz enc); eauto|]. intros h' v [S' [V [B L]]]. apply sat_ret. fin.
          apply (C h' (OVec v) (AVec [] 32) []); auto. apply same_on_eq; auto.
      - (* VecWithCapacity *)
        unfold fresh, declare. destruct (get x e) as [o|] eqn:G.
        + destruct (focus _ _ _ _ _ I G) as [a [R [Ga _]]]. rewrite Ga. exact Logic.I.
        + destruct (create _ _ _ _ I G) as [Ga [R [S C]]]. rewrite Ga. cbn in Ho.
          destruct (2 ^ 64 <=? n * sz) eqn:Ov.
          * unfold vec_with_capacity, raw_with_capacity, mul, bind, panic. change USIZE with (2 ^ 64).
            apply Z.leb_le in Ov. destruct (n * sz <? 2 ^ 64) eqn:Lt; [apply Z.ltb_lt in Lt; lia|]. exact Logic.I.
          * apply Z.leb_gt in Ov. apply agree_sat.
            eapply sat_bind; [eapply (sat_new sz enc); eauto|]. intros h' v [S' [V [B L]]]. apply sat_ret. fin.
            apply (C h' (OVec v) (AVec [] n) []); auto. apply same_on_eq; auto.
      - (* VecOf *)
        destruct (pushes true ([], 32, O) (map Some l)) as [[l' cap] k] eqn:P.
        unfold fresh, declare. destruct (get x e) as [o|] eqn:G.
        + destruct (focus _ _ _ _ _ I G) as [a [R [Ga _]]]. rewrite Ga. exact Logic.I.
        + destruct (create _ _ _ _ I G) as [Ga [R [S C]]]. rewrite Ga. apply agree_sat.
          eapply sat_bind; [eapply sat_vec_of; eauto|]. intros h' v [K [LK [S' [V [M L]]]]]. apply sat_ret. fin. rewrite <- LK.
          apply (C h' (OVec v) (AVec l' cap) K); auto.
      - (* Push *)
        apply (vec_case h e s x (agree good_step)); [exact I|exact Logic.I|]. intros v l cap G Ga.
        destruct (focus _ _ _ _ _ I G) as [a [R [Ga' [S [V [U _]]]]]]. rewrite Ga in Ga'. injection Ga' as <-. cbn [orel] in V.
        destruct (push true (l, cap, O) (Some t)) as [[l' cap'] k] eqn:P. apply agree_sat.
        eapply sat_bind; [eapply sat_push with (e := Some t); eauto; reflexivity|].
        intros h' v' [k' [Ek [K [LK [S' [V' [M L]]]]]]]. apply sat_ret. fin. cbn [fst snd]. unfold update. replace k with (List.length K) by lia.
        apply (U h' (OVec v') (AVec l' cap') K [] []); auto.
      - (* Pop *)
        apply (vec_case h e s x (agree good_step)); [exact I|exact Logic.I|]. intros v l cap G Ga.
        destruct (focus _ _ _ _ _ I G) as [a [R [Ga' [S [V [U _]]]]]]. rewrite Ga in Ga'. injection Ga' as <-. cbn [orel] in V.
        destruct (rev l) as [|t r] eqn:Rl.
        + assert (l = []) by (rewrite <- (rev_involutive l), Rl; reflexivity). subst l.
          unfold bind. rewrite (sat_pop_none sz enc dec h v cap V). cbn. split; [|constructor]. cbn.
          rewrite put_same by auto. auto.
        + assert (l = rev r ++ [t]) by (rewrite <- (rev_involutive l), Rl; reflexivity). subst l. apply agree_sat.
          eapply sat_bind; [eapply sat_pop_some; eauto|].
          intros h' [v' o] [-> [t' [Eo [Kt [Ow Vf]]]]]. cbn [fst snd] in *. subst o. apply sat_ret. split; [|constructor; auto]. cbn [fst snd].
          apply (U h (OVec v') (AVec (rev r) cap) [] [] []); auto; [|apply same_on_refl]. cbn [blk app]. rewrite Ow. exact S.
      - (* Append *)
        destruct (Nat.eqb x y) eqn:Exy; [exact Logic.I|]. apply Nat.eqb_neq in Exy.
        apply (vec_case h e s x (agree good_step)); [exact I|exact Logic.I|]. intros v l cap Gx Gax.
        apply (vec_case h e s y (agree good_step)); [exact I|exact Logic.I|]. intros w l' cap' Gy Gay.
        destruct (focus2 _ _ _ _ _ _ _ I Exy Gx Gy) as [a [b [R [Ga' [Gb' [S [V [W U]]]]]]]].
        rewrite Gax in Ga'. injection Ga' as <-. rewrite Gay in Gb'. injection Gb' as <-. cbn [orel] in V, W.
        destruct (pushes true ([], 32, O) (rev l')) as [[d cd] kd] eqn:P1.
        destruct (pushes true (l, cap, O) (rev d)) as [[l'' cap''] kv] eqn:P2. apply agree_sat.
        eapply sat_bind; [eapply sat_append; eauto|].
        intros h' [v' w'] [K [LK [S' [V' [W' [M L]]]]]]. cbn [fst snd] in *. apply sat_ret. fin. cbn [fst snd]. rewrite <- LK.
        apply (U h' (OVec v') (OVec w') (AVec l'' cap'') (AVec [] cap') K); auto.
      - (* Insert *)
        apply (vec_case h e s x (agree good_step)); [exact I|exact Logic.I|]. intros v l cap G Ga.
        destruct (focus _ _ _ _ _ I G) as [a [R [Ga' [S [V [U _]]]]]]. rewrite Ga in Ga'. injection Ga' as <-. cbn [orel] in V.
        destruct (i <=? List.length l)%nat eqn:Hi.
        + apply Nat.leb_le in Hi. rewrite andb_true_r.
          assert (X := sat_insert sz enc Sz Enc h v l cap R i (Some t) t S V Hi eq_refl).
          destruct (len l =? cap); apply agree_sat; (eapply sat_bind; [exact X|]);
            intros h' v' [K [LK [S' [V' [M L]]]]]; apply sat_ret; fin; cbn [fst snd]; unfold update; rewrite <- LK.
          * apply (U h' (OVec v') (AVec (insert_at i (map (fun _ => None) l) (Some t)) (2 * cap)) K [] []); auto.
          * apply (U h' (OVec v') (AVec (insert_at i l (Some t)) cap) K [] []); auto.
        + apply Nat.leb_gt in Hi. unfold bind. rewrite (sat_insert_out sz enc h v l cap i t V Hi). exact Logic.I.
      - (* Remove *)
        apply (vec_case h e s x (agree good_step)); [exact I|exact Logic.I|]. intros v l cap G Ga.
        destruct (focus _ _ _ _ _ I G) as [a [R [Ga' [S [V [U _]]]]]]. rewrite Ga in Ga'. injection Ga' as <-. cbn [orel] in V.
        destruct (nth_error l i) as [t|] eqn:N.
        + apply agree_sat. eapply sat_bind; [eapply sat_remove; eauto|].
          intros h' [v' t'] [Kt [K [LK [S' [V' [M L]]]]]]. cbn [fst snd] in *. apply sat_ret. split; [|constructor; auto]. cbn [fst snd]. unfold update.
          replace (0 + leaked s)%nat with (List.length K + leaked s)%nat by lia.
          apply (U h' (OVec v') (AVec (remove_at i l) cap) K [] []); auto.
        + unfold bind. rewrite (sat_remove_out sz enc dec h v l cap i V N). exact Logic.I.
      - (* Len *)
        apply (vec_case h e s x (agree good_step)); [exact I|exact Logic.I|]. intros v l cap G Ga.
        destruct (focus _ _ _ _ _ I G) as [a [R [Ga' [S [V [U _]]]]]]. rewrite Ga in Ga'. injection Ga' as <-. cbn [orel] in V.
        cbn. split; [exact I|]. cbn. destruct V as [-> _]. constructor.
      - (* Get *)
        apply (vec_case h e s x (agree good_step)); [exact I|exact Logic.I|]. intros v l cap G Ga.
        destruct (focus _ _ _ _ _ I G) as [a [R [Ga' [S [V [U _]]]]]]. rewrite Ga in Ga'. injection Ga' as <-. cbn [orel] in V.
        destruct (nth_error l i) as [t|] eqn:N.
        + apply agree_sat. eapply sat_bind; [eapply sat_get; eauto|]. intros h' t' [-> Kt]. apply sat_ret. split; [exact I|constructor; auto].
        + unfold bind. rewrite (get_out sz enc dec h v l cap i V N). exact Logic.I.
      - (* Set_ *)
        apply (vec_case h e s x (agree good_step)); [exact I|exact Logic.I|]. intros v l cap G Ga.
        destruct (focus _ _ _ _ _ I G) as [a [R [Ga' [S [V [U _]]]]]]. rewrite Ga in Ga'. injection Ga' as <-. cbn [orel] in V.
        destruct (nth_error l i) as [t'|] eqn:N.
        + apply agree_sat. eapply sat_bind; [eapply sat_set; eauto|]. intros h' [] [S' [V' [M [t0 [K0 L]]]]]. apply sat_ret. fin. cbn [fst snd].
          rewrite <- (put_same x (OVec v) e G). apply (U h' (OVec v) (AVec (replace_at i l (Some t)) cap) [] [t'] [t0]); auto.
        + unfold bind. rewrite (set_out sz enc dec h v l cap i t V N). exact Logic.I.
      - (* IntoIter *)
        apply (vec_case h e s x (agree good_step)); [exact I|exact Logic.I|]. intros v l cap G Ga.
        destruct (focus _ _ _ _ _ I G) as [a [R [Ga' [S [V [U _]]]]]]. rewrite Ga in Ga'. injection Ga' as <-. cbn [orel] in V.
        destruct (into_iter_rep sz enc Sz h v l cap V) as [IR IO].
        cbn. split; [|constructor]. cbn [fst snd]. apply (U h (OIter (into_iter sz v)) (AIter l) [] [] []); auto. apply same_on_refl.
      - (* Next *)
        change (match get x (avars s) with Some (AIter []) => Ok (s, Maybe None) | Some (AIter (t :: l)) => Ok (update x (AIter l) 0 s, Maybe (Some t)) | _ => Rejected end)
          with (match get x (avars s) with Some (AIter l0) => (fun l1 => match l1 with [] => Ok (s, Maybe None) | t :: l => Ok (update x (AIter l) 0 s, Maybe (Some t)) end) l0 | _ => Rejected end).
        apply (iter_case h e s x (agree good_step) _ (fun l1 => match l1 with [] => Ok (s, Maybe None) | t :: l => Ok (update x (AIter l) 0 s, Maybe (Some t)) end)); [exact I|exact Logic.I|]. intros i l G Ga.
        destruct (focus _ _ _ _ _ I G) as [a [R [Ga' [S [V [U _]]]]]]. rewrite Ga in Ga'. injection Ga' as <-. cbn [orel] in V.
        destruct l as [|t l].
        + unfold bind. rewrite (next_nil sz enc dec h i V). cbn. split; [|constructor]. cbn. rewrite put_same by auto. auto.
        + apply agree_sat. eapply sat_bind; [eapply sat_next; eauto|].
          intros h' [i' o] [-> [t' [Eo [Kt [Ow Vf]]]]]. cbn [fst snd] in *. subst o. apply sat_ret. split; [|constructor; auto]. cbn [fst snd].
          apply (U h (OIter i') (AIter l) [] [] []); auto; [|apply same_on_refl]. cbn [blk app]. rewrite Ow. exact S.
      - (* NextBack *)
        apply (iter_case h e s x (agree good_step) _ (fun l => match rev l with [] => Ok (s, Maybe None) | t :: r => Ok (update x (AIter (rev r)) 0 s, Maybe (Some t)) end)); [exact I|exact Logic.I|]. intros i l G Ga.
        destruct (focus _ _ _ _ _ I G) as [a [R [Ga' [S [V [U _]]]]]]. rewrite Ga in Ga'. injection Ga' as <-. cbn [orel] in V.
        destruct (rev l) as [|t r] eqn:Rl.
        + assert (l = []) by (rewrite <- (rev_involutive l), Rl; reflexivity). subst l.
          unfold bind. rewrite (next_back_nil sz enc dec h i V). cbn. split; [|constructor]. cbn. rewrite put_same by auto. auto.
        + assert (l = rev r ++ [t]) by (rewrite <- (rev_involutive l), Rl; reflexivity). subst l.
          apply agree_sat. eapply sat_bind; [eapply sat_next_back; eauto|].
          intros h' [i' o] [-> [t' [Eo [Kt [Ow Vf]]]]]. cbn [fst snd] in *. subst o. apply sat_ret. split; [|constructor; auto]. cbn [fst snd].
          apply (U h (OIter i') (AIter (rev r)) [] [] []); auto; [|apply same_on_refl]. cbn [blk app]. rewrite Ow. exact S.
      - (* SizeHint *)
        apply (iter_case h e s x (agree good_step) _ (fun l => Ok (s, Number (len l)))); [exact I|exact Logic.I|]. intros i l G Ga.
        destruct (focus _ _ _ _ _ I G) as [a [R [Ga' [S [V [U _]]]]]]. rewrite Ga in Ga'. injection Ga' as <-. cbn [orel] in V.
        cbn. split; [exact I|]. cbn. rewrite (size_hint_len sz enc Sz h i l V). constructor.
      - (* BoxNew *)
        unfold fresh, declare. destruct (get x e) as [o|] eqn:G.
        + destruct (focus _ _ _ _ _ I G) as [a [R [Ga _]]]. rewrite Ga. exact Logic.I.
        + destruct (create _ _ _ _ I G) as [Ga [R [S C]]]. rewrite Ga. apply agree_sat.
          eapply sat_bind; [eapply sat_box_new; eauto|]. intros h' p [S' [V [B L]]]. apply sat_ret. fin.
          apply (C h' (OBox p) (ABox t) []); auto.
      - (* BoxGet *)
        destruct (get x e) as [o|] eqn:G.
        + destruct (focus _ _ _ _ _ I G) as [a [R [Ga [S [V [U _]]]]]]. rewrite Ga.
          destruct o, a; cbn [orel] in V; try contradiction; try exact Logic.I. cbn [blk] in S.
          apply agree_sat. eapply sat_bind; [eapply sat_box_get; eauto|]. intros h' t' [-> ->]. apply sat_ret. split; [exact I|constructor; reflexivity].
        + destruct I as [[EK _] _]. rewrite (keys_none _ _ _ EK G). exact Logic.I.
      - (* Drop *)
        destruct (get x e) as [o|] eqn:G.
        + destruct (focus _ _ _ _ _ I G) as [a [R [Ga [S [V [_ U]]]]]]. rewrite Ga.
          destruct o, a; cbn [orel] in V; try contradiction; cbn [blk] in S.
          * apply agree_sat. eapply sat_bind; [eapply sat_vec_drop; eauto|]. intros h' [] [S' [B [ts [F L]]]]. apply sat_ret. fin. cbn [fst snd].
            apply (U h' [] l ts); auto. apply same_on_eq; auto.
          * apply agree_sat. eapply sat_bind; [eapply sat_iter_drop; eauto|]. intros h' [] [S' [B [ts [F L]]]]. apply sat_ret. fin. cbn [fst snd].
            apply (U h' [] (rev l) ts); auto. apply same_on_eq; auto.
          * cbn. split; [|constructor]. cbn [fst snd]. apply (U h [(p, sz)] [] []); auto. apply same_on_refl.
        + destruct I as [[EK _] _]. rewrite (keys_none _ _ _ EK G). exact Logic.I.
    Qed.

    Theorem runs_sim l : forall h e s, Inv h e s -> (forall o, In o l -> sized o) ->
      agree (fun h' r b => Inv h' (fst r) (fst b) /\ Forall2 predicted (snd b) (snd r)) (runs sz enc dec e l h) (aruns true sz s l).
    Proof.
      induction l as [|o l IH]; intros h e s I H; cbn [runs aruns].
      - cbn. split; auto.
      - assert (X := step_sim h e s o I (H o (or_introl eq_refl))). unfold bind, agree in *.
        destruct (step e o h) as [[h1 [e1 r1]]| | | | |]; destruct (astep s o) as [[s1 r1']| | | | |]; cbn in X |- *; try contradiction; auto.
        destruct X as [I1 P1]. cbn [fst snd] in *.
        assert (Y := IH h1 e1 s1 I1 (fun o' Ho => H o' (or_intror Ho))).
        destruct (runs sz enc dec e1 l h1) as [[h2 [e2 rs]]| | | | |]; destruct (aruns true sz s1 l) as [[s2 rs']| | | | |]; cbn in Y |- *; try contradiction; auto.
        destruct Y as [I2 F2]. split; auto.
    Qed.
  End Fixed.
End Sim.
