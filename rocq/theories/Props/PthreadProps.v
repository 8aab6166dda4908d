(** C40, C41: mutexes and threads. *)
From Coq Require Import ZArith List Bool Lia.
From Verif.Spec Require Import Threads.
From Verif.Model Require Import Pthread.
Import ListNotations.
Open Scope list_scope.
Open Scope Z_scope.

(** Properties of the form: at every event, something about the events before it. *)
Definition always (Q : event -> list event -> Prop) (l : list event) : Prop := forall l2 e l1, l = l2 ++ e :: l1 -> Q e l1.
Lemma always_nil : forall Q, always Q [].
Proof. intros Q [|x l2] e l1 E; discriminate. Qed.
Lemma always_cons : forall Q e l, always Q (e :: l) <-> Q e l /\ always Q l.
Proof.
  intros Q e l. split.
  - intros H. split; [apply (H [] e l); reflexivity|]. intros l2 e' l1 E. apply (H (e :: l2) e' l1). now rewrite E.
  - intros (H1 & H2) [|x l2] e' l1 E; injection E as <- ->; [exact H1|]. now apply (H2 l2).
Qed.
Definition q_lock (e : event) (l : list event) : Prop := match e with Locked _ m => forall t', holds l t' m = false | _ => True end.
Definition q_init (e : event) (l : list event) : Prop := match e with Inited _ m => forall t', holds l t' m = false | _ => True end.
Definition q_unlock (e : event) (l : list event) : Prop := match e with Unlocked t m => holds l t m = true | _ => True end.
Lemma free_always : forall l, free_when_locked l <-> always q_lock l.
Proof. intros l. split; [intros H l2 [] l1 E; cbn; auto; intros t'; eapply H; eauto|]. intros H l2 t m l1 E. exact (H l2 (Locked t m) l1 E). Qed.
Lemma init_always : forall l, no_reinit l <-> always q_init l.
Proof. intros l. split; [intros H l2 [] l1 E; cbn; auto; intros t'; eapply H; eauto|]. intros H l2 t m l1 E. exact (H l2 (Inited t m) l1 E). Qed.
Lemma unlock_always : forall l, owner_releases l <-> always q_unlock l.
Proof. intros l. split; [intros H l2 [] l1 E; cbn; auto; eapply H; eauto|]. intros H l2 t m l1 E. exact (H l2 (Unlocked t m) l1 E). Qed.

Lemma upd_same : forall A (f : Z -> A) x v, upd f x v x = v.
Proof. intros. unfold upd. now rewrite Z.eqb_refl. Qed.
Lemma upd_other : forall A (f : Z -> A) x v y, y <> x -> upd f x v y = f y.
Proof. intros A f x v y H. unfold upd. apply Z.eqb_neq in H. now rewrite H. Qed.

Lemma upd_some : forall A (f : Z -> A) x v y w, upd f x v y = w -> (y = x /\ v = w) \/ (y <> x /\ f y = w).
Proof. intros A f x v y w H. unfold upd in H. destruct (Z.eqb_spec y x); auto. Qed.

Ltac cases E := repeat match type of E with
  | context [if ?b then _ else _] => destruct b eqn:?
  | context [match ?x with Uninitialized => _ | Waiting => _ | Running => _ | Stopped => _ end] => destruct x eqn:?
  end.
Ltac invstep H := inversion H as [? t p ? Herr Ht E|? t ? Herr Ht C]; subst;
  [destruct p; cbn [lib_step] in E; unfold assert_ in E; cases E; try discriminate E; injection E as <-
  |inversion C; subst].
Ltac shrink := unfold assert_, goto, say, fail, set_mutex, set_status, set_pret, set_var in *; cbn [mx stat pret vars thr err log lock init type] in *.

Definition quiet (e : event) : Prop := match e with Locked _ _ | Unlocked _ _ | Inited _ _ => False | _ => True end.
Lemma holds_quiet : forall e l t m, quiet e -> holds (e :: l) t m = holds l t m.
Proof. intros [] l t' m' H; cbn in *; tauto. Qed.
Lemma quiet_q : forall e l, quiet e -> q_lock e l /\ q_init e l /\ q_unlock e l.
Proof. intros [] l H; cbn in *; tauto. Qed.

(** ** C40 *)
Section Mutex.
Variable checked : bool.
Variable max_threads : Z.
Variable m0 : Z -> mutex.
Notation reach := (reachable checked max_threads m0).

Lemma threads_positive : forall s, reach s -> forall t p, thr s t = Some p -> 0 < t.
Proof.
  intros s R. induction R as [v t0 H0|s s' R IH St]; intros u q Hu.
  - cbn in Hu. unfold upd in Hu. destruct (Z.eqb_spec u t0); [lia|discriminate].
  - invstep St; shrink; eauto; repeat (apply upd_some in Hu as [(-> & _)|(_ & Hu)]; [eauto|]); eauto.
Qed.

(** How a step changes the locks. *)
Definition lock_set (s s' : state) (m v : Z) : Prop := forall m', lock (mx s' m') = if m' =? m then v else lock (mx s m').
Inductive effect (s s' : state) : Prop :=
| e_none : (forall m, lock (mx s' m) = lock (mx s m)) -> (log s' = log s \/ exists e, quiet e /\ log s' = e :: log s) -> effect s s'
| e_lock : forall t m, thr s t = Some (LAtomic m) -> lock (mx s m) = UNLOCKED -> lock_set s s' m t -> log s' = Locked t m :: log s -> effect s s'
| e_unlock : forall t m re, thr s t = Some (UAtomic m re) -> lock_set s s' m UNLOCKED -> log s' = Unlocked t m :: log s -> effect s s'
| e_init : forall t m ty, thr s t = Some (I1 m ty) -> lock_set s s' m UNLOCKED -> log s' = Inited t m :: log s -> effect s s'.
Lemma step_effect : forall s s', step checked max_threads s s' -> effect s s'.
Proof.
  intros s s' St.
  invstep St; shrink;
  first [apply e_none; shrink; [reflexivity|first [left; reflexivity|right; eexists; split; [|reflexivity]; exact I]]
        |eapply e_lock; shrink; [exact Ht|apply Z.eqb_eq; assumption| |reflexivity]; intros m'; shrink; unfold upd; destruct (m' =? _); reflexivity
        |eapply e_unlock; shrink; [exact Ht| |reflexivity]; intros m'; shrink; unfold upd; destruct (m' =? _); reflexivity
        |eapply e_init; shrink; [exact Ht| |reflexivity]; intros m'; shrink; unfold upd; destruct (m' =? _); reflexivity
        |apply e_none; shrink; [intros m'; unfold upd; destruct (Z.eqb_spec m' m) as [->|]; reflexivity|left; reflexivity]].
Qed.

(** What the lock field says about the log. *)
Definition owns (s : state) : Prop := forall t m, holds (log s) t m = true -> lock (mx s m) = t /\ 0 < t.

Lemma owns_step : forall s s', reach s -> owns s -> step checked max_threads s s' -> always q_init (log s') -> always q_unlock (log s') ->
  owns s' /\ (always q_lock (log s) -> always q_lock (log s')).
Proof.
  intros s s' R HO St HI HU. pose proof (threads_positive s R) as HP. unfold owns.
  destruct (step_effect s s' St) as [Hm [E|(e & Q & E)]|t m Ht Hl Hs E|t m re Ht Hs E|t m ty Ht Hs E]; rewrite E in *; rewrite ?always_cons in *.
  - split; [intros u x H; rewrite Hm; auto|auto].
  - split; [intros u x H; rewrite Hm; rewrite holds_quiet in H; auto|]. split; [now apply (quiet_q e (log s))|auto].
  - assert (forall t', holds (log s) t' m = false) as HF by (intros t'; destruct (holds (log s) t' m) eqn:X; auto; apply HO in X; unfold UNLOCKED in *; lia). split; [|cbn; auto].
    intros u x H. rewrite Hs. cbn [holds] in H. apply orb_true_iff in H as [H|H].
    + apply andb_true_iff in H as (H1 & H2). apply Z.eqb_eq in H1, H2. subst. rewrite Z.eqb_refl. eauto.
    + destruct (Z.eqb_spec x m) as [->|]; [rewrite HF in H; discriminate|auto].
  - split; [|cbn; auto]. intros u x H. rewrite Hs. cbn [holds] in H. apply andb_true_iff in H as (H1 & H2). destruct HU as (HU & _). cbn in HU. apply HO in HU as (HU & _).
    apply HO in H2 as (H2 & H3). destruct (Z.eqb_spec x m) as [->|]; [|auto]. exfalso. rewrite HU in H2. subst u. rewrite !Z.eqb_refl in H1. discriminate.
  - split; [|cbn; auto]. intros u x H. rewrite Hs. cbn [holds] in H. destruct HI as (HI & _). cbn in HI. destruct (Z.eqb_spec x m) as [->|]; [rewrite HI in H; discriminate|auto].
Qed.

Lemma step_log : forall s s', step checked max_threads s s' -> exists l, log s' = l ++ log s.
Proof. intros s s' St. destruct (step_effect s s' St) as [_ [E|(e & _ & E)]|t m _ _ _ E|t m re _ _ E|t m ty _ _ E]; rewrite E; first [exists []; reflexivity|eexists [_]; reflexivity]. Qed.
Lemma always_suffix : forall Q l l', always Q (l ++ l') -> always Q l'.
Proof. intros Q l l' H. induction l as [|e l IH]; [exact H|]. cbn in H. rewrite always_cons in H. tauto. Qed.

Lemma exclusion_inv : forall s, reach s -> always q_init (log s) -> always q_unlock (log s) -> owns s /\ always q_lock (log s).
Proof.
  intros s R. induction R as [v t0 H0|s s' R IH St]; intros HI HU; [split; [intros t m H; discriminate|apply always_nil]|].
  destruct (step_log s s' St) as (l & E). destruct IH as (I1 & I2); [rewrite E in HI; eapply always_suffix; eauto|rewrite E in HU; eapply always_suffix; eauto|].
  destruct (owns_step s s' R I1 St HI HU). auto.
Qed.
End Mutex.

(** For every program that initializes no mutex in use and releases mutexes only from
    the thread that holds them: mutual exclusion. *)
Theorem C40_exclusion : forall checked max_threads m0 s, reachable checked max_threads m0 s -> no_reinit (log s) -> owner_releases (log s) ->
  mutual_exclusion (log s) /\ free_when_locked (log s).
Proof.
  intros checked max_threads m0 s R HI HU. apply init_always in HI. apply unlock_always in HU. destruct (exclusion_inv checked max_threads m0 s R HI HU) as (HO & HL). split; [|now apply free_always].
  intros t t' m H H'. apply HO in H, H'. destruct H, H'. congruence.
Qed.
Print Assumptions C40_exclusion.

Lemma cons_neq : forall (e : event) l, l <> e :: l.
Proof. intros e l H. assert (length l = length (e :: l)) as X by (now rewrite <- H). cbn in X. lia. Qed.

(** With assertions on, a thread that is about to release a mutex has found itself in
    the lock field. *)
Lemma uatomic_step : forall max_threads s s' u m re, step true max_threads s s' -> thr s' u = Some (UAtomic m re) ->
  (thr s u = Some (UAtomic m re) /\ forall x, log s' <> Unlocked u x :: log s) \/
  (lock (mx s m) = u /\ (forall x, lock (mx s' x) = lock (mx s x)) /\ log s' = log s).
Proof.
  intros max_threads s s' u m re St Hu.
  invstep St; shrink; try discriminate;
  try (left; split; [exact Hu|intros x; first [discriminate|apply cons_neq]]; fail);
  repeat (apply upd_some in Hu as [(-> & Hu)|(? & Hu)]; [try discriminate Hu; unfold released in Hu; try (destruct re0; discriminate Hu)|]);
  try (left; split; [exact Hu|intros x; first [discriminate|apply cons_neq|intros Hx; injection Hx; congruence]]; fail).
  all: right; injection Hu as -> ->; repeat match goal with H : true && negb _ = false |- _ => cbn in H; apply negb_false_iff in H | H : negb _ = false |- _ => apply negb_false_iff in H end;
    repeat match goal with H : (_ =? _) = true |- _ => apply Z.eqb_eq in H end; auto.
Qed.

Definition records (s : state) : Prop :=
  (forall m, lock (mx s m) = UNLOCKED \/ holds (log s) (lock (mx s m)) m = true) /\ (forall t m re, thr s t = Some (UAtomic m re) -> lock (mx s m) = t).

Lemma records_inv : forall max_threads m0 s, (forall m, lock (m0 m) = UNLOCKED) -> reachable true max_threads m0 s -> always q_init (log s) -> records s /\ always q_unlock (log s).
Proof.
  intros max_threads m0 s H0 R. induction R as [v t0 Hp|s s' R IH St]; intros HI.
  - split; [split|apply always_nil]; cbn; [left; apply H0|]. intros t m re H. unfold upd in H. destruct (t =? t0); discriminate.
  - destruct (step_log _ _ s s' St) as (l & E). destruct IH as ((I1 & I2) & I3); [rewrite E in HI; eapply always_suffix; eauto|]. clear E.
    destruct (exclusion_inv _ _ _ s R) as (HO & _); [destruct (step_log _ _ s s' St) as (l' & E'); rewrite E' in HI; eapply always_suffix; eauto|exact I3|].
    pose proof (threads_positive _ _ _ s R) as HP. pose proof (threads_positive _ _ _ s' (r_step _ _ _ _ _ R St)) as HP'.
    assert (forall t m re, thr s' t = Some (UAtomic m re) -> lock (mx s m) = t /\ ((forall x, log s' <> Unlocked t x :: log s) \/ ((forall x, lock (mx s' x) = lock (mx s x)) /\ log s' = log s))) as HT.
    { intros t m re H. destruct (uatomic_step _ s s' t m re St H) as [(H1 & H2)|(H1 & H2 & H3)]; [split; [eapply I2; eauto|auto]|auto]. }
    destruct (step_effect _ _ s s' St) as [Hm [E|(e & Q & E)]|t m Ht Hl Hs E|t m re Ht Hs E|t m ty Ht Hs E]; rewrite E in *; rewrite ?always_cons in *.
    + repeat split; auto; [intros m; rewrite Hm, E; apply I1|]. intros t m re H. rewrite Hm. now apply HT in H.
    + repeat split; auto; [intros m; rewrite Hm, E, holds_quiet by exact Q; apply I1| |now apply (quiet_q e (log s))]. intros t m re H. rewrite Hm. now apply HT in H.
    + repeat split; auto.
      * intros x. rewrite Hs, E. cbn [holds]. destruct (Z.eqb_spec x m) as [->|N]; [right; now rewrite !Z.eqb_refl|]. destruct (I1 x) as [X|X]; [auto|right; rewrite X; now rewrite orb_true_r].
      * intros u x re H. rewrite Hs. pose proof (HP' _ _ H). apply HT in H as (H & _). destruct (Z.eqb_spec x m) as [->|N]; [|exact H]. unfold UNLOCKED in Hl. lia.
    + assert (lock (mx s m) = t) as HL by (eapply I2; eauto). pose proof (HP _ _ Ht) as Hpos. split; [split|split; [|exact I3]].
      * intros x. rewrite Hs, E. destruct (Z.eqb_spec x m) as [->|N]; [auto|]. destruct (I1 x) as [X|X]; [auto|right]. cbn [holds]. rewrite X. replace (m =? x) with false by (symmetry; apply Z.eqb_neq; congruence). now rewrite andb_false_r.
      * intros u x re' H. rewrite Hs. apply HT in H as (H & Hx). destruct (Z.eqb_spec x m) as [->|N]; [|exact H]. exfalso. rewrite HL in H. subst u. destruct Hx as [Hx|(_ & Hx)]; [now apply (Hx m)|symmetry in Hx; now apply cons_neq in Hx].
      * cbn. destruct (I1 m) as [X|X]; [unfold UNLOCKED in X; lia|]. now rewrite HL in X.
    + destruct HI as (HI & _). cbn in HI. split; [split|split; [exact I|exact I3]].
      * intros x. rewrite Hs, E. destruct (Z.eqb_spec x m) as [->|N]; [auto|]. apply I1.
      * intros u x re' H. rewrite Hs. pose proof (HP' _ _ H). apply HT in H as (H & Hx). destruct (Z.eqb_spec x m) as [->|N]; [|exact H]. exfalso. destruct (I1 m) as [X|X]; [unfold UNLOCKED in X; lia|]. rewrite HI in X. discriminate.
Qed.

(** With the assertions of the library checked, and mutexes that are not locked at the
    beginning, no thread releases a mutex it does not hold: the run ends with a failed
    assertion or the call returns an error.  So there is mutual exclusion for every
    program that initializes no mutex in use. *)
Theorem C40_checked : forall max_threads m0 s, (forall m, lock (m0 m) = UNLOCKED) -> reachable true max_threads m0 s -> no_reinit (log s) ->
  owner_releases (log s) /\ mutual_exclusion (log s) /\ free_when_locked (log s).
Proof.
  intros max_threads m0 s H0 R HI. apply init_always in HI as HI'. destruct (records_inv max_threads m0 s H0 R HI') as (_ & HU). apply unlock_always in HU. split; [exact HU|]. eapply C40_exclusion; eauto.
Qed.
Print Assumptions C40_checked.

(** A thread that waits for a mutex nobody holds can take it. *)
Theorem C40_progress : forall max_threads m0 s t m, (forall x, lock (m0 x) = UNLOCKED) -> reachable true max_threads m0 s -> no_reinit (log s) ->
  err s = false -> thr s t = Some (LAtomic m) -> (forall t', holds (log s) t' m = false) ->
  exists s', step true max_threads s s' /\ log s' = Locked t m :: log s.
Proof.
  intros max_threads m0 s t m H0 R HI He Ht Hf. apply init_always in HI as HI'. destruct (records_inv max_threads m0 s H0 R HI') as ((I1 & _) & _). destruct (I1 m) as [X|X]; [|now rewrite Hf in X].
  eexists. split; [eapply s_lib; [exact He|exact Ht|]; cbn [lib_step]; rewrite X; reflexivity|reflexivity].
Qed.
Print Assumptions C40_progress.

(** Error codes tell the truth: EDEADLK (35) only to the holder, EPERM (1) only to others. *)
Definition q_code (e : event) (l : list event) : Prop :=
  match e with Refused t m c => (c = 35 -> holds l t m = true) /\ (c = 1 -> holds l t m = false) | _ => True end.
Theorem C40_codes : forall max_threads m0 s l2 t m c l1, (forall x, lock (m0 x) = UNLOCKED) -> reachable true max_threads m0 s -> no_reinit (log s) ->
  log s = l2 ++ Refused t m c :: l1 -> (c = 35 -> holds l1 t m = true) /\ (c = 1 -> holds l1 t m = false).
Proof.
  intros max_threads m0 s l2 t m c l1 H0 R HI E. apply init_always in HI. enough (always q_code (log s)) as H by (exact (H l2 (Refused t m c) l1 E)). clear l2 t m c l1 E.
  induction R as [v t0 Hp|s s' R IH St]; [apply always_nil|]. destruct (step_log _ _ s s' St) as (l & E). assert (always q_init (log s)) as HI' by (rewrite E in HI; eapply always_suffix; eauto). specialize (IH HI'). clear E l.
  destruct (records_inv max_threads m0 s H0 R HI') as ((I1 & _) & HU). destruct (exclusion_inv _ _ _ s R HI' HU) as (HO & _). pose proof (threads_positive _ _ _ s R) as HP.
  invstep St; shrink; try exact IH; apply always_cons; (split; [|exact IH]); cbn; try exact I; (split; intros Hc; try discriminate Hc).
  - apply Z.eqb_eq in Heqb. specialize (HP _ _ Ht). destruct (I1 m) as [X|X]; [unfold UNLOCKED in X; lia|]. now rewrite Heqb in X.
  - apply negb_true_iff, Z.eqb_neq in Heqb. destruct (holds (log s) t m) eqn:X; [|reflexivity]. apply HO in X. destruct X; congruence.
Qed.
Print Assumptions C40_codes.

(** *** Runs, for examples *)
Inductive act := ALib (t : Z) | ALock (t m : Z) | AUnlock (t m : Z) | AInit (t m ty : Z) | ACreate (t h f a c : Z) | AJoin (t c : Z) | AExit (t v : Z) | AFinish (t v : Z) | AVar (t h v : Z).
Section Run.
Variable checked : bool.
Variable max_threads : Z.
Definition exec (s : state) (x : act) : option state :=
  if err s then None
  else
    match x with
    | ALib t => match thr s t with Some p => lib_step checked max_threads s t p | None => None end
    | ALock t m => match thr s t with Some User => Some (goto s t (LType m)) | _ => None end
    | AUnlock t m => match thr s t with Some User => Some (goto s t (UType m false)) | _ => None end
    | AInit t m ty => match thr s t with Some User => Some (goto s t (I1 m ty)) | _ => None end
    | ACreate t h f a c => match thr s t, thr s c with Some User, None => if 0 <? c then Some (say (Created t c f a) (goto (goto s c (W0 h f a)) t (CrSpawned h c))) else None | _, _ => None end
    | AJoin t c => match thr s t with Some User => if t =? c then None else Some (goto s t (JWait c true)) | _ => None end
    | AExit t v => match thr s t with Some User => Some (goto s t (X1 v)) | _ => None end
    | AFinish t v => match thr s t with Some User => if existsb (fun e => match e with Started c _ _ => c =? t | _ => false end) (log s) then Some (say (Finished t v) (goto s t W4)) else None | _ => None end
    | AVar t h v => match thr s t with Some User => Some (set_var s h v) | _ => None end
    end.
Lemma exec_step : forall s x s', exec s x = Some s' -> step checked max_threads s s'.
Proof.
  intros s x s' H. unfold exec in H. destruct (err s) eqn:He; [discriminate|].
  destruct x; (destruct (thr s t) as [p|] eqn:Ht; [|discriminate]); [now eapply s_lib; eauto|..]; destruct p; try discriminate H; try (injection H as <-; eapply s_call; [exact He|exact Ht|constructor]; fail).
  - destruct (thr s c) eqn:Hc; [discriminate|]. destruct (Z.ltb_spec 0 c); [|discriminate]. injection H as <-. eapply s_call; [exact He|exact Ht|]. now constructor.
  - destruct (Z.eqb_spec t c); [discriminate|]. injection H as <-. eapply s_call; [exact He|exact Ht|]. now constructor.
  - destruct (existsb _ _) eqn:Hx; [|discriminate]. injection H as <-. eapply s_call; [exact He|exact Ht|]. constructor. apply existsb_exists in Hx as (e & He1 & He2). destruct e; try discriminate. apply Z.eqb_eq in He2. subst. eauto.
Qed.
Fixpoint run (s : state) (l : list act) : option state := match l with [] => Some s | x :: l' => match exec s x with Some s1 => run s1 l' | None => None end end.
Lemma run_reach : forall m0 l s s', reachable checked max_threads m0 s -> run s l = Some s' -> reachable checked max_threads m0 s'.
Proof.
  intros m0. induction l as [|x l IH]; intros s s' R H; cbn in H; [injection H as <-; exact R|]. destruct (exec s x) as [s1|] eqn:E; [|discriminate]. apply (IH s1); [|exact H]. eapply r_step; [exact R|]. now apply exec_step in E.
Qed.
End Run.
Definition mutexes (ty : Z) : Z -> mutex := fun _ => Mutex UNLOCKED INITIALIZED ty.
Definition begin (ty : Z) : state := State (mutexes ty) (fun _ => Uninitialized) (fun _ => 0) (fun _ => 0) (upd (fun _ => None) 1 (Some User)) false [].
Lemma begin_reach : forall checked max_threads ty, reachable checked max_threads (mutexes ty) (begin ty).
Proof. intros. apply (r_start _ _ _ (fun _ => 0) 1). lia. Qed.
Definition libs (t : Z) (n : nat) : list act := repeat (ALib t) n.
(** Main (thread 1) creates thread 2 with handle variable 100. *)
Definition spawn : list act := ACreate 1 100 7 8 2 :: libs 1 1 ++ libs 2 4.

(** Initializing a mutex that is locked lets a second thread in, without an error. *)
Theorem C40_reinit_refuted : exists s, reachable true 32 (mutexes 0) s /\ err s = false /\ ~ mutual_exclusion (log s).
Proof.
  assert (exists s, run true 32 (begin 0) (spawn ++ (ALock 1 50 :: libs 1 4) ++ (AInit 2 50 0 :: libs 2 3) ++ (ALock 2 50 :: libs 2 4)) = Some s /\ err s = false /\ holds (log s) 1 50 = true /\ holds (log s) 2 50 = true) as (s & E & He & H1 & H2).
  { eexists. split; [vm_compute; reflexivity|]. repeat split; vm_compute; reflexivity. }
  exists s. split; [eapply run_reach; [apply begin_reach|exact E]|]. split; [exact He|]. intros H. specialize (H 1 2 50 H1 H2). discriminate.
Qed.
Print Assumptions C40_reinit_refuted.

(** With the assertions off, a normal mutex can be released by any thread. *)
Theorem C40_unchecked_refuted : exists s, reachable false 32 (mutexes 0) s /\ no_reinit (log s) /\ ~ mutual_exclusion (log s).
Proof.
  assert (exists s, run false 32 (begin 0) (spawn ++ (ALock 1 50 :: libs 1 2) ++ (AUnlock 2 50 :: libs 2 2) ++ (ALock 2 50 :: libs 2 2)) = Some s /\ always q_init (log s) /\ holds (log s) 1 50 = true /\ holds (log s) 2 50 = true) as (s & E & He & H1 & H2).
  { eexists. split; [vm_compute; reflexivity|]. split; [cbn [log]; repeat (apply always_cons; split; [exact I|]); apply always_nil|]. repeat split; vm_compute; reflexivity. }
  exists s. split; [eapply run_reach; [apply begin_reach|exact E]|]. split; [now apply init_always|]. intros H. specialize (H 1 2 50 H1 H2). discriminate.
Qed.
Print Assumptions C40_unchecked_refuted.

Example C40_nonvacuous : exists s, reachable true 32 (mutexes 2) s /\ (forall m, lock (mutexes 2 m) = UNLOCKED) /\ no_reinit (log s) /\
  log s = [Locked 2 50; Unlocked 1 50; Refused 2 50 1; Refused 1 50 35; Locked 1 50; Started 2 7 8; Created 1 2 7 8].
Proof.
  assert (exists s, run true 32 (begin 2) (spawn ++ (ALock 1 50 :: libs 1 4) ++ (ALock 1 50 :: libs 1 3) ++ (AUnlock 2 50 :: libs 2 3) ++ (ALock 2 50 :: libs 2 3) ++ (AUnlock 1 50 :: libs 1 4) ++ libs 2 1) = Some s /\
    log s = [Locked 2 50; Unlocked 1 50; Refused 2 50 1; Refused 1 50 35; Locked 1 50; Started 2 7 8; Created 1 2 7 8]) as (s & E & El).
  { eexists. split; vm_compute; reflexivity. }
  exists s. split; [eapply run_reach; [apply begin_reach|exact E]|]. split; [reflexivity|]. split; [|exact El]. apply init_always. rewrite El. repeat (apply always_cons; split; [exact I|]). apply always_nil.
Qed.

(** ** C41 *)
Definition started (l : list event) (c : Z) : Prop := exists f a, In (Started c f a) l.
Definition finished (l : list event) (c : Z) : Prop := exists v, In (Finished c v) l.
Lemma finished_cons : forall e l c, finished l c -> finished (e :: l) c.
Proof. intros e l c (v & H). exists v. now right. Qed.
Lemma started_cons : forall e l c, started l c -> started (e :: l) c.
Proof. intros e l c (f & a & H). exists f, a. now right. Qed.
Lemma finished_inv : forall e l c, finished (e :: l) c -> finished l c \/ exists v, e = Finished c v.
Proof. intros e l c (v & [->|H]); [right; eauto|left; now exists v]. Qed.
Lemma started_inv : forall e l c, started (e :: l) c -> started l c \/ exists f a, e = Started c f a.
Proof. intros e l c (f & a & [->|H]); [right; eauto|left; now exists f, a]. Qed.

(** The wrapper before the call of the routine. *)
Definition pre (p : pc) : option (Z * Z) := match p with W0 _ f a | W1 f a | W2 f a | W3 f a => Some (f, a) | _ => None end.

(** What a step does to the threads and the log. *)
Definition noise (e : event) : Prop := match e with Started _ _ _ | Finished _ _ | Created _ _ _ _ | Joined _ _ _ => False | _ => True end.
Inductive teffect (s s' : state) : Prop :=
| t_same : thr s' = thr s -> (log s' = log s \/ exists e, noise e /\ log s' = e :: log s) -> stat s' = stat s -> teffect s s'
| t_move : forall t p p', thr s t = Some p -> thr s' = upd (thr s) t (Some p') -> pre p = None -> pre p' = None -> p' <> W4 -> p' <> Done -> p <> W4 -> p <> Done ->
    (forall c, p' = JRead c -> stat s c = Stopped) -> (log s' = log s \/ exists e, noise e /\ log s' = e :: log s) -> stat s' = stat s -> teffect s s'
| t_join : forall t c v, (exists ret, thr s t = Some (JWait c ret)) /\ stat s c = Stopped \/ thr s t = Some (JRead c) -> thr s' = upd (thr s) t (Some User) ->
    log s' = Joined t c v :: log s -> stat s' = stat s -> teffect s s'
| t_wrap : forall t p p' q, thr s t = Some p -> thr s' = upd (thr s) t (Some p') -> pre p = Some q -> pre p' = Some q -> log s' = log s -> (forall c, stat s' c = Stopped -> stat s c = Stopped) -> teffect s s'
| t_start : forall t f a, thr s t = Some (W3 f a) -> thr s' = upd (thr s) t (Some User) -> log s' = Started t f a :: log s -> stat s' = stat s -> teffect s s'
| t_create : forall t c h f a, thr s t = Some User -> thr s c = None -> thr s' = upd (upd (thr s) c (Some (W0 h f a))) t (Some (CrSpawned h c)) ->
    log s' = Created t c f a :: log s -> stat s' = stat s -> teffect s s'
| t_finish : forall t v, thr s t = Some User -> started (log s) t -> thr s' = upd (thr s) t (Some W4) -> log s' = Finished t v :: log s -> stat s' = stat s -> teffect s s'
| t_stop : forall t, thr s t = Some W4 -> thr s' = upd (thr s) t (Some Done) -> log s' = log s -> (forall c, stat s' c = Stopped -> stat s c = Stopped \/ c = t) -> teffect s s'.
Lemma step_teffect : forall checked max_threads s s', step checked max_threads s s' -> teffect s s'.
Proof.
  intros checked max_threads s s' St. invstep St; shrink;
  first [eapply t_move; [exact Ht|shrink; solve [reflexivity|discriminate|unfold released; destruct re; reflexivity|unfold released; destruct re; discriminate|intros c' X; first [discriminate X|unfold released in X; destruct re; discriminate X|injection X as <-; assumption]
            |left; reflexivity|right; eexists; split; [|reflexivity]; exact I]..]
        |eapply t_same; shrink; [reflexivity|first [left; reflexivity|right; eexists; split; [|reflexivity]; exact I]|reflexivity]
        |eapply t_join; shrink; [first [right; exact Ht|left; split; [eexists; exact Ht|assumption]]|reflexivity|reflexivity|reflexivity]
        |eapply t_start; shrink; [exact Ht|reflexivity..]
        |eapply t_wrap; shrink; [exact Ht|reflexivity|reflexivity|reflexivity|reflexivity|intros c X; solve [exact X|apply upd_some in X as [(_ & X)|(_ & X)]; [discriminate X|exact X]]]
        |eapply t_create; shrink; [exact Ht|eassumption|reflexivity..]
        |eapply t_finish; shrink; [exact Ht|assumption|reflexivity..]
        |eapply t_stop; shrink; [exact Ht|reflexivity|reflexivity|intros c X; apply upd_some in X as [(-> & _)|(_ & X)]; auto]].
Qed.

Record joins (s : state) : Prop := {
  j_stopped : forall c, stat s c = Stopped -> finished (log s) c;
  j_read : forall t c, thr s t = Some (JRead c) -> finished (log s) c;
  j_end : forall t, thr s t = Some W4 \/ thr s t = Some Done -> finished (log s) t;
  j_finished : forall t, finished (log s) t -> thr s t = Some W4 \/ thr s t = Some Done;
  j_pre : forall t p f a, thr s t = Some p -> pre p = Some (f, a) -> (exists u, In (Created u t f a) (log s)) /\ ~ started (log s) t;
  j_none : forall t, thr s t = None -> ~ started (log s) t
}.
Definition q_join (e : event) (l : list event) : Prop :=
  match e with
  | Joined t c v => finished l c
  | Started c f a => (exists t, In (Created t c f a) l) /\ ~ started l c
  | Finished c v => started l c /\ ~ finished l c
  | _ => True
  end.
Lemma noise_q : forall e l c, noise e -> q_join e l /\ (finished (e :: l) c <-> finished l c) /\ (started (e :: l) c <-> started l c).
Proof.
  intros e l c H. split; [destruct e; cbn in *; tauto|]. split; (split; [|apply finished_cons || apply started_cons]).
  - intros X. apply finished_inv in X as [X|(v & ->)]; [exact X|destruct H].
  - intros X. apply started_inv in X as [X|(f & a & ->)]; [exact X|destruct H].
Qed.

Ltac up H := let N := fresh "N" in apply upd_some in H as [(-> & H)|(N & H)].

Definition grow (l l' : list event) : Prop := l' = l \/ exists e, noise e /\ l' = e :: l.
Lemma grow_noise : forall l l', grow l l' -> (forall c, finished l' c <-> finished l c) /\ (forall c, started l' c <-> started l c) /\ (forall e, In e l -> In e l') /\ (always q_join l -> always q_join l').
Proof.
  intros l l' [->|(e & N & ->)]; [repeat split; auto|]. split; [intros c; now apply noise_q|]. split; [intros c; now apply noise_q|]. split; [intros; now right|].
  intros Q. apply always_cons. split; [now apply (noise_q e l 0)|exact Q].
Qed.

Lemma joins_step : forall s s', joins s -> teffect s s' -> joins s' /\ (always q_join (log s) -> always q_join (log s')).
Proof.
  intros s s' [A B C D E F] T. destruct T as [Hth Hl Hs|t p p' Ht Hth Hp Hp' H1 H2 H3 H4 Hj Hl Hs|t c v Ht Hth Hl Hs|t p p' q Ht Hth Hp Hp' Hl Hs|t f a Ht Hth Hl Hs|t c h f a Ht Hc Hth Hl Hs|t v Ht Hst Hth Hl Hs|t Ht Hth Hl Hs].
  - (* t_same *) destruct (grow_noise _ _ Hl) as (GF & GS & GC & GQ). split; [|exact GQ]. constructor; rewrite ?Hth, ?Hs; intros u.
    + rewrite GF. auto.
    + intros c. rewrite GF. eauto.
    + rewrite GF. eauto.
    + rewrite GF. eauto.
    + intros p f a X Y. rewrite GS. destruct (E u p f a X Y) as ((w & X1) & X2). split; [exists w; auto|exact X2].
    + rewrite GS. auto.
  - (* t_move *) destruct (grow_noise _ _ Hl) as (GF & GS & GC & GQ). split; [|exact GQ]. constructor; rewrite ?Hth, ?Hs; intros u.
    + rewrite GF. auto.
    + intros c X. rewrite GF. up X; [|eauto]. injection X as ->. apply A. now apply Hj.
    + rewrite GF. intros [X|X]; up X; try congruence; eauto.
    + rewrite GF. intros X. apply D in X. destruct (Z.eqb_spec u t) as [->|N]; [exfalso; destruct X; congruence|]. now rewrite upd_other by exact N.
    + intros q f a X Y. rewrite GS. up X; [congruence|]. destruct (E u q f a X Y) as ((w & X1) & X2). split; [exists w; auto|exact X2].
    + rewrite GS. intros X. up X; [discriminate|auto].
  - (* t_join *) assert (forall c, finished (log s') c <-> finished (log s) c) as GF by (intros u; rewrite Hl; split; [intros X; apply finished_inv in X as [X|(? & X)]; [exact X|discriminate]|apply finished_cons]).
    assert (forall c, started (log s') c <-> started (log s) c) as GS by (intros u; rewrite Hl; split; [intros X; apply started_inv in X as [X|(? & ? & X)]; [exact X|discriminate]|apply started_cons]).
    assert (finished (log s) c) as HF by (destruct Ht as [(_ & X)|X]; eauto).
    assert (exists p, thr s t = Some p /\ pre p = None /\ p <> W4 /\ p <> Done) as (p & Ht' & Hp & Hp1 & Hp2) by (destruct Ht as [((r & X) & _)|X]; eexists; (split; [exact X|repeat split; discriminate])).
    split; [|intros Q; rewrite Hl; apply always_cons; split; [exact HF|exact Q]]. constructor; rewrite ?Hth, ?Hs; intros u.
    + rewrite GF. auto.
    + intros d X. rewrite GF. up X; [discriminate|eauto].
    + rewrite GF. intros [X|X]; up X; try congruence; eauto.
    + rewrite GF. intros X. apply D in X. destruct (Z.eqb_spec u t) as [->|N]; [exfalso; destruct X; congruence|]. now rewrite upd_other by exact N.
    + intros q f a X Y. rewrite GS. up X; [injection X as <-; discriminate|]. destruct (E u q f a X Y) as ((w & X1) & X2). split; [exists w; rewrite Hl; now right|exact X2].
    + rewrite GS. intros X. up X; [discriminate|auto].
  - (* t_wrap *) rewrite Hl. split; [|auto]. destruct q as [f a]. constructor; rewrite ?Hth, ?Hl; intros u.
    + auto.
    + intros d X. up X; [|eauto]. injection X as ->. discriminate.
    + intros [X|X]; up X; try (injection X as ->; discriminate); eauto.
    + intros X. apply D in X. destruct (Z.eqb_spec u t) as [->|N]; [exfalso; rewrite Ht in X; destruct X as [X|X]; injection X as ->; discriminate|]. now rewrite upd_other by exact N.
    + intros q f' a' X Y. up X; [|eauto]. injection X as <-. rewrite Y in Hp'. injection Hp' as -> ->. eauto.
    + intros X. up X; [discriminate|auto].
  - (* t_start *) assert (forall c, finished (log s') c <-> finished (log s) c) as GF by (intros u; rewrite Hl; split; [intros X; apply finished_inv in X as [X|(? & X)]; [exact X|discriminate]|apply finished_cons]).
    destruct (E t _ f a Ht eq_refl) as (HC & HN).
    split; [|intros Q; rewrite Hl; apply always_cons; split; [split; [exact HC|exact HN]|exact Q]]. constructor; rewrite ?Hth, ?Hs; intros u.
    + rewrite GF. auto.
    + intros d X. rewrite GF. up X; [discriminate|eauto].
    + rewrite GF. intros [X|X]; up X; try congruence; eauto.
    + rewrite GF. intros X. apply D in X. destruct (Z.eqb_spec u t) as [->|N]; [exfalso; destruct X; congruence|]. now rewrite upd_other by exact N.
    + intros q f' a' X Y. up X; [injection X as <-; discriminate|]. destruct (E u q f' a' X Y) as ((w & X1) & X2). rewrite Hl. split; [exists w; now right|]. intros Z1. apply started_inv in Z1 as [Z1|(? & ? & Z1)]; [auto|congruence].
    + intros X. up X; [discriminate|]. rewrite Hl. intros Z1. apply started_inv in Z1 as [Z1|(? & ? & Z1)]; [now apply (F u)|congruence].
  - (* t_create *) assert (forall c, finished (log s') c <-> finished (log s) c) as GF by (intros u; rewrite Hl; split; [intros X; apply finished_inv in X as [X|(? & X)]; [exact X|discriminate]|apply finished_cons]).
    assert (forall c, started (log s') c <-> started (log s) c) as GS by (intros u; rewrite Hl; split; [intros X; apply started_inv in X as [X|(? & ? & X)]; [exact X|discriminate]|apply started_cons]).
    split; [|intros Q; rewrite Hl; apply always_cons; split; [exact I|exact Q]]. constructor; rewrite ?Hth, ?Hs; intros u.
    + rewrite GF. auto.
    + intros d X. rewrite GF. up X; [discriminate|]. up X; [discriminate|eauto].
    + rewrite GF. intros [X|X]; up X; try congruence; up X; try congruence; eauto.
    + rewrite GF. intros X. apply D in X. destruct (Z.eqb_spec u t) as [->|N]; [exfalso; destruct X; congruence|]. rewrite upd_other by exact N. destruct (Z.eqb_spec u c) as [->|N']; [exfalso; destruct X; congruence|]. now rewrite upd_other by exact N'.
    + intros q f' a' X Y. rewrite GS. up X; [injection X as <-; discriminate|]. up X.
      * injection X as <-. injection Y as <- <-. split; [exists t; rewrite Hl; now left|now apply F].
      * destruct (E u q f' a' X Y) as ((w & X1) & X2). rewrite Hl. split; [exists w; now right|exact X2].
    + rewrite GS. intros X. up X; [discriminate|]. up X; [discriminate|auto].
  - (* t_finish *) assert (forall c, started (log s') c <-> started (log s) c) as GS by (intros u; rewrite Hl; split; [intros X; apply started_inv in X as [X|(? & ? & X)]; [exact X|discriminate]|apply started_cons]).
    assert (~ finished (log s) t) as HN by (intros X; apply D in X; destruct X; congruence).
    split; [|intros Q; rewrite Hl; apply always_cons; split; [split; [exact Hst|exact HN]|exact Q]]. constructor; rewrite ?Hth, ?Hs; intros u.
    + intros X. rewrite Hl. apply finished_cons. auto.
    + intros d X. up X; [discriminate|]. rewrite Hl. apply finished_cons. eauto.
    + intros X. destruct (Z.eqb_spec u t) as [->|N]; [exists v; rewrite Hl; now left|]. rewrite upd_other in X by exact N. rewrite Hl. apply finished_cons. auto.
    + destruct (Z.eqb_spec u t) as [->|N]; [intros _; rewrite upd_same; now left|]. rewrite upd_other by exact N. rewrite Hl. intros X. apply finished_inv in X as [X|(? & X)]; [auto|congruence].
    + intros q f' a' X Y. rewrite GS. up X; [injection X as <-; discriminate|]. destruct (E u q f' a' X Y) as ((w & X1) & X2). rewrite Hl. split; [exists w; now right|exact X2].
    + rewrite GS. intros X. up X; [discriminate|auto].
  - (* t_stop *) rewrite Hl. split; [|auto]. constructor; rewrite ?Hth, ?Hl; intros u.
    + intros X. destruct (Hs u X) as [Y|Y]; subst; auto.
    + intros d X. up X; [discriminate|eauto].
    + intros [X|X]; up X; try discriminate; eauto.
    + destruct (Z.eqb_spec u t) as [->|N]; [intros _; rewrite upd_same; now right|]. rewrite upd_other by exact N. auto.
    + intros q f' a' X Y. up X; [injection X as <-; discriminate|]. eauto.
    + intros X. up X; [discriminate|auto].
Qed.
Lemma joins_inv : forall checked max_threads m0 s, reachable checked max_threads m0 s -> joins s /\ always q_join (log s).
Proof.
  intros checked max_threads m0 s R. induction R as [v t0 H0|s s' R IH St].
  - split; [|apply always_nil]. constructor; cbn [thr log stat].
    + discriminate.
    + intros t c X. up X; discriminate.
    + intros t [X|X]; up X; discriminate.
    + intros t (v' & []).
    + intros t p f a X Y. up X; [injection X as <-; discriminate|discriminate].
    + intros t _ (f & a & []).
  - destruct IH as (IH & Q). destruct (joins_step s s' IH (step_teffect _ _ s s' St)). auto.
Qed.

(** pthread_join returns only after the start routine has ended. *)
Theorem C41_join : forall checked max_threads m0 s, reachable checked max_threads m0 s -> join_waits (log s).
Proof. intros checked max_threads m0 s R l2 t c v l1 E. apply joins_inv in R as (_ & Q). exact (Q l2 (Joined t c v) l1 E). Qed.
Print Assumptions C41_join.

(** The routine of a thread is entered at most once, with the routine and the argument
    given to pthread_create; and it ends at most once. *)
Theorem C41_once : forall checked max_threads m0 s, reachable checked max_threads m0 s -> starts_created (log s) /\ finish_started (log s).
Proof.
  intros checked max_threads m0 s R. apply joins_inv in R as (_ & Q). split.
  - intros l2 c f a l1 E. destruct (Q l2 (Started c f a) l1 E) as (H1 & H2). split; [exact H1|]. intros f' a' X. apply H2. now exists f', a'.
  - intros l2 c v l1 E. destruct (Q l2 (Finished c v) l1 E) as (H1 & H2). split; [exact H1|]. intros v' X. apply H2. now exists v'.
Qed.
Print Assumptions C41_once.

(** The value pthread_join stores is that of the last pthread_exit of the thread, 0 if
    there was none. *)
Definition q_value (e : event) (l : list event) : Prop :=
  match e with Joined _ c (Some v) => v = match exit_value l c with Some x => x | None => 0 end | _ => True end.
Theorem C41_value : forall checked max_threads m0 s l2 t c v l1, reachable checked max_threads m0 s -> log s = l2 ++ Joined t c (Some v) :: l1 ->
  v = match exit_value l1 c with Some x => x | None => 0 end.
Proof.
  intros checked max_threads m0 s l2 t c v l1 R E. enough ((forall c, pret s c = match exit_value (log s) c with Some x => x | None => 0 end) /\ always q_value (log s)) as (_ & Q) by (exact (Q l2 (Joined t c (Some v)) l1 E)).
  clear l2 t c v l1 E. induction R as [v t0 H0|s s' R (IH & Q) St]; [split; [reflexivity|apply always_nil]|].
  invstep St; shrink; try (split; [exact IH|]; first [exact Q|apply always_cons; split; [exact I|exact Q]]).
  - split; [exact IH|]. apply always_cons. split; [apply IH|exact Q].
  - split; [|apply always_cons; split; [exact I|exact Q]]. intros c. cbn [exit_value]. unfold upd. rewrite (Z.eqb_sym t c). destruct (c =? t); [reflexivity|apply IH].
Qed.
Print Assumptions C41_value.

Inductive steps (checked : bool) (max_threads : Z) : state -> state -> Prop :=
| st_refl : forall s, steps checked max_threads s s
| st_step : forall s s1 s2, step checked max_threads s s1 -> steps checked max_threads s1 s2 -> steps checked max_threads s s2.

Lemma done_stopped : forall checked max_threads m0 s, reachable checked max_threads m0 s -> forall t, thr s t = Some Done -> stat s t = Stopped.
Proof.
  intros checked max_threads m0 s R. induction R as [v t0 H0|s s' R IH St]; intros u Hu; [cbn in Hu; up Hu; discriminate|].
  invstep St; shrink; eauto; repeat (let N := fresh "N" in apply upd_some in Hu as [(-> & Hu)|(N & Hu)]; [try discriminate Hu; unfold released in Hu; try (destruct re; discriminate Hu); try (now rewrite upd_same)|]); rewrite ?upd_other by assumption; eauto.
Qed.

(** Waiting ends: once the routine of [c] has ended, steps of the library alone lead a
    thread in pthread_join out of it. *)
Theorem C41_join_returns : forall checked max_threads m0 s t c ret, reachable checked max_threads m0 s -> err s = false -> thr s t = Some (JWait c ret) ->
  (exists r, In (Finished c r) (log s)) -> exists s' v, steps checked max_threads s s' /\ log s' = Joined t c v :: log s.
Proof.
  intros checked max_threads m0 s t c ret R He Ht HF. destruct (joins_inv _ _ _ _ R) as (J & _).
  assert (forall s, err s = false -> thr s t = Some (JWait c ret) -> stat s c = Stopped -> exists s' v, steps checked max_threads s s' /\ log s' = Joined t c v :: log s) as HS.
  { clear. intros s He Ht Hs. destruct ret.
    - do 2 eexists. split; [eapply st_step; [eapply s_lib; [exact He|exact Ht|cbn [lib_step]; rewrite Hs; reflexivity]|]; eapply st_step; [|apply st_refl]; eapply s_lib; shrink; [exact He|apply upd_same|reflexivity]|reflexivity].
    - do 2 eexists. split; [eapply st_step; [eapply s_lib; [exact He|exact Ht|cbn [lib_step]; rewrite Hs; reflexivity]|apply st_refl]|reflexivity]. }
  destruct (j_finished s J c HF) as [X|X].
  - destruct (HS (goto (set_status s c Stopped) c Done)) as (s' & v & H1 & H2); [exact He|shrink; rewrite upd_other; [exact Ht|congruence]|shrink; apply upd_same|]. exists s', v. split; [|exact H2]. eapply st_step; [|exact H1]. eapply s_lib; [exact He|exact X|reflexivity].
  - apply HS; auto. eapply done_stopped; eauto.
Qed.
Print Assumptions C41_join_returns.

(** A created thread whose handle variable holds its identifier can start. *)
Theorem C41_start_possible : forall checked max_threads m0 s c h f a, reachable checked max_threads m0 s -> err s = false -> thr s c = Some (W0 h f a) -> vars s h = c -> c < max_threads ->
  exists s', steps checked max_threads s s' /\ log s' = Started c f a :: log s.
Proof.
  intros checked max_threads m0 s c h f a R He Ht Hv Hc. eexists. split.
  - eapply st_step; [eapply s_lib; [exact He|exact Ht|cbn [lib_step]; rewrite Hv, Z.eqb_refl; apply Z.ltb_lt in Hc; rewrite Hc; reflexivity]|].
    eapply st_step; [eapply s_lib; shrink; [exact He|apply upd_same|reflexivity]|]. eapply st_step; [eapply s_lib; shrink; [exact He|apply upd_same|reflexivity]|].
    eapply st_step; [eapply s_lib; shrink; [exact He|apply upd_same|reflexivity]|]. apply st_refl.
  - reflexivity.
Qed.
Print Assumptions C41_start_possible.

(** pthread_create delivers: a thread outside the library can create any new thread [c]
    for any routine and argument; the call can return with the identifier in the handle
    variable, and the routine can start; and whenever the call returns, the handle
    variable holds the identifier. *)
Theorem C41_create : forall checked max_threads m0 s t h f a c, reachable checked max_threads m0 s -> err s = false -> thr s t = Some User ->
  0 < c < max_threads -> thr s c = None ->
  exists s1 s2 s3, step checked max_threads s s1 /\ log s1 = Created t c f a :: log s /\
    step checked max_threads s1 s2 /\ thr s2 t = Some User /\ vars s2 h = c /\ log s2 = log s1 /\
    steps checked max_threads s2 s3 /\ log s3 = Started c f a :: log s2.
Proof.
  intros checked max_threads m0 s t h f a c R He Ht Hc Hn. assert (t <> c) as Ne by (intros ->; congruence).
  set (s1 := say (Created t c f a) (goto (goto s c (W0 h f a)) t (CrSpawned h c))).
  assert (step checked max_threads s s1) as S1 by (eapply s_call; [exact He|exact Ht|apply c_create; [lia|exact Hn]]).
  set (s2 := goto (set_var s1 h c) t User).
  assert (step checked max_threads s1 s2) as S2.
  { eapply s_lib; [exact He|subst s1; shrink; apply upd_same|]. cbn [lib_step]. destruct (Z.ltb_spec c max_threads); [reflexivity|lia]. }
  destruct (C41_start_possible checked max_threads m0 s2 c h f a) as (s3 & T & E).
  - eapply r_step; [eapply r_step; [exact R|exact S1]|exact S2].
  - exact He.
  - subst s2 s1. shrink. rewrite !upd_other by congruence. apply upd_same.
  - subst s2. shrink. apply upd_same.
  - lia.
  - exists s1, s2, s3. split; [exact S1|]. split; [reflexivity|]. split; [exact S2|]. split; [subst s2; shrink; apply upd_same|].
    split; [subst s2; shrink; apply upd_same|]. split; [reflexivity|]. split; assumption.
Qed.
Print Assumptions C41_create.

Theorem C41_create_returns : forall checked max_threads m0 s s' t h c, reachable checked max_threads m0 s -> thr s t = Some (CrSpawned h c) ->
  step checked max_threads s s' -> thr s' t = Some User -> vars s' h = c.
Proof.
  intros checked max_threads m0 s s' t h c R Ht St Hu.
  assert (thr s' t <> thr s t) as Ne by (rewrite Ht, Hu; discriminate).
  inversion St as [? t' p ? Herr Ht' E|? t' ? Herr Ht' C]; subst.
  - destruct (Z.eq_dec t' t) as [->|Nt].
    + rewrite Ht in Ht'. injection Ht' as <-. cbn [lib_step] in E. destruct (c <? max_threads); [|discriminate]. injection E as <-. shrink. apply upd_same.
    + exfalso. apply Ne. destruct p; cbn [lib_step] in E; unfold assert_ in E;
      repeat match type of E with context [if ?b then _ else _] => destruct b end; try destruct (stat s _) in E;
      repeat match type of E with context [if ?b then _ else _] => destruct b end;
      try discriminate E; injection E as <-; shrink; rewrite ?upd_other by congruence; reflexivity.
  - assert (t' <> t) as Nt by (intros ->; congruence). exfalso. apply Ne.
    inversion C; subst; shrink; rewrite ?upd_other by congruence; try reflexivity.
Qed.
Print Assumptions C41_create_returns.

(** *** Where the library departs from POSIX. *)
(** The value returned by the start routine is not what pthread_join stores. *)
Theorem C41_return_value_refuted : exists s, reachable true 32 (mutexes 0) s /\ err s = false /\ log s = [Joined 1 2 (Some 0); Finished 2 5; Started 2 7 8; Created 1 2 7 8].
Proof.
  assert (exists s, run true 32 (begin 0) (spawn ++ [AFinish 2 5; ALib 2; AJoin 1 2; ALib 1; ALib 1]) = Some s /\ err s = false /\ log s = [Joined 1 2 (Some 0); Finished 2 5; Started 2 7 8; Created 1 2 7 8]) as (s & E & H).
  { eexists. split; [vm_compute; reflexivity|]. split; reflexivity. }
  exists s. split; [eapply run_reach; [apply begin_reach|exact E]|exact H].
Qed.
Print Assumptions C41_return_value_refuted.

(** pthread_exit does not end the thread: what follows the call runs as well. *)
Theorem C41_exit_continues_refuted : exists s, reachable true 32 (mutexes 0) s /\ err s = false /\ log s = [Locked 2 50; Exited 2 9; Started 2 7 8; Created 1 2 7 8].
Proof.
  assert (exists s, run true 32 (begin 0) (spawn ++ (AExit 2 9 :: libs 2 2) ++ (ALock 2 50 :: libs 2 4)) = Some s /\ err s = false /\ log s = [Locked 2 50; Exited 2 9; Started 2 7 8; Created 1 2 7 8]) as (s & E & H).
  { eexists. split; [vm_compute; reflexivity|]. split; reflexivity. }
  exists s. split; [eapply run_reach; [apply begin_reach|exact E]|exact H].
Qed.
Print Assumptions C41_exit_continues_refuted.

(** The main thread cannot call pthread_exit: an assertion of the library fails. *)
Theorem C41_main_exit_refuted : exists s, reachable true 32 (mutexes 0) s /\ err s = true /\ log s = [].
Proof.
  assert (exists s, run true 32 (begin 0) [AExit 1 0; ALib 1] = Some s /\ err s = true /\ log s = []) as (s & E & H).
  { eexists. split; [vm_compute; reflexivity|]. split; reflexivity. }
  exists s. split; [eapply run_reach; [apply begin_reach|exact E]|exact H].
Qed.
Print Assumptions C41_main_exit_refuted.

(** If the creator changes its handle variable after pthread_create returned and before
    the child looked at it, the child never runs: such schedules are lost. *)
Lemma handle_stuck : forall checked max_threads s s', steps checked max_threads s s' -> (exists h f a, thr s 2 = Some (W0 h f a) /\ thr s 1 = Some (JWait 2 true) /\ vars s h <> 2 /\ stat s 2 <> Stopped /\ forall t, t <> 1 -> t <> 2 -> thr s t = None) -> s' = s.
Proof.
  intros checked max_threads s s' T. induction T as [s|s s1 s2 St T IH]; [reflexivity|]. intros (h & f & a & H2 & H1 & Hv & Hst & Ho). exfalso.
  assert (forall t p, thr s t = Some p -> t = 1 /\ p = JWait 2 true \/ t = 2 /\ p = W0 h f a) as HP.
  { intros t p X. destruct (Z.eqb_spec t 1) as [->|]; [left; split; congruence|]. destruct (Z.eqb_spec t 2) as [->|]; [right; split; congruence|]. now rewrite Ho in X. }
  inversion St as [? t p ? Herr Ht E|? t ? Herr Ht C]; subst; apply HP in Ht as [(-> & X)|(-> & X)]; subst; try discriminate.
  - cbn in E. destruct (stat s 2) eqn:Hs; congruence.
  - cbn [lib_step] in E. apply not_eq_sym, Z.eqb_neq in Hv. rewrite Hv, andb_false_r in E. discriminate.
Qed.
Theorem C41_handle_refuted : exists s, reachable true 32 (mutexes 0) s /\ err s = false /\ log s = [Created 1 2 7 8] /\ thr s 1 = Some (JWait 2 true) /\ forall s', steps true 32 s s' -> s' = s.
Proof.
  assert (exists s, run true 32 (begin 0) [ACreate 1 100 7 8 2; ALib 1; AVar 1 100 0; AJoin 1 2] = Some s /\ err s = false /\ log s = [Created 1 2 7 8] /\ thr s 1 = Some (JWait 2 true) /\
    thr s 2 = Some (W0 100 7 8) /\ vars s 100 <> 2 /\ stat s 2 <> Stopped /\ forall t, t <> 1 -> t <> 2 -> thr s t = None) as (s & E & H1 & H2 & H3 & H4 & H5 & H6 & H7).
  { eexists. split; [vm_compute; reflexivity|]. repeat split; try reflexivity; try discriminate. intros t N1 N2. destruct t as [|[p|[p|p|]|]|p]; try reflexivity; congruence. }
  exists s. split; [eapply run_reach; [apply begin_reach|exact E]|]. repeat (split; [assumption|]). intros s' T. eapply handle_stuck; [exact T|]. exists 100, 7, 8. auto.
Qed.
Print Assumptions C41_handle_refuted.

Example C41_nonvacuous : exists s, reachable true 32 (mutexes 0) s /\ err s = false /\
  log s = [Joined 1 2 (Some 9); Finished 2 5; Unlocked 2 50; Exited 2 9; Locked 2 50; Started 2 7 8; Created 1 2 7 8].
Proof.
  assert (exists s, run true 32 (begin 0) (spawn ++ (ALock 2 50 :: libs 2 4) ++ [AJoin 1 2] ++ (AExit 2 9 :: libs 2 2) ++ (AUnlock 2 50 :: libs 2 4) ++ [AFinish 2 5; ALib 2; ALib 1; ALib 1]) = Some s /\ err s = false /\
    log s = [Joined 1 2 (Some 9); Finished 2 5; Unlocked 2 50; Exited 2 9; Locked 2 50; Started 2 7 8; Created 1 2 7 8]) as (s & E & H).
  { eexists. split; [vm_compute; reflexivity|]. split; reflexivity. }
  exists s. split; [eapply run_reach; [apply begin_reach|exact E]|exact H].
Qed.
