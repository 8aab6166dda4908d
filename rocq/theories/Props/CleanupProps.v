(** C78: temporary files and exit codes on every way a run ends. *)
From Coq Require Import ZArith NArith List String Bool Lia.
From Verif.Spec Require Import Cleanup.
From Verif.Model Require Import Cleanup.
From Verif.Model Require Driver.
Import ListNotations.
Open Scope string_scope. Open Scope list_scope.

Fixpoint shaped (l : list action) : Prop :=
  match l with
  | [] => True
  | Create n :: l' => match l' with Note m :: l'' => m = n /\ shaped l'' | _ => False end
  | Note _ :: _ => False
  | _ :: l' => shaped l'
  end.
Lemma shaped_app a b : (fix f (l : list action) := match l with [] => True | Write _ :: l' => f l' | _ => False end) a -> shaped b -> shaped (a ++ b).
Proof. induction a as [|[] a IH]; cbn; auto; tauto. Qed.
Lemma shaped_steps sy acts : shaped (flat_map (steps_of sy false) acts).
Proof.
  induction acts as [|[n|ws e] acts IH]; cbn; auto.
  rewrite <- app_assoc. apply shaped_app.
  - induction ws; cbn; auto.
  - destruct (raises sy e); cbn; auto.
Qed.
Lemma in_gone n f l : In n (gone f l) <-> In n l /\ n <> f.
Proof. unfold gone. rewrite filter_In, negb_true_iff, String.eqb_neq. tauto. Qed.

Local Arguments gone : simpl never.
Definition half (s : state) : Prop := made s = noted s \/ exists x, made s = noted s ++ [x].
Definition inv (s : state) : Prop :=
  match at_ s with
  | Main l _ => (made s = noted s /\ shaped l) \/ exists x l', l = Note x :: l' /\ made s = noted s ++ [x] /\ shaped l'
  | Finally todo _ | Handler todo false => half s /\ (forall n, In n (noted s) -> In n (here s) -> In n todo)
  | Handler _ true => half s
  | Over c => half s /\ (c <> 130%Z -> forall n, In n (noted s) -> ~ In n (here s))
  end.
Lemma inv_step s e : inv s -> inv (step s e).
Proof.
  destruct s as [h no ma [l c|todo c|todo im|c]]; unfold inv, step, half; cbn.
  - intros H.
    assert (Hh : ma = no \/ exists x, ma = no ++ [x]).
    { destruct H as [[H _]|(x & l' & _ & H & _)]; eauto. }
    destruct e as [[| |f]|]; cbn; auto.
    destruct H as [[-> Hs]|(x & l' & -> & -> & Hs)].
    + destruct l as [|[n|n|n|] l]; cbn in *.
      * auto.
      * destruct l as [|[m|m|m|] l]; try (now destruct Hs). destruct Hs as [-> Hs]. right. exists n, l. auto.
      * now destruct Hs.
      * left. auto.
      * auto.
    + cbn. left. auto.
  - intros [Hh H]. destruct e as [[| |f]|]; cbn; [auto|(split; [auto|congruence])|auto|].
    + destruct todo as [|f todo]; cbn.
      * split; [exact Hh|]. intros _ n Hn Hm. exact (H n Hn Hm).
      * split; [exact Hh|]. intros n Hn. rewrite in_gone. intros [Hm Hne]. destruct (H n Hn Hm); [congruence|assumption].
  - destruct im.
    + intros Hh. destruct e as [[| |f]|]; cbn; auto. destruct todo; cbn; auto.
    + intros [Hh H]. destruct e as [[| |f]|]; cbn; [auto|(split; [auto|congruence])|auto|].
      * destruct todo as [|f todo]; cbn.
        -- split; [exact Hh|]. intros _ n Hn Hm. exact (H n Hn Hm).
        -- split; [exact Hh|]. intros n Hn. rewrite in_gone. intros [Hm Hne]. destruct (H n Hn Hm); [congruence|assumption].
  - auto.
Qed.
Lemma fold_inv (P : state -> Prop) h : (forall s e, In e h -> P s -> P (step s e)) -> forall s, P s -> P (fold_left step h s).
Proof. induction h as [|e h IH]; cbn; intros H s Hs; auto. Qed.

(** Whatever signals come at whatever moments: once the run is over and has not been killed by SIGINT
    (exit code 130), none of the temporary files whose names were noted is there; these are all the temporary files that were
    made, but for at most one, the last. *)
Theorem C78_clean sy acts code files h c :
  at_ (run sy false acts code files h) = Over c -> c <> 130%Z ->
  let s := run sy false acts code files h in
  exists kept, (made s = kept \/ exists x, made s = kept ++ [x]) /\ forall n, In n kept -> ~ In n (here s).
Proof.
  intros E Hc s.
  assert (H : inv s).
  { apply (fold_inv inv h); [intros; now apply inv_step|]. left. split; auto. apply shaped_steps. }
  unfold inv in H. fold s in E. rewrite E in H. destruct H as [Hh H].
  exists (noted s). split; auto.
Qed.
Print Assumptions C78_clean.

Definition keeps_inv (files : list string) (s : state) : Prop :=
  (forall n, In n files -> ~ In n (made s) -> In n (here s)) /\ incl (noted s) (made s) /\
  match at_ s with
  | Finally todo _ | Handler todo _ => incl todo (noted s)
  | _ => True
  end.
Fixpoint noted_later (l : list action) (ma : list string) : Prop :=
  match l with
  | [] => True
  | Create n :: l' => noted_later l' (n :: ma)
  | Note n :: l' => In n ma /\ noted_later l' ma
  | _ :: l' => noted_later l' ma
  end.
Lemma noted_later_incl l : forall a b, incl a b -> noted_later l a -> noted_later l b.
Proof.
  induction l as [|[n|n|n|] l IH]; cbn; intros a b H; auto.
  - apply IH. intros x [->|Hx]; cbn; auto.
  - intros [Hn Hl]. split; eauto.
  - eauto.
  - eauto.
Qed.
Lemma noted_later_steps sy debug acts : forall ma, noted_later (flat_map (steps_of sy debug) acts) ma.
Proof.
  induction acts as [|[n|ws e] acts IH]; cbn; auto; intros ma.
  - destruct debug; cbn; auto.
  - rewrite <- app_assoc. induction ws as [|w ws IHw]; cbn; auto. destruct (raises sy e); cbn; auto.
Qed.
Definition later (s : state) : Prop := match at_ s with Main l _ => noted_later l (made s) | _ => True end.
Lemma incl_tail {A} (a : A) l m : incl (a :: l) m -> incl l m.
Proof. intros H x Hx. apply H. now right. Qed.
Lemma keeps_step files s e : keeps_inv files s /\ later s -> keeps_inv files (step s e) /\ later (step s e).
Proof.
  destruct s as [h no ma [l c|todo c|todo im|c]]; unfold keeps_inv, later, step; cbn; intros [(Hk & Hn & Ht) Hl].
  - destruct e as [[| |f]|]; cbn; auto using incl_refl.
    destruct l as [|[n|n|n|] l]; cbn in *; auto using incl_refl.
    + split; [split; [|split; auto]|].
      * intros x Hx Hm. right. apply Hk; auto. intros Hm'. apply Hm, in_app_iff. auto.
      * intros x Hx. apply in_app_iff. auto.
      * eapply noted_later_incl; [|exact Hl]. intros x [->|Hx]; apply in_app_iff; cbn; auto.
    + split; [split; [|split; auto]|tauto].
      * auto.
      * intros x Hx. apply in_app_iff in Hx. cbn in Hx. destruct Hx as [Hx|[<-|[]]]; [auto|tauto].
  - destruct e as [[| |f]|]; cbn; auto using incl_refl.
    destruct todo as [|f todo]; cbn; auto. split; [split; [|split]|]; auto.
    + intros n Hx Hm. apply in_gone. split; auto. intros ->. apply Hm, Hn, Ht. now left.
    + eapply incl_tail; eauto.
  - destruct e as [[| |f]|]; cbn; auto using incl_refl.
    + destruct im; cbn; auto using incl_refl.
    + destruct im; cbn; auto using incl_refl.
    + destruct todo as [|f todo]; cbn.
      * destruct im; cbn; auto using incl_refl.
      * split; [split; [|split]|]; auto.
        -- intros n Hx Hm. apply in_gone. split; auto. intros ->. apply Hm, Hn, Ht. now left.
        -- eapply incl_tail; eauto.
  - auto.
Qed.

(** Nothing else is removed: a file that is there at some moment, before the run or because a command has written it, and is not made as
    temporary, is there at all later moments. *)
Theorem C78_keeps sy debug acts code files h h' n :
  let s := run sy debug acts code files h in let s' := run sy debug acts code files (h ++ h') in
  In n (here s) -> ~ In n (made s') -> In n (here s').
Proof.
  intros s s'.
  assert (H : keeps_inv files s /\ later s).
  { apply (fold_inv (fun s => keeps_inv files s /\ later s) h); [intros; now apply keeps_step|]. split; [split; [|split]|]; cbn; auto.
    - intros x [].
    - apply noted_later_steps. }
  assert (H' : keeps_inv (here s) s' /\ later s').
  { unfold s', run. rewrite fold_left_app. fold (run sy debug acts code files h). fold s.
    apply (fold_inv (fun t => keeps_inv (here s) t /\ later t) h'); [intros; now apply keeps_step|].
    destruct H as [(_ & Hn & Ht) Hl]. split; [split; [auto|split; auto]|exact Hl]. }
  apply H'.
Qed.
Print Assumptions C78_keeps.

Lemma steps_debug sy acts n : ~ In (Note n) (flat_map (steps_of sy true) acts).
Proof.
  induction acts as [|[m|ws e] acts IH]; cbn; auto.
  - intros [H|H]; [discriminate|auto].
  - rewrite !in_app_iff, in_map_iff. intros [[(w & H & _)|H]|H]; [discriminate| |auto].
    destruct (raises sy e); cbn in H; [destruct H; [discriminate|auto]|auto].
Qed.
Definition debug_inv (s : state) : Prop :=
  noted s = [] /\ incl (made s) (here s) /\
  match at_ s with Main l _ => forall n, ~ In (Note n) l | Finally todo _ | Handler todo _ => todo = [] | _ => True end.
Lemma debug_step s e : debug_inv s -> debug_inv (step s e).
Proof.
  destruct s as [h no ma [l c|todo c|todo im|c]]; unfold debug_inv, step; cbn; intros (-> & Hm & H).
  - destruct e as [[| |f]|]; cbn; auto.
    destruct l as [|[n|n|n|] l]; cbn in *; auto.
    + split; [auto|split]; [|firstorder].
      intros x Hx. apply in_app_iff in Hx. cbn in Hx. destruct Hx as [Hx|[->|[]]]; cbn; auto.
    + exfalso. apply (H n). now left.
    + split; [auto|split]; [|firstorder]. intros x Hx. right. auto.
  - subst todo. destruct e as [[| |f]|]; cbn; auto.
  - subst todo. destruct e as [[| |f]|]; cbn; auto; destruct im; cbn; auto.
    split; [auto|split; auto]. intros x Hx. right. auto.
  - auto.
Qed.

(** In debug mode all the temporary files stay, whatever happens. *)
Theorem C78_debug sy acts code files h n :
  let s := run sy true acts code files h in In n (made s) -> In n (here s).
Proof.
  intros s.
  assert (H : debug_inv s).
  { apply (fold_inv debug_inv h); [intros; now apply debug_step|]. split; [auto|split]; cbn.
    - intros x [].
    - intros x. apply steps_debug. }
  apply H.
Qed.
Print Assumptions C78_debug.

Lemma raises_failed sy e : raises sy e = true <-> failed sy e.
Proof.
  destruct e as [| |rc]; cbn.
  - split; [constructor|auto].
  - split; [discriminate|intros H; inversion H].
  - destruct (rc =? -11)%Z eqn:E.
    + apply Z.eqb_eq in E. subst. split; [constructor|auto].
    + rewrite andb_true_iff, !negb_true_iff, Z.eqb_neq. split.
      * intros []. now constructor.
      * intros H. inversion H; subst; [discriminate|auto].
Qed.

(** The exit code of a run with no signal: that of the regular end if no command fails, 1 if one does. *)
Definition quiet_inv (x : Z) (raised : list action -> Z) (s : state) : Prop :=
  match at_ s with Main l c => raised l = x /\ c = raised [] | Finally _ c | Over c => c = x | Handler _ _ => False end.
Definition raised (code : Z) (l : list action) : Z := if existsb (fun a => match a with Raise => true | _ => false end) l then 1%Z else code.
Lemma quiet_step x code s e : (forall v, e = Some v -> exists f, v = Child f) -> quiet_inv x (raised code) s -> quiet_inv x (raised code) (step s e).
Proof.
  intros He. destruct s as [h no ma [l c|todo c|todo im|c]]; unfold quiet_inv, step; cbn.
  - intros [Hx Hc]. destruct e as [v|]; [destruct (He v eq_refl) as [f ->]; cbn; auto|].
    destruct l as [|[n|n|n|] l]; cbn in *; auto. rewrite Hc. exact Hx.
  - intros ->. destruct e as [v|]; [destruct (He v eq_refl) as [f ->]; cbn; auto|]. destruct todo; cbn; auto.
  - tauto.
  - auto.
Qed.
Lemma raised_steps sy debug acts code :
  raised code (flat_map (steps_of sy debug) acts) = if existsb (fun a => match a with Command _ e => raises sy e | _ => false end) acts then 1%Z else code.
Proof.
  unfold raised.
  replace (existsb (fun a => match a with Raise => true | _ => false end) (flat_map (steps_of sy debug) acts))
    with (existsb (fun a => match a with Command _ e => raises sy e | _ => false end) acts); [reflexivity|].
  induction acts as [|[n|ws e] acts IH]; cbn; auto.
  - destruct debug; cbn; auto.
  - rewrite !existsb_app, <- IH.
    replace (existsb _ (map Write ws)) with false by (now induction ws).
    now destruct (raises sy e).
Qed.

(** A run during which no signal comes has the exit code of its regular end if none of its commands fails, and exit
    code 1 if one does. *)
Theorem C78_code sy debug acts code files h c :
  calm h -> at_ (run sy debug acts code files h) = Over c ->
  ((forall ws e, In (Command ws e) acts -> ~ failed sy e) -> c = code) /\
  ((exists ws e, In (Command ws e) acts /\ failed sy e) -> c = 1%Z).
Proof.
  intros Hh E.
  assert (H : quiet_inv (raised code (flat_map (steps_of sy debug) acts)) (raised code) (run sy debug acts code files h)).
  { apply (fold_inv (quiet_inv _ (raised code)) h).
    - intros s e Hin. apply quiet_step. intros v ->. auto.
    - cbn. auto. }
  unfold quiet_inv in H. rewrite E, raised_steps in H. subst c.
  destruct (existsb _ acts) eqn:Ex.
  - split; auto. intros Hn. apply existsb_exists in Ex. destruct Ex as ([n|ws e] & Hi & Hr); [discriminate|].
    exfalso. apply (Hn ws e Hi). now apply raises_failed.
  - split; auto. intros (ws & e & Hi & Hf). apply raises_failed in Hf. exfalso.
    assert (existsb (fun a => match a with Command _ e => raises sy e | _ => false end) acts = true) by (apply existsb_exists; eauto). congruence.
Qed.
Print Assumptions C78_code.

Definition calm_inv (s : state) : Prop :=
  inv s /\ match at_ s with
  | Main _ _ => True | Handler _ _ => False | Finally _ _ => made s = noted s
  | Over _ => made s = noted s /\ forall n, In n (noted s) -> ~ In n (here s)
  end.
Lemma calm_step s e : (forall v, e = Some v -> exists f, v = Child f) -> calm_inv s -> calm_inv (step s e).
Proof.
  intros He [Hi H]. split; [now apply inv_step|]. revert Hi H.
  destruct s as [h no ma [l c|todo c|todo im|c]]; unfold inv, step; cbn; intros Hi H.
  - destruct e as [v|]; [destruct (He v eq_refl) as [f ->]; cbn; auto|].
    destruct l as [|[n|n|n|] l]; cbn in *; auto; destruct Hi as [[Hm _]|(x & l' & Hl & _)]; auto; discriminate.
  - destruct e as [v|]; [destruct (He v eq_refl) as [f ->]; cbn; auto|]. destruct todo; cbn; auto.
    split; [auto|]. intros n Hn Hm. destruct Hi as [_ Hi]. exact (Hi n Hn Hm).
  - destruct H.
  - auto.
Qed.

(** A run during which no signal comes leaves none of its temporary files, whether a command fails or not. *)
Theorem C78_calm sy acts code files h c n :
  calm h -> let s := run sy false acts code files h in at_ s = Over c -> In n (made s) -> ~ In n (here s).
Proof.
  intros Hh s E.
  assert (H : calm_inv s).
  { apply (fold_inv calm_inv h).
    - intros s' e Hin. apply calm_step. intros v ->. auto.
    - split; [|exact I]. left. split; auto. apply shaped_steps. }
  destruct H as [_ H]. rewrite E in H. destruct H as [-> H]. apply H.
Qed.
Print Assumptions C78_calm.

(** How many steps are left if nothing more comes. *)
Definition togo (s : state) : nat :=
  match at_ s with
  | Main l _ => 2 + 2 * List.length l + List.length (noted s)
  | Finally todo _ => 1 + List.length todo
  | Handler todo true => 2 + List.length todo + List.length (noted s)
  | Handler todo false => 1 + List.length todo
  | Over _ => 0
  end.
Lemma togo_step s : togo s <> 0 -> togo (step s None) < togo s.
Proof.
  destruct s as [h no ma [l c|todo c|todo im|c]]; unfold togo, step; cbn.
  - destruct l as [|[n|n|n|] l]; cbn; rewrite ?app_length; cbn; lia.
  - destruct todo; cbn; lia.
  - destruct todo; destruct im; cbn; lia.
  - lia.
Qed.
Lemma ends_from k : forall s, togo s <= k -> exists c, at_ (fold_left step (repeat None k) s) = Over c.
Proof.
  induction k as [|k IH]; cbn; intros s H.
  - unfold togo in H. destruct (at_ s) as [| |? []|]; try (cbn in H; lia). eauto.
  - apply IH. destruct (Nat.eq_dec (togo s) 0) as [E|E].
    + unfold togo, step in *. destruct (at_ s) as [| |? []|] eqn:Ea; try discriminate. rewrite Ea. lia.
    + pose proof (togo_step s E). lia.
Qed.

(** Every run is over at some time after the signals have stopped coming. *)
Theorem C78_ends sy debug acts code files h :
  exists k c, at_ (run sy debug acts code files (h ++ repeat None k)) = Over c.
Proof.
  unfold run.
  exists (togo (fold_left step h (State files [] [] (Main (flat_map (steps_of sy debug) acts) code)))).
  rewrite fold_left_app. now apply ends_from.
Qed.
Print Assumptions C78_ends.

Definition term_inv (s : state) : Prop :=
  match at_ s with Main _ _ => False | Finally _ c | Over c => c = 0%Z | Handler _ _ => True end.
Lemma term_step s e : e <> Some Interrupt -> term_inv s -> term_inv (step s e).
Proof.
  intros He. destruct s as [h no ma [l c|todo c|todo im|c]]; unfold term_inv, step; cbn; auto.
  - tauto.
  - intros ->. destruct e as [[| |f]|]; cbn; auto; [congruence|destruct todo; cbn; auto].
  - intros _. destruct e as [[| |f]|]; cbn; auto; [congruence| |]; destruct im; cbn; auto; destruct todo; cbn; auto.
Qed.

(** A run that SIGTERM reaches at any moment before it is over has exit code 0, whatever it had found, if SIGINT
    does not come after that. *)
Theorem C78_term sy debug acts code files h h' c :
  (forall d, at_ (run sy debug acts code files h) <> Over d) -> no_interrupt h' ->
  at_ (run sy debug acts code files (h ++ Some Term :: h')) = Over c -> c = 0%Z.
Proof.
  unfold run. rewrite fold_left_app. cbn [fold_left]. set (s := fold_left step h _). intros Hn Hi E.
  assert (H : term_inv (fold_left step h' (step s (Some Term)))).
  { apply (fold_inv term_inv h').
    - intros s' e Hin. apply term_step. intros ->. exact (Hi Hin).
    - unfold step, term_inv. destruct (at_ s) as [| | |d] eqn:Ea; cbn; auto. destruct (Hn d eq_refl). }
  unfold term_inv in H. rewrite E in H. exact H.
Qed.
Print Assumptions C78_term.

Definition killed_inv (s : state) : Prop :=
  match at_ s with Main _ c | Finally _ c | Over c => c <> 130%Z | Handler _ _ => True end.
(** Exit code 130 is only seen if SIGINT came. *)
Theorem C78_killed sy debug acts code files h :
  code <> 130%Z -> no_interrupt h -> at_ (run sy debug acts code files h) <> Over 130.
Proof.
  intros Hc Hi E.
  assert (H : killed_inv (run sy debug acts code files h)).
  { apply (fold_inv killed_inv h); [|exact Hc].
    intros [fs no ma [l c|todo c|todo im|c]] e Hin; unfold killed_inv, step; cbn; auto; intros H.
    - destruct e as [[| |f]|]; cbn; auto; try lia. destruct l as [|[n|n|n|] l]; cbn; auto; lia.
    - destruct e as [[| |f]|]; cbn; auto; try (now destruct Hi). destruct todo; cbn; auto.
    - destruct e as [[| |f]|]; cbn; auto; try (now destruct Hi); destruct im; cbn; auto; destruct todo; cbn; auto; lia. }
  unfold killed_inv in H. rewrite E in H. now apply H.
Qed.
Print Assumptions C78_killed.

(** It is not so that exit code 0 is only given to programs in which no error was found: this run was about to end with 1,
    the code of an assertion failure, when SIGTERM came. *)
Theorem C78_zero_refuted :
  ~ (forall sy debug acts code files h c, at_ (run sy debug acts code files h) = Over c -> c = 0%Z -> code = 0%Z).
Proof.
  intros H.
  specialize (H false false [Temp "a.bpl"; Command ["a.bpl"] (Exited 0)] 1%Z ["a.c"] (repeat None 4 ++ [Some Term] ++ repeat None 5) 0%Z eq_refl eq_refl).
  discriminate.
Qed.
Print Assumptions C78_zero_refuted.

(** It is not so that exit code 1 is only given to programs with an assertion failure: so does a run whose compiler fails, and
    one that is interrupted. *)
Theorem C78_one_refuted :
  ~ (forall sy debug acts code files h c, at_ (run sy debug acts code files h) = Over c -> c = 1%Z -> code = 1%Z) /\
  Driver.return_code Driver.ASSERTION_FAILURE = Some 1%Z /\
  (forall sy debug acts files, exists h, at_ (run sy debug acts 0 files h) = Over 1).
Proof.
  split; [|split; [reflexivity|]].
  - intros H. specialize (H false false [Temp "a.bc"; Command [] (Exited 1)] 0%Z [] (repeat None 6) 1%Z eq_refl eq_refl). discriminate.
  - intros sy debug acts files. exists (Some Interrupt :: repeat None 1). reflexivity.
Qed.
Print Assumptions C78_one_refuted.

(** It is not so that no temporary file is ever left: one is if a second SIGINT comes while they are removed, and the last is
    if SIGTERM comes when it has been made and its name has not been noted yet. *)
Theorem C78_left_refuted :
  ~ (forall sy acts code files h c n, at_ (run sy false acts code files h) = Over c -> In n (made (run sy false acts code files h)) ->
       ~ In n (here (run sy false acts code files h))) /\
  ~ (forall sy acts code files h n, no_interrupt h -> at_ (run sy false acts code files h) = Over 0 -> In n (made (run sy false acts code files h)) ->
       ~ In n (here (run sy false acts code files h))).
Proof.
  split; intros H.
  - apply (H false [Temp "a.bc"] 0%Z [] [None; None; Some Interrupt; Some Interrupt] 130%Z "a.bc"); cbn; auto.
  - apply (H false [Temp "a.bc"] 0%Z [] [None; Some Term; None; None] "a.bc"); cbn; auto.
    unfold no_interrupt. cbn. intuition discriminate.
Qed.
Print Assumptions C78_left_refuted.

(** It is not so that a run leaves no files but those of the user: the bitcode of a Fortran file is not made as temporary and stays. *)
Theorem C78_fortran_refuted : forall sy ll bc code, bc <> ll ->
  let s := run sy false (fortran_compile_to_bc ll bc) code [] (repeat None 9) in at_ s = Over code /\ here s = [bc] /\ made s = [ll].
Proof.
  intros sy ll bc code H. unfold run, fortran_compile_to_bc. cbn. unfold gone. cbn. rewrite String.eqb_refl. cbn.
  apply String.eqb_neq in H. rewrite H. cbn. auto.
Qed.
Print Assumptions C78_fortran_refuted.

(** Two temporary files, a command, SIGTERM while the second command runs, which writes again what was just removed, and once
    more while the handler is at work. *)
Example C78_nonvacuous :
  let acts := [Temp "a.bc"; Command ["a.bc"] (Exited 0); Temp "a.bpl"; Command ["a.bpl"; "a.log"] TimedOut; Command [] (Exited 3)] in
  let h := repeat None 6 ++ [Some Term; None; Some (Child "a.bc"); None; Some Term] ++ repeat None 6 in
  let s := run true false acts 1 ["a.c"] h in
  let t := run true false acts 1 ["a.c"] (repeat None 12) in
  at_ s = Over 0 /\ made s = ["a.bc"; "a.bpl"] /\ here s = ["a.c"] /\ no_interrupt h /\
  at_ t = Over 1 /\ here t = ["a.log"; "a.c"] /\ calm (repeat None 12) /\
  (forall ws e, In (Command ws e) acts -> ~ failed true e) /\ failed false (Exited 3) /\
  at_ (run false false acts 0 ["a.c"] (repeat None 13)) = Over 1 /\
  here (run true true acts 1 ["a.c"] (repeat None 12)) = ["a.log"; "a.bpl"; "a.bpl"; "a.bc"; "a.bc"; "a.c"].
Proof.
  vm_compute. repeat split; auto.
  - intuition discriminate.
  - intros e [H|H]; repeat (destruct H as [H|H]; try discriminate); try discriminate; destruct H.
  - intros ws e H Hf. repeat (destruct H as [H|H]; [try discriminate; injection H as <- <-; inversion Hf; discriminate|]). destruct H.
  - constructor; auto; discriminate.
Qed.
