(** C28: memory-safety checks are inserted for all memory accesses. *)
From Coq Require Import ZArith List String Bool Lia.
From Verif.Spec Require Import MemProgram.
From Verif.Model Require Import MemorySafetyChecker.
Import ListNotations.
Open Scope string_scope.
Open Scope list_scope.
Open Scope Z_scope.

(** The program has no checks yet. *)
Definition no_checks (M : module) : Prop :=
  forall F b i, In F M -> In b (fblocks F) -> In i b -> match i with Check _ _ | LeakCheck => False | _ => True end.
(** It has no atomic read-modify-write or compare-exchange instructions. *)
Definition no_atomics (M : module) : Prop :=
  forall F b i, In F M -> In b (fblocks F) -> In i b -> match i with AtomicRMW _ _ _ _ | CmpXchg _ _ _ _ _ => False | _ => True end.

(** The next step is a violation: an access of a function [f] to be checked
    touches an invalid byte range, or an entry point returns while heap
    objects are live. *)
Definition checked_function (checked : list string) (matches : string -> string -> bool) (f : string) : Prop :=
  (forall a b, f <> a ++ "__SMACK_" ++ b)%string /\ (checked = [] \/ exists r, In r checked /\ matches r f = true).
Definition violates {state} (reg : state -> string -> Z) (valid : state -> Z -> Z -> bool) (freed : state -> bool)
    (entries checked : list string) (matches : string -> string -> bool) (c : state * list frame) : Prop :=
  match c with
  | (s, (f, i :: _) :: _) =>
      checked_function checked matches f /\
      ((exists a n, In (a, n) (touches state reg s i) /\ valid s a n = false) \/
       (i = Ret /\ In f entries /\ freed s = false))
  | _ => False
  end.

Lemma prefix_app : forall p n, String.prefix p n = true <-> exists b, n = (p ++ b)%string.
Proof.
  induction p as [|c p IH]; intros n.
  - split; [intros _; exists n; reflexivity|destruct n; reflexivity].
  - destruct n as [|d n]; [split; [discriminate|intros (b & H); discriminate]|]. cbn [String.prefix String.append].
    destruct (Ascii.ascii_dec c d) as [<-|Hne].
    + rewrite IH. split; intros (b & H); exists b; [now rewrite H|now injection H].
    + split; [discriminate|]. intros (b & H). injection H as H1 H2. congruence.
Qed.
Lemma contains_app : forall p n, contains p n = true <-> exists a b, n = (a ++ p ++ b)%string.
Proof.
  intros p n. split.
  - induction n as [|c n IH]; cbn [contains]; intros H; apply orb_true_iff in H as [H|H].
    + apply prefix_app in H as (b & H). exists "", b. exact H.
    + discriminate.
    + apply prefix_app in H as (b & H). exists "", b. exact H.
    + destruct (IH H) as (a & b & ->). exists (String c a), b. reflexivity.
  - intros (a & b & ->). induction a as [|c a IH].
    + cbn [String.append]. destruct (p ++ b)%string eqn:E; cbn [contains]; apply orb_true_iff; left; apply prefix_app; exists b; now rewrite E.
    + cbn. apply orb_true_iff. now right.
Qed.

Lemma skipped_iff : forall checked matches f,
  skipped checked matches f = false <-> checked_function checked matches f.
Proof.
  intros checked matches f. unfold skipped, checked_function, isSmackName. rewrite orb_false_iff, negb_false_iff.
  assert (contains "__SMACK_" f = false <-> forall a b, f <> (a ++ "__SMACK_" ++ b)%string) as ->.
  { pose proof (contains_app "__SMACK_" f) as H. destruct (contains "__SMACK_" f).
    - split; [discriminate|]. intros Hn. destruct (proj1 H eq_refl) as (a & b & E). now apply Hn in E.
    - split; [|reflexivity]. intros _ a b E. assert (false = true) by (apply H; eauto). discriminate. }
  assert (shouldCheckFunction matches checked f = true <-> checked = [] \/ exists r, In r checked /\ matches r f = true) as ->; [|reflexivity].
  unfold shouldCheckFunction. destruct checked as [|r l]; [split; auto|]. rewrite existsb_exists.
  split; [now right|]. intros [H|H]; [discriminate|exact H].
Qed.

Section Sim.
  Context {state : Type} (reg : state -> string -> Z) (valid : state -> Z -> Z -> bool) (freed : state -> bool).
  Context (effect : state -> inst -> state -> Prop) (takes : state -> string -> nat -> Prop).
  Context (entries checked : list string) (matches : string -> string -> bool).
  Let step := step state reg valid freed effect takes.
  Let steps := steps state reg valid freed effect takes.
  Let pass := runOnModule entries checked matches.
  Let skip := skipped checked matches.

  Definition tr_code (f : string) (r : list inst) : list inst := if skip f then r else visit_block entries f r.
  Definition tr_frames (fs : list frame) : list frame := map (fun x => (fst x, tr_code (fst x) (snd x))) fs.

  Lemma find_pass : forall M f, find_func (pass M) f = option_map (runOnFunction entries checked matches) (find_func M f).
  Proof.
    intros M f. induction M as [|F M IH]; [reflexivity|]. unfold find_func, pass, runOnModule in *. cbn [map find].
    assert (fname (runOnFunction entries checked matches F) = fname F) as -> by (unfold runOnFunction; destruct (skipped _ _ _); reflexivity).
    destruct (String.eqb (fname F) f); [reflexivity|exact IH].
  Qed.
  Lemma find_name : forall M f F, find_func M f = Some F -> fname F = f /\ In F M.
  Proof. intros M f F H. apply find_some in H as (H1 & H2). apply String.eqb_eq in H2. auto. Qed.
  Lemma code_pass : forall M f b, code_at (pass M) f b = option_map (tr_code f) (code_at M f b).
  Proof.
    intros M f b. unfold code_at. rewrite find_pass. destruct (find_func M f) as [F|] eqn:E; [|reflexivity]. cbn.
    destruct (find_name M f F E) as (E1 & _). unfold runOnFunction, tr_code, skip. rewrite E1.
    destruct (skipped checked matches f); cbn [fblocks].
    - destruct (nth_error (fblocks F) b); reflexivity.
    - rewrite nth_error_map. destruct (nth_error (fblocks F) b); reflexivity.
  Qed.

  (** The instructions of a configuration come from the program. *)
  Definition within (M : module) (f : string) (r : list inst) : Prop :=
    exists F b p, In F M /\ In b (fblocks F) /\ b = p ++ r.
  Definition frames_in (M : module) (fs : list frame) : Prop := forall f r, In (f, r) fs -> within M f r.
  Lemma code_within : forall M f b c, code_at M f b = Some c -> within M f c.
  Proof.
    intros M f b c H. unfold code_at in H. destruct (find_func M f) as [F|] eqn:E; [|discriminate].
    destruct (find_name M f F E) as (_ & HF). exists F, c, []. split; [exact HF|]. split; [|reflexivity]. now apply nth_error_In in H.
  Qed.
  Lemma within_tail : forall M f i r, within M f (i :: r) -> within M f r.
  Proof. intros M f i r (F & b & p & H1 & H2 & H3). exists F, b, (p ++ [i]). repeat split; auto. now rewrite <- app_assoc. Qed.
  Lemma within_head : forall M f i r, within M f (i :: r) -> exists F b, In F M /\ In b (fblocks F) /\ In i b.
  Proof. intros M f i r (F & b & p & H1 & H2 & H3). exists F, b. repeat split; auto. rewrite H3. apply in_or_app. right. now left. Qed.
  Lemma frames_cons : forall M f r fs, within M f r -> frames_in M fs -> frames_in M ((f, r) :: fs).
  Proof. intros M f r fs H1 H2 g q [E|H]; [injection E as <- <-; exact H1|now apply H2]. Qed.
  Lemma step_in : forall M a b, step M a b -> frames_in M (snd a) -> frames_in M (snd b).
  Proof.
    intros M a b H. destruct H; cbn [snd]; intros Hin;
      try (apply frames_cons; [apply (within_tail M f) with (1 := Hin _ _ (or_introl eq_refl))|intros g' q Hq; apply Hin; now right]).
    - apply frames_cons; [now apply code_within in H|].
      apply frames_cons; [apply (within_tail M f) with (1 := Hin _ _ (or_introl eq_refl))|intros g' q Hq; apply Hin; now right].
    - apply frames_cons; [now apply code_within in H1|intros g' q Hq; apply Hin; now right].
    - intros g' q Hq. apply Hin. now right.
  Qed.

  Lemma steps_trans : forall M a b c, steps M a b -> steps M b c -> steps M a c.
  Proof. intros M a b c H1 H2. induction H2 as [|x y z H2 IH Hs]; [exact H1|]. exact (steps_next _ _ _ _ _ _ M a y z (IH H1) Hs). Qed.
  Lemma steps_one : forall M a b, step M a b -> steps M a b.
  Proof. intros M a b H. exact (steps_next _ _ _ _ _ _ M a a b (steps_refl _ _ _ _ _ _ M a) H). Qed.

  (** [i] is about to be executed in the source: do its checks pass? *)
  Definition clean (s : state) (f : string) (i : inst) : bool :=
    skip f ||
    match i with
    | Load _ w p | Store w _ p => valid s (eval state reg s p) (bytes_of w)
    | MemSet d _ len => valid s (eval state reg s d) (eval state reg s len)
    | MemTransfer _ d src len =>
        valid s (eval state reg s d) (eval state reg s len) && valid s (eval state reg s src) (eval state reg s len)
    | Ret => negb (isEntryPoint entries f) || freed s
    | _ => true
    end.

  Lemma tr_cons : forall f i r, tr_code f (i :: r) = (if skip f then [] else inserted entries f i) ++ i :: tr_code f r.
  Proof.
    intros f i r. unfold tr_code. destruct (skip f); [reflexivity|]. unfold visit_block. cbn [flat_map].
    rewrite <- app_assoc. reflexivity.
  Qed.

  Lemma checks_pass : forall M s f i r fs, clean s f i = true ->
    steps M (s, (f, tr_code f (i :: r)) :: fs) (s, (f, i :: tr_code f r) :: fs).
  Proof.
    intros M s f i r fs H. rewrite tr_cons. unfold clean in H. destruct (skip f); [constructor|]. cbn [orb] in H.
    destruct i; cbn [inserted app]; try constructor.
    - apply steps_one. apply step_check. exact H.
    - apply steps_one. apply step_check. exact H.
    - apply steps_one. apply step_check. exact H.
    - apply andb_true_iff in H as (H1 & H2). econstructor; [apply steps_one; apply step_check; exact H1|]. apply step_check. exact H2.
    - destruct (isEntryPoint entries f); [|constructor]. apply steps_one. apply step_leak. exact H.
  Qed.
  Lemma checks_fail : forall M s f i r fs, clean s f i = false ->
    exists c, steps M (s, (f, tr_code f (i :: r)) :: fs) c /\ check_fails state reg valid freed c.
  Proof.
    intros M s f i r fs H. rewrite tr_cons. unfold clean in H. destruct (skip f); [discriminate|]. cbn [orb] in H.
    destruct i; cbn [inserted app]; try discriminate.
    - eexists. split; [constructor|]. exact H.
    - eexists. split; [constructor|]. exact H.
    - eexists. split; [constructor|]. exact H.
    - destruct (valid s (eval state reg s d) (eval state reg s len)) eqn:E.
      + eexists. split; [apply steps_one; apply step_check; exact E|]. exact H.
      + eexists. split; [constructor|]. exact E.
    - destruct (isEntryPoint entries f); [|discriminate]. eexists. split; [constructor|]. exact H.
  Qed.

  Definition tr (c : state * list frame) : state * list frame := (fst c, tr_frames (snd c)).

  (** One step of the source, when the checks pass. *)
  Lemma sim_step : forall M s f i r fs c, no_checks M -> frames_in M ((f, i :: r) :: fs) ->
    step M (s, (f, i :: r) :: fs) c -> clean s f i = true -> steps (pass M) (tr (s, (f, i :: r) :: fs)) (tr c).
  Proof.
    intros M s f i r fs c Hno Hin H Hc. unfold tr at 1. cbn [fst snd tr_frames map].
    eapply steps_next; [now apply checks_pass|].
    inversion H; subst; unfold tr; cbn [fst snd tr_frames map].
    - now apply step_plain.
    - apply step_call. rewrite code_pass. match goal with E : code_at M _ _ = _ |- _ => rewrite E end. reflexivity.
    - apply step_external; [|assumption]. rewrite code_pass. match goal with E : code_at M _ _ = _ |- _ => rewrite E end. reflexivity.
    - apply step_br with (l := l); auto. rewrite code_pass. match goal with E : code_at M _ _ = _ |- _ => rewrite E end. reflexivity.
    - apply step_ret.
    - destruct (within_head _ _ _ _ (Hin _ _ (or_introl eq_refl))) as (F & b & H1 & H2 & H3). destruct (Hno F b _ H1 H2 H3).
    - destruct (within_head _ _ _ _ (Hin _ _ (or_introl eq_refl))) as (F & b & H1 & H2 & H3). destruct (Hno F b _ H1 H2 H3).
  Qed.

  Lemma clean_violates : forall M s f i r fs, no_atomics M -> frames_in M ((f, i :: r) :: fs) ->
    clean s f i = false <-> violates reg valid freed entries checked matches (s, (f, i :: r) :: fs).
  Proof.
    intros M s f i r fs Hat Hin. destruct (within_head _ _ _ _ (Hin _ _ (or_introl eq_refl))) as (F & b & H1 & H2 & H3).
    specialize (Hat F b i H1 H2 H3). unfold violates. rewrite <- skipped_iff. unfold clean. fold skip.
    destruct (skip f); [split; [discriminate|intros (E & _); discriminate]|]. cbn [orb].
    assert (isEntryPoint entries f = true <-> In f entries) as He.
    { unfold isEntryPoint. rewrite existsb_exists. split.
      - intros (x & Hx & E). apply String.eqb_eq in E. now subst.
      - intros Hx. exists f. split; [exact Hx|apply String.eqb_refl]. }
    destruct i; cbn [touches]; try (destruct Hat; fail);
      try (split; [discriminate|intros (_ & [(? & ? & [] & _)|(E & _)]); discriminate]).
    - split; [intros E; split; [reflexivity|]; left; do 2 eexists; split; [now left|exact E]|].
      intros (_ & [(a & n & [E|[]] & Ev)|(E & _)]); [injection E as <- <-; exact Ev|discriminate].
    - split; [intros E; split; [reflexivity|]; left; do 2 eexists; split; [now left|exact E]|].
      intros (_ & [(a & n & [E|[]] & Ev)|(E & _)]); [injection E as <- <-; exact Ev|discriminate].
    - split; [intros E; split; [reflexivity|]; left; do 2 eexists; split; [now left|exact E]|].
      intros (_ & [(a & n & [E|[]] & Ev)|(E & _)]); [injection E as <- <-; exact Ev|discriminate].
    - rewrite andb_false_iff. split.
      + intros [E|E]; (split; [reflexivity|]); left; do 2 eexists; (split; [|exact E]); cbn; auto.
      + intros (_ & [(a & n & [E|[E|[]]] & Ev)|(E & _)]); [injection E as <- <-; now left|injection E as <- <-; now right|discriminate].
    - rewrite orb_false_iff, negb_false_iff, He. split.
      + intros (E1 & E2). split; [reflexivity|]. right. auto.
      + intros (_ & [(a & n & [] & _)|(_ & E1 & E2)]). auto.
  Qed.

  (** Forward: an execution of the source is one of the target unless a check
      fails on the way. *)
  Lemma forward : forall M, no_checks M -> forall a c, steps M a c -> frames_in M (snd a) ->
    (steps (pass M) (tr a) (tr c) /\ frames_in M (snd c)) \/
    (exists d, steps (pass M) (tr a) d /\ check_fails state reg valid freed d).
  Proof.
    intros M Hno a c H Hin. induction H as [c|a b c H IH Hs]; [left; split; [constructor|exact Hin]|].
    destruct (IH Hin) as [(IH1 & IH2)|(d & D1 & D2)]; [|right; eauto].
    destruct b as [s [|[f [|i r]] fs]]; [inversion Hs|inversion Hs|].
    destruct (clean s f i) eqn:E.
    - left. split; [|now apply (step_in M _ _ Hs)]. eapply steps_trans; [exact IH1|]. now apply sim_step.
    - right. destruct (checks_fail (pass M) s f i r (tr_frames fs) E) as (d & D1 & D2). exists d. split; [|exact D2].
      eapply steps_trans; [exact IH1|]. exact D1.
  Qed.

  (** Backward: every configuration of the target is on the way through the checks
      of some instruction of the source. *)
  Inductive between (M : module) : state * list frame -> state * list frame -> Prop :=
  | bt_at : forall c, between M c (tr c)
  | bt_in : forall s f i r fs pre post, clean s f i = true \/ post <> [] ->
      (if skip f then [] else inserted entries f i) = pre ++ post ->
      (forall x, In x pre -> match x with Check p n => valid s (eval state reg s p) (eval state reg s n) = true | LeakCheck => freed s = true | _ => False end) ->
      between M (s, (f, i :: r) :: fs) (s, (f, post ++ i :: tr_code f r) :: tr_frames fs).

  Lemma inserted_clean : forall s f i, skip f = false -> 
    (forall x, In x (inserted entries f i) -> match x with Check p n => valid s (eval state reg s p) (eval state reg s n) = true | LeakCheck => freed s = true | _ => False end) ->
    clean s f i = true.
  Proof.
    intros s f i Hs H. unfold clean. rewrite Hs. cbn [orb]. destruct i; try reflexivity; cbn [inserted] in H.
    - apply (H _ (or_introl eq_refl)).
    - apply (H _ (or_introl eq_refl)).
    - apply (H _ (or_introl eq_refl)).
    - rewrite (H _ (or_introl eq_refl)), (H _ (or_intror (or_introl eq_refl))). reflexivity.
    - destruct (isEntryPoint entries f); [|reflexivity]. cbn [negb orb]. apply (H _ (or_introl eq_refl)).
  Qed.

  Lemma inserted_checks : forall f i x, In x (inserted entries f i) -> match x with Check _ _ | LeakCheck => True | _ => False end.
  Proof.
    intros f i x H. destruct i; cbn in H; try contradiction; try (destruct (isEntryPoint entries f)); cbn in H;
      repeat (destruct H as [<-|H]; [exact I|]); contradiction.
  Qed.

  Lemma between_in : forall M a d, between M a d -> frames_in M (snd a) -> forall f x q ds, d = (fst d, (f, x :: q) :: ds) ->
    exists s i r fs pre post, a = (s, (f, i :: r) :: fs) /\ d = (s, (f, post ++ i :: tr_code f r) :: tr_frames fs) /\
      (if skip f then [] else inserted entries f i) = pre ++ post /\
      (forall x, In x pre -> match x with Check p n => valid s (eval state reg s p) (eval state reg s n) = true | LeakCheck => freed s = true | _ => False end).
  Proof.
    intros M a d H Hin f x q ds E. destruct H as [[s fs]|s g i r fs pre post Hp Hi Hc].
    - unfold tr in E. cbn [fst snd] in E. destruct fs as [|[g [|i r]] fs]; cbn in E; [discriminate| |].
      + unfold tr_code in E. destruct (skip g); discriminate.
      + injection E as -> E1 E2. exists s, i, r, fs, [], (if skip f then [] else inserted entries f i).
        split; [reflexivity|]. split; [|split; [reflexivity|intros y []]]. unfold tr. cbn [fst snd tr_frames map]. now rewrite tr_cons.
    - cbn [fst] in E. injection E as -> E1 E2. exists s, i, r, fs, pre, post. auto.
  Qed.

  Lemma backward_step : forall M a d e, no_checks M -> between M a d -> frames_in M (snd a) -> step (pass M) d e ->
    between M a e \/ exists c, step M a c /\ between M c e.
  Proof.
    intros M a d e Hno Hb Hin Hs. destruct d as [s [|[f [|x q]] ds]]; [inversion Hs|inversion Hs|].
    destruct (between_in M a _ Hb Hin f x q ds eq_refl) as (s' & i & r & fs & pre & post & -> & Ed & Ei & Hpre).
    injection Ed as <- Ed E2. subst ds.
    destruct post as [|y post].
    - cbn [app] in Ed. injection Ed as -> ->. right.
      assert (forall F b, In F M -> In b (fblocks F) -> In i b -> match i with Check _ _ | LeakCheck => False | _ => True end) as Hn by (intros; eapply Hno; eauto).
      destruct (within_head _ _ _ _ (Hin _ _ (or_introl eq_refl))) as (F & b & H1 & H2 & H3). specialize (Hn F b H1 H2 H3).
      inversion Hs; subst.
      + eexists. split; [apply step_plain; eauto|]. apply (bt_at M (_, (f, r) :: fs)).
      + match goal with E : code_at (pass M) _ _ = _ |- _ => rewrite code_pass in E; rename E into HX end.
        destruct (code_at M g 0) as [c0|] eqn:E; [|discriminate]. cbn in HX. injection HX as <-.
        eexists. split; [apply step_call; eauto|]. apply (bt_at M (s, (g, c0) :: (f, r) :: fs)).
      + match goal with E : code_at (pass M) _ _ = _ |- _ => rewrite code_pass in E; rename E into HX end.
        destruct (code_at M g 0) as [c0|] eqn:E; [discriminate|].
        eexists. split; [apply step_external; eauto|]. apply (bt_at M (_, (f, r) :: fs)).
      + match goal with E : code_at (pass M) _ _ = _ |- _ => rewrite code_pass in E; rename E into HX end.
        destruct (code_at M f l) as [c0|] eqn:E; [|discriminate]. cbn in HX. injection HX as <-.
        eexists. split; [apply step_br with (l := l); eauto|]. apply (bt_at M (s, (f, c0) :: fs)).
      + eexists. split; [apply step_ret|]. apply (bt_at M (s, fs)).
      + destruct Hn.
      + destruct Hn.
    - left. cbn [app] in Ed. injection Ed as -> ->.
      assert (skip f = false) as Hsk by (destruct (skip f); [destruct pre; discriminate|reflexivity]). rewrite Hsk in Ei.
      pose proof (inserted_checks f i y ltac:(rewrite Ei; apply in_or_app; right; now left)) as Hy.
      destruct y; try destruct Hy; inversion Hs; subst; try contradiction.
      + apply bt_in with (pre := pre ++ [Check p n]).
        * destruct post as [|z post]; [left|right; discriminate]. apply inserted_clean; [exact Hsk|]. rewrite Ei.
          intros y Hy. apply in_app_or in Hy as [Hy|[<-|[]]]; [now apply Hpre|assumption].
        * rewrite Hsk, <- app_assoc. exact Ei.
        * intros y Hy. apply in_app_or in Hy as [Hy|[<-|[]]]; [now apply Hpre|assumption].
      + apply bt_in with (pre := pre ++ [LeakCheck]).
        * destruct post as [|z post]; [left|right; discriminate]. apply inserted_clean; [exact Hsk|]. rewrite Ei.
          intros y Hy. apply in_app_or in Hy as [Hy|[<-|[]]]; [now apply Hpre|assumption].
        * rewrite Hsk, <- app_assoc. exact Ei.
        * intros y Hy. apply in_app_or in Hy as [Hy|[<-|[]]]; [now apply Hpre|assumption].
  Qed.

  Lemma backward : forall M, no_checks M -> forall d e, steps (pass M) d e -> forall a, d = tr a -> frames_in M (snd a) ->
    exists c, steps M a c /\ between M c e /\ frames_in M (snd c).
  Proof.
    intros M Hno d e H. induction H as [d|d e e' H IH Hs]; intros a -> Hin.
    - exists a. split; [constructor|]. split; [constructor|exact Hin].
    - destruct (IH a eq_refl Hin) as (c & C1 & C2 & C3). destruct (backward_step M c e e' Hno C2 C3 Hs) as [Hb|(c' & Hst & Hb)].
      + exists c. auto.
      + exists c'. split; [econstructor; eauto|]. split; [exact Hb|]. now apply (step_in M _ _ Hst).
  Qed.

  Lemma between_fails : forall M a d, no_checks M -> between M a d -> frames_in M (snd a) -> check_fails state reg valid freed d ->
    exists s f i r fs, a = (s, (f, i :: r) :: fs) /\ clean s f i = false.
  Proof.
    intros M a d Hno Hb Hin Hf. destruct d as [s [|[f [|x q]] ds]]; try (destruct Hf; fail).
    destruct (between_in M a _ Hb Hin f x q ds eq_refl) as (s' & i & r & fs & pre & post & -> & Ed & Ei & Hpre).
    injection Ed as <- Ed E2. subst ds. exists s, f, i, r, fs. split; [reflexivity|].
    destruct (within_head _ _ _ _ (Hin _ _ (or_introl eq_refl))) as (F & b & H1 & H2 & H3). specialize (Hno F b _ H1 H2 H3).
    destruct post as [|y post]; cbn [app] in Ed; injection Ed as -> ->.
    - destruct i; cbn in Hf; try (destruct Hf; fail); destruct Hno.
    - assert (skip f = false) as Hsk by (destruct (skip f); [destruct pre; discriminate|reflexivity]). rewrite Hsk in Ei.
      assert (In y (inserted entries f i)) as Hy by (rewrite Ei; apply in_or_app; right; now left).
      unfold clean. rewrite Hsk. cbn [orb]. destruct i; cbn [inserted] in Hy; try (destruct Hy; fail).
      + destruct Hy as [<-|[]]. exact Hf.
      + destruct Hy as [<-|[]]. exact Hf.
      + destruct Hy as [<-|[]]. exact Hf.
      + destruct Hy as [<-|[<-|[]]]; cbn in Hf; rewrite Hf; [reflexivity|apply andb_false_r].
      + destruct (isEntryPoint entries f); [|destruct Hy]. destruct Hy as [<-|[]]. exact Hf.
  Qed.
End Sim.

(** The program with checks can reach a failing check exactly if the program
    without can reach a violation. *)
Theorem C28_exact : forall state (reg : state -> string -> Z) valid freed effect takes entries checked matches M main s0,
  no_checks M -> no_atomics M ->
  (exists c, reaches state reg valid freed effect takes (runOnModule entries checked matches M) main s0 c /\
             check_fails state reg valid freed c) <->
  (exists c, reaches state reg valid freed effect takes M main s0 c /\ violates reg valid freed entries checked matches c).
Proof.
  intros state reg valid freed effect takes entries checked matches M main s0 Hno Hat. split.
  - intros (d & (c0 & Hc0 & Hd) & Hf). rewrite code_pass in Hc0. destruct (code_at M main 0) as [b|] eqn:E; [|discriminate].
    injection Hc0 as <-.
    assert (frames_in M [(main, b)]) as Hin by (apply frames_cons; [now apply code_within in E|intros f r []]).
    destruct (backward reg valid freed effect takes entries checked matches M Hno _ d Hd (s0, [(main, b)]) eq_refl Hin) as (c & C1 & C2 & C3).
    exists c. split; [exists b; auto|].
    destruct (between_fails reg valid freed entries checked matches M c d Hno C2 C3 Hf) as (s & f & i & r & fs & -> & Hcl).
    now apply (clean_violates reg valid freed entries checked matches M s f i r fs Hat C3).
  - intros (c & (c0 & Hc0 & Hc) & Hv).
    assert (frames_in M [(main, c0)]) as Hin by (apply frames_cons; [now apply code_within in Hc0|intros f r []]).
    assert (code_at (runOnModule entries checked matches M) main 0 = Some (tr_code entries checked matches main c0)) as E
      by (rewrite code_pass, Hc0; reflexivity).
    destruct (forward reg valid freed effect takes entries checked matches M Hno _ _ Hc Hin) as [(H1 & H2)|(d & D1 & D2)].
    + destruct c as [s [|[f [|i r]] fs]]; try (destruct Hv; fail).
      assert (clean reg valid freed entries checked matches s f i = false) as Hcl
        by now apply (clean_violates reg valid freed entries checked matches M s f i r fs Hat H2).
      destruct (checks_fail reg valid freed effect takes entries checked matches (runOnModule entries checked matches M) s f i r
        (tr_frames entries checked matches fs) Hcl) as (d & D1 & D2).
      exists d. split; [|exact D2]. exists (tr_code entries checked matches main c0). split; [exact E|].
      eapply steps_trans; [exact H1|exact D1].
    + exists d. split; [|exact D2]. exists (tr_code entries checked matches main c0). auto.
Qed.
Print Assumptions C28_exact.

(** As long as no violation is reached, the checks are transparent: a state and
    stack of functions is reached in one program exactly if in the other. *)
Definition erase {state} (c : state * list frame) : state * list string := (fst c, map fst (snd c)).
Theorem C28_transparent : forall state (reg : state -> string -> Z) valid freed effect takes entries checked matches M main s0,
  no_checks M -> no_atomics M ->
  (forall c, reaches state reg valid freed effect takes M main s0 c -> ~ violates reg valid freed entries checked matches c) ->
  forall o, (exists c, reaches state reg valid freed effect takes (runOnModule entries checked matches M) main s0 c /\ erase c = o) <->
            (exists c, reaches state reg valid freed effect takes M main s0 c /\ erase c = o).
Proof.
  intros state reg valid freed effect takes entries checked matches M main s0 Hno Hat Hsafe o. split.
  - intros (d & (c0 & Hc0 & Hd) & <-). rewrite code_pass in Hc0. destruct (code_at M main 0) as [b|] eqn:E; [|discriminate].
    injection Hc0 as <-.
    assert (frames_in M [(main, b)]) as Hin by (apply frames_cons; [now apply code_within in E|intros f r []]).
    destruct (backward reg valid freed effect takes entries checked matches M Hno _ d Hd (s0, [(main, b)]) eq_refl Hin) as (c & C1 & C2 & C3).
    exists c. split; [exists b; auto|]. destruct C2 as [[s fs]|]; unfold erase, tr; cbn [fst snd map]; f_equal;
      [unfold tr_frames; rewrite map_map; reflexivity|]. f_equal. unfold tr_frames. rewrite map_map. reflexivity.
  - intros (c & (c0 & Hc0 & Hc) & <-).
    assert (frames_in M [(main, c0)]) as Hin by (apply frames_cons; [now apply code_within in Hc0|intros f r []]).
    exists (tr entries checked matches c). split.
    + exists (tr_code entries checked matches main c0). split; [rewrite code_pass, Hc0; reflexivity|].
      destruct (forward reg valid freed effect takes entries checked matches M Hno _ _ Hc Hin) as [(H1 & H2)|(d & D1 & D2)]; [exact H1|].
      exfalso. destruct (C28_exact state reg valid freed effect takes entries checked matches M main s0 Hno Hat) as (X & _).
      destruct X as (v & V1 & V2); [|exact (Hsafe v V1 V2)]. exists d. split; [|exact D2].
      exists (tr_code entries checked matches main c0). split; [rewrite code_pass, Hc0; reflexivity|exact D1].
    + unfold erase, tr. cbn [fst snd]. f_equal. unfold tr_frames. now rewrite map_map.
Qed.
Print Assumptions C28_transparent.

(** A program that copies from a buffer that is too small. *)
Definition copying : module :=
  [Func "main" [[Store 32 (Const 7) (Reg "p"); MemTransfer false (Reg "p") (Reg "q") (Reg "n"); Br [1%nat]]; [Ret]]].
Definition vals (s : unit) (x : string) : Z := if String.eqb x "p" then 1000 else if String.eqb x "q" then 2000 else 8.
Definition ranges (s : unit) (a n : Z) : bool := ((1000 <=? a) && (a + n <=? 1016)) || ((2000 <=? a) && (a + n <=? 2004)).
Example C28_nonvacuous :
  no_checks copying /\ no_atomics copying /\
  exists c, reaches unit vals ranges (fun _ => true) (fun _ _ _ => True) (fun _ _ _ => True)
              (runOnModule ["main"] [] (fun _ _ => false) copying) "main" tt c /\
            check_fails unit vals ranges (fun _ => true) c.
Proof.
  assert (no_checks copying) as Hn.
  { intros F b i [<-|[]] Hb Hi; cbn in Hb; destruct Hb as [<-|[<-|[]]]; cbn in Hi; intuition (subst; exact I). }
  assert (no_atomics copying) as Ha.
  { intros F b i [<-|[]] Hb Hi; cbn in Hb; destruct Hb as [<-|[<-|[]]]; cbn in Hi; intuition (subst; exact I). }
  split; [exact Hn|]. split; [exact Ha|]. apply C28_exact; auto.
  eexists. split.
  - eexists. split; [reflexivity|]. eapply steps_next; [constructor|]. apply step_plain with (s' := tt); [exact I|exact I].
  - split; [|left; exists 2000, 8; split; [cbn; tauto|reflexivity]]. split; [|now left].
    intros a b E. apply (f_equal (fun s => contains "__SMACK_" s)) in E.
    assert (contains "__SMACK_" (a ++ "__SMACK_" ++ b) = true) as E' by (apply contains_app; eauto). rewrite E' in E. discriminate.
Qed.

(** Atomic read-modify-write instructions are not checked. *)
Theorem C28_atomics_refuted :
  let M := [Func "main" [[AtomicRMW "x" 32 (Reg "p") (Const 1); Ret]]] in
  (exists c, reaches unit (fun _ _ => 0) (fun _ _ _ => false) (fun _ => true) (fun _ _ _ => True) (fun _ _ _ => True) M "main" tt c /\
     violates (fun _ _ => 0) (fun _ _ _ => false) (fun _ => true) ["main"] [] (fun _ _ => false) c) /\
  ~ exists c, reaches unit (fun _ _ => 0) (fun _ _ _ => false) (fun _ => true) (fun _ _ _ => True) (fun _ _ _ => True)
     (runOnModule ["main"] [] (fun _ _ => false) M) "main" tt c /\ check_fails unit (fun _ _ => 0) (fun _ _ _ => false) (fun _ => true) c.
Proof.
  cbv zeta. split.
  - eexists. split; [eexists; split; [reflexivity|constructor]|]. split; [|left; exists 0, 4; split; [now left|reflexivity]].
    split; [|now left]. intros a b E. apply (f_equal (fun s => contains "__SMACK_" s)) in E.
    assert (contains "__SMACK_" (a ++ "__SMACK_" ++ b) = true) as E' by (apply contains_app; eauto). rewrite E' in E. discriminate.
  - intros (c & (c0 & Hc0 & Hc) & Hf). vm_compute in Hc0. injection Hc0 as <-.
    assert (forall M a c, steps unit (fun _ _ => 0) (fun _ _ _ => false) (fun _ => true) (fun _ _ _ => True) (fun _ _ _ => True) M a c ->
      a = (tt, [("main", [AtomicRMW "x" 32 (Reg "p") (Const 1); LeakCheck; Ret])]) ->
      c = a \/ c = (tt, [("main", [LeakCheck; Ret])]) \/ c = (tt, [("main", [Ret])]) \/ c = (tt, [])) as Hreach.
    { intros M a d H. induction H as [|a b d H IH Hs]; intros E; [now left|]. specialize (IH E). subst a.
      destruct IH as [->|[->|[->| ->]]]; inversion Hs; subst; try contradiction; repeat match goal with s : unit |- _ => destruct s end; auto. }
    destruct (Hreach _ _ _ Hc eq_refl) as [->|[->|[->| ->]]]; cbn in Hf; try contradiction; discriminate.
Qed.
Print Assumptions C28_atomics_refuted.
