(** Two executions of the same control-flow graph in step: values, memories and
    the meanings of expressions and instructions may differ. *)
From Coq Require Import List String Bool.
From Verif.Spec Require Import CFG.
Import ListNotations.
Open Scope list_scope.

Section Lockstep.
  Context {V E P MA MB Ev : Type} (f : func V E P).
  Context (evA evB : (string -> option V) -> E -> option V).
  Context (primA : P -> list V -> MA -> list Ev -> V -> MA -> Prop) (primB : P -> list V -> MB -> list Ev -> V -> MB -> Prop).
  Context (invA : P -> list V -> MA -> list Ev -> V -> bool -> MA -> Prop) (invB : P -> list V -> MB -> list Ev -> V -> bool -> MB -> Prop).
  Context (oneA oneB : V) (veqA veqB : V -> V -> bool).
  (** [Rw]: values of operands; [Rv]: contents of registers; [Rm]: memories. *)
  Context (Rw Rv : V -> V -> Prop) (Rm : MA -> MB -> Prop).
  (** [W]: the second execution may go wrong where the first does not. *)
  Context (W : Prop).
  (** [cut t u]: when the first execution has events [t], the second may have
      events [u] and the two part. *)
  Context (cut : list Ev -> list Ev -> Prop).
  (** register files *)
  Context (R : (string -> option V) -> (string -> option V) -> Prop).

  Hypothesis HR_upd : forall rA rB x v w, R rA rB -> Rv v w -> R (upd rA x v) (upd rB x w).
  Hypothesis Hwv : forall v w, Rw v w -> Rv v w.
  Hypothesis Hev : forall rA rB e v, R rA rB -> evA rA e = Some v ->
    (exists w, evB rB e = Some w /\ Rw v w) \/ (W /\ evB rB e = None).
  Hypothesis Hcond : forall l b e l1 l2 rA rB v w, block_of f l = Some b -> bterm b = TCond e l1 l2 -> R rA rB ->
    evA rA e = Some v -> evB rB e = Some w -> veqA v oneA = veqB w oneB.
  Hypothesis Hprim : forall p vs ws mA mB t v mA', Forall2 Rw vs ws -> Rm mA mB -> primA p vs mA t v mA' ->
    (exists w mB', primB p ws mB t w mB' /\ Rv v w /\ Rm mA' mB') \/
    (exists u w mB', cut t u /\ primB p ws mB u w mB').
  Hypothesis Hcut : forall t0 t t1 u, cut t u -> cut (t0 ++ t ++ t1) (t0 ++ u).
  Hypothesis HinvA : forall p vs m t v w m', ~ invA p vs m t v w m'.
  Hypothesis Hswitch : forall l b e d c, block_of f l = Some b -> bterm b <> TSwitch e d c.

  Notation stepA := (lstep evA primA invA oneA veqA f).
  Notation stepB := (lstep evB primB invB oneB veqB f).
  Notation stepsA := (lsteps evA primA invA oneA veqA f).
  Notation stepsB := (lsteps evB primB invB oneB veqB f).

  Definition Ro (a b : outcome V) : Prop :=
    match a, b with
    | Returned None, Returned None => True
    | Returned (Some v), Returned (Some w) => Rw v w
    | Unwound v, Unwound w => Rw v w
    | _, _ => False
    end.
  Inductive Rs : lstate V E MA P -> lstate V E MB P -> Prop :=
  | Rs_run : forall l k rA rB mA mB, R rA rB -> Rm mA mB -> Rs (LRun l k rA mA) (LRun l k rB mB)
  | Rs_done : forall a b mA mB, Ro a b -> Rm mA mB -> Rs (LDone a mA) (LDone b mB).

  Lemma updo_R : forall rA rB x v w, R rA rB -> Rv v w -> R (updo rA x v) (updo rB x w).
  Proof. intros rA rB [x|] v w H1 H2; [now apply HR_upd|exact H1]. Qed.
  Lemma evals_R : forall rA rB es vs, R rA rB -> evals evA rA es = Some vs ->
    (exists ws, evals evB rB es = Some ws /\ Forall2 Rw vs ws) \/ (W /\ evals evB rB es = None).
  Proof.
    intros rA rB es vs HR. unfold evals. revert vs. induction es as [|e es IH]; intros vs H; cbn in *.
    - injection H as <-. left. exists []. auto.
    - destruct (evA rA e) as [v|] eqn:Ee; [|discriminate].
      destruct (all_some (map (evA rA) es)) as [vs'|]; [|discriminate]. injection H as <-.
      destruct (Hev rA rB e v HR Ee) as [(w & -> & Hw)|(HW & ->)]; [|now right].
      destruct (IH _ eq_refl) as [(ws & -> & Hws)|(HW & ->)]; [|now right]. left. exists (w :: ws). auto.
  Qed.
  Lemma phis_R : forall rA rB l ps vs, R rA rB -> phi_values evA rA l ps = Some vs ->
    (exists ws, phi_values evB rB l ps = Some ws /\ Forall2 (fun a b => fst a = fst b /\ Rw (snd a) (snd b)) vs ws) \/
    (W /\ phi_values evB rB l ps = None).
  Proof.
    intros rA rB l ps vs HR. unfold phi_values. revert vs. induction ps as [|[x inc] ps IH]; intros vs H; cbn in *.
    - injection H as <-. left. exists []. auto.
    - destruct (lookup l inc) as [e|]; [|discriminate].
      destruct (evA rA e) as [v|] eqn:Ee; [|discriminate].
      match type of H with context [all_some ?m] => destruct (all_some m) as [vs'|] end; [|discriminate]. injection H as <-.
      destruct (Hev rA rB e v HR Ee) as [(w & -> & Hw)|(HW & ->)]; [|now right].
      destruct (IH _ eq_refl) as [(ws & -> & Hws)|(HW & ->)]; [|now right]. left. exists ((x, w) :: ws). auto.
  Qed.
  Lemma upds_R : forall vs ws rA rB, R rA rB -> Forall2 (fun a b => fst a = fst b /\ Rw (snd a) (snd b)) vs ws ->
    R (upds rA vs) (upds rB ws).
  Proof.
    intros vs ws rA rB HR H. revert rA rB HR. induction H as [|[x v] [y w] vs ws [H1 H2] H IH]; intros rA rB HR; cbn in *; [exact HR|].
    subst y. apply IH, HR_upd; auto.
  Qed.
  Lemma enter_R : forall rA rB l l' k rA', R rA rB -> enter evA f l l' rA = Some (k, rA') ->
    (exists rB', enter evB f l l' rB = Some (k, rB') /\ R rA' rB') \/ (W /\ enter evB f l l' rB = None).
  Proof.
    intros rA rB l l' k rA' HR H. unfold enter in *. destruct (block_of f l') as [b|]; [|discriminate].
    destruct (phi_values evA rA l (phis b)) as [vs|] eqn:Ep; [|discriminate]. injection H as <- <-.
    destruct (phis_R _ _ _ _ _ HR Ep) as [(ws & -> & Hws)|(HW & ->)]; [|now right].
    left. exists (upds rB ws). split; [reflexivity|]. now apply upds_R.
  Qed.

  Lemma step_R : forall sA t sA' sB, stepA sA t sA' -> Rs sA sB ->
    (exists sB', stepB sB t sB' /\ Rs sA' sB') \/
    (exists u sB', cut t u /\ stepB sB u sB' /\ result sB' = None) \/
    (W /\ goes_wrong evB invB oneB veqB f sB).
  Proof.
    intros sA t sA' sB H HS. destruct H; inversion HS as [? ? ? rB ? mB HR HM|]; subst.
    - destruct (Hev _ _ _ _ HR H) as [(w & Hw & Hr)|(HW & Hw)]; [|right; right; split; [exact HW|exact Hw]].
      left. exists (LRun l k (upd rB x w) mB). split; [now constructor|]. constructor; auto.
    - destruct (evals_R _ _ _ _ HR H) as [(ws & Hw & Hr)|(HW & Hw)]; [|right; right; split; [exact HW|exact Hw]].
      destruct (Hprim _ _ _ _ _ _ _ _ Hr HM H0) as [(w & mB' & H1 & H2 & H3)|(u & w & mB' & H1 & H2)].
      + left. exists (LRun l k (updo rB x w) mB'). split; [econstructor; eassumption|]. constructor; [now apply updo_R|exact H3].
      + right. left. exists u, (LRun l k (updo rB x w) mB'). split; [exact H1|]. split; [econstructor; eassumption|reflexivity].
    - left. exists (LDone (Returned None) mB). split; [econstructor; eassumption|]. now constructor.
    - destruct (Hev _ _ _ _ HR H1) as [(w & Hw & Hr)|(HW & Hw)].
      + left. exists (LDone (Returned (Some w)) mB). split; [econstructor; eassumption|]. now constructor.
      + right. right. split; [exact HW|]. exists b. split; [exact H|]. now rewrite H0.
    - destruct (Hev _ _ _ _ HR H1) as [(w & Hw & Hr)|(HW & Hw)].
      + left. exists (LDone (Unwound w) mB). split; [econstructor; eassumption|]. now constructor.
      + right. right. split; [exact HW|]. exists b. split; [exact H|]. now rewrite H0.
    - destruct (enter_R _ _ _ _ _ _ HR H1) as [(rB' & Hw & Hr)|(HW & Hw)].
      + left. exists (LRun l' k' rB' mB). split; [eapply L_br; eassumption|]. now constructor.
      + right. right. split; [exact HW|]. exists b. split; [exact H|]. now rewrite H0.
    - destruct (Hev _ _ _ _ HR H1) as [(w & Hw & Hr)|(HW & Hw)].
      2:{ right. right. split; [exact HW|]. exists b. split; [exact H|]. rewrite H0, Hw. exact I. }
      pose proof (Hcond _ _ _ _ _ _ _ _ _ H H0 HR H1 Hw) as Hc. rewrite Hc in H2 |- *.
      destruct (enter_R _ _ _ _ _ _ HR H2) as [(rB' & Hw2 & Hr2)|(HW & Hw2)].
      + left. exists (LRun (if veqB w oneB then l1 else l2) k' rB' mB). split; [eapply L_cond; eassumption|]. now constructor.
      + right. right. split; [exact HW|]. exists b. split; [exact H|]. now rewrite H0, Hw.
    - destruct (Hswitch _ _ _ _ _ H H0).
    - destruct (HinvA _ _ _ _ _ _ _ H2).
  Qed.
  Lemma steps_R : forall sA t sA' sB, stepsA sA t sA' -> Rs sA sB ->
    (exists sB', stepsB sB t sB' /\ Rs sA' sB') \/
    (exists u sB', cut t u /\ stepsB sB u sB' /\ result sB' = None) \/
    (W /\ exists t1 t2 sB', t = t1 ++ t2 /\ stepsB sB t1 sB' /\ goes_wrong evB invB oneB veqB f sB').
  Proof.
    intros sA t sA' sB H HS. induction H as [s|s1 t1 s2 t2 s3 H IH Hs].
    - left. exists sB. split; [constructor|exact HS].
    - destruct (IH HS) as [(sB2 & H1 & H2)|[(u & sB2 & H1 & H2 & H3)|(HW & a & b & sB2 & -> & H2 & H3)]].
      + destruct (step_R _ _ _ _ Hs H2) as [(sB3 & H3 & H4)|[(u & sB3 & H3 & H4 & H5)|(HW & H3)]].
        * left. exists sB3. split; [econstructor; eassumption|exact H4].
        * right. left. exists (t1 ++ u), sB3. split; [|split; [econstructor; eassumption|exact H5]].
          rewrite <- (app_nil_r t2). now apply Hcut.
        * right. right. split; [exact HW|]. exists t1, t2, sB2. auto.
      + right. left. exists u, sB2. split; [|auto]. exact (Hcut [] t1 t2 u H1).
      + right. right. split; [exact HW|]. exists a, (b ++ t2), sB2. split; [now rewrite app_assoc|auto].
  Qed.

  Definition Rres (a : option (outcome V * MA)) (b : option (outcome V * MB)) : Prop :=
    match a, b with None, None => True | Some (x, m), Some (y, m') => Ro x y /\ Rm m m' | _, _ => False end.
  Lemma behaves_R : forall argsA argsB mA mB t o, R (upds (fun _ => None) (combine (params f) argsA)) (upds (fun _ => None) (combine (params f) argsB)) ->
    Rm mA mB -> behaves evA primA invA oneA veqA f argsA mA t o ->
    (exists o', behaves evB primB invB oneB veqB f argsB mB t o' /\ Rres o o') \/
    (exists u, cut t u /\ behaves evB primB invB oneB veqB f argsB mB u None) \/
    (W /\ exists t1 t2, t = t1 ++ t2 /\ undefined_after evB primB invB oneB veqB f argsB mB t1).
  Proof.
    intros argsA argsB mA mB t o HR HM (s0 & s & H1 & H2 & <-). unfold lstart in H1. unfold behaves, undefined_after, lstart.
    destruct (block_of f (entry f)) as [b|]; [|discriminate]. injection H1 as <-.
    destruct (steps_R _ _ _ (LRun (entry f) (body b) (upds (fun _ => None) (combine (params f) argsB)) mB) H2) as
      [(s' & H3 & H4)|[(u & s' & H3 & H4 & H5)|(HW & t1 & t2 & s' & -> & H4 & H5)]].
    - now constructor.
    - left. exists (result s'). split; [eauto|]. destruct H4; cbn; auto.
    - right. left. exists u. eauto 6.
    - right. right. split; [exact HW|]. exists t1, t2. eauto 6.
  Qed.

  (** Where the first goes wrong, the second does. *)
  Hypothesis Hnone : forall rA rB e, R rA rB -> evA rA e = None -> evB rB e = None.
  Lemma evals_none : forall rA rB es, R rA rB -> evals evA rA es = None -> evals evB rB es = None.
  Proof.
    intros rA rB es HR. unfold evals. induction es as [|e es IH]; cbn; [discriminate|]. intros H.
    destruct (evA rA e) as [v|] eqn:E9.
    - destruct (all_some (map (evA rA) es)) as [vs|]; [discriminate|]. rewrite IH by reflexivity. now destruct (evB rB e).
    - now rewrite (Hnone _ _ _ HR E9).
  Qed.
  Lemma phis_none : forall rA rB l ps, R rA rB -> phi_values evA rA l ps = None -> phi_values evB rB l ps = None.
  Proof.
    intros rA rB l ps HR. unfold phi_values. induction ps as [|[x inc] ps IH]; cbn; [discriminate|]. intros H.
    destruct (lookup l inc) as [e|]; [|reflexivity]. destruct (evA rA e) as [v|] eqn:E9.
    - match type of H with context [all_some ?m] => destruct (all_some m) as [vs|] end; [discriminate|].
      rewrite IH by reflexivity. now destruct (evB rB e).
    - now rewrite (Hnone _ _ _ HR E9).
  Qed.
  Lemma enter_none : forall rA rB l l', R rA rB -> enter evA f l l' rA = None -> enter evB f l l' rB = None.
  Proof.
    intros rA rB l l' HR H. unfold enter in *. destruct (block_of f l') as [b|]; [|reflexivity].
    destruct (phi_values evA rA l (phis b)) as [vs|] eqn:E9; [discriminate|]. now rewrite (phis_none _ _ _ _ HR E9).
  Qed.
  Lemma wrong_R : forall sA sB, goes_wrong evA invA oneA veqA f sA -> Rs sA sB -> goes_wrong evB invB oneB veqB f sB.
  Proof.
    intros sA sB H HS. destruct HS as [l k rA rB mA mB HR HM|]; [|exact H]. destruct k as [|[x e|x q es] k]; cbn in *.
    - destruct H as (b & Hb & H). exists b. split; [exact Hb|]. destruct (bterm b) as [[e|]|l'|e l1 l2|e d cs|x q es n u|e|] eqn:Et9; auto.
      + eauto.
      + eapply enter_none; eassumption.
      + destruct (evB rB e) as [w|] eqn:Ew9; [|exact I].
        destruct (evA rA e) as [v|] eqn:Ev9; [|rewrite (Hnone _ _ _ HR Ev9) in Ew9; discriminate].
        rewrite <- (Hcond _ _ _ _ _ _ _ _ _ Hb Et9 HR Ev9 Ew9). eapply enter_none; eassumption.
      + destruct (Hswitch _ _ _ _ _ Hb Et9).
      + destruct (evals evA rA es) as [vs|] eqn:Ev9.
        * destruct H as (evs & v & w & m' & H & _). destruct (HinvA _ _ _ _ _ _ _ H).
        * now rewrite (evals_none _ _ _ HR Ev9).
      + eauto.
    - eauto.
    - eapply evals_none; eassumption.
  Qed.
  Lemma undefined_R : forall argsA argsB mA mB t, R (upds (fun _ => None) (combine (params f) argsA)) (upds (fun _ => None) (combine (params f) argsB)) ->
    Rm mA mB -> undefined_after evA primA invA oneA veqA f argsA mA t ->
    undefined_after evB primB invB oneB veqB f argsB mB t \/
    (exists u, cut t u /\ behaves evB primB invB oneB veqB f argsB mB u None) \/
    (W /\ exists t1 t2, t = t1 ++ t2 /\ undefined_after evB primB invB oneB veqB f argsB mB t1).
  Proof.
    intros argsA argsB mA mB t HR HM (s0 & s & H1 & H2 & Hwr). unfold lstart in H1. unfold behaves, undefined_after, lstart.
    destruct (block_of f (entry f)) as [b|]; [|discriminate]. injection H1 as <-.
    destruct (steps_R _ _ _ (LRun (entry f) (body b) (upds (fun _ => None) (combine (params f) argsB)) mB) H2) as
      [(s' & H3 & H4)|[(u & s' & H3 & H4 & H5)|(HW & t1 & t2 & s' & -> & H4 & H5)]].
    - now constructor.
    - left. eexists _, s'. split; [reflexivity|]. split; [exact H3|]. eapply wrong_R; eassumption.
    - right. left. exists u. eauto 6.
    - right. right. split; [exact HW|]. exists t1, t2. eauto 6.
  Qed.
End Lockstep.
