(** Proofs for C60. *)
From Coq Require Import ZArith List Bool Arith Lia.
From Verif.Spec Require Import Exceptions.
From Verif.Model Require Import Exceptions.
Import ListNotations.

Scheme run_ind2 := Induction for run Sort Prop
  with runs_ind2 := Induction for runs Sort Prop.
Combined Scheme run_both from run_ind2, runs_ind2.

Lemma bblock_eq b l : bblock b l = flat_map visit (block b l).
Proof. unfold bblock, translate, block. change (@nil stmt) with (flat_map visit []). apply map_nth. Qed.

Section Proofs.
  Context {State : Type} (M : meaning State) (p : program).
  Context (CR : calls_return M p) (ER : externals_return M) (NP : no_phis M p) (PO : pads_ok p).
  Definition G (e : bool) : Prop := (only_cleanups p /\ e = false) \/ invokes_internal p.
  Definition good_code (b : body) (l : label) (is : list instr) : Prop := forall i, In i is -> In (b, l, i) (instructions p).
  Definition good_body (b : body) : Prop := forall l, good_code b l (block b l).
  Lemma body_good g b : body_of p g = Some b -> good_body b.
  Proof.
    intros H l i Hi. unfold instructions. apply in_flat_map. exists (Some b). split.
    - unfold body_of in H. rewrite <- H. apply nth_In. destruct (Nat.lt_ge_cases g (length p)); auto. rewrite nth_overflow in H by auto. discriminate.
    - apply in_flat_map. exists l. split; [|apply in_map; auto]. apply in_seq. split; [lia|].
      destruct (Nat.lt_ge_cases l (length b)); [lia|]. unfold block in Hi. rewrite nth_overflow in Hi by auto. contradiction.
  Qed.
  Lemma G_false e : G e -> G false.
  Proof. intros [[H _]|H]; [left|right]; auto. Qed.
  Lemma good_tail b l i is : good_code b l (i :: is) -> good_code b l is.
  Proof. intros H j Hj. apply H. right; auto. Qed.
  Lemma good_head b l i is : good_code b l (i :: is) -> In (b, l, i) (instructions p).
  Proof. intros H. apply H. left; auto. Qed.

  Definition fits (b : body) (l : label) (is : list instr) (s : State) (r : result State) : Prop :=
    good_body b -> good_code b l is -> forall e v, G e ->
    match r with
    | Returned s' => exists v', brun M p b l (flat_map visit is) (s, e, v) (BReturned (s', false, v'))
    | Unwound v' s' => brun M p b l (flat_map visit is) (s, e, v) (BReturned (s', true, v'))
    | Failed => brun M p b l (flat_map visit is) (s, e, v) BFailed
    end.
  Definition fits_fun (g : fname) (s : State) (r : result State) : Prop := forall e v, G e ->
    match r with
    | Returned s' => exists e' v', bruns M p g (s, e, v) (BReturned (s', e', v')) /\ e' = match body_of p g with Some _ => false | None => e end
    | Unwound v' s' => body_of p g <> None /\ bruns M p g (s, e, v) (BReturned (s', true, v'))
    | Failed => bruns M p g (s, e, v) BFailed
    end.
  Lemma pad_G b l c g n u e x cl is : In (b, l, Invoke c g n u) (instructions p) -> good_body b -> block b u = Pad x cl :: is -> G e -> G (if cl then false else true).
  Proof.
    intros H B E [[O _]|I]; [|right; auto]. left. split; auto.
    assert (X : cl = true) by (apply (O b u x); apply B; rewrite E; left; auto). rewrite X. reflexivity.
  Qed.
  Theorem forward :
    (forall b l is s r, run M p b l is s r -> fits b l is s r) /\ (forall g s r, runs M p g s r -> fits_fun g s r).
  Proof.
    apply (run_both State M p (fun b l is s r _ => fits b l is s r) (fun g s r _ => fits_fun g s r)); unfold fits; intros; cbn [flat_map visit app].
    - (* op *) specialize (H H0 (good_tail _ _ _ _ H1) e v H2). destruct r; [destruct H as [v' H]; exists v'| |]; eapply b_op; eauto.
    - (* fail *) eapply b_fail; eauto.
    - (* call *) destruct (H e v H3) as [e' [v' [B E]]].
      assert (Ge : G e') by (rewrite E; destruct (body_of p g); [eapply G_false; eauto|auto]).
      specialize (H0 H1 (good_tail _ _ _ _ H2) e' v' Ge). destruct r; [destruct H0 as [v2 H0]; exists v2| |]; eapply b_call; eauto.
    - exfalso. eapply CR; [eapply good_head; eauto|eauto].
    - eapply b_call_fail; eauto.
    - (* invoke *) destruct (H e v H3) as [e' [v' [B E]]].
      assert (E' : e' = false).
      { rewrite E. destruct (body_of p g) eqn:Eb; auto. destruct H3 as [[_ ->]|I]; auto. exfalso. eapply I; [eapply good_head; eauto|auto]. }
      destruct (NP _ _ _ _ _ _ (leave M c s s') (good_head _ _ _ _ H2)) as [N1 _]. rewrite N1 in H0.
      specialize (H0 H1 (H1 n) e' v'). rewrite E' in *. specialize (H0 (G_false _ H3)).
      destruct r; [destruct H0 as [v2 H0]; exists v2| |]; eapply b_call; eauto; eapply (b_goto M p b l false _ (GExn false) n); try (left; reflexivity); try reflexivity; rewrite bblock_eq; exact H0.
    - (* invoke unwinds *) destruct (H e0 v0 H3) as [Nb B].
      destruct (NP _ _ _ _ _ _ (leave M c s s') (good_head _ _ _ _ H2)) as [_ N2]. rewrite N2 in H0.
      assert (Gp := pad_G _ _ _ _ _ _ _ _ _ _ (good_head _ _ _ _ H2) H1 e H3).
      assert (Gc : good_code b u is') by (intros i Hi; apply H1; rewrite e; right; auto).
      specialize (H0 H1 Gc (if cl then false else true) v Gp).
      assert (Z : forall r', brun M p b u (flat_map visit is') (write M x v (leave M c s s'), if cl then false else true, v) r' ->
        brun M p b l (SCall c g :: SGoto false [(GExn false, n); (GExn true, u)] :: flat_map visit is) (s, e0, v0) r').
      { intros r' X. eapply b_call; [exact B|]. eapply (b_goto M p b l false _ (GExn true) u); [right; left; reflexivity|reflexivity|].
        rewrite bblock_eq, e. cbn [flat_map visit app]. apply b_readv. destruct cl; cbn [app]; [apply b_set|]; exact X. }
      destruct r; [destruct H0 as [v2 H0]; exists v2| |]; apply Z; exact H0.
    - eapply b_call_fail; eauto.
    - (* br *) specialize (H H0 (H0 t) e v H2).
      destruct r; [destruct H as [v2 H]; exists v2| |]; eapply (b_goto M p b l true _ GTrue t); try (left; reflexivity); try exact I; rewrite bblock_eq; exact H.
    - specialize (H H0 (H0 t) e1 v H2).
      destruct r; [destruct H as [v2 H]; exists v2| |]; eapply (b_goto M p b l true _ (GCond k true) t); try (left; reflexivity); try exact e0; rewrite bblock_eq; exact H.
    - specialize (H H0 (H0 e) e1 v H2).
      destruct r; [destruct H as [v2 H]; exists v2| |]; eapply (b_goto M p b l true _ (GCond k false) e); try (right; left; reflexivity); try exact e0; rewrite bblock_eq; exact H.
    - apply b_set, b_setv, b_return.
    - exists v. apply b_result, b_set, b_return.
    - (* body *) intros e0 v Ge. assert (B := body_good _ _ e).
      specialize (H B (B 0) e0 v Ge). destruct r.
      + destruct H as [v' H]. exists false, v'. rewrite e. split; auto. eapply b_body; eauto. rewrite bblock_eq. exact H.
      + split; [congruence|]. eapply b_body; eauto. rewrite bblock_eq. exact H.
      + eapply b_body; eauto. rewrite bblock_eq. exact H.
    - intros e1 v Ge. exists e1, v. rewrite e. split; auto. apply b_external; auto.
    - exfalso. eapply ER; eauto.
  Qed.

  (** ** Heights of derivations *)
  Inductive brunN : nat -> body -> label -> list stmt -> bstate -> bresult State -> Prop :=
  | n_op n b l k ss s e v s' r : op M k s (Some s') -> brunN n b l ss (s', e, v) r -> brunN (S n) b l (SOp k :: ss) (s, e, v) r
  | n_fail n b l k ss s e v : op M k s None -> brunN n b l (SOp k :: ss) (s, e, v) BFailed
  | n_call n b l c g ss s e v s' e' v' r : brunsN n g (enter M c s, e, v) (BReturned (s', e', v')) ->
      brunN n b l ss (leave M c s s', e', v') r -> brunN (S n) b l (SCall c g :: ss) (s, e, v) r
  | n_call_fail n b l c g ss s e v : brunsN n g (enter M c s, e, v) BFailed -> brunN (S n) b l (SCall c g :: ss) (s, e, v) BFailed
  | n_set n b l x ss s e v r : brunN n b l ss (s, x, v) r -> brunN (S n) b l (SSetExn x :: ss) (s, e, v) r
  | n_setv n b l x ss s e v r : brunN n b l ss (s, e, read M x s) r -> brunN (S n) b l (SSetExnv x :: ss) (s, e, v) r
  | n_readv n b l x ss s e v r : brunN n b l ss (write M x v s, e, v) r -> brunN (S n) b l (SReadExnv x :: ss) (s, e, v) r
  | n_result n b l k ss s e v r : brunN n b l ss (set_result M k s, e, v) r -> brunN (S n) b l (SResult k :: ss) (s, e, v) r
  | n_goto n b l (phis : bool) ts g t ss s e v r : In (g, t) ts -> holds M g (s, e, v) ->
      brunN n b t (bblock b t) ((if phis then phi M b l t s else s), e, v) r -> brunN (S n) b l (SGoto phis ts :: ss) (s, e, v) r
  | n_return n b l ss s : brunN n b l (SReturn :: ss) s (BReturned s)
  with brunsN : nat -> fname -> bstate -> bresult State -> Prop :=
  | n_body n g b s r : body_of p g = Some b -> brunN n b 0 (bblock b 0) s r -> brunsN (S n) g s r
  | n_external n g s e v s' : body_of p g = None -> external M g s s' -> brunsN n g (s, e, v) (BReturned (s', e, v)).
  Scheme brunN_ind2 := Induction for brunN Sort Prop
    with brunsN_ind2 := Induction for brunsN Sort Prop.
  Combined Scheme brunN_both from brunN_ind2, brunsN_ind2.
  Lemma mono : (forall n b l ss s r, brunN n b l ss s r -> forall m, n <= m -> brunN m b l ss s r) /\
    (forall n g s r, brunsN n g s r -> forall m, n <= m -> brunsN m g s r).
  Proof.
    apply (brunN_both (fun n b l ss s r _ => forall m, n <= m -> brunN m b l ss s r) (fun n g s r _ => forall m, n <= m -> brunsN m g s r)); intros;
      try (destruct m as [|m]; [lia|]); try (econstructor; eauto; match goal with H : forall _, _ |- _ => apply H; lia end); try (econstructor; eauto; fail).
  Qed.
  Scheme brun_ind2 := Induction for brun Sort Prop
    with bruns_ind2 := Induction for bruns Sort Prop.
  Combined Scheme brun_both from brun_ind2, bruns_ind2.
  Lemma heights : (forall b l ss s r, brun M p b l ss s r -> exists n, brunN n b l ss s r) /\ (forall g s r, bruns M p g s r -> exists n, brunsN n g s r).
  Proof.
    destruct mono as [M1 M2].
    apply (brun_both State M p (fun b l ss s r _ => exists n, brunN n b l ss s r) (fun g s r _ => exists n, brunsN n g s r)); intros;
      repeat match goal with H : exists _, _ |- _ => destruct H as [? H] end; try (exists 0; econstructor; eauto; fail); try (eexists; econstructor; eauto; fail).
    - exists (S (Nat.max x0 x)). eapply n_call; [eapply M2; [exact H|lia]|eapply M1; [exact H0|lia]].
  Qed.

  (** ** Back *)
  Definition back (b : body) (l : label) (is : list instr) (s : State) (r : bresult State) : Prop :=
    match r with
    | BReturned (s', true, v') => run M p b l is s (Unwound v' s')
    | BReturned (s', false, _) => run M p b l is s (Returned s')
    | BFailed => run M p b l is s Failed
    end.
  Definition back_fun (g : fname) (s : State) (e : bool) (r : bresult State) : Prop :=
    match r with
    | BReturned (s', e', v') =>
        match body_of p g with
        | None => runs M p g s (Returned s') /\ e' = e
        | Some _ => runs M p g s (if e' then Unwound v' s' else Returned s')
        end
    | BFailed => runs M p g s Failed
    end.
  Lemma no_pad_tail i is : no_pad (i :: is) -> no_pad is.
  Proof. intros H. inversion H; auto. Qed.
  Theorem backward n :
    (forall b l is s e v r, good_body b -> good_code b l is -> no_pad is -> G e -> brunN n b l (flat_map visit is) (s, e, v) r -> back b l is s r) /\
    (forall g s e v r, G e -> brunsN n g (s, e, v) r -> back_fun g s e r).
  Proof.
    induction n as [n IH] using lt_wf_ind. split.
    - intros b l is s e v r B C N Ge H. destruct is as [|i is]; [cbn in H; inversion H|].
      assert (Ct := good_tail _ _ _ _ C). assert (Nt := no_pad_tail _ _ N). assert (Hi := good_head _ _ _ _ C).
      destruct PO as [_ PI]. assert (Pi := PI _ _ _ Hi).
      destruct i as [k|c g|x cl|t|k t f|c g nm u|x|k|]; cbn [flat_map visit app] in H; inversion H; subst; clear H.
      + match goal with X : brunN ?m _ _ _ _ _ |- _ => eapply (proj1 (IH m (Nat.lt_succ_diag_r m))) in X; eauto end.
        destruct r as [[[s2 [|]] v2]|]; cbn [back] in *; eapply r_op; eauto.
      + apply r_fail; auto.
      + match goal with X : brunsN ?m _ _ _, Y : brunN ?m _ _ _ _ _ |- _ =>
          eapply (proj2 (IH m (Nat.lt_succ_diag_r m))) in X; eauto; rename Y into Y0; rename X into X0; pose (m0 := m) end.
        cbn [back_fun] in X0.
        assert (Z : runs M p g (enter M c s) (Returned s') /\ G e').
        { destruct (body_of p g); [|destruct X0 as [X0 ->]; auto]. destruct e'; [exfalso; eapply CR; eauto|]. split; auto. eapply G_false; eauto. }
        destruct Z as [Z1 Z2].
        eapply (proj1 (IH m0 (Nat.lt_succ_diag_r _))) in Y0; eauto.
        destruct r as [[[s2 [|]] v2]|]; cbn [back] in *; eapply r_call; eauto.
      + match goal with X : brunsN ?m _ _ _ |- _ => eapply (proj2 (IH m (Nat.lt_succ_diag_r m))) in X; eauto end. apply r_call_fails; auto.
      + exfalso. inversion N; auto.
      + match goal with X : In _ (_ :: _) |- _ => destruct X as [E|[]] end. injection E as <- <-. rewrite bblock_eq in *.
        match goal with X : brunN ?m _ _ _ _ _ |- _ => eapply (proj1 (IH m (Nat.lt_succ_diag_r m))) in X; eauto end.
        destruct r as [[[s2 [|]] v2]|]; cbn [back] in *; eapply r_br; eauto.
      + destruct Pi as [P1 P2]. rewrite bblock_eq in *.
        match goal with X : In _ (_ :: _) |- _ => destruct X as [E|[E|[]]] end; injection E as <- <-; cbn [holds fst] in *;
          match goal with X : brunN ?m _ _ _ _ _ |- _ => eapply (proj1 (IH m (Nat.lt_succ_diag_r m))) in X; eauto end;
          destruct r as [[[s2 [|]] v2]|]; cbn [back] in *; (eapply r_then; eauto; fail) || (eapply r_else; eauto).
      + (* invoke *)
        match goal with X : brunsN ?m _ _ _, Y : brunN ?m _ _ _ _ _ |- _ =>
          eapply (proj2 (IH m (Nat.lt_succ_diag_r m))) in X; eauto; rename Y into Y0; rename X into X0; pose (m0 := m) end.
        cbn [back_fun] in X0. destruct Pi as [P1 [x [cl [is' [P2 P3]]]]].
        assert (Z : (e' = false /\ runs M p g (enter M c s) (Returned s')) \/ (e' = true /\ runs M p g (enter M c s) (Unwound v' s'))).
        { destruct (body_of p g) eqn:Eb; [destruct e'; auto|]. destruct X0 as [X0 ->]. left. split; auto.
          destruct Ge as [[_ ->]|I]; auto. exfalso. eapply I; eauto. }
        destruct (NP _ _ _ _ _ _ (leave M c s s') Hi) as [N1 N2].
        inversion Y0; subst. match goal with X : In _ (_ :: _) |- _ => destruct X as [E|[E|[]]] end; injection E as <- <-; cbn [holds fst snd] in *; rewrite bblock_eq in *.
        * destruct Z as [[Z1 Z2]|[Z1 Z2]]; [|congruence].
          match goal with X : brunN ?m _ _ _ _ _ |- _ => eapply (proj1 (IH m ltac:(lia))) in X; eauto; [|subst; eapply G_false; eauto] end.
          destruct r as [[[s2 [|]] v2]|]; cbn [back] in *; eapply r_invoke; eauto; rewrite N1; auto.
        * destruct Z as [[Z1 Z2]|[Z1 Z2]]; [congruence|].
          assert (Gp := pad_G _ _ _ _ _ _ _ _ _ _ Hi B P2 Ge).
          assert (Gc : good_code b u is') by (intros i Hi'; apply B; rewrite P2; right; auto).
          rewrite P2 in *. cbn [flat_map visit app] in *.
          match goal with X : brunN _ _ _ (SReadExnv _ :: _) _ _ |- _ => inversion X; subst; clear X end.
          assert (W : exists m, m < S m0 /\ brunN m b u (flat_map visit is') (write M x v' (leave M c s s'), if cl then false else true, v') r).
          { destruct cl; cbn [app] in *.
            - match goal with X : brunN _ _ _ (SSetExn _ :: _) _ _ |- _ => inversion X; subst; clear X end. eexists. split; [|eauto]. unfold m0. lia.
            - eexists. split; [|eauto]. unfold m0. lia. }
          destruct W as [m [Lm W]]. unfold m0 in Lm. eapply (proj1 (IH m Lm)) in W; eauto.
          destruct r as [[[s2 [|]] v2]|]; cbn [back] in *; eapply r_invoke_unwinds; eauto; rewrite N2; auto.
      + match goal with X : brunsN ?m _ _ _ |- _ => eapply (proj2 (IH m (Nat.lt_succ_diag_r m))) in X; eauto end. apply r_invoke_fails; auto.
      + repeat match goal with X : brunN _ _ _ (_ :: _) _ _ |- _ => inversion X; subst; clear X end. cbn. apply r_resume.
      + repeat match goal with X : brunN _ _ _ (_ :: _) _ _ |- _ => inversion X; subst; clear X end. cbn. apply r_ret.
    - intros g s e v r Ge H. inversion H; subst; match goal with X : body_of p g = _ |- _ => rename X into Eb end.
      + assert (Bg := body_good _ _ Eb). rewrite bblock_eq in *.
        match goal with X : brunN ?m _ _ _ _ _ |- _ => eapply (proj1 (IH m (Nat.lt_succ_diag_r m))) in X; [|exact Bg|apply Bg|eapply PO; eauto|exact Ge] end.
        destruct r as [[[s2 [|]] v2]|]; cbn [back back_fun] in *; rewrite ?Eb; eapply r_body; eauto.
      + cbn [back_fun]. rewrite Eb. split; auto. apply r_external; auto.
  Qed.
End Proofs.
