(** Whole programs, the overflow pass and the default encoding. *)
From Coq Require Import ZArith List String Bool Lia.
From Verif.Spec Require Import LLVMInt IR CFG BitVectorIR ByteMemory Encodings Program DefaultMode OverflowProgram OverflowDefault.
From Verif.Model Require Import Boogie PreludeInt NormalizeLoops DefaultMode OverflowProgram.
From Verif.Proofs Require Import PreludeCalls CFGBase ControlMain ProgramSim IntUnbounded Lockstep DefaultExpr DefaultSim OverflowPass OverflowSim OverflowWhole OverflowDefaultExpr OverflowDefaultSim.
Import ListNotations.
Open Scope list_scope.
Open Scope Z_scope.

Lemma new_width_pos : forall P x n, (forall d k, P d = Some k -> width_ok k) -> new_width P x = Some n -> 1 <= n.
Proof.
  intros P x n HP H. assert (forall d k, P d = Some k -> 1 <= k) as Hp by (intros d k Hd; apply size_pos; exact (proj1 (HP d k Hd))).
  unfold new_width in H. destruct x as [|c d]; [discriminate|].
  repeat match type of H with
  | (match ?y with _ => _ end) = _ => destruct y eqn:?; try discriminate
  | (if ?b then _ else _) = _ => destruct b; try discriminate
  end; try (injection H as <-); repeat match goal with E : P _ = Some ?k |- _ => apply Hp in E end; try lia.
Qed.
Lemma widths_pos : forall W P f, fn_ok source_name W P f -> (forall x n, W x = Some n -> 1 <= n) -> forall x n, widths_after W P x = Some n -> 1 <= n.
Proof.
  intros W P f Hok HW x n H. unfold widths_after in H. destruct (W x) as [k|] eqn:E; [injection H as <-; eauto|].
  refine (new_width_pos P x n _ H). intros d k Hd. apply (fn_widths _ _ _ _ Hok d k Hd).
Qed.

(** ** Executions with and without [OUndefined] for what is inexact *)
Definition okO (t : list oevent) : Prop := ~ In OUndefined t.
Lemma okO_app : forall a b, okO (a ++ b) -> okO a /\ okO b.
Proof. intros a b H. split; intros Hi; apply H, in_app_iff; tauto. Qed.
Definition cutO (t u : list oevent) : Prop := exists a b, t = a ++ b /\ u = a ++ [OUndefined].
Lemma cutO_app : forall t0 t t1 u, cutO t u -> cutO (t0 ++ t ++ t1) (t0 ++ u).
Proof. intros t0 t t1 u (a & b & -> & ->). exists (t0 ++ a), (b ++ t1). now rewrite !app_assoc. Qed.
Lemma cutO_nil : forall t, cutO t [OUndefined].
Proof. intros t. now exists [], t. Qed.
Lemma last_oundefined : forall t : list oevent, In OUndefined (t ++ [OUndefined]).
Proof. intros t. apply in_app_iff. right. now left. Qed.
Lemma no_oinv : forall p vs m t v w m', ~ no_oinvoke p vs m t v w m'.
Proof. intros p vs m t v w m' []. Qed.
Lemma oexact_plain : forall all W r e v, oexact_den all W r e = Some v -> oexp_den W r e = Some v.
Proof. intros all W r e v H. unfold oexact_den in H. destruct (oexp_exact all W r e); [exact H|discriminate]. Qed.

Section Whole.
  Context (all : bool) (ly : layout) (Hly : layout_ok ly) (reported : string -> bool) (p : oprogram).
  Context (Hwf : owell_formed source_name p) (Hwt : owell_typed p).
  Notation p' := (overflow_pass reported p).
  Notation ecalls := (exact_ocalls all ly reported p).

  Lemma oruns_exact : forall f F (call1 call2 : string -> oeffect), In (f, F) p ->
    (forall g vs m t v m', okO t -> call1 g vs m t v m' -> call2 g vs m t v m' \/ exists u v' m1, cutO t u /\ call2 g vs m u v' m1) ->
    forall args m t o, okO t -> behaves (oexp_den (owidths F)) (exec_oop (reported f) call1) no_oinvoke bv_true bv_eq (ocode F) args m t o ->
      exact_oruns all ly reported call2 f F args m t o \/
      (exists u, cutO t u /\ exact_oruns all ly reported call2 f F args m u None) \/
      (exists t1 t2, t = t1 ++ t2 /\ exact_oundefined all ly reported call2 f F args m t1).
  Proof.
    intros f F call1 call2 Hin Hc args m t o Ht (s0 & s & Hs0 & Hs & Ho).
    set (primA := fun q vs m t v m' => exec_oop (reported f) call1 q vs m t v m' /\ okO t).
    assert (behaves (oexp_den (owidths F)) primA no_oinvoke bv_true bv_eq (ocode F) args m t o) as HA.
    { exists s0, s. split; [exact Hs0|]. split; [|exact Ho].
      refine (steps_ok _ _ primA no_oinvoke _ _ _ no_oinv okO okO_app _ s0 t s Ht Hs). intros. split; assumption. }
    destruct (behaves_R (ocode F) (oexp_den (owidths F)) (oexact_den all (owidths F)) primA (exact_oop ly (reported f) call2)
                no_oinvoke no_oinvoke bv_true bv_true bv_eq bv_eq eq eq eq True cutO eq) with (argsA := args) (argsB := args) (mA := m) (mB := m) (t := t) (o := o)
      as [(o' & H1 & H2)|[(u & H1 & H2)|(_ & H1)]]; auto.
    - exact eq_upd.
    - intros rA rB e v -> He. destruct (oexact_den all (owidths F) rB e) as [w|] eqn:E; [|now right].
      left. exists w. split; [reflexivity|]. apply oexact_plain in E. congruence.
    - intros l b e l1 l2 rA rB v w _ _ -> He Hx. apply oexact_plain in Hx. congruence.
    - intros q vs ws mA mB t' v mA' Hvs <- [Hq Hok]. apply Forall2_eq in Hvs. subst ws.
      destruct (described_dec ly (reported f) q vs) as [Hty|Hty].
      2:{ right. exists [OUndefined], v, mA'. split; [apply cutO_nil|now apply EO_inexact]. }
      assert (exec_oop (reported f) call2 q vs mA t' v mA' \/ exists u v' m1, cutO t' u /\ exec_oop (reported f) call2 q vs mA u v' m1) as Hx.
      { destruct Hq as [|g vs m0 t0 v0 m0' Hg| | |]; try (left; now constructor).
        destruct (Hc _ _ _ _ _ _ Hok Hg) as [Hg'|(u & v' & m1 & Hu & Hg')]; [left; now apply O_call|].
        right. exists u, v', m1. split; [exact Hu|now apply O_call]. }
      destruct Hx as [Hx|(u & v' & m1 & Hu & Hx)].
      + left. exists v, mA'. split; [now apply EO_exact|split; reflexivity].
      + right. exists u, v', m1. split; [exact Hu|now apply EO_exact].
    - exact cutO_app.
    - exact (low_no_switch _ (ow_lowered _ p Hwf f F Hin)).
    - left. apply Rres_eq in H2. now subst o'.
    - right. left. eauto.
  Qed.
  Lemma exact_oruns_plain : forall f F (call1 call2 : string -> oeffect), In (f, F) p ->
    (forall g vs m t v m', okO t -> call1 g vs m t v m' -> call2 g vs m t v m') ->
    forall args m t o, okO t -> exact_oruns all ly reported call1 f F args m t o ->
      behaves (oexp_den (owidths F)) (exec_oop (reported f) call2) no_oinvoke bv_true bv_eq (ocode F) args m t o.
  Proof.
    intros f F call1 call2 Hin Hc args m t o Ht (s0 & s & Hs0 & Hs & Ho).
    set (primA := fun q vs m t v m' => exact_oop ly (reported f) call1 q vs m t v m' /\ okO t).
    assert (behaves (oexact_den all (owidths F)) primA no_oinvoke bv_true bv_eq (ocode F) args m t o) as HA.
    { exists s0, s. split; [exact Hs0|]. split; [|exact Ho].
      refine (steps_ok _ _ primA no_oinvoke _ _ _ no_oinv okO okO_app _ s0 t s Ht Hs). intros. split; assumption. }
    destruct (behaves_R (ocode F) (oexact_den all (owidths F)) (oexp_den (owidths F)) primA (exec_oop (reported f) call2)
                no_oinvoke no_oinvoke bv_true bv_true bv_eq bv_eq eq eq eq False (fun _ _ => False) eq) with (argsA := args) (argsB := args) (mA := m) (mB := m) (t := t) (o := o)
      as [(o' & H1 & H2)|[(u & [] & H2)|([] & H1)]]; auto.
    - exact eq_upd.
    - intros rA rB e v -> He. left. exists v. split; [|reflexivity]. eapply oexact_plain; eassumption.
    - intros l b e l1 l2 rA rB v w _ _ -> He Hx. apply oexact_plain in He. congruence.
    - intros q vs ws mA mB t' v mA' Hvs <- [Hq Hok]. apply Forall2_eq in Hvs. subst ws. left. exists v, mA'. split; [|split; reflexivity].
      destruct Hq as [o1 vs m1 t1 v1 m1' Hq _|o1 vs m1 v1 m1' Hq].
      + destruct Hq as [|g vs m0 t0 v0 m0' Hg| | |]; try now constructor. apply O_call. apply Hc; assumption.
      + destruct Hok. now left.
    - exact (low_no_switch _ (ow_lowered _ p Hwf f F Hin)).
    - apply Rres_eq in H2. now subst o'.
  Qed.
  Lemma oplain_exact : forall n f args m t v m', okO t -> ocalls reported p n f args m t v m' ->
    ecalls n f args m t v m' \/ exists u v' m1, cutO t u /\ ecalls n f args m u v' m1.
  Proof.
    induction n as [|n IH]; intros f args m t v m' Hu H; [destruct H|].
    destruct H as (F & Hf & Hlen & H). pose proof (find_ofn_in _ _ _ Hf) as Hin.
    assert (forall o, behaves (oexp_den (owidths F)) (exec_oop (reported f) (ocalls reported p n)) no_oinvoke bv_true bv_eq (ocode F) args m t o ->
              exact_oruns all ly reported (ecalls n) f F args m t o \/ exists u v' m1, cutO t u /\ ecalls (S n) f args m u v' m1) as Hgo.
    { intros o Ho. destruct (oruns_exact f F _ (ecalls n) Hin IH args m t o Hu Ho) as [H1|[(u & H1 & H2)|(t1 & t2 & -> & H1)]].
      - now left.
      - right. exists u, v, m'. split; [exact H1|]. exists F. split; [exact Hf|]. split; [exact Hlen|]. right. left. split; [exact H2|].
        destruct H1 as (a & b & _ & ->). destruct a; discriminate.
      - right. exists (t1 ++ [OUndefined]), v, m'. split; [now exists t1, t2|]. exists F. split; [exact Hf|]. split; [exact Hlen|].
        right. right. eauto. }
    destruct H as [(r & Hr & Hv)|[[Hr Hb]|(t0 & -> & _)]].
    - destruct (Hgo _ Hr) as [H1|H1]; [|now right]. left. exists F. split; [exact Hf|]. split; [exact Hlen|]. left. eauto.
    - destruct (Hgo _ Hr) as [H1|H1]; [|now right]. left. exists F. split; [exact Hf|]. split; [exact Hlen|]. right. left. auto.
    - destruct Hu. apply last_oundefined.
  Qed.
  Lemma oexact_calls_plain : forall n f args m t v m', okO t -> ecalls n f args m t v m' -> ocalls reported p n f args m t v m'.
  Proof.
    induction n as [|n IH]; intros f args m t v m' Hu H; [destruct H|].
    destruct H as (F & Hf & Hlen & H). pose proof (find_ofn_in _ _ _ Hf) as Hin.
    pose proof (exact_oruns_plain f F _ (ocalls reported p n) Hin IH args m t) as Hgo.
    exists F. split; [exact Hf|]. split; [exact Hlen|]. destruct H as [(r & Hr & Hv)|[[Hr Hb]|(t0 & -> & _)]].
    - left. exists r. split; [exact (Hgo _ Hu Hr)|exact Hv].
    - right. left. split; [exact (Hgo _ Hu Hr)|exact Hb].
    - destruct Hu. apply last_oundefined.
  Qed.

  (** ** The Boogie program *)
  Context (I : interp) (ndebug : bool) (HK : bitwise_knowledge UnboundedInteger false I (bwP all)).
  Notation bcalls := (icalls I p' ndebug).
  Lemma translate_lax : forall F f call args r0 exn m, In (f, F) p -> List.length args = List.length (params (ocode F)) ->
    (forall t o, behaves (lax_den all (widths_after (owidths F) (opairs F))) (iexec_op I call) no_iinvoke int_true int_eq
         (visit_func (owidths F) (opairs F) (reported f) (ocode F)) args m t o ->
       iruns I ndebug call (overflow_fn (reported f) F) args r0 exn m t o) /\
    (forall t o, iruns I ndebug call (overflow_fn (reported f) F) args r0 exn m t o ->
       behaves (lax_den all (widths_after (owidths F) (opairs F))) (iexec_op I call) no_iinvoke int_true int_eq
         (visit_func (owidths F) (opairs F) (reported f) (ocode F)) args m t o \/
       exists t1 t2, t = t1 ++ t2 /\
         undefined_after (lax_den all (widths_after (owidths F) (opairs F))) (iexec_op I call) no_iinvoke int_true int_eq
           (visit_func (owidths F) (opairs F) (reported f) (ocode F)) args m t1).
  Proof.
    intros F f call args r0 exn m Hin Hlen. pose proof (pass_well_formed reported p Hwf) as Hwf'.
    assert (In (f, overflow_fn (reported f) F) p') as Hin' by (apply in_map_iff; exists (f, F); auto).
    exact (run_translate (lax_den all (widths_after (owidths F) (opairs F))) (typed_regs (widths_after (owidths F) (opairs F)) width_ok) (iexec_op I call) no_iinvoke
             int_true int_eq (visit_func (owidths F) (opairs F) (reported f) (ocode F)) (oloops F) (wf_original _ Hwf' f _ Hin') (wf_loops _ Hwf' f _ Hin') (wf_ssa _ Hwf' f _ Hin')
             (trans_default ndebug) (eval_default I) args r0 exn m (lax_agree I ndebug all HK (widths_after (owidths F) (opairs F)))
             (wf_lowered _ Hwf' f _ Hin') Hlen).
  Qed.
  Lemma istart : forall ck F args args' m M (s0 : lstate val oexp mem oop), fn_ok source_name (owidths F) (opairs F) (ocode F) -> Forall2 Rw args args' -> same_memory ly m M ->
    lstart (ocode F) args m = Some s0 ->
    exists s0', lstart (visit_func (owidths F) (opairs F) ck (ocode F)) args' M = Some s0' /\ imatches (owidths F) (opairs F) ck ly s0 s0'.
  Proof.
    intros ck F args args' m M s0 Hok Ha HM H. unfold lstart in *. cbn [visit_func entry params]. rewrite (oblock_visit (owidths F) (opairs F) ck (ocode F)).
    destruct (block_of (ocode F) (entry (ocode F))) as [b|] eqn:Eb; [|discriminate]. injection H as <-. eexists. split; [reflexivity|].
    cbn [visit_block body]. constructor; [apply (block_good _ _ _ Hok _ _ Eb)| |exact HM]. exists (upds (fun _ => None) (combine (params (ocode F)) args)). split.
    - apply INV_upds.
      + split; [reflexivity|]. intros d n _. cbn. auto.
      + intros x v Hin. apply in_combine_l in Hin. exact (fn_params _ _ _ _ Hok x Hin).
    - apply Rreg_params; [exact Rreg_empty|exact Ha].
  Qed.
  Lemma istart_back : forall ck F args' (M : Z -> Z) s0', lstart (visit_func (owidths F) (opairs F) ck (ocode F)) args' M = Some s0' ->
    forall args (m : mem), exists s0 : lstate val oexp mem oop, lstart (ocode F) args m = Some s0.
  Proof.
    intros ck F args' M s0' H args m. unfold lstart in *. cbn [visit_func entry params] in H. rewrite (oblock_visit (owidths F) (opairs F) ck (ocode F)) in H.
    destruct (block_of (ocode F) (entry (ocode F))) as [b|]; [|discriminate]. eauto.
  Qed.

  Definition iforward (call1 : string -> oeffect) (call2 : string -> ieffect) : Prop :=
    forall g vs ws m M t v m', call1 g vs m t v m' -> Forall2 Rw vs ws -> same_memory ly m M ->
    (t = [] -> exists w M', call2 g ws M [] w M' /\ Rv v w /\ same_memory ly m' M') /\
    (forall e t0, t = e :: t0 -> e <> OUndefined -> exists w M', call2 g ws M [Failed] w M').
  Definition ibackward (call1 : string -> oeffect) (call2 : string -> ieffect) : Prop :=
    forall g vs ws m M t w M', call2 g ws M t w M' -> Forall2 Rw vs ws -> same_memory ly m M ->
    (t = [] -> (exists v m', call1 g vs m [] v m' /\ Rv v w /\ same_memory ly m' M') \/ (exists v m', call1 g vs m [OUndefined] v m')) /\
    (forall e' t0, t = e' :: t0 -> exists e v m', call1 g vs m [e] v m').
  Lemma icalls_match : forall n, iforward (ecalls n) (bcalls n) /\ ibackward (ecalls n) (bcalls n).
  Proof.
    induction n as [|n [IHf IHb]]; [split; intros ? ? ? ? ? ? ? ? []|]. split.
    - intros f args args' m M t v m' (F & Hf & Hlen & H) Ha HM. pose proof (find_ofn_in _ _ _ Hf) as Hin. pose proof (ow_typed _ _ Hwf f F Hin) as Hok.
      pose proof (widths_pos _ _ _ Hok (fun x n => owt_registers p Hwt f F x n Hin)) as HG.
      pose proof (fun l b e l1 l2 => owt_conditions p Hwt f F l b e l1 l2 Hin) as Hcond.
      pose proof (low_no_switch _ (ow_lowered _ p Hwf f F Hin)) as Hsw.
      assert (find_fn p' f = Some (overflow_fn (reported f) F)) as Hf' by (now rewrite find_overflow, Hf).
      assert (List.length args' = List.length (params (ocode F))) as Hlen' by (rewrite <- Hlen; symmetry; eapply Forall2_len; eassumption).
      pose proof (proj1 (translate_lax F f (bcalls n) args' (fun _ => int_true) false M Hin Hlen')) as Htr.
      assert (forall s0 e t0 s, lstart (ocode F) args m = Some s0 ->
        lsteps (oexact_den all (owidths F)) (exact_oop ly (reported f) (ecalls n)) no_oinvoke bv_true bv_eq (ocode F) s0 (e :: t0) s -> e <> OUndefined ->
        exists w M', bcalls (S n) f args' M [Failed] w M') as Hev.
      { intros s0 e t0 s Hs0 Hs Hne. destruct (istart (reported f) F args args' m M s0 Hok Ha HM Hs0) as (s0' & Hs0' & Hm).
        destruct (ievent_fwd all _ _ (reported f) _ Hok HG Hcond Hsw I ly Hly (ecalls n) (bcalls n) IHf _ _ _ _ _ Hs Hne Hm) as (s1' & H1 & H2).
        exists int_true, M, (overflow_fn (reported f) F), (fun _ => int_true), false. split; [exact Hf'|]. split; [exact Hlen'|]. right.
        split; [apply Htr; exists s0', s1'; auto|now left]. }
      destruct H as [(r & (s0 & s & Hs0 & Hs & Hr) & Hv)|[[(s0 & s & Hs0 & Hs & Hr) Ht]|(t0 & -> & s0 & s & Hs0 & Hs & Hw)]].
      + split; [|intros e t0 ->; eauto]. intros ->.
        destruct (istart (reported f) F args args' m M s0 Hok Ha HM Hs0) as (s0' & Hs0' & Hm).
        destruct (isteps_fwd all _ _ (reported f) _ Hok HG Hcond Hsw I ly Hly (ecalls n) (bcalls n) IHf _ _ Hs _ Hm) as (s1' & H1 & Hm1).
        destruct Hm1 as [|o o' m1 M1 Ho HM1]; [discriminate|]. cbn in Hr. injection Hr as -> ->.
        destruct o' as [r'|]; [|destruct r; destruct Ho].
        exists (match r' with Some w => w | None => as_int v end), M1. split; [|split; [|exact HM1]].
        * exists (overflow_fn (reported f) F), (fun _ => int_true), false. split; [exact Hf'|]. split; [exact Hlen'|]. left. exists r'. split; [apply Htr; eexists _, _; split; [exact Hs0'|]; split; [exact H1|reflexivity]|].
          destruct r'; [reflexivity|exact Logic.I].
        * destruct r as [v0|], r' as [w|]; try contradiction; cbn in *; [subst v0; now apply Rw_Rv|intros _; reflexivity].
      + split; [intros ->; destruct (Ht eq_refl)|]. intros e t0 ->. eauto.
      + destruct t0 as [|e0 t0]; [|split; [discriminate|intros e t1 E; cbn in E; injection E as <- _; eauto]].
        split; [discriminate|]. intros e t1 E Hne. cbn in E. injection E as <- _. congruence.
    - intros f args args' m M t w M' (F' & r0 & exn & Hf & Hlen' & H) Ha HM. rewrite find_overflow in Hf. destruct (find_ofn p f) as [F|] eqn:EF; [|discriminate]. injection Hf as <-.
      pose proof (find_ofn_in _ _ _ EF) as Hin. pose proof (ow_typed _ _ Hwf f F Hin) as Hok.
      pose proof (widths_pos _ _ _ Hok (fun x n => owt_registers p Hwt f F x n Hin)) as HG.
      pose proof (fun l b e l1 l2 => owt_conditions p Hwt f F l b e l1 l2 Hin) as Hcond.
      pose proof (low_no_switch _ (ow_lowered _ p Hwf f F Hin)) as Hsw.
      cbn [overflow_fn code visit_func params] in Hlen'.
      assert (List.length args = List.length (params (ocode F))) as Hlen by (rewrite <- Hlen'; eapply Forall2_len; eassumption).
      pose proof (proj2 (translate_lax F f (bcalls n) args' r0 exn M Hin Hlen')) as Htr.
      assert (forall s0' s' t, lstart (visit_func (owidths F) (opairs F) (reported f) (ocode F)) args' M = Some s0' ->
        lsteps (lax_den all (widths_after (owidths F) (opairs F))) (iexec_op I (bcalls n)) no_iinvoke int_true int_eq (visit_func (owidths F) (opairs F) (reported f) (ocode F)) s0' t s' ->
        exists s0, lstart (ocode F) args m = Some s0 /\
          iexplained all (owidths F) (opairs F) (reported f) (ocode F) ly (ecalls n) s0 t s') as Hex.
      { intros s0' s' t1 Hs0' Hs. destruct (istart_back _ _ _ _ _ Hs0' args m) as [s0 Hs0]. exists s0. split; [exact Hs0|].
        destruct (istart (reported f) F args args' m M s0 Hok Ha HM Hs0) as (s1' & E & Hm). rewrite Hs0' in E. injection E as <-.
        destruct (g_steps_count _ _ _ _ _ _ _ _ _ Hs) as [N HN].
        exact (isteps_bwd all _ _ (reported f) _ Hok HG Hcond Hsw I ly Hly (ecalls n) (bcalls n) IHb (S N) N (Nat.lt_succ_diag_r N) _ _ _ _ Hm HN). }
      assert (forall s0, lstart (ocode F) args m = Some s0 -> iundefined_from all (owidths F) (reported f) (ocode F) ly (ecalls n) s0 ->
        exists v m', ecalls (S n) f args m [OUndefined] v m') as Hund.
      { intros s0 Hs0 [(s1 & H1 & H2)|(s1 & H1 & H2)]; exists (VBool true), m, F; (split; [exact EF|]); (split; [exact Hlen|]); right.
        - right. exists []. split; [reflexivity|]. exists s0, s1. auto.
        - left. split; [exists s0, s1; auto|discriminate]. }
      assert (forall t1, undefined_after (lax_den all (widths_after (owidths F) (opairs F))) (iexec_op I (bcalls n)) no_iinvoke int_true int_eq
                           (visit_func (owidths F) (opairs F) (reported f) (ocode F)) args' M t1 ->
        exists e v m', ecalls (S n) f args m [e] v m' /\ (t1 = [] -> e = OUndefined)) as Hwrong.
      { intros t1 (s0' & s' & Hs0' & Hs & Hw). destruct (Hex _ _ _ Hs0' Hs) as (s0 & Hs0 & [Hu|He]).
        - destruct (Hund s0 Hs0 Hu) as (v1 & m1 & H1). exists OUndefined, v1, m1. auto.
        - destruct t1 as [|e' t1]; [destruct He as [_ He]; destruct (He Hw)|]. destruct He as (e & s1 & H1 & H2).
          exists e, (VBool true), m. split; [|discriminate]. exists F. split; [exact EF|]. split; [exact Hlen|]. right. left. split; [exists s0, s1; auto|discriminate]. }
      assert (forall o e' t0, iruns I ndebug (bcalls n) (overflow_fn (reported f) F) args' r0 exn M (e' :: t0) o -> exists e v m', ecalls (S n) f args m [e] v m') as Hev.
      { intros o e' t0 Ho. destruct (Htr _ _ Ho) as [(s0' & s' & Hs0' & Hs & _)|(t1 & t2 & _ & Hw)].
        - destruct (Hex _ _ _ Hs0' Hs) as (s0 & Hs0 & [Hu|(e & s1 & H1 & H2)]).
          + destruct (Hund s0 Hs0 Hu) as (v1 & m1 & H1). eauto.
          + exists e, (VBool true), m, F. split; [exact EF|]. split; [exact Hlen|]. right. left. split; [exists s0, s1; auto|discriminate].
        - destruct (Hwrong t1 Hw) as (e & v1 & m1 & H1 & _). eauto. }
      destruct H as [(r & Ho & Hv)|[Ho Hi]].
      + split; [|intros e' t0 ->; eauto]. intros ->. destruct (Htr _ _ Ho) as [(s0' & s' & Hs0' & Hs & Hr)|(t1 & t2 & Et & Hw)].
        * destruct (Hex _ _ _ Hs0' Hs) as (s0 & Hs0 & [Hu|[H1 _]]); [right; exact (Hund s0 Hs0 Hu)|].
          destruct s' as [|o' m2]; [discriminate|]. cbn in Hr. injection Hr as -> ->. destruct (H1 _ _ eq_refl) as (o & m1 & H2 & H3 & H4).
          destruct o as [r1|]; [|destruct r; destruct H3]. left. exists (match r1 with Some a => a | None => VBool true end), m1. split; [|split; [|exact H4]].
          -- exists F. split; [exact EF|]. split; [exact Hlen|]. left. exists r1. split; [eexists _, _; split; [exact Hs0|]; split; [exact H2|reflexivity]|].
             destruct r1; [reflexivity|exact Logic.I].
          -- destruct r1 as [a|], r as [b|]; try contradiction; cbn in *; [subst b; now apply Rw_Rv|apply Rv_any].
        * symmetry in Et. apply app_eq_nil in Et as [-> ->]. destruct (Hwrong [] Hw) as (e & v1 & m1 & H1 & H2). rewrite (H2 eq_refl) in H1. right. eauto.
      + split; [intros ->; destruct Hi|]. intros e' t0 ->. eauto.
  Qed.

  Context (args : list val) (Hargs : Forall machine_int args).
  Lemma overflow_found : forall e f m M, e <> OUndefined -> same_memory ly m M -> can_get_to reported p e f args m ->
    default_can_fail I p' ndebug f (map as_int args) M \/ ocan_be_inexact all ly reported p f args m.
  Proof.
    intros e f m M Hne HM (n & v & m' & H). pose proof (args_related args Hargs) as Ha. destruct (icalls_match n) as [Hf _].
    assert (okO [e]) as Hok by (intros [E|[]]; auto).
    assert (forall t0 v m', ecalls n f args m (e :: t0) v m' -> default_can_fail I p' ndebug f (map as_int args) M) as Hfail.
    { intros t0 v1 m1 H1. destruct (proj2 (Hf _ _ _ _ _ _ _ _ H1 Ha HM) e t0 eq_refl Hne) as (w & M' & H2). exists n, [Failed], w, M'. split; [exact H2|now left]. }
    destruct (oplain_exact n f args m [e] v m' Hok H) as [H1|(u & v1 & m1 & (a & b & E & ->) & H1)]; [left; eauto|].
    destruct a as [|e0 a]; [right; exists n, v1, m1; exact H1|]. injection E as <- _. left. exact (Hfail _ _ _ H1).
  Qed.
  Lemma overflow_real : forall f m M, same_memory ly m M -> default_can_fail I p' ndebug f (map as_int args) M ->
    can_get_to reported p Overflow f args m \/ can_get_to reported p OFailed f args m \/ ocan_be_inexact all ly reported p f args m.
  Proof.
    intros f m M HM (n & t & w & M' & H & Hi). pose proof (args_related args Hargs) as Ha. destruct (icalls_match n) as [_ Hb].
    destruct t as [|e' t]; [destruct Hi|]. destruct (proj2 (Hb _ _ _ _ _ _ _ _ H Ha HM) e' t eq_refl) as (e & v & m' & H1).
    destruct e.
    - left. exists n, v, m'. apply oexact_calls_plain; [|exact H1]. intros [E|[]]; discriminate.
    - right. left. exists n, v, m'. apply oexact_calls_plain; [|exact H1]. intros [E|[]]; discriminate.
    - right. right. exists n, v, m'. exact H1.
  Qed.
End Whole.
