(** From conditions on the events and constants of a run to the guards of the
    simulation. *)
From Coq Require Import ZArith List String Bool Lia ZifyBool.
From Verif.Base Require Import ZBits.
From Verif.Spec Require Import LLVMInt IR.
From Verif.Model Require Import Boogie PreludeInt SmackRepInt.
From Verif.Proofs Require Import Lookup PreludeCalls ExprSim.
Import ListNotations.
Open Scope string_scope.
Open Scope Z_scope.

Definition ev_ok (g : guards) (e : event) : Prop :=
  match e with
  | EvBin op n x y => g_bin g op n x y
  | EvCmp p n x y => g_icmp g p n x y
  | EvCast c n1 n2 x => g_cast g c n1 n2 x
  end.

(** The signedness hints the translation gives to an operand in each place. *)
Definition hints (pl : place) : bool * bool :=
  match pl with
  | InBin op nsw => bop_hints op (negb nsw)
  | InConstBin op => bop_hints op false
  | InCmp p => (icmp_isUnsigned p, true)
  | InCast | InSelectCond => (false, false)
  | InSelectArm => (true, true)
  end.
Definition const_ok (g : guards) (t : place * Z * Z) : Prop :=
  let '(pl, n, c) := t in g_lit g n c (fst (hints pl)) (snd (hints pl)).

Lemma ev2_ok : forall g r mk (P : Z -> Z -> Prop) a b, (forall x y, ev_ok g (mk x y) -> P x y) ->
  Forall (ev_ok g) (ev2 r mk a b) -> on2 r P a b.
Proof.
  intros g r mk P a b H F x y Ha Hb. unfold ev2 in F. rewrite Ha, Hb in F. inversion F; auto.
Qed.

Lemma gd_value_events : forall g r v pl, Forall (ev_ok g) (value_events r v) ->
  Forall (const_ok g) (value_consts pl v) -> gd_value g r v (fst (hints pl)) (snd (hints pl)).
Proof.
  intros g r v. induction v; intros pl He Hc; cbn in *.
  - exact Logic.I.
  - inversion Hc; assumption.
  - rewrite !Forall_app in He. rewrite !Forall_app in Hc. destruct He as (H1 & H2 & H3), Hc as (C1 & C2).
    repeat split; [apply (IHv1 (InConstBin op)); assumption | apply (IHv2 (InConstBin op)); assumption |].
    eapply ev2_ok; [|exact H3]. cbn. auto.
  - rewrite !Forall_app in He. rewrite !Forall_app in Hc. destruct He as (H1 & H2 & H3), Hc as (C1 & C2).
    repeat split; [apply (IHv1 (InCmp p)); assumption | apply (IHv2 (InCmp p)); assumption |].
    eapply ev2_ok; [|exact H3]. cbn. auto.
  - rewrite !Forall_app in He. destruct He as (H1 & H2). split; [apply (IHv InCast); assumption|].
    intros x Hx. rewrite Hx in H2. inversion H2; assumption.
  - rewrite !Forall_app in He. rewrite !Forall_app in Hc.
    destruct He as (H1 & H2 & H3), Hc as (C1 & C2 & C3).
    repeat split; [apply (IHv1 InSelectCond)|apply (IHv2 InSelectArm)|apply (IHv3 InSelectArm)]; assumption.
Qed.

Lemma gd_inst_events : forall g r i, Forall (ev_ok g) (inst_events r i) ->
  Forall (const_ok g) (inst_consts i) -> gd_inst g r i.
Proof.
  intros g r i He Hc. destruct i; cbn [inst_events inst_consts gd_inst] in *.
  - cbn [value_events] in He. rewrite !Forall_app in He. rewrite !Forall_app in Hc.
    destruct He as (H1 & H2 & H3), Hc as (C1 & C2).
    repeat split; [apply (gd_value_events g r a (InBin op nsw)); assumption
                  |apply (gd_value_events g r b (InBin op nsw)); assumption|].
    eapply ev2_ok; [|exact H3]. cbn. auto.
  - exact (gd_value_events g r (CIcmp p n a b) InCast He Hc).
  - exact (gd_value_events g r (CCast c n1 n2 a) InCast He Hc).
  - exact (gd_value_events g r (CSelect n c a b) InCast He Hc).
Qed.

Lemma gd_code_events : forall g c r, Forall (ev_ok g) (code_events r c) ->
  Forall (const_ok g) (code_consts c) -> gd_code g r c.
Proof.
  intros g c. induction c as [|[x i] c IH]; intros r He Hc; cbn in *; [exact Logic.I|].
  rewrite Forall_app in He, Hc. destruct He as [H1 H2], Hc as [C1 C2].
  split; [apply gd_inst_events; assumption|]. intros v Hv. rewrite Hv in H2. apply IH; assumption.
Qed.

(** All constants of a well-typed program have a width in [W]. *)
Lemma consts_width : forall G W v pl, wt_value G W v ->
  Forall (fun t => W (snd (fst t)) /\ is_iN (snd (fst t)) (snd t)) (value_consts pl v).
Proof.
  intros G W v. induction v; intros pl H; cbn in *; repeat rewrite Forall_app; intuition.
Qed.
Lemma inst_consts_width : forall G W i, wt_inst G W i ->
  Forall (fun t => W (snd (fst t)) /\ is_iN (snd (fst t)) (snd t)) (inst_consts i).
Proof.
  intros G W i H. destruct i; cbn in *; repeat rewrite Forall_app; intuition eauto using consts_width.
Qed.
Lemma code_consts_width : forall G W c, wt_code G W c ->
  Forall (fun t => W (snd (fst t)) /\ is_iN (snd (fst t)) (snd t)) (code_consts c).
Proof.
  intros G W c H. apply Forall_forall. intros t Ht. apply in_flat_map in Ht as ([x i] & Hin & Ht).
  destruct (H x i Hin) as [_ Hi]. pose proof (inst_consts_width G W i Hi) as F.
  rewrite Forall_forall in F. apply F, Ht.
Qed.
Lemma wt_value_mono : forall G (W W' : Z -> Prop) v, (forall n, W n -> W' n) -> wt_value G W v -> wt_value G W' v.
Proof. intros G W W' v H. induction v; cbn; intuition. Qed.
Lemma wt_code_mono : forall G (W W' : Z -> Prop) c, (forall n, W n -> W' n) -> wt_code G W c -> wt_code G W' c.
Proof.
  intros G W W' c H Hw x i Hin. destruct (Hw x i Hin) as [H1 H2]. split; [assumption|].
  destruct i; cbn [wt_inst] in *; eapply wt_value_mono; eauto.
Qed.

(** The translation succeeds: the only obstacle is the literal conversion. *)
Definition lits_total (O : opts) (nd : bool) (W : Z -> Prop) : Prop :=
  forall n c u ui, W n -> is_iN n c -> exists e, lit O nd n c u ui = Some e.
Lemma expr_total : forall O nd G W v u ui, lits_total O nd W -> wt_value G W v ->
  exists e, expr_of O nd v u ui = Some e.
Proof.
  intros O nd G W v u ui HL. revert u ui. induction v; intros u ui H; cbn in H |- *.
  - eauto.
  - destruct H. apply HL; assumption.
  - destruct H as (H1 & H2 & _).
    destruct (IHv1 (fst (bop_hints op false)) (snd (bop_hints op false)) H1) as [e1 ->].
    destruct (IHv2 (fst (bop_hints op false)) (snd (bop_hints op false)) H2) as [e2 ->]. eauto.
  - destruct H as (H1 & H2 & _).
    destruct (IHv1 (icmp_isUnsigned p) true H1) as [e1 ->]. destruct (IHv2 (icmp_isUnsigned p) true H2) as [e2 ->]. eauto.
  - destruct H as (H1 & _). destruct (IHv false false H1) as [e1 ->]. eauto.
  - destruct H as (H0 & H1 & H2 & _). destruct (IHv1 false false H0) as [e0 ->].
    destruct (IHv2 true true H1) as [e1 ->]. destruct (IHv3 true true H2) as [e2 ->]. eauto.
Qed.
Lemma inst_total : forall O nd G W i, lits_total O nd W -> wt_inst G W i ->
  exists e, inst_expr O nd i = Some e.
Proof.
  intros O nd G W i HL H. destruct i.
  - cbn in H. destruct H as (H1 & H2 & _). cbn.
    destruct (expr_total O nd G W a (fst (bop_hints op (negb nsw))) (snd (bop_hints op (negb nsw))) HL H1) as [e1 ->].
    destruct (expr_total O nd G W b (fst (bop_hints op (negb nsw))) (snd (bop_hints op (negb nsw))) HL H2) as [e2 ->]. eauto.
  - exact (expr_total O nd G W (CIcmp p n a b) false false HL H).
  - exact (expr_total O nd G W (CCast c n1 n2 a) false false HL H).
  - exact (expr_total O nd G W (CSelect n c a b) false false HL H).
Qed.
Lemma code_total : forall O nd G W c, lits_total O nd W -> wt_code G W c ->
  exists l, trans_code O nd c = Some l.
Proof.
  intros O nd G W c HL. induction c as [|[x i] c IH]; intros H; cbn; [eauto|].
  destruct (inst_total O nd G W i HL) as [e ->]; [apply (H x i); now left|].
  destruct IH as [l ->]; [|eauto]. intros y j Hj. apply H. now right.
Qed.
Lemma lits_total_nd : forall O W, lits_total O true W.
Proof.
  intros O W n c u ui _ _. unfold lit. destruct (1 <? n); [|eauto]. destruct u; [destruct ui|]; eauto.
  unfold APInt_getSExtValue. destruct (_ && _); eauto.
Qed.
Lemma lits_total_64 : forall O nd (W : Z -> Prop), (forall n, W n -> 1 <= n <= 64) -> lits_total O nd W.
Proof.
  intros O nd W HW n c u ui Hn Hc. specialize (HW n Hn). unfold lit. destruct (1 <? n) eqn:E1; [|eauto].
  destruct u; [destruct ui|]; eauto. unfold APInt_getSExtValue, APInt_isNegative, is_iN in *.
  pose proof (pow2_half n ltac:(lia)). pose proof (pow2_le (n - 1) 63 ltac:(lia)).
  destruct (2 ^ (n - 1) <=? c) eqn:E;
  match goal with |- context [if ?b then _ else _] => destruct b eqn:Eb end; eauto; exfalso; lia.
Qed.
