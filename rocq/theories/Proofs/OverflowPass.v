(** The overflow pass of Model/OverflowProgram.v: types, static single assignment
    form and the shape of the graph are kept. *)
From Coq Require Import ZArith List String Ascii Bool Lia.
From Verif.Spec Require Import LLVMInt IR CFG BitVectorIR Program OverflowProgram.
From Verif.Spec Require Overflow.
From Verif.Model Require Import Boogie PreludeInt OverflowProgram.
From Verif.Model Require OverflowChecker.
From Verif.Proofs Require Import CFGBase SafePass.
From Verif.Proofs Require OverflowProofs PreludeCalls.
Import ListNotations.
Open Scope list_scope.
Open Scope Z_scope.

Lemma fresh_inj : forall k1 k2 d1 d2, (k1 < 256)%nat -> (k2 < 256)%nat -> fresh k1 d1 = fresh k2 d2 -> k1 = k2 /\ d1 = d2.
Proof. exact OverflowProofs.fresh_inj. Qed.

Lemma wt_value_sub : forall (G G' : string -> option Z) W, (forall x n, G x = Some n -> G' x = Some n) ->
  forall v, wt_value G W v -> wt_value G' W v.
Proof. intros G G' W H. induction v; cbn; intuition. Qed.
Lemma wt_inst_sub : forall (G G' : string -> option Z) W, (forall x n, G x = Some n -> G' x = Some n) ->
  forall i, wt_inst G W i -> wt_inst G' W i.
Proof. intros G G' W H [op ? n a b|p n a b|c n1 n2 a|n c a b]; cbn [wt_inst]; apply (wt_value_sub _ _ _ H). Qed.
Lemma as_typed_eq : forall G o, wt_operand G width_ok o -> proj1_sig (as_typed G o) = o.
Proof.
  intros G o H. unfold as_typed. destruct (bool_dec (wt_operandb G o) true) as [E|E]; [reflexivity|].
  destruct E. now apply wt_operandb_ok.
Qed.
Lemma value_regs_wt : forall G W v x, wt_value G W v -> In x (value_regs v) -> exists n, G x = Some n.
Proof.
  intros G W. induction v; cbn; intros y Hw Hy.
  - destruct Hy as [<-|[]]. exists n. apply Hw.
  - destruct Hy.
  - apply in_app_or in Hy. destruct Hy; [apply IHv1|apply IHv2]; tauto.
  - apply in_app_or in Hy. destruct Hy; [apply IHv1|apply IHv2]; tauto.
  - apply IHv; tauto.
  - apply in_app_or in Hy. destruct Hy as [Hy|Hy]; [apply IHv1; tauto|]. apply in_app_or in Hy. destruct Hy; [apply IHv2|apply IHv3]; tauto.
Qed.
Lemma operand_regs_wt : forall G W o x, wt_operand G W o -> In x (oexp_regs (Plain o)) -> exists n, G x = Some n.
Proof.
  intros G W [v|[op ? n a b|p n a b|c n1 n2 a|n c a b]] x Hw Hx.
  - exact (value_regs_wt G W v x Hw Hx).
  - exact (value_regs_wt G W (CBin op n a b) x Hw Hx).
  - exact (value_regs_wt G W (CIcmp p n a b) x Hw Hx).
  - exact (value_regs_wt G W (CCast c n1 n2 a) x Hw Hx).
  - exact (value_regs_wt G W (CSelect n c a b) x Hw Hx).
Qed.

Lemma NoDup_app : forall A (a b : list A), NoDup (a ++ b) <-> NoDup a /\ NoDup b /\ forall x, In x a -> ~ In x b.
Proof.
  intros A. induction a as [|x a IH]; intros b; cbn.
  - split; [intros H; split; [constructor|split; [exact H|intros ? []]]|tauto].
  - rewrite !NoDup_cons_iff, IH, in_app_iff. split.
    + intros (H1 & H2 & H3 & H4). split; [tauto|]. split; [exact H3|]. intros y [<-|Hy]; [tauto|now apply H4].
    + intros ((H1 & H2) & H3 & H4). split; [intros [?|?]; [tauto|exact (H4 x (or_introl eq_refl) H)]|]. split; [exact H2|]. split; [exact H3|].
      intros y Hy. apply H4. now right.
Qed.

(** ** Names *)
Definition from (x y : string) : Prop := y = x \/ exists k, (1 <= k <= 12)%nat /\ y = fresh k x.
Lemma from_inj : forall x x' y, source_name x -> source_name x' -> from x y -> from x' y -> x = x'.
Proof.
  intros x x' y Hx Hx' [E|(k & Hk & E)] [E'|(k' & Hk' & E')].
  - congruence.
  - destruct (Hx k' x' Hk'). congruence.
  - destruct (Hx' k x Hk). congruence.
  - rewrite E in E'. apply fresh_inj in E'; [tauto|lia|lia].
Qed.

(** Every use is of a name that is there before the list, or defined in it
    before. *)
Section Uses.
  Context {E P : Type} (uses : E -> list string).
  Fixpoint uses_fine (ok : string -> Prop) (l : list (stmt E P)) : Prop :=
    match l with
    | [] => True
    | s :: l' => (forall y, In y (stmt_uses uses s) -> ok y) /\ uses_fine (fun y => ok y \/ In y (stmt_def s)) l'
    end.
  Lemma uses_fine_at : forall pre ok s post, uses_fine ok (pre ++ s :: post) ->
    forall y, In y (stmt_uses uses s) -> ok y \/ In y (flat_map stmt_def pre).
  Proof.
    induction pre as [|s0 pre IH]; intros ok s post H y Hy; cbn in H.
    - left. now apply H.
    - destruct H as [_ H]. destruct (IH _ _ _ H y Hy) as [[H1|H1]|H1]; [now left| |]; right; cbn; apply in_or_app; tauto.
  Qed.
  Lemma uses_fine_weak : forall l (ok ok' : string -> Prop), (forall y, ok y -> ok' y) -> uses_fine ok l -> uses_fine ok' l.
  Proof.
    induction l as [|s l IH]; intros ok ok' Hi H; [exact Logic.I|]. destruct H as [H1 H2]. split; [auto|].
    apply (IH (fun y => ok y \/ In y (stmt_def s))); [intros y [?|?]; auto|exact H2].
  Qed.
  Lemma uses_fine_app : forall a ok b, uses_fine ok a -> uses_fine (fun y => ok y \/ In y (flat_map stmt_def a)) b -> uses_fine ok (a ++ b).
  Proof.
    induction a as [|s a IH]; intros ok b Ha Hb; cbn [app uses_fine].
    - apply (uses_fine_weak b (fun y => ok y \/ In y (flat_map stmt_def (@nil (stmt E P))))); [intros y [?|[]]; auto|exact Hb].
    - destruct Ha as [H1 H2]. split; [exact H1|]. apply IH; [exact H2|].
      eapply uses_fine_weak; [|exact Hb]. cbn. intros y [?|Hy]; [auto|]. apply in_app_or in Hy. tauto.
  Qed.
End Uses.

Section Pass.
  Context (W P : string -> option Z) (ck : bool) (f : func val oexp oop).
  Context (Hok : fn_ok source_name W P f).
  Notation G := (widths_after W P).
  Notation uses := (typed_regs G width_ok).
  Notation visit := (visit_stmt W P ck).
  Notation f' := (visit_func W P ck f).

  Lemma G_keep : forall x n, W x = Some n -> G x = Some n.
  Proof. intros x n H. unfold widths_after. now rewrite H. Qed.
  Lemma W_fresh : forall k d, (1 <= k <= 12)%nat -> W (fresh k d) = None.
  Proof.
    intros k d Hk. destruct (W (fresh k d)) as [n|] eqn:E; [|reflexivity].
    destruct (fn_regs _ _ _ _ Hok _ _ E) as [Hn _]. destruct (Hn k d Hk eq_refl).
  Qed.
  Lemma P_fresh : forall k d, (1 <= k <= 12)%nat -> G (fresh k d) = new_width P (fresh k d).
  Proof. intros k d Hk. unfold widths_after. now rewrite W_fresh. Qed.
  Lemma w_flag : forall d, G (FLAG d) = Some 1.
  Proof. intros d. change (FLAG d) with (fresh 7 d). rewrite P_fresh by lia. reflexivity. Qed.
  Lemma w_res : forall d, G (RES d) = P d.
  Proof. intros d. change (RES d) with (fresh 4 d). rewrite P_fresh by lia. reflexivity. Qed.
  Lemma w1 : width_ok 1. Proof. split; [cbv; tauto|lia]. Qed.
  Lemma w32 : width_ok 32. Proof. split; [cbv; tauto|lia]. Qed.

  (** *** Types *)
  Lemma exp_wt : forall e, oexp_ok W P e -> exists o, wt_operand G width_ok o /\ proj1_sig (visit_exp W P e) = o /\
    match e with
    | Plain o' => o = o'
    | Part d n fl => o = Op (VReg (if fl then 1 else n) (if fl then FLAG d else RES d))
    end.
  Proof.
    intros [o|d n fl] H; cbn [oexp_ok visit_exp] in *.
    - assert (wt_operand G width_ok o) as Hw.
      { destruct o as [v|i]; cbn [wt_operand] in *; [apply (wt_value_sub W _ _ G_keep _ H)|apply (wt_inst_sub W _ _ G_keep _ H)]. }
      exists o. split; [exact Hw|]. split; [now apply as_typed_eq|reflexivity].
    - destruct (fn_widths _ _ _ _ Hok d n H) as [_ Hn]. destruct fl.
      + assert (wt_operand G width_ok (Op (VReg 1 (FLAG d)))) as Hw by (split; [apply w_flag|exact w1]).
        eexists. split; [exact Hw|]. split; [now apply as_typed_eq|reflexivity].
      + assert (wt_operand G width_ok (Op (VReg n (RES d)))) as Hw by (split; [now rewrite w_res|exact Hn]).
        eexists. split; [exact Hw|]. split; [now apply as_typed_eq|reflexivity].
  Qed.
  Lemma assign_uses : forall x i, wt_inst G width_ok i -> stmt_uses uses (assign W P x i) = inst_regs i.
  Proof. intros x i H. cbn. unfold typed_regs. now rewrite as_typed_eq. Qed.
  Lemma arith_wt : forall d sg op n a b, P d = Some n -> width_ok n -> width_ok (n * 2) ->
    wt_value W width_ok a -> vwidth a = n -> wt_value W width_ok b -> vwidth b = n ->
    Forall (fun xi => wt_inst G width_ok (snd xi) /\ G (fst xi) = Some (iwidth (snd xi))) (OverflowChecker.checked_arith d sg op n a b).
  Proof.
    intros d sg op n a b Hd Hn Hn2 Ha Ea Hb Eb.
    assert (1 <= n) as Hpos by (apply PreludeCalls.size_pos; apply Hn).
    assert (forall k, (1 <= k <= 12)%nat -> G (fresh k d) = new_width P (fresh k d)) as HG by (intros; now apply P_fresh).
    assert (G (OverflowChecker.EO1 d) = Some (n * 2)) as G1 by (change (OverflowChecker.EO1 d) with (fresh 1 d); rewrite HG by lia; cbn; now rewrite Hd).
    assert (G (OverflowChecker.EO2 d) = Some (n * 2)) as G2 by (change (OverflowChecker.EO2 d) with (fresh 2 d); rewrite HG by lia; cbn; now rewrite Hd).
    assert (G (OverflowChecker.AI d) = Some (n * 2)) as G3 by (change (OverflowChecker.AI d) with (fresh 3 d); rewrite HG by lia; cbn; now rewrite Hd).
    assert (G (OverflowChecker.RES d) = Some n) as G4 by (change (OverflowChecker.RES d) with (fresh 4 d); rewrite HG by lia; cbn; now rewrite Hd).
    assert (G (OverflowChecker.GT d) = Some 1) as G5 by (change (OverflowChecker.GT d) with (fresh 5 d); rewrite HG by lia; reflexivity).
    assert (G (OverflowChecker.LT d) = Some 1) as G6 by (change (OverflowChecker.LT d) with (fresh 6 d); rewrite HG by lia; reflexivity).
    assert (G (OverflowChecker.FLAG d) = Some 1) as G7 by (change (OverflowChecker.FLAG d) with (fresh 7 d); rewrite HG by lia; reflexivity).
    pose proof (wt_value_sub W G _ G_keep _ Ha) as Ha'. pose proof (wt_value_sub W G _ G_keep _ Hb) as Hb'.
    assert (forall m, is_iN (n * 2) (pat (n * 2) m)) as Hp.
    { intros m. unfold is_iN, pat. apply Z.mod_pos_bound. apply Z.pow_pos_nonneg; lia. }
    unfold OverflowChecker.checked_arith, OverflowChecker.createFlag, OverflowChecker.createResult, OverflowChecker.extendBitWidth.
    cbn [app].
    do 7 (apply Forall_cons; [cbn [fst snd wt_inst wt_value iwidth vwidth]; split; [|assumption];
      repeat match goal with |- _ /\ _ => split end; auto using w1; try (destruct sg; cbn; lia); try apply Hp; cbn; lia|]). apply Forall_nil.
  Qed.
  Lemma check_wt : forall d flag, wt_value G width_ok flag -> vwidth flag = 1 ->
    Forall (fun xi => wt_inst G width_ok (snd xi) /\ G (fst xi) = Some (iwidth (snd xi)))
      [(ARG d, ICast ZExt 1 32 flag); (ISZ d, IIcmp EQ 32 (VReg 32 (ARG d)) (VConst 32 0)); (COND d, ICast ZExt 1 32 (VReg 1 (ISZ d)))] /\
    wt_operand G width_ok (Op (VReg 32 (COND d))).
  Proof.
    intros d flag Hf Ef.
    assert (G (ARG d) = Some 32) as G1 by (change (ARG d) with (fresh 8 d); rewrite P_fresh by lia; reflexivity).
    assert (G (ISZ d) = Some 1) as G2 by (change (ISZ d) with (fresh 10 d); rewrite P_fresh by lia; reflexivity).
    assert (G (COND d) = Some 32) as G3 by (change (COND d) with (fresh 11 d); rewrite P_fresh by lia; reflexivity).
    split; [|split; [exact G3|exact w32]].
    do 3 (apply Forall_cons; [cbn [fst snd wt_inst wt_value iwidth vwidth]; split; [|assumption];
      repeat match goal with |- _ /\ _ => split end; auto using w1, w32; try (unfold is_iN; lia); cbn; lia|]). apply Forall_nil.
  Qed.
  Lemma block_wt : forall d flag, wt_value G width_ok flag -> vwidth flag = 1 ->
    Forall (fun xi => wt_inst G width_ok (snd xi) /\ G (fst xi) = Some (iwidth (snd xi)))
      [(NOTF d, IBin Xor false 1 flag (VConst 1 1)); (ARG2 d, ICast ZExt 1 32 (VReg 1 (NOTF d)))] /\
    wt_operand G width_ok (Op (VReg 32 (ARG2 d))).
  Proof.
    intros d flag Hf Ef.
    assert (G (NOTF d) = Some 1) as G1 by (change (NOTF d) with (fresh 9 d); rewrite P_fresh by lia; reflexivity).
    assert (G (ARG2 d) = Some 32) as G2 by (change (ARG2 d) with (fresh 12 d); rewrite P_fresh by lia; reflexivity).
    split; [|split; [exact G2|exact w32]].
    do 2 (apply Forall_cons; [cbn [fst snd wt_inst wt_value iwidth vwidth]; split; [|assumption];
      repeat match goal with |- _ /\ _ => split end; auto using w1, w32; try (unfold is_iN; lia); cbn; lia|]). apply Forall_nil.
  Qed.

  (** *** The graph *)
  Lemma oblock_visit : forall l, block_of f' l = option_map (visit_block W P ck) (block_of f l).
  Proof. intros l. apply lookup_map. Qed.
  Lemma oblock_some : forall l b', block_of f' l = Some b' -> exists b, block_of f l = Some b /\ b' = visit_block W P ck b.
  Proof. intros l b' H. rewrite oblock_visit in H. destruct (block_of f l) as [b|]; [|discriminate]. injection H as <-. eauto. Qed.
  Lemma osuccs_visit : forall t, succs (visit_term W P t) = succs t.
  Proof. intros []; reflexivity. Qed.
  Lemma oedge_visit : forall p l, edge f' p l <-> edge f p l.
  Proof.
    intros p l. split.
    - intros (b' & Hb & Hi). apply oblock_some in Hb as (b & Hb & ->). cbn in Hi. rewrite osuccs_visit in Hi. exists b. auto.
    - intros (b & Hb & Hi). exists (visit_block W P ck b). rewrite oblock_visit, Hb. split; [reflexivity|]. cbn. now rewrite osuccs_visit.
  Qed.
  Lemma opath_visit : forall l t, path f' l t <-> path f l t.
  Proof.
    intros l t. split; intros H.
    - induction H as [|p l t H IH He]; [apply (P_entry f)|]. apply P_edge with p; [exact IH|now apply oedge_visit].
    - induction H as [|p l t H IH He]; [apply (P_entry f')|]. apply P_edge with p; [exact IH|now apply oedge_visit].
  Qed.
  Lemma oreachable_visit : forall l, reachable f' l <-> reachable f l.
  Proof. intros l. split; intros (t & H); exists t; now apply opath_visit. Qed.
  Lemma odominates_visit : forall d l, dominates f' d l <-> dominates f d l.
  Proof. intros d l. split; intros H t Ht; apply H; now apply opath_visit. Qed.
  Lemma block_good : forall l b, block_of f l = Some b -> block_ok source_name W P b.
  Proof. intros l b Hb. apply (fn_blocks _ _ _ _ Hok l). now apply lookup_in. Qed.

  (** *** Definitions and uses of one statement *)
  Definition carried (x y : string) : Prop :=
    (y = x /\ exists n, W x = Some n) \/ ((y = RES x \/ y = FLAG x) /\ exists n, P x = Some n).
  Lemma exp_uses : forall e y, oexp_ok W P e -> In y (uses (visit_exp W P e)) -> exists x, In x (oexp_regs e) /\ carried x y.
  Proof.
    intros e y He Hy. destruct (exp_wt e He) as (o & Hw & Eo & Ee). unfold typed_regs in Hy. rewrite Eo in Hy.
    destruct e as [o'|d n fl].
    - subst o'. exists y. assert (In y (oexp_regs (Plain o))) as Hin by (destruct o; exact Hy). split; [exact Hin|].
      left. split; [reflexivity|]. apply (operand_regs_wt W width_ok o y He Hin).
    - rewrite Ee in Hy. destruct Hy as [<-|[]]. exists d. split; [now left|]. right. split; [destruct fl; tauto|]. exists n. exact He.
  Qed.
  Lemma exps_uses : forall es y, Forall (oexp_ok W P) es -> In y (flat_map uses (map (visit_exp W P) es)) ->
    exists x, In x (flat_map oexp_regs es) /\ carried x y.
  Proof.
    induction es as [|e es IH]; intros y He Hy; [destruct Hy|]. inversion He as [|? ? H1 H2]; subst. cbn in Hy |- *.
    apply in_app_or in Hy. destruct Hy as [Hy|Hy].
    - destruct (exp_uses e y H1 Hy) as (x & Hx & Hc). exists x. split; [apply in_or_app; now left|exact Hc].
    - destruct (IH y H2 Hy) as (x & Hx & Hc). exists x. split; [apply in_or_app; now right|exact Hc].
  Qed.

  Lemma check_defs : forall d flag, flat_map stmt_def (add_check W P d flag) = [ARG d; ISZ d; COND d].
  Proof. reflexivity. Qed.
  Lemma block_defs_ : forall d flag, flat_map stmt_def (add_blocking_assume W P d flag) = [NOTF d; ARG2 d].
  Proof. reflexivity. Qed.
  Lemma arith_defs : forall d sg op n a b, flat_map stmt_def (map (fun xi => assign W P (fst xi) (snd xi)) (OverflowChecker.checked_arith d sg op n a b)) =
    [fresh 1 d; fresh 2 d; fresh 3 d; fresh 4 d; fresh 5 d; fresh 6 d; fresh 7 d].
  Proof. reflexivity. Qed.

  Ltac nofresh := repeat (apply NoDup_cons; [cbn; intuition (match goal with H : fresh _ _ = fresh _ _ |- _ => apply fresh_inj in H; [destruct H as [H _]; discriminate H|lia|lia] end)|]); apply NoDup_nil.
  Lemma fresh_nodup : forall d ks, NoDup ks -> Forall (fun k => (k < 256)%nat) ks -> NoDup (map (fun k => fresh k d) ks).
  Proof.
    intros d ks. induction ks as [|k ks IH]; intros Hn Hk; cbn; [constructor|].
    inversion Hn; inversion Hk; subst. constructor; [|auto]. rewrite in_map_iff. intros (k' & E & Hin).
    apply fresh_inj in E; [|rewrite Forall_forall in *; auto|auto]. destruct E as [-> _]. contradiction.
  Qed.
  Lemma named_def : forall s x, stmt_ok source_name W P s -> In x (stmt_def s) -> source_name x.
  Proof.
    intros [y e|y [o|sg op n|] es] x H Hin; cbn in H.
    - destruct Hin as [<-|[]]. apply H.
    - destruct y as [y|]; [|destruct Hin]. destruct Hin as [<-|[]]. now apply (proj1 H).
    - destruct H as (d & a & b & -> & H & _). destruct Hin as [<-|[]]. exact H.
    - destruct H as (u & -> & H & _). destruct Hin as [<-|[]]. exact H.
  Qed.
  Lemma stmt_defs : forall s, stmt_ok source_name W P s ->
    NoDup (flat_map stmt_def (visit s)) /\
    (forall y, In y (flat_map stmt_def (visit s)) -> exists x, In x (stmt_def s) /\ from x y) /\
    (forall x y, In x (stmt_def s) -> carried x y -> In y (flat_map stmt_def (visit s))).
  Proof.
    intros [x e|x [o|sg op n|] es] H; cbn [stmt_ok visit_stmt stmt_def] in *.
    - cbn. split; [repeat constructor; intros []|]. split.
      + intros y [<-|[]]. exists x. split; [now left|now left].
      + intros z y [<-|[]] [[-> _]|[_ [n Hn]]]; [now left|]. destruct H as [[_ H] _]. congruence.
    - destruct x as [x|]; cbn.
      + split; [repeat constructor; intros []|]. split.
        * intros y [<-|[]]. exists x. split; [now left|now left].
        * intros z y [<-|[]] [[-> _]|[_ [n Hn]]]; [now left|]. destruct H as [H _]. destruct (H x eq_refl) as [_ Hp]. congruence.
      + split; [constructor|]. split; [intros y []|intros z y []].
    - destruct H as (d & a & b & -> & Hd & HP & _ & _ & -> & _). cbn [In].
      assert (exists ks, flat_map stmt_def (map (fun xi => assign W P (fst xi) (snd xi)) (OverflowChecker.checked_arith d sg op n a b) ++
          (if ck then add_check W P d (VReg 1 (FLAG d)) else [])) = map (fun k => fresh k d) ks /\ NoDup ks /\
          Forall (fun k => (1 <= k <= 12)%nat) ks /\ In 4%nat ks /\ In 7%nat ks) as (ks & E & Hn & Hk & H4 & H7).
      { destruct ck.
        - exists [1; 2; 3; 4; 5; 6; 7; 8; 10; 11]%nat. split; [reflexivity|]. split; [repeat constructor; cbn; intuition discriminate|].
          split; [repeat constructor; lia|cbn; tauto].
        - exists [1; 2; 3; 4; 5; 6; 7]%nat. split; [reflexivity|]. split; [repeat constructor; cbn; intuition discriminate|].
          split; [repeat constructor; lia|cbn; tauto]. }
      rewrite E. split; [|split].
      + apply fresh_nodup; [exact Hn|]. eapply Forall_impl; [|exact Hk]. cbn. lia.
      + intros y Hy. apply in_map_iff in Hy. destruct Hy as (k & <- & Hin). rewrite Forall_forall in Hk.
        exists d. split; [now left|]. right. exists k. auto.
      + intros z y [<-|[]] [[-> [m Hm]]|[[-> | ->] _]].
        * destruct (fn_regs _ _ _ _ Hok _ _ Hm) as [_ Hc]. congruence.
        * apply (in_map (fun k => fresh k d) ks 4%nat H4).
        * apply (in_map (fun k => fresh k d) ks 7%nat H7).
    - destruct H as (u & -> & Hu & HP & HW & ->). cbn [In].
      assert (exists ks, flat_map stmt_def ((if ck then add_check W P u (VConst 1 1) else []) ++ add_blocking_assume W P u (VConst 1 1)) =
          map (fun k => fresh k u) ks /\ NoDup ks /\ Forall (fun k => (1 <= k <= 12)%nat) ks) as (ks & E & Hn & Hk).
      { destruct ck.
        - exists [8; 10; 11; 9; 12]%nat. split; [reflexivity|]. split; [repeat constructor; cbn; intuition discriminate|repeat constructor; lia].
        - exists [9; 12]%nat. split; [reflexivity|]. split; [repeat constructor; cbn; intuition discriminate|repeat constructor; lia]. }
      rewrite E. split; [|split].
      + apply fresh_nodup; [exact Hn|]. eapply Forall_impl; [|exact Hk]. cbn. lia.
      + intros y Hy. apply in_map_iff in Hy. destruct Hy as (k & <- & Hin). rewrite Forall_forall in Hk.
        exists u. split; [now left|]. right. exists k. auto.
      + intros z y [<-|[]] [[-> [m Hm]]|[_ [m Hm]]]; congruence.
  Qed.

  Lemma assigns_fine : forall l ok rest, Forall (fun xi => wt_inst G width_ok (snd xi)) l ->
    uses_fine uses ok (map (fun xi => assign W P (fst xi) (snd xi)) l ++ rest) <->
    (fix go ok l := match l with [] => uses_fine uses ok rest
      | xi :: l' => (forall y, In y (inst_regs (snd xi)) -> ok y) /\ go (fun y => ok y \/ In y [fst xi]) l' end) ok l.
  Proof.
    induction l as [|xi l IH]; intros ok rest H; [reflexivity|]. inversion H as [|? ? H1 H2]; subst.
    cbn [map app uses_fine]. rewrite assign_uses by exact H1. rewrite <- (IH _ _ H2). reflexivity.
  Qed.
  Lemma check_fine : forall d flag (ok : string -> Prop), wt_value G width_ok flag -> vwidth flag = 1 ->
    (forall y, In y (value_regs flag) -> ok y) -> uses_fine uses ok (add_check W P d flag).
  Proof.
    intros d flag ok Hf Ef Hu. destruct (check_wt d flag Hf Ef) as [Hw Ho].
    unfold add_check. inversion Hw as [|? ? [Hw1 _] Hw']; subst. inversion Hw' as [|? ? [Hw2 _] Hw'']; subst. inversion Hw'' as [|? ? [Hw3 _] _]; subst.
    cbn [fst snd] in *. unfold uses_fine.
    rewrite (assign_uses _ _ Hw1), (assign_uses _ _ Hw2), (assign_uses _ _ Hw3).
    unfold stmt_uses, flat_map, typed_regs. rewrite (as_typed_eq _ _ Ho). cbn [stmt_def assign inst_regs value_regs app].
    split; [exact Hu|]. split; [cbn; tauto|]. split; [cbn; tauto|]. split; [cbn; tauto|exact Logic.I].
  Qed.
  Lemma blocking_fine : forall d flag (ok : string -> Prop), wt_value G width_ok flag -> vwidth flag = 1 ->
    (forall y, In y (value_regs flag) -> ok y) -> uses_fine uses ok (add_blocking_assume W P d flag).
  Proof.
    intros d flag ok Hf Ef Hu. destruct (block_wt d flag Hf Ef) as [Hw Ho].
    unfold add_blocking_assume. inversion Hw as [|? ? [Hw1 _] Hw']; subst. inversion Hw' as [|? ? [Hw2 _] _]; subst.
    cbn [fst snd] in *. unfold uses_fine.
    rewrite (assign_uses _ _ Hw1), (assign_uses _ _ Hw2).
    unfold stmt_uses, flat_map, typed_regs. rewrite (as_typed_eq _ _ Ho). cbn [stmt_def assign inst_regs value_regs app].
    split; [intros y Hy; rewrite app_nil_r in Hy; auto|]. split; [cbn; tauto|]. split; [cbn; tauto|exact Logic.I].
  Qed.
  Lemma one_wt : wt_value G width_ok (VConst 1 1).
  Proof. split; [unfold is_iN; lia|exact w1]. Qed.
  Lemma stmt_fine : forall s, stmt_ok source_name W P s ->
    uses_fine uses (fun y => exists x, In x (stmt_uses oexp_regs s) /\ carried x y) (visit s).
  Proof.
    intros [x e|x [o|sg op n|] es] H; cbn [stmt_ok visit_stmt] in *.
    - cbn. split; [|exact Logic.I]. intros y Hy. apply exp_uses; tauto.
    - destruct x as [x|]; (split; [|exact Logic.I]); intros y Hy; apply exps_uses; tauto.
    - destruct H as (d & a & b & -> & Hd & HP & Hn & Hn2 & -> & Ha & Ea & Hb & Eb). cbn [stmt_uses flat_map oexp_regs app].
      pose proof (arith_wt d sg op n a b HP Hn Hn2 Ha Ea Hb Eb) as Hw.
      assert (Forall (fun xi => wt_inst G width_ok (snd xi)) (OverflowChecker.checked_arith d sg op n a b)) as Hw'.
      { eapply Forall_impl; [|exact Hw]. cbn. tauto. }
      assert (forall v y, wt_value W width_ok v -> In y (value_regs v) -> carried y y) as Hc.
      { intros v y Hv Hy. left. split; [reflexivity|]. exact (value_regs_wt W width_ok v y Hv Hy). }
      apply uses_fine_app.
      + rewrite <- (app_nil_r (map _ _)). apply assigns_fine; [exact Hw'|].
        unfold OverflowChecker.checked_arith, OverflowChecker.createFlag, OverflowChecker.createResult, OverflowChecker.extendBitWidth.
        cbn [app fst snd inst_regs value_regs uses_fine].
        split; [intros y Hy; exists y; split; [apply in_or_app; now left|eauto]|].
        split; [intros y Hy; left; exists y; split; [apply in_or_app; right; now rewrite app_nil_r|eauto]|].
        repeat split; cbn; tauto.
      + destruct ck; [|exact Logic.I]. apply check_fine; [split; [apply w_flag|exact w1]|reflexivity|].
        intros y [<-|[]]. right. rewrite arith_defs. cbn. tauto.
    - destruct H as (u & -> & Hu & HP & HW & ->).
      apply uses_fine_app; [destruct ck; [|exact Logic.I]; apply check_fine|apply blocking_fine]; try exact one_wt; try reflexivity; intros y [].
  Qed.

  (** *** Lists of statements *)
  Lemma body_defs : forall k, Forall (stmt_ok source_name W P) k -> NoDup (flat_map stmt_def k) ->
    NoDup (flat_map stmt_def (flat_map visit k)).
  Proof.
    induction k as [|s k IH]; intros H Hn; cbn in *; [constructor|]. inversion H as [|? ? H1 H2]; subst.
    rewrite flat_map_app. destruct (stmt_defs s H1) as (D1 & D2 & _). apply NoDup_app in Hn. destruct Hn as (N1 & N2 & N3).
    apply NoDup_app. split; [exact D1|]. split; [now apply IH|]. intros y Hy Hy'.
    apply D2 in Hy. destruct Hy as (x & Hx & Hf). apply in_flat_map in Hy'. destruct Hy' as (s' & Hs' & Hy').
    apply in_flat_map in Hs'. destruct Hs' as (s0 & Hs0 & Hs'). rewrite Forall_forall in H2.
    destruct (stmt_defs s0 (H2 _ Hs0)) as (_ & D2' & _). destruct (D2' y) as (x' & Hx' & Hf'); [apply in_flat_map; eauto|].
    assert (x = x') as <- by (apply (from_inj x x' y); eauto using named_def).
    apply (N3 x Hx). apply in_flat_map. eauto.
  Qed.
  Lemma body_from : forall k y, Forall (stmt_ok source_name W P) k -> In y (flat_map stmt_def (flat_map visit k)) ->
    exists x, In x (flat_map stmt_def k) /\ source_name x /\ from x y.
  Proof.
    intros k y H Hy. apply in_flat_map in Hy. destruct Hy as (s' & Hs' & Hy). apply in_flat_map in Hs'. destruct Hs' as (s0 & Hs0 & Hs').
    rewrite Forall_forall in H. destruct (stmt_defs s0 (H _ Hs0)) as (_ & D & _). destruct (D y) as (x & Hx & Hf); [apply in_flat_map; eauto|].
    exists x. split; [apply in_flat_map; eauto|]. split; [exact (named_def _ _ (H _ Hs0) Hx)|exact Hf].
  Qed.
  Lemma body_carried : forall k x y, Forall (stmt_ok source_name W P) k -> In x (flat_map stmt_def k) -> carried x y ->
    In y (flat_map stmt_def (flat_map visit k)).
  Proof.
    intros k x y H Hx Hc. apply in_flat_map in Hx. destruct Hx as (s & Hs & Hx). rewrite Forall_forall in H.
    destruct (stmt_defs s (H _ Hs)) as (_ & _ & D). specialize (D x y Hx Hc). apply in_flat_map in D. destruct D as (s' & Hs' & Hy).
    apply in_flat_map. exists s'. split; [|exact Hy]. apply in_flat_map. eauto.
  Qed.
  Lemma ovisited : forall k pre s' post, flat_map visit k = pre ++ s' :: post ->
    exists pre0 s0 post0 pre1 post1, k = pre0 ++ s0 :: post0 /\ pre = flat_map visit pre0 ++ pre1 /\ visit s0 = pre1 ++ s' :: post1.
  Proof.
    induction k as [|s1 k IH]; intros pre s post H; [destruct pre; discriminate|]. cbn [flat_map] in H.
    destruct (split_app _ _ _ _ _ H) as [(post' & E & _)|(pre' & -> & E)].
    - exists [], s1, k, pre, post'. auto.
    - destruct (IH _ _ _ E) as (pre0 & s0 & post0 & pre1 & post1 & -> & -> & E2). exists (s1 :: pre0), s0, post0, pre1, post1.
      split; [reflexivity|]. split; [cbn; now rewrite app_assoc|exact E2].
  Qed.

  (** *** Definitions of a block *)
  Lemma phis_names : forall ps, map fst (map (visit_phi W P) ps) = map fst ps.
  Proof. intros ps. rewrite map_map. reflexivity. Qed.
  Lemma term_defs : forall t, term_def (visit_term W P t) = term_def t.
  Proof. intros []; reflexivity. Qed.
  Lemma block_defs_from : forall b y, block_ok source_name W P b -> In y (block_defs (visit_block W P ck b)) ->
    exists x, In x (block_defs b) /\ source_name x /\ from x y.
  Proof.
    intros b y (H1 & H2 & H3) Hy. unfold block_defs in *. cbn [visit_block phis body bterm] in Hy. rewrite phis_names, term_defs in Hy.
    apply in_app_or in Hy. destruct Hy as [Hy|Hy].
    - exists y. split; [apply in_or_app; now left|]. split; [|now left].
      apply in_map_iff in Hy. destruct Hy as (ph & <- & Hin). rewrite Forall_forall in H1. apply (H1 _ Hin).
    - apply in_app_or in Hy. destruct Hy as [Hy|Hy].
      + destruct (body_from _ _ H2 Hy) as (x & Hx & Hs & Hf). exists x. split; [apply in_or_app; right; apply in_or_app; now left|auto].
      + exists y. split; [apply in_or_app; right; apply in_or_app; now right|]. split; [|now left].
        destruct (bterm b) as [| | | |x o es n u| |]; cbn in Hy; try destruct Hy. destruct x as [x|]; [|destruct Hy]. destruct Hy as [<-|[]].
        apply (proj1 H3 x eq_refl).
  Qed.
  Lemma block_defs_carried : forall b x y, block_ok source_name W P b -> In x (block_defs b) -> carried x y -> In y (block_defs (visit_block W P ck b)).
  Proof.
    intros b x y (H1 & H2 & H3) Hx Hc. unfold block_defs in *. cbn [visit_block phis body bterm]. rewrite phis_names, term_defs.
    apply in_app_or in Hx. destruct Hx as [Hx|Hx].
    - apply in_or_app. left. destruct Hc as [[-> _]|[_ [n Hn]]]; [exact Hx|].
      apply in_map_iff in Hx. destruct Hx as (ph & <- & Hin). rewrite Forall_forall in H1. destruct (H1 _ Hin) as [[_ Hp] _]. congruence.
    - apply in_app_or in Hx. apply in_or_app. right. apply in_or_app. destruct Hx as [Hx|Hx].
      + left. exact (body_carried _ _ _ H2 Hx Hc).
      + right. destruct Hc as [[-> _]|[_ [n Hn]]]; [exact Hx|].
        destruct (bterm b) as [| | | |z o es k u| |]; cbn in Hx; try destruct Hx. destruct z as [z|]; [|destruct Hx]. destruct Hx as [<-|[]].
        destruct (proj1 H3 z eq_refl) as [_ Hp]. congruence.
  Qed.
  Lemma block_defs_nodup : forall b, block_ok source_name W P b -> NoDup (block_defs b) -> NoDup (block_defs (visit_block W P ck b)).
  Proof.
    intros b Hb Hn. pose proof Hb as (H1 & H2 & H3). unfold block_defs in *. cbn [visit_block phis body bterm]. rewrite phis_names, term_defs.
    apply NoDup_app in Hn. destruct Hn as (N1 & N2 & N3). apply NoDup_app in N2. destruct N2 as (N4 & N5 & N6).
    assert (forall y, In y (map fst (phis b)) -> source_name y) as Hph.
    { intros y Hy. apply in_map_iff in Hy. destruct Hy as (ph & <- & Hin). rewrite Forall_forall in H1. apply (H1 _ Hin). }
    assert (forall y, In y (term_def (bterm b)) -> source_name y) as Hte.
    { intros y Hy. destruct (bterm b) as [| | | |x o es n u| |]; cbn in Hy; try destruct Hy. destruct x as [x|]; [|destruct Hy]. destruct Hy as [<-|[]].
      apply (proj1 H3 x eq_refl). }
    apply NoDup_app. split; [exact N1|]. split.
    - apply NoDup_app. split; [now apply body_defs|]. split; [exact N5|]. intros y Hy Hy'.
      destruct (body_from _ _ H2 Hy) as (x & Hx & Hs & Hf).
      assert (x = y) as -> by (apply (from_inj x y y); [exact Hs|auto|exact Hf|now left]). exact (N6 y Hx Hy').
    - intros y Hy Hy'. apply in_app_or in Hy'. destruct Hy' as [Hy'|Hy'].
      + destruct (body_from _ _ H2 Hy') as (x & Hx & Hs & Hf).
        assert (x = y) as -> by (apply (from_inj x y y); [exact Hs|auto|exact Hf|now left]). apply (N3 y Hy). apply in_or_app. now left.
      + apply (N3 y Hy). apply in_or_app. now right.
  Qed.
  Lemma defined_from : forall l y, defined_in f' l y -> exists x, defined_in f l x /\ source_name x /\ from x y.
  Proof.
    intros l y (b' & Hb & Hy). apply oblock_some in Hb as (b & Hb & ->). destruct (block_defs_from _ _ (block_good _ _ Hb) Hy) as (x & Hx & H).
    exists x. split; [|exact H]. exists b. auto.
  Qed.
  Lemma defined_carried : forall l x y, defined_in f l x -> carried x y -> defined_in f' l y.
  Proof.
    intros l x y (b & Hb & Hx) Hc. exists (visit_block W P ck b). rewrite oblock_visit, Hb. split; [reflexivity|].
    exact (block_defs_carried _ _ _ (block_good _ _ Hb) Hx Hc).
  Qed.
  Lemma plain_carried : forall x y, plain_reg source_name P x -> carried x y -> y = x.
  Proof. intros x y [_ H] [[-> _]|[_ [n Hn]]]; congruence. Qed.
  Lemma start_carried : forall l x y, available_at_start f l x -> carried x y -> available_at_start f' l y.
  Proof.
    intros l x y [H|[(d & H1 & H2 & H3)|(b & H1 & H2)]] Hc.
    - left. rewrite (plain_carried x y); auto. exact (fn_params _ _ _ _ Hok _ H).
    - right. left. exists d. split; [exact H1|]. split; [now apply odominates_visit|]. exact (defined_carried _ _ _ H3 Hc).
    - right. right. exists (visit_block W P ck b). rewrite oblock_visit, H1. split; [reflexivity|]. cbn [visit_block phis]. rewrite phis_names.
      rewrite (plain_carried x y); auto. destruct (block_good _ _ H1) as (Hp & _). rewrite Forall_forall in Hp.
      apply in_map_iff in H2. destruct H2 as (ph & <- & Hin). exact (proj1 (Hp _ Hin)).
  Qed.
  Lemma end_carried : forall l x y, available_at_end f l x -> carried x y -> available_at_end f' l y.
  Proof.
    intros l x y [H|(d & H2 & H3)] Hc.
    - left. rewrite (plain_carried x y); auto. exact (fn_params _ _ _ _ Hok _ H).
    - right. exists d. split; [now apply odominates_visit|]. exact (defined_carried _ _ _ H3 Hc).
  Qed.
  Lemma term_uses_carried : forall t y, term_ok source_name W P t -> In y (term_uses uses (visit_term W P t)) ->
    exists x, In x (term_uses oexp_regs t) /\ carried x y.
  Proof.
    intros [[e|]|l|e l1 l2|e d c|x o es n u|e|] y H Hy; cbn in H, Hy |- *; try destruct Hy; try (apply exp_uses; tauto).
    apply exps_uses; tauto.
  Qed.

  Theorem overflow_ssa : ssa_form oexp_regs f -> ssa_form uses f'.
  Proof.
    intros H. split.
    - destruct (ssa_entry _ _ H) as (b & Hb & Hp). exists (visit_block W P ck b). rewrite oblock_visit. cbn [visit_func entry]. rewrite Hb. cbn. rewrite Hp. auto.
    - intros p He. apply oedge_visit in He. exact (ssa_entry_nopred _ _ H p He).
    - cbn. rewrite map_map. cbn. exact (ssa_labels _ _ H).
    - intros p l He. apply oedge_visit in He. destruct (ssa_targets _ _ H p l He) as (b & Hb). exists (visit_block W P ck b). now rewrite oblock_visit, Hb.
    - intros l b' Hb. apply oblock_some in Hb as (b & Hb & ->). apply block_defs_nodup; [exact (block_good _ _ Hb)|exact (ssa_unique_block _ _ H l b Hb)].
    - intros l l' y H1 H2. apply defined_from in H1, H2. destruct H1 as (x & H1 & S1 & F1), H2 as (x' & H2 & S2 & F2).
      assert (x = x') as <- by (apply (from_inj x x' y); auto). exact (ssa_unique _ _ H l l' x H1 H2).
    - intros l y H1 Hy. apply defined_from in H1. destruct H1 as (x & H1 & S1 & F1). destruct (fn_params _ _ _ _ Hok _ Hy) as [Hn _].
      assert (x = y) as -> by (apply (from_inj x y y); auto; now left). exact (ssa_params _ _ H l y H1 Hy).
    - exact (ssa_params_nodup _ _ H).
    - intros l b' pre s post Hb Hbody y Hy. apply oblock_some in Hb as (b & Hb & ->). cbn [body visit_block] in Hbody.
      destruct (ovisited _ _ _ _ Hbody) as (pre0 & s0 & post0 & pre1 & post1 & Ek & -> & Ev).
      destruct (block_good _ _ Hb) as (_ & Hs & _). rewrite Ek in Hs. apply Forall_app in Hs. destruct Hs as [Hpre Hs]. inversion Hs as [|? ? Hs0 _]; subst.
      pose proof (stmt_fine s0 Hs0) as Hf. rewrite Ev in Hf. rewrite flat_map_app.
      destruct (uses_fine_at _ _ _ _ _ Hf y Hy) as [(x & Hx & Hc)|Hin]; [|right; apply in_or_app; now right].
      destruct (ssa_body _ _ H l b pre0 s0 post0 Hb Ek x Hx) as [Ha|Ha]; [left; exact (start_carried _ _ _ Ha Hc)|].
      right. apply in_or_app. left. exact (body_carried _ _ _ Hpre Ha Hc).
    - intros l b' Hb y Hy. apply oblock_some in Hb as (b & Hb & ->). cbn [body bterm visit_block] in *.
      destruct (block_good _ _ Hb) as (_ & Hs & Ht). destruct (term_uses_carried _ _ Ht Hy) as (x & Hx & Hc).
      destruct (ssa_term _ _ H l b Hb x Hx) as [Ha|Ha]; [left; exact (start_carried _ _ _ Ha Hc)|]. right. exact (body_carried _ _ _ Hs Ha Hc).
    - intros p l b' x inc He Hb Hin. apply oedge_visit in He. apply oblock_some in Hb as (b & Hb & ->). cbn [phis visit_block] in Hin.
      apply in_map_iff in Hin. destruct Hin as ((x0 & inc0) & E & Hin). cbn in E. injection E as -> <-.
      destruct (ssa_phi _ _ H p l b x inc0 He Hb Hin) as (e & H1 & H2). exists (visit_exp W P e). split.
      + rewrite lookup_map, H1. reflexivity.
      + intros y Hy. destruct (block_good _ _ Hb) as (Hp & _). rewrite Forall_forall in Hp. destruct (Hp _ Hin) as [_ Hinc].
        destruct (exp_uses e y (Hinc p e (lookup_in _ _ _ _ H1)) Hy) as (z & Hz & Hc). exact (end_carried _ _ _ (H2 z Hz) Hc).
  Qed.
  Theorem overflow_lowered : lowered f -> lowered f'.
  Proof.
    intros H. split.
    - intros l b' e d c Hb E. apply oblock_some in Hb as (b & Hb & ->). cbn in E.
      destruct (bterm b) as [| | |e0 d0 c0| | |] eqn:Et; try discriminate. exact (low_no_switch _ H l b e0 d0 c0 Hb Et).
    - intros l b' x p es n u l' b1 Hb E Hin Hb1. apply oblock_some in Hb as (b & Hb & ->). apply oblock_some in Hb1 as (b2 & Hb2 & ->). cbn in E |- *.
      destruct (bterm b) as [| | | |x0 p0 es0 n0 u0| |] eqn:Et; try discriminate. cbn in E. injection E as -> <- <- -> ->.
      now rewrite (low_invoke _ H l b _ _ _ _ _ l' b2 Hb Et Hin Hb2).
    - intros l b' Hb. apply oblock_some in Hb as (b & Hb & ->). cbn. rewrite osuccs_visit. exact (low_distinct _ H l b Hb).
  Qed.
  Theorem overflow_original : original f -> original f'.
  Proof.
    intros H l b' Hin. cbn in Hin. apply in_map_iff in Hin. destruct Hin as ((l0 & b) & E & Hin). cbn in E. injection E as -> <-.
    destruct (H l b Hin) as (H1 & H2 & H3). split; [exact H1|]. split.
    - cbn. rewrite osuccs_visit. exact H2.
    - intros x inc p e Hx Hp. cbn in Hx. apply in_map_iff in Hx. destruct Hx as ((x0 & inc0) & E & Hx). cbn in E. injection E as -> <-.
      apply in_map_iff in Hp. destruct Hp as ((p0 & e0) & E & Hp). cbn in E. injection E as -> _. exact (H3 x inc0 p e0 Hx Hp).
  Qed.
  Theorem overflow_forest : forall ls, loop_forest f ls -> loop_forest f' ls.
  Proof.
    intros ls H. split.
    - intros h bs p H1 H2. destruct (loops_blocks _ _ H h bs p H1 H2) as (b & Hb). exists (visit_block W P ck b). now rewrite oblock_visit, Hb.
    - exact (loops_header _ _ H).
    - intros p h Hr He Hd. apply (loops_back_edges _ _ H); [now apply oreachable_visit|now apply oedge_visit|now apply odominates_visit].
  Qed.
End Pass.
