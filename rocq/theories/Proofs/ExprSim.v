(** One induction over values, instructions and straight-line code, shared by
    the three integer encodings. *)
From Coq Require Import ZArith List String Bool Lia ZifyBool.
From Verif.Base Require Import ZBits.
From Verif.Spec Require Import LLVMInt IR.
From Verif.Model Require Import Boogie PreludeInt SmackRepInt.
From Verif.Proofs Require Import Lookup PreludeCalls.
Import ListNotations.
Open Scope string_scope.
Open Scope Z_scope.

Lemma llvm_binop_range : forall op n a b c, 1 <= n -> is_iN n a -> is_iN n b ->
  llvm_binop op n a b = Some c -> is_iN n c.
Proof.
  intros op n a b c Hn [Ha1 Ha2] [Hb1 Hb2] H.
  assert (0 <= n) as Hn0 by lia. pose proof (pow2_pos n Hn0) as Hp.
  destruct op; cbn in H;
    try (injection H as <-; apply pat_range; assumption);
    try (destruct (b <? n); [|discriminate]);
    try (destruct (b =? 0) eqn:Eb; [discriminate|]; cbn [orb] in H);
    try (destruct (_ && _); [discriminate|]);
    try (injection H as <-; apply pat_range; assumption).
  - injection H as <-. split; [apply Z.div_pos; lia|]. apply Z.div_lt_upper_bound; nia.
  - injection H as <-. pose proof (Z.mod_pos_bound a b). split; lia.
  - injection H as <-. split; [apply Z.shiftr_nonneg; lia|].
    rewrite Z.shiftr_div_pow2 by lia. pose proof (pow2_pos b Hb1).
    apply Z.div_lt_upper_bound; nia.
  - injection H as <-. split; [apply Z.land_nonneg; lia|].
    destruct (Z.eq_dec (Z.land a b) 0) as [->|Ne]; [lia|].
    apply Z.log2_lt_pow2; [assert (0 <= Z.land a b) by (apply Z.land_nonneg; lia); lia|].
    destruct (Z.eq_dec a 0) as [->|Na]; [rewrite Z.land_0_l in Ne; lia|].
    pose proof (Z.log2_land a b Ha1 Hb1). apply Z.le_lt_trans with (Z.log2 a); [lia|].
    apply Z.log2_lt_pow2; lia.
  - injection H as <-. split; [apply Z.lor_nonneg; lia|].
    destruct (Z.eq_dec (Z.lor a b) 0) as [->|Ne]; [lia|].
    apply Z.log2_lt_pow2; [assert (0 <= Z.lor a b) by (apply Z.lor_nonneg; lia); lia|].
    rewrite Z.log2_lor by lia.
    destruct (Z.eq_dec a 0) as [->|Na]; destruct (Z.eq_dec b 0) as [->|Nb]; cbn [Z.lor] in Ne; try lia.
    + rewrite Z.max_r by (pose proof (Z.log2_nonneg b); cbn; lia). apply Z.log2_lt_pow2; lia.
    + rewrite Z.max_l by (pose proof (Z.log2_nonneg a); cbn; lia). apply Z.log2_lt_pow2; lia.
    + apply Z.max_lub_lt; apply Z.log2_lt_pow2; lia.
  - injection H as <-. split; [apply Z.lxor_nonneg; lia|].
    destruct (Z.eq_dec (Z.lxor a b) 0) as [->|Ne]; [lia|].
    apply Z.log2_lt_pow2; [assert (0 <= Z.lxor a b) by (apply Z.lxor_nonneg; lia); lia|].
    pose proof (Z.log2_lxor a b Ha1 Hb1).
    apply Z.le_lt_trans with (Z.max (Z.log2 a) (Z.log2 b)); [lia|].
    apply Z.max_lub_lt.
    + destruct (Z.eq_dec a 0) as [->|]; [cbn; lia|apply Z.log2_lt_pow2; lia].
    + destruct (Z.eq_dec b 0) as [->|]; [cbn; lia|apply Z.log2_lt_pow2; lia].
Qed.

Lemma llvm_cast_range : forall c n1 n2 a, 1 <= n1 -> 1 <= n2 -> cast_ok c n1 n2 -> is_iN n1 a ->
  is_iN n2 (llvm_cast c n1 n2 a).
Proof.
  intros c n1 n2 a H1 H2 Hc Ha. destruct c; cbn in *.
  - apply pat_range; lia.
  - apply is_iN_widen with n1; [lia|assumption].
  - apply pat_range; lia.
Qed.

Lemma b2z_range : forall b, is_iN 1 (b2z b).
Proof. destruct b; cbn; unfold is_iN; cbn; lia. Qed.

(** Well-typed register files hold bit patterns of the right width. *)
Definition regs_ok (G : string -> option Z) (r : regs) : Prop :=
  forall x n a, G x = Some n -> r x = Some a -> is_iN n a.

Definition supported (n : Z) : Prop := In n INTEGER_SIZES.

Lemma value_range : forall G r v x, regs_ok G r -> wt_value G supported v ->
  value_den r v = Some x -> is_iN (vwidth v) x.
Proof.
  intros G r v. induction v; intros x0 Hr Hw Hv; cbn in Hv, Hw |- *.
  - destruct Hw as [Hw _]. eapply Hr; eauto.
  - injection Hv as <-. tauto.
  - destruct Hw as (Ha & Hb & <- & Eb & Hn).
    destruct (value_den r v1) as [x|]; [|discriminate]. destruct (value_den r v2) as [y|]; [|discriminate].
    cbn in Hv. apply llvm_binop_range in Hv; auto.
    + apply size_pos, Hn.
    + rewrite <- Eb. auto.
  - destruct (value_den r v1) as [x|]; [|discriminate]. destruct (value_den r v2) as [y|]; [|discriminate].
    cbn in Hv. injection Hv as <-. apply b2z_range.
  - destruct Hw as (Ha & <- & Hn1 & Hn2 & Hc).
    destruct (value_den r v) as [x|]; [|discriminate]. injection Hv as <-.
    apply llvm_cast_range; auto using size_pos.
  - destruct Hw as (Hc & Ha & Hb & _ & <- & Eb & _).
    destruct (value_den r v1) as [z|]; [|discriminate]. destruct (value_den r v2) as [x|]; [|discriminate].
    destruct (value_den r v3) as [y|]; [|discriminate]. injection Hv as <-.
    destruct (z =? 1); auto. rewrite <- Eb. auto.
Qed.

(** Guards: conditions on the operand values of each operation, and on the
    constants under each signedness hint. *)
Record guards := Guards {
  g_bin : binop -> Z -> Z -> Z -> Prop;
  g_icmp : icmp_pred -> Z -> Z -> Z -> Prop;
  g_cast : castop -> Z -> Z -> Z -> Prop;
  g_lit : Z -> Z -> bool -> bool -> Prop }.

Definition on2 (r : regs) (P : Z -> Z -> Prop) (a b : value) : Prop :=
  forall x y, value_den r a = Some x -> value_den r b = Some y -> P x y.

Fixpoint gd_value (g : guards) (r : regs) (v : value) (u ui : bool) : Prop :=
  match v with
  | VReg _ _ => True
  | VConst n c => g_lit g n c u ui
  | CBin op n a b =>
      let h := bop_hints op false in
      gd_value g r a (fst h) (snd h) /\ gd_value g r b (fst h) (snd h) /\ on2 r (g_bin g op n) a b
  | CIcmp p n a b =>
      gd_value g r a (icmp_isUnsigned p) true /\ gd_value g r b (icmp_isUnsigned p) true /\
      on2 r (g_icmp g p n) a b
  | CCast c n1 n2 a =>
      gd_value g r a false false /\ (forall x, value_den r a = Some x -> g_cast g c n1 n2 x)
  | CSelect n c a b =>
      gd_value g r c false false /\ gd_value g r a true true /\ gd_value g r b true true
  end.

Definition gd_inst (g : guards) (r : regs) (i : inst) : Prop :=
  match i with
  | IBin op nsw n a b =>
      let h := bop_hints op (negb nsw) in
      gd_value g r a (fst h) (snd h) /\ gd_value g r b (fst h) (snd h) /\ on2 r (g_bin g op n) a b
  | IIcmp p n a b => gd_value g r (CIcmp p n a b) false false
  | ICast c n1 n2 a => gd_value g r (CCast c n1 n2 a) false false
  | ISelect n c a b => gd_value g r (CSelect n c a b) false false
  end.

(** Along a run. *)
Fixpoint gd_code (g : guards) (r : regs) (c : code) : Prop :=
  match c with
  | [] => True
  | (x, i) :: c' =>
      gd_inst g r i /\ (forall v, inst_den r i = Some v -> gd_code g (set_reg r x v) c')
  end.

Section Sim.
  Context (O : opts) (nd : bool) (prog : list fdecl) (I : interp) (k : nat).
  Context (R : Z -> val -> Z -> Prop) (g : guards).
  Notation C := (eval_call prog I k).
  Hypothesis Hlit : forall n c u ui e r, supported n -> is_iN n c -> g_lit g n c u ui ->
    lit O nd n c u ui = Some e ->
    exists v, eval_with C r e = Some v /\ R n v c.
  Hypothesis Hbin : forall op n va vb a b c, supported n -> is_iN n a -> is_iN n b ->
    R n va a -> R n vb b -> llvm_binop op n a b = Some c -> g_bin g op n a b ->
    exists v, C (indexedName (INSTRUCTION_TABLE op) [intType O n]) [va; vb] = Some v /\ R n v c.
  Hypothesis Hicmp : forall p n va vb a b, supported n -> is_iN n a -> is_iN n b ->
    R n va a -> R n vb b -> g_icmp g p n a b ->
    exists v, C (indexedName (CMPINST_TABLE p) [intType O n]) [va; vb] = Some v /\
              R 1 v (b2z (llvm_icmp p n a b)).
  Hypothesis Hcast : forall c n1 n2 va a, supported n1 -> supported n2 -> cast_ok c n1 n2 -> is_iN n1 a ->
    R n1 va a -> g_cast g c n1 n2 a ->
    exists v, C (indexedName (CAST_TABLE c) [intType O n1; intType O n2]) [va] = Some v /\
              R n2 v (llvm_cast c n1 n2 a).
  Hypothesis Hcond : forall r e v c, eval_with C r e = Some v -> is_iN 1 c -> R 1 v c ->
    eval_with C r (EBin BEq e (integerLit O 1 1)) = Some (VBool (c =? 1)).

  Definition related (G : string -> option Z) (r : regs) (rb : env) : Prop :=
    forall x n a, G x = Some n -> r x = Some a ->
      is_iN n a /\ exists v, rb x = Some v /\ R n v a.

  Lemma related_ok : forall G r rb, related G r rb -> regs_ok G r.
  Proof. intros G r rb H x n a H1 H2. apply (H x n a H1 H2). Qed.

  Lemma value_sim : forall G r rb v u ui e x, related G r rb -> wt_value G supported v ->
    expr_of O nd v u ui = Some e -> value_den r v = Some x -> gd_value g r v u ui ->
    exists bv, eval_with C rb e = Some bv /\ R (vwidth v) bv x.
  Proof.
    intros G r rb v. induction v; intros u ui e x0 Hr Hw He Hv Hg; pose proof (related_ok _ _ _ Hr) as Hok.
    - cbn in *. injection He as <-. destruct Hw as [Hw _]. destruct (Hr _ _ _ Hw Hv) as (_ & w & H1 & H2).
      exists w. auto.
    - cbn in Hw, Hv, Hg, He |- *. injection Hv as <-. destruct Hw. eapply Hlit; eauto.
    - cbn in Hw, Hv, Hg, He |- *. destruct Hw as (Ha & Hb & Ea & Eb & Hn).
      destruct (expr_of O nd v1 _ _) as [e1|] eqn:E1; [|discriminate].
      destruct (expr_of O nd v2 _ _) as [e2|] eqn:E2; [|discriminate]. injection He as <-.
      destruct (value_den r v1) as [x|] eqn:V1; [|discriminate].
      destruct (value_den r v2) as [y|] eqn:V2; [|discriminate]. cbn in Hv.
      destruct Hg as (G1 & G2 & G3).
      destruct (IHv1 _ _ _ _ Hr Ha E1 eq_refl G1) as (w1 & W1 & R1).
      destruct (IHv2 _ _ _ _ Hr Hb E2 eq_refl G2) as (w2 & W2 & R2).
      rewrite Ea in R1. rewrite Eb in R2.
      destruct (Hbin op n w1 w2 x y x0) as (w & Hw & HR); auto.
      + rewrite <- Ea. eapply value_range; eauto.
      + rewrite <- Eb. eapply value_range; eauto.
      + exists w. cbn [eval_with]. rewrite W1, W2. auto.
    - cbn in Hw, Hv, Hg, He |- *. destruct Hw as (Ha & Hb & Ea & Eb & Hn).
      destruct (expr_of O nd v1 _ _) as [e1|] eqn:E1; [|discriminate].
      destruct (expr_of O nd v2 _ _) as [e2|] eqn:E2; [|discriminate]. injection He as <-.
      destruct (value_den r v1) as [x|] eqn:V1; [|discriminate].
      destruct (value_den r v2) as [y|] eqn:V2; [|discriminate]. cbn in Hv. injection Hv as <-.
      destruct Hg as (G1 & G2 & G3).
      destruct (IHv1 _ _ _ _ Hr Ha E1 eq_refl G1) as (w1 & W1 & R1).
      destruct (IHv2 _ _ _ _ Hr Hb E2 eq_refl G2) as (w2 & W2 & R2).
      rewrite Ea in R1. rewrite Eb in R2.
      destruct (Hicmp p n w1 w2 x y) as (w & Hw & HR); auto.
      + rewrite <- Ea. eapply value_range; eauto.
      + rewrite <- Eb. eapply value_range; eauto.
      + exists w. cbn [eval_with]. rewrite W1, W2. auto.
    - cbn in Hw, Hv, Hg, He |- *. destruct Hw as (Ha & Ea & Hn1 & Hn2 & Hc).
      destruct (expr_of O nd v _ _) as [e1|] eqn:E1; [|discriminate]. injection He as <-.
      destruct (value_den r v) as [x|] eqn:V1; [|discriminate]. injection Hv as <-.
      destruct Hg as (G1 & G2).
      destruct (IHv _ _ _ _ Hr Ha E1 eq_refl G1) as (w1 & W1 & R1). rewrite Ea in R1.
      destruct (Hcast c n1 n2 w1 x) as (w & Hw & HR); auto.
      + rewrite <- Ea. eapply value_range; eauto.
      + exists w. cbn [eval_with]. rewrite W1. auto.
    - cbn in Hw, Hv, Hg, He |- *. destruct Hw as (Hc & Ha & Hb & Ec & Ea & Eb & Hn).
      destruct (expr_of O nd v1 _ _) as [e1|] eqn:E1; [|discriminate].
      destruct (expr_of O nd v2 _ _) as [e2|] eqn:E2; [|discriminate].
      destruct (expr_of O nd v3 _ _) as [e3|] eqn:E3; [|discriminate]. injection He as <-.
      destruct (value_den r v1) as [z|] eqn:V1; [|discriminate].
      destruct (value_den r v2) as [x|] eqn:V2; [|discriminate].
      destruct (value_den r v3) as [y|] eqn:V3; [|discriminate]. injection Hv as <-.
      destruct Hg as (G1 & G2 & G3).
      destruct (IHv1 _ _ _ _ Hr Hc E1 eq_refl G1) as (w1 & W1 & R1).
      destruct (IHv2 _ _ _ _ Hr Ha E2 eq_refl G2) as (w2 & W2 & R2).
      destruct (IHv3 _ _ _ _ Hr Hb E3 eq_refl G3) as (w3 & W3 & R3).
      rewrite Ec in R1. rewrite Ea in R2. rewrite Eb in R3.
      assert (eval_with C rb (EIte (EBin BEq e1 (integerLit O 1 1)) e2 e3) = Some (if z =? 1 then w2 else w3)) as E.
      { cbn [eval_with]. cbn [eval_with] in Hcond.
        rewrite (Hcond rb e1 w1 z W1); [destruct (z =? 1); assumption| |assumption].
        rewrite <- Ec. eapply value_range; eauto. }
      eexists. split; [exact E|]. destruct (z =? 1); assumption.
  Qed.

  Lemma inst_sim : forall G r rb i e x, related G r rb -> wt_inst G supported i ->
    inst_expr O nd i = Some e -> inst_den r i = Some x -> gd_inst g r i ->
    exists bv, eval_with C rb e = Some bv /\ R (iwidth i) bv x /\ is_iN (iwidth i) x.
  Proof.
    intros G r rb i e x Hr Hw He Hv Hg. pose proof (related_ok _ _ _ Hr) as Hok.
    destruct i as [op nsw n a b|p n a b|c n1 n2 a|n c a b].
    - cbn in Hw, Hv, Hg, He |- *. destruct Hw as (Ha & Hb & Ea & Eb & Hn).
      destruct (expr_of O nd a _ _) as [e1|] eqn:E1; [|discriminate].
      destruct (expr_of O nd b _ _) as [e2|] eqn:E2; [|discriminate]. injection He as <-.
      destruct (value_den r a) as [x1|] eqn:V1; [|discriminate].
      destruct (value_den r b) as [y1|] eqn:V2; [|discriminate]. cbn in Hv.
      destruct (nsw && negb (nsw_ok op n x1 y1)); [discriminate|].
      destruct Hg as (G1 & G2 & G3).
      destruct (value_sim _ _ _ _ _ _ _ _ Hr Ha E1 V1 G1) as (w1 & W1 & R1).
      destruct (value_sim _ _ _ _ _ _ _ _ Hr Hb E2 V2 G2) as (w2 & W2 & R2).
      rewrite Ea in R1. rewrite Eb in R2.
      pose proof (value_range _ _ _ _ Hok Ha V1) as B1. rewrite Ea in B1.
      pose proof (value_range _ _ _ _ Hok Hb V2) as B2. rewrite Eb in B2.
      destruct (Hbin op n w1 w2 x1 y1 x) as (w & Hw & HR); auto.
      exists w. cbn [eval_with]. rewrite W1, W2. split; [exact Hw|]. split; [exact HR|].
      exact (llvm_binop_range op n x1 y1 x (size_pos n Hn) B1 B2 Hv).
    - destruct (value_sim G r rb (CIcmp p n a b) false false e x Hr Hw He Hv Hg) as (w & W & HR).
      exists w. split; [exact W|]. split; [exact HR|]. eapply (value_range G r (CIcmp p n a b)); eauto.
    - destruct (value_sim G r rb (CCast c n1 n2 a) false false e x Hr Hw He Hv Hg) as (w & W & HR).
      exists w. split; [exact W|]. split; [exact HR|]. eapply (value_range G r (CCast c n1 n2 a)); eauto.
    - destruct (value_sim G r rb (CSelect n c a b) false false e x Hr Hw He Hv Hg) as (w & W & HR).
      exists w. split; [exact W|]. split; [exact HR|]. eapply (value_range G r (CSelect n c a b)); eauto.
  Qed.

  Lemma related_upd : forall G r rb x n v a, related G r rb -> G x = Some n -> is_iN n a -> R n v a ->
    related G (set_reg r x a) (upd_env rb x v).
  Proof.
    intros G r rb x n v a Hr Hx Hn HR y m b Hy Hb. unfold set_reg, upd_env in *.
    destruct (String.eqb_spec x y) as [->|Ne].
    - injection Hb as <-. rewrite Hx in Hy. injection Hy as <-. split; [assumption|]. eauto.
    - apply Hr; assumption.
  Qed.

  Lemma code_sim : forall G c r rb r' l, related G r rb -> wt_code G supported c ->
    trans_code O nd c = Some l -> run_code r c = Some r' -> gd_code g r c ->
    exists rb', run_assigns prog I k rb l = Some rb' /\ related G r' rb'.
  Proof.
    intros G c. induction c as [|[x i] c IH]; intros r rb r' l Hr Hw Ht Hc Hg.
    - cbn in Ht, Hc. injection Ht as <-. injection Hc as <-. exists rb. split; [reflexivity|assumption].
    - cbn in Ht, Hc, Hg.
      destruct (inst_expr O nd i) as [e|] eqn:Ei; [|discriminate].
      destruct (trans_code O nd c) as [l'|] eqn:El; [|discriminate]. injection Ht as <-.
      destruct (inst_den r i) as [v|] eqn:Ev; [|discriminate].
      destruct (Hw x i (or_introl eq_refl)) as [Hx Hi]. destruct Hg as [Hg1 Hg2].
      destruct (inst_sim _ _ _ _ _ _ Hr Hi Ei Ev Hg1) as (bv & E & HR & HN).
      assert (Hw' : wt_code G supported c) by (intros y j Hin; apply Hw; now right).
      destruct (IH _ (upd_env rb x bv) r' l' (related_upd _ _ _ _ _ _ _ Hr Hx HN HR) Hw' eq_refl Hc (Hg2 v eq_refl))
        as (rb' & Hrun & Hrel).
      exists rb'. split; [|assumption]. cbn. unfold eval. rewrite E. exact Hrun.
  Qed.
End Sim.

(** ** Fuel: more fuel never changes a result *)
Section Mono.
  Context (prog : list fdecl) (I : interp).

  Lemma eval_fun : forall c r f es,
    eval_with c r (EFun f es) = match evals_with c r es with Some vs => c f vs | None => None end.
  Proof.
    intros c r f es. cbn [eval_with].
    replace ((fix evals (es0 : list expr) : option (list val) :=
       match es0 with
       | [] => Some []
       | x :: es' => match eval_with c r x with
                     | Some v => match evals es' with Some vs => Some (v :: vs) | None => None end
                     | None => None end
       end) es) with (evals_with c r es); [reflexivity|].
    induction es as [|x es IH]; [reflexivity|]. cbn [evals_with]. now rewrite IH.
  Qed.

  Lemma eval_with_mono : forall (c1 c2 : fname -> list val -> option val),
    (forall f vs v, c1 f vs = Some v -> c2 f vs = Some v) ->
    forall e r v, eval_with c1 r e = Some v -> eval_with c2 r e = Some v.
  Proof.
    intros c1 c2 Hc. fix IH 1. intros e r v H.
    destruct e as [x|z|z w|b|f args|o l m|e|c t e|m i|m i x|e hi lo|l m]; try exact H.
    - rewrite eval_fun in *.
      assert (forall vs, evals_with c1 r args = Some vs -> evals_with c2 r args = Some vs) as Hargs.
      { clear H. induction args as [|a args IHa]; intros vs Hv; [exact Hv|]. cbn [evals_with] in *.
        destruct (eval_with c1 r a) eqn:Ea; [|discriminate]. rewrite (IH a r _ Ea).
        destruct (evals_with c1 r args) eqn:Er; [|discriminate]. rewrite (IHa _ eq_refl). exact Hv. }
      destruct (evals_with c1 r args) eqn:Er; [|discriminate]. rewrite (Hargs _ eq_refl). apply Hc, H.
    - cbn [eval_with] in *.
      destruct (eval_with c1 r l) eqn:E1; [|discriminate]. destruct (eval_with c1 r m) eqn:E2; [|discriminate].
      rewrite (IH _ _ _ E1), (IH _ _ _ E2). exact H.
    - cbn [eval_with] in *. destruct (eval_with c1 r e) eqn:E1; [|discriminate]. rewrite (IH _ _ _ E1). exact H.
    - cbn [eval_with] in *. destruct (eval_with c1 r c) eqn:E1; [|discriminate]. rewrite (IH _ _ _ E1).
      destruct v0; try discriminate. destruct b; apply IH; exact H.
    - cbn [eval_with] in *.
      destruct (eval_with c1 r m) eqn:E1; [|discriminate]. rewrite (IH _ _ _ E1).
      destruct (eval_with c1 r i) eqn:E2; [rewrite (IH _ _ _ E2); exact H|].
      destruct v0; discriminate.
    - cbn [eval_with] in *.
      destruct (eval_with c1 r m) eqn:E1; [|discriminate]. rewrite (IH _ _ _ E1).
      destruct (eval_with c1 r i) eqn:E2; [|destruct v0; discriminate]. rewrite (IH _ _ _ E2).
      destruct (eval_with c1 r x) eqn:E3; [|destruct v0; discriminate]. rewrite (IH _ _ _ E3). exact H.
    - cbn [eval_with] in *. destruct (eval_with c1 r e) eqn:E1; [|discriminate]. rewrite (IH _ _ _ E1). exact H.
    - cbn [eval_with] in *.
      destruct (eval_with c1 r l) eqn:E1; [|discriminate]. rewrite (IH _ _ _ E1).
      destruct (eval_with c1 r m) eqn:E2; [rewrite (IH _ _ _ E2); exact H|].
      destruct v0; discriminate.
  Qed.

  Lemma eval_call_S : forall k f vs v, eval_call prog I k f vs = Some v -> eval_call prog I (S k) f vs = Some v.
  Proof.
    induction k as [|k IH]; intros f vs v H; [discriminate|].
    cbn [eval_call] in H. cbn [eval_call]. destruct (lookup prog f) as [d|]; [|discriminate].
    destruct (fd_attr d); try exact H.
    destruct (fd_body d); [|discriminate]. destruct (bind_params (fd_params d) vs); [|discriminate].
    exact (eval_with_mono _ _ IH _ _ _ H).
  Qed.

  Lemma eval_mono : forall k j r e v, eval prog I k r e = Some v -> eval prog I (j + k) r e = Some v.
  Proof.
    intros k j r e v H. apply (eval_with_mono (eval_call prog I k)); [|exact H].
    intros f vs w Hw. induction j as [|j IH]; [exact Hw|]. apply eval_call_S, IH.
  Qed.

  (** The value of an expression, whatever the amount of inlining needed. *)
  Definition evaluates (r : env) (e : expr) (v : val) : Prop := exists k, eval prog I k r e = Some v.

  Lemma evaluates_det : forall r e v1 v2, evaluates r e v1 -> evaluates r e v2 -> v1 = v2.
  Proof.
    intros r e v1 v2 [k1 H1] [k2 H2].
    apply (eval_mono k1 k2) in H1. apply (eval_mono k2 k1) in H2.
    rewrite Nat.add_comm in H2. congruence.
  Qed.
End Mono.
