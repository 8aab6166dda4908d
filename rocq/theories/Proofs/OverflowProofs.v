From Coq Require Import ZArith List String Ascii Bool Lia ZifyBool.
From Verif.Base Require Import ZBits.
From Verif.Spec Require Import LLVMInt IR Overflow.
From Verif.Model Require Import OverflowChecker.
From Verif.Proofs Require Import ExprSim.
Import ListNotations.
Open Scope Z_scope.

(** ** Arithmetic *)
Lemma pow_double : forall n, 0 <= n -> 2 ^ (n * 2) = 2 ^ n * 2 ^ n.
Proof. intros. replace (n * 2) with (n + n) by lia. apply Z.pow_add_r; lia. Qed.

(** signed double-width value of the computation *)
Lemma wide_signed : forall op n a b, 1 <= n -> is_iN n a -> is_iN n b ->
  let x := signed n a in let y := signed n b in
  let m := match op with OAdd => x + y | OSub => x - y | OMul => x * y end in
  - 2 ^ (n * 2 - 1) <= m < 2 ^ (n * 2 - 1).
Proof.
  intros op n a b Hn Ha Hb x y m.
  pose proof (signed_range n a Hn Ha) as Rx. pose proof (signed_range n b Hn Hb) as Ry. fold x in Rx. fold y in Ry.
  assert (2 ^ (n * 2 - 1) = 2 * (2 ^ (n - 1) * 2 ^ (n - 1))) as E.
  { replace (n * 2 - 1) with (1 + ((n - 1) + (n - 1))) by lia.
    rewrite (Z.pow_add_r 2 1) by lia. rewrite Z.pow_add_r by lia. reflexivity. }
  pose proof (pow2_half_pos n Hn) as P. rewrite E. set (h := 2 ^ (n - 1)) in *. unfold m.
  destruct op; nia.
Qed.

Lemma pat_pat_op : forall op N n sg a b, 1 <= n -> N = n * 2 ->
  is_iN n a -> is_iN n b ->
  llvm_binop (OVF_TABLE op) N (llvm_cast (if sg : bool then SExt else ZExt) n N a)
    (llvm_cast (if sg then SExt else ZExt) n N b) = Some (pat N (math_result sg op n a b)).
Proof.
  intros op N n sg a b Hn -> Ha Hb. unfold math_result.
  destruct op, sg; cbn [OVF_TABLE llvm_binop llvm_cast];
    try rewrite pat_add; try rewrite pat_sub; try rewrite pat_mul; reflexivity.
Qed.

Lemma unsigned_wide : forall op n a b, 1 <= n -> is_iN n a -> is_iN n b ->
  let m := match op with OAdd => a + b | OSub => a - b | OMul => a * b end in
  - 2 ^ n < m < 2 ^ (n * 2).
Proof.
  intros op n a b Hn Ha Hb m. unfold is_iN in *. rewrite pow_double by lia.
  assert (2 <= 2 ^ n) by (change 2 with (2 ^ 1) at 1; apply pow2_le; lia).
  unfold m. destruct op; nia.
Qed.

Lemma flag_correct : forall sg op n a b, 1 <= n -> is_iN n a -> is_iN n b ->
  let N := n * 2 in
  let z := pat N (math_result sg op n a b) in
  Z.lor (b2z (llvm_icmp (if sg then SGT else UGT) N z (pat N (getMax n sg))))
        (b2z (llvm_icmp (if sg then SLT else ULT) N z (pat N (getMin n sg)))) = ovf_flag sg op n a b.
Proof.
  intros sg op n a b Hn Ha Hb N z. unfold ovf_flag, overflows, representable.
  pose proof (pow2_half_pos n Hn) as Ph. pose proof (pow2_half n Hn) as Eh.
  destruct sg; cbn [llvm_icmp getMax getMin].
  - pose proof (wide_signed op n a b Hn Ha Hb) as R. cbv zeta in R.
    set (m := math_result true op n a b) in *.
    assert (- 2 ^ (N - 1) <= m < 2 ^ (N - 1)) as Rm by (unfold m, math_result, N; destruct op; exact R).
    assert (1 <= N) as HN by (unfold N; lia).
    assert (2 ^ n <= 2 ^ (N - 1)) as Hle by (apply pow2_le; unfold N; lia).
    unfold z. rewrite (pat_signed N m HN Rm).
    rewrite (pat_signed N (2 ^ (n - 1) - 1)) by lia. rewrite (pat_signed N (- 2 ^ (n - 1))) by lia.
    destruct (2 ^ (n - 1) - 1 <? m) eqn:E1, (m <? - 2 ^ (n - 1)) eqn:E2,
      (- 2 ^ (n - 1) <=? m) eqn:E3, (m <? 2 ^ (n - 1)) eqn:E4; cbn; try reflexivity; lia.
  - pose proof (unsigned_wide op n a b Hn Ha Hb) as R. cbv zeta in R.
    set (m := math_result false op n a b) in *.
    assert (- 2 ^ n < m < 2 ^ N) as Rm by (unfold m, math_result, N; destruct op; exact R).
    assert (2 ^ N = 2 ^ n * 2 ^ n) as EN by (apply pow_double; lia).
    assert (2 <= 2 ^ n) as P2 by (change 2 with (2 ^ 1) at 1; apply pow2_le; lia).
    assert (pat N 0 = 0) as -> by (apply pat_id; unfold is_iN; nia).
    assert (pat N (2 ^ n - 1) = 2 ^ n - 1) as -> by (apply pat_id; unfold is_iN; nia).
    assert (is_iN N z) as Rz by (apply pat_range; unfold N; lia). unfold is_iN in Rz.
    destruct (Z.ltb_spec z 0); [lia|]. cbn [b2z]. rewrite Z.lor_0_r.
    destruct (Z.ltb_spec m 0) as [Hneg|Hpos].
    + assert (z = m + 2 ^ N) as -> by (unfold z, pat; apply mod_unique_pos with (-1); nia).
      destruct (2 ^ n - 1 <? m + 2 ^ N) eqn:E1, (0 <=? m) eqn:E3, (m <? 2 ^ n) eqn:E4; cbn; try reflexivity; nia.
    + assert (z = m) as -> by (unfold z; apply pat_id; unfold is_iN; lia).
      destruct (2 ^ n - 1 <? m) eqn:E1, (0 <=? m) eqn:E3, (m <? 2 ^ n) eqn:E4; cbn; try reflexivity; nia.
Qed.

(** ** Names *)
Lemma fresh_inj : forall k1 k2 d1 d2, (k1 < 256)%nat -> (k2 < 256)%nat ->
  fresh k1 d1 = fresh k2 d2 -> k1 = k2 /\ d1 = d2.
Proof.
  intros k1 k2 d1 d2 H1 H2 E. unfold fresh in E. injection E as E ->. split; [|reflexivity].
  rewrite <- (nat_ascii_embedding k1), <- (nat_ascii_embedding k2) by assumption. now rewrite E.
Qed.

Lemma set_same : forall r x v, set_reg r x v x = Some v.
Proof. intros. unfold set_reg. now rewrite String.eqb_refl. Qed.
Lemma set_other : forall r x y v, x <> y -> set_reg r x v y = r y.
Proof. intros. unfold set_reg. destruct (String.eqb_spec x y); congruence. Qed.

Lemma checked_arith_run : forall d (sg : bool) op n a b r x y,
  1 <= n -> value_den r a = Some x -> value_den r b = Some y ->
  value_den (set_reg r (EO1 d) (llvm_cast (if sg then SExt else ZExt) n (n * 2) x)) b = Some y ->
  is_iN n x -> is_iN n y ->
  exists r', run_code r (checked_arith d sg op n a b) = Some r' /\
    r' (RES d) = Some (ovf_value sg op n x y) /\ r' (FLAG d) = Some (ovf_flag sg op n x y) /\
    (forall z, (forall k, (1 <= k <= 7)%nat -> z <> fresh k d) -> r' z = r z).
Proof.
  intros d sg op n a b r x y Hn Ha Hb Hb' Hx Hy. unfold checked_arith, createFlag, createResult, extendBitWidth.
  cbn [app run_code inst_den value_den]. rewrite Ha. cbn [run_code inst_den value_den]. rewrite Hb'.
  cbn [run_code inst_den value_den].
  assert (forall r v w, set_reg (set_reg r (EO1 d) v) (EO2 d) w (EO1 d) = Some v) as L1.
  { intros. rewrite set_other; [apply set_same|]. intro H. apply fresh_inj in H; lia. }
  rewrite L1, set_same. cbn [opt2 andb]. rewrite (pat_pat_op op (n * 2) n sg x y Hn eq_refl Hx Hy).
  set (z := pat (n * 2) (math_result sg op n x y)).
  cbn [run_code inst_den value_den]. rewrite set_same. cbn [run_code inst_den value_den].
  rewrite (set_other _ (RES d) (AI d)) by (intro H; apply fresh_inj in H; lia). rewrite set_same.
  cbn [opt2 run_code inst_den value_den].
  rewrite (set_other _ (GT d) (AI d)) by (intro H; apply fresh_inj in H; lia).
  rewrite (set_other _ (RES d) (AI d)) by (intro H; apply fresh_inj in H; lia). rewrite set_same.
  cbn [opt2 run_code inst_den value_den].
  rewrite (set_other _ (LT d) (GT d)) by (intro H; apply fresh_inj in H; lia). rewrite set_same.
  rewrite set_same. cbn [opt2 andb llvm_binop run_code].
  unfold z. rewrite (flag_correct sg op n x y Hn Hx Hy).
  eexists. split; [reflexivity|]. split; [|split].
  - rewrite !(set_other _ _ (RES d)) by (intro H; apply fresh_inj in H; lia). rewrite set_same.
    cbn [llvm_cast]. unfold ovf_value. f_equal. apply pat_narrow. lia.
  - apply set_same.
  - intros w Hw. rewrite !set_other by (intro H; symmetry in H; revert H; apply Hw; lia). reflexivity.
Qed.

(** ** The pass *)
Lemma value_range_pos : forall G r v x, (forall x n a, G x = Some n -> r x = Some a -> is_iN n a) ->
  wt_value G positive v -> value_den r v = Some x -> is_iN (vwidth v) x.
Proof.
  intros G r v. induction v; intros x0 Hr Hw Hv; cbn in Hv, Hw |- *.
  - destruct Hw as [Hw _]. eapply Hr; eauto.
  - injection Hv as <-. tauto.
  - destruct Hw as (Ha & Hb & <- & Eb & Hn).
    destruct (value_den r v1) as [x|]; [|discriminate]. destruct (value_den r v2) as [y|]; [|discriminate].
    cbn in Hv. apply llvm_binop_range in Hv; auto. rewrite <- Eb. auto.
  - destruct (value_den r v1) as [x|]; [|discriminate]. destruct (value_den r v2) as [y|]; [|discriminate].
    cbn in Hv. injection Hv as <-. apply b2z_range.
  - destruct Hw as (Ha & <- & Hn1 & Hn2 & Hc).
    destruct (value_den r v) as [x|]; [|discriminate]. injection Hv as <-.
    apply llvm_cast_range; auto.
  - destruct Hw as (Hc & Ha & Hb & _ & <- & Eb & _).
    destruct (value_den r v1) as [z|]; [|discriminate]. destruct (value_den r v2) as [x|]; [|discriminate].
    destruct (value_den r v3) as [y|]; [|discriminate]. injection Hv as <-.
    destruct (z =? 1); auto. rewrite <- Eb. auto.
Qed.
Lemma inst_range_pos : forall G r i x, (forall x n a, G x = Some n -> r x = Some a -> is_iN n a) ->
  wt_inst G positive i -> inst_den r i = Some x -> is_iN (iwidth i) x.
Proof.
  intros G r i x Hr Hw Hv. destruct i; cbn [inst_den wt_inst iwidth] in *.
  - apply (value_range_pos G r (CBin op n a b) x Hr Hw). cbn [value_den].
    destruct (value_den r a); [|discriminate]. destruct (value_den r b); [|discriminate].
    cbn [opt2] in *. destruct (nsw && negb (nsw_ok op n z z0)); [discriminate|assumption].
  - apply (value_range_pos G r (CIcmp p n a b) x Hr Hw Hv).
  - apply (value_range_pos G r (CCast c n1 n2 a) x Hr Hw Hv).
  - apply (value_range_pos G r (CSelect n c a b) x Hr Hw Hv).
Qed.

Lemma rename_den : forall s r r' v, (forall x, In x (value_regs v) -> r' (rename s x) = r x) ->
  value_den r' (rename_value s v) = value_den r v.
Proof.
  intros s r r' v. induction v; intros H; cbn [value_den rename_value value_regs] in *.
  - apply H. now left.
  - reflexivity.
  - rewrite IHv1, IHv2; [reflexivity| |]; intros; apply H, in_or_app; tauto.
  - rewrite IHv1, IHv2; [reflexivity| |]; intros; apply H, in_or_app; tauto.
  - now rewrite IHv.
  - rewrite IHv1, IHv2, IHv3; [reflexivity| | |]; intros; apply H; rewrite !in_app_iff; tauto.
Qed.
Lemma rename_inst_den : forall s r r' i, (forall x, In x (inst_regs i) -> r' (rename s x) = r x) ->
  inst_den r' (rename_inst s i) = inst_den r i.
Proof.
  intros s r r' i H. destruct i; cbn [inst_den rename_inst inst_regs] in *.
  - rewrite !(rename_den s r r'); [reflexivity| |]; intros; apply H, in_or_app; tauto.
  - apply (rename_den s r r' (CIcmp p n a b)). exact H.
  - apply (rename_den s r r' (CCast c n1 n2 a)). exact H.
  - apply (rename_den s r r' (CSelect n c a b)). exact H.
Qed.

Lemma run_tinsts_app_code : forall c r r' rest, run_code r c = Some r' ->
  run_tinsts r (map (fun xi => TAssign (fst xi) (snd xi)) c ++ rest) = run_tinsts r' rest.
Proof.
  induction c as [|[x i] c IH]; intros r r' rest H; cbn in *.
  - now injection H as <-.
  - destruct (inst_den r i); [|discriminate]. apply IH, H.
Qed.

Definition agrees (s : subst) (R : list string) (D : list (string * Z)) (r : regs) (p : pairs) (r' : regs) : Prop :=
  (forall x, In x R -> r' (rename s x) = r x) /\ (forall d v f, In d (map fst D) -> p d = Some (v, f) -> r' (RES d) = Some v /\ r' (FLAG d) = Some f).

(** [s] treats the registers of the rest of the sequence as [uses_map] does. *)
Definition covers (s : subst) (c : ocode) : Prop :=
  (forall x i, In (OPlain x i) c -> s x = None) /\ (forall x d fl, In (OExtract x d fl) c -> s x = Some (if fl then FLAG d else RES d)).

Lemma same_ending_incl : forall s R R' a b, (forall y, In y R' -> In y R) ->
  same_ending s R a b -> same_ending s R' a b.
Proof. intros s R R' a b H. unfold same_ending. destruct a, b; auto. Qed.

Definition targets (s : subst) (D : list (string * Z)) (R : list string) : Prop :=
  forall x, In x R -> s x = None \/ exists d, In d (map fst D) /\ (s x = Some (RES d) \/ s x = Some (FLAG d)).

Lemma fresh_ne : forall k1 k2 d1 d2, (k1 < 256)%nat -> (k2 < 256)%nat -> (k1 <> k2 \/ d1 <> d2) -> fresh k1 d1 <> fresh k2 d2.
Proof. intros k1 k2 d1 d2 H1 H2 H E. apply fresh_inj in E; try lia. destruct E. destruct H; congruence. Qed.

(** renamed registers that are live never coincide with the temporaries of call [d] *)
Lemma rename_not_fresh : forall s D R x d k, targets s D R -> In x R -> plain x -> ~ In d (map fst D) ->
  (1 <= k <= 9)%nat -> rename s x <> fresh k d.
Proof.
  intros s D R x d k HT Hx Hp Hd Hk. unfold rename.
  destruct (HT x Hx) as [E|(d' & Hd' & [E|E])]; rewrite E.
  - apply Hp, Hk.
  - intro H. apply fresh_inj in H; try lia. destruct H as [_ <-]. tauto.
  - intro H. apply fresh_inj in H; try lia. destruct H as [_ <-]. tauto.
Qed.

Lemma pass_sim : forall io ck G s c R D r p r',
  ssa G R D c -> covers s c -> agrees s R D r p r' -> targets s D R ->
  (forall x, In x (R ++ defs c) -> plain x) ->
  (forall x n a, G x = Some n -> r x = Some a -> is_iN n a) ->
  (forall d n, In (d, n) D -> forall v f, p d = Some (v, f) -> is_iN n v /\ is_iN 1 f) ->
  (forall d, ~ In d (map fst D) -> p d = None) ->
  same_ending s (R ++ defs c) (reference (io && ck) io r p c)
    (run_tinsts r' (flat_map (rewrite_one io ck s) c)).
Proof.
  intros io ck G s c. induction c as [|i c IH]; intros R D r p r' Hssa Hcov Hag HT Hpl Hr Hpr Hpn.
  - cbn. intros x Hx. rewrite app_nil_r in Hx. now apply Hag.
  - destruct Hcov as [Hc1 Hc2].
    assert (covers s c) as Hcov' by (split; intros; [eapply Hc1|eapply Hc2]; right; eauto).
    destruct Hag as [Ha1 Ha2].
    destruct i as [x i|d sg op n a b|x d fl|u]; cbn [flat_map rewrite_one reference ssa defs] in *.
    + (* plain *)
      destruct Hssa as (Hu & Hx & Hw & HG & Hs).
      cbn [app run_tinsts]. rewrite (rename_inst_den s r r') by (intros; apply Ha1, Hu; assumption).
      destruct (inst_den r i) as [v|] eqn:Ev; [|exact I].
      assert (s x = None) as Esx by (eapply Hc1; left; reflexivity).
      assert (rename s x = x) as Erx by (unfold rename; now rewrite Esx).
      assert (plain x) as Px by (apply Hpl, in_or_app; right; now left).
      replace (R ++ x :: defs c)%list with (R ++ [x] ++ defs c)%list by reflexivity.
      assert (forall y, In y (R ++ [x] ++ defs c) <-> In y ((x :: R) ++ defs c)) as Eperm.
      { intro y. cbn. rewrite !in_app_iff. cbn. tauto. }
      assert (same_ending s ((x :: R) ++ defs c) (reference (io && ck) io (set_reg r x v) p c)
         (run_tinsts (set_reg r' x v) (flat_map (rewrite_one io ck s) c))) as Hfin.
      { apply (IH (x :: R) D); auto.
        - split.
          + intros y [<-|Hy].
            * rewrite Erx, !set_same. reflexivity.
            * destruct (String.eqb_spec x y) as [->|Ne]; [tauto|].
              rewrite (set_other r) by exact Ne. rewrite set_other; [now apply Ha1|].
              intro H. unfold rename in H.
              destruct (HT y Hy) as [E|(d' & Hd' & [E|E])]; rewrite E in H; [congruence| |];
                revert H; apply Px; lia.
          + intros d v0 f Hd Hp. destruct (Ha2 d v0 f Hd Hp) as [H1 H2].
            rewrite !set_other by (apply Px; lia). tauto.
        - intros y [<-|Hy]; [left; exact Esx|exact (HT y Hy)].
        - intros y Hy. apply Hpl. cbn in Hy. rewrite in_app_iff in *. cbn. tauto.
        - intros y n' a' HG' Hy. unfold set_reg in Hy. destruct (String.eqb_spec x y) as [<-|Ne].
          + injection Hy as <-. rewrite HG in HG'. injection HG' as <-. eapply inst_range_pos; eauto.
          + eapply Hr; eauto. }
      refine (same_ending_incl _ _ _ _ _ _ Hfin). intros y Hy. apply Eperm, Hy.
    + (* with overflow *)
      destruct Hssa as (Hu & Hd & Hwa & <- & Hwb & Ewb & Hn & Hs).
      set (n := vwidth a) in *.
      assert (value_den r' (rename_value s a) = value_den r a) as Ea
        by (apply rename_den; intros; apply Ha1, Hu, in_or_app; tauto).
      assert (value_den r' (rename_value s b) = value_den r b) as Eb
        by (apply rename_den; intros; apply Ha1, Hu, in_or_app; tauto).
      destruct (value_den r a) as [x|] eqn:Ex; [|exact I].
      destruct (value_den r b) as [y|] eqn:Ey; [|exact I].
      assert (is_iN n x) as Rx by (apply (value_range_pos G r a x Hr Hwa Ex)).
      assert (is_iN n y) as Ry by (rewrite <- Ewb; apply (value_range_pos G r b y Hr Hwb Ey)).
      assert (forall z, In z R -> forall k, (1 <= k <= 9)%nat -> rename s z <> fresh k d) as Hnf.
      { intros z Hz k Hk. eapply rename_not_fresh; eauto. apply Hpl, in_or_app. tauto. }
      assert (forall v, value_den (set_reg r' (EO1 d) v) (rename_value s b) = Some y) as Eb'.
      { intros v. rewrite <- Ey. apply rename_den. intros z Hz.
        assert (In z R) as HzR by (apply Hu, in_or_app; tauto).
        rewrite set_other; [now apply Ha1|]. intro H. symmetry in H. revert H. apply Hnf; [assumption|lia]. }
      destruct (checked_arith_run d sg op n (rename_value s a) (rename_value s b) r' x y Hn Ea Eb (Eb' _) Rx Ry)
        as (r1 & Hrun & HRES & HFLAG & Hsame).
      rewrite <- !app_assoc. rewrite (run_tinsts_app_code _ _ _ _ Hrun).
      assert (forall r2, r2 (RES d) = r1 (RES d) -> r2 (FLAG d) = r1 (FLAG d) ->
                (forall z, (forall k, (1 <= k <= 9)%nat -> z <> fresh k d) -> r2 z = r1 z) ->
        same_ending s (R ++ defs c)
          (reference (io && ck) io r (set_pair p d (ovf_value sg op n x y, ovf_flag sg op n x y)) c)
          (run_tinsts r2 (flat_map (rewrite_one io ck s) c))) as Hrest.
      { intros r2 E1 E2 E3. apply (IH R ((d, n) :: D)); auto.
        - split.
          + intros z Hz. rewrite E3 by (apply Hnf, Hz).
            rewrite Hsame by (intros k Hk; apply Hnf; [assumption|lia]). now apply Ha1.
          + intros d' v f Hd' Hp. unfold set_pair in Hp. destruct (String.eqb_spec d d') as [<-|Ne].
            * injection Hp as <- <-. rewrite E1, E2. tauto.
            * destruct Hd' as [E|Hd']; [cbn in E; congruence|]. destruct (Ha2 d' v f Hd' Hp) as [H1 H2].
              assert (forall k, (1 <= k <= 9)%nat -> r2 (fresh k d') = r' (fresh k d')) as H3.
              { intros k Hk. rewrite E3 by (intros k' Hk'; apply fresh_ne; [lia|lia|auto]).
                apply Hsame. intros k' Hk'. apply fresh_ne; [lia|lia|auto]. }
              unfold RES, FLAG in *. rewrite !H3 by lia. tauto.
        - intros z Hz. destruct (HT z Hz) as [E|(d' & Hd' & E)]; [left; exact E|right; exists d'; cbn; tauto].
        - intros d' n' [E|Hd'] v f Hp; unfold set_pair in Hp.
          + injection E as <- <-. rewrite String.eqb_refl in Hp. injection Hp as <- <-. split.
            * apply pat_range. lia.
            * apply b2z_range.
          + destruct (String.eqb_spec d d') as [<-|Ne]; [|eapply Hpr; eauto].
            exfalso. apply Hd. apply (in_map fst) in Hd'. exact Hd'.
        - intros d' Hd'. cbn in Hd'. unfold set_pair. destruct (String.eqb_spec d d') as [E|Ne]; [tauto|].
          apply Hpn. tauto. }
      destruct (io && ck) eqn:Eio.
      * unfold addCheck. cbn [app run_tinsts inst_den value_den]. rewrite HFLAG. cbn [llvm_cast].
        rewrite set_same. unfold ovf_flag. destruct (overflows sg op n x y) eqn:Eov; cbn [b2z andb Z.eqb]; [exact I|].
        unfold ovf_flag in Hrest. rewrite Eov in Hrest. apply Hrest.
        -- apply set_other, fresh_ne; lia.
        -- apply set_other, fresh_ne; lia.
        -- intros z Hz. apply set_other. intro H. symmetry in H. revert H. apply Hz. lia.
      * cbn [app andb]. apply Hrest; auto.
    + (* extract *)
      destruct Hssa as (Hx & (n & Hd & HG) & Hs). cbn [app].
      destruct (p d) as [[v f]|] eqn:Ep; [|exact I].
      assert (s x = Some (if fl then FLAG d else RES d)) as Esx by (eapply Hc2; left; reflexivity).
      assert (In d (map fst D)) as Hd' by (apply (in_map fst) in Hd; exact Hd).
      destruct (Ha2 d v f Hd' Ep) as [H1 H2].
      assert (forall y, In y (R ++ x :: defs c) <-> In y ((x :: R) ++ defs c)) as Eperm.
      { intro y. cbn. rewrite !in_app_iff. cbn. tauto. }
      assert (same_ending s ((x :: R) ++ defs c) (reference (io && ck) io (set_reg r x (if fl then f else v)) p c)
         (run_tinsts r' (flat_map (rewrite_one io ck s) c))) as Hfin.
      { apply (IH (x :: R) D); auto.
        - split; [|exact Ha2]. intros y [<-|Hy].
          + rewrite set_same. unfold rename. rewrite Esx. destruct fl; assumption.
          + destruct (String.eqb_spec x y) as [->|Ne]; [tauto|]. rewrite set_other by exact Ne. now apply Ha1.
        - intros y [<-|Hy]; [|exact (HT y Hy)]. right. exists d. split; [exact Hd'|].
          rewrite Esx. destruct fl; tauto.
        - intros y Hy. apply Hpl. cbn in Hy. rewrite in_app_iff in *. cbn. tauto.
        - intros y n' a' HG' Hy. unfold set_reg in Hy. destruct (String.eqb_spec x y) as [<-|Ne].
          + injection Hy as <-. rewrite HG in HG'. injection HG' as <-.
            destruct (Hpr d n Hd v f Ep). destruct fl; assumption.
          + eapply Hr; eauto. }
      refine (same_ending_incl _ _ _ _ _ _ Hfin). intros y Hy. apply Eperm, Hy.
    + (* sanitizer handler *)
      destruct Hssa as [Hd Hs]. destruct io.
      * cbn [andb]. destruct ck; cbn [andb app run_tinsts inst_den value_den addCheck addBlockingAssume llvm_cast opt2 llvm_binop].
        -- rewrite set_same. exact I.
        -- rewrite set_same. cbn [llvm_cast]. rewrite set_same. exact I.
      * cbn [andb app]. apply (IH R ((u, 0) :: D)); auto.
        -- split; [exact Ha1|]. intros d v f Hd' Hp. apply (Ha2 d v f); [|exact Hp].
           destruct Hd' as [E|]; [|assumption]. cbn in E. subst d. rewrite (Hpn u Hd) in Hp. discriminate.
        -- intros z Hz. destruct (HT z Hz) as [E|(d' & Hd' & E)]; [left; exact E|right; exists d'; cbn; tauto].
        -- intros d n [E|Hin] v f Hp; [|eapply Hpr; eauto]. injection E as <- <-. rewrite (Hpn u Hd) in Hp. discriminate.
        -- intros d' Hd'. apply Hpn. cbn in Hd'. tauto.
Qed.

(** ** The substitution used by the pass *)
Lemma uses_map_none : forall c x, (forall d fl, ~ In (OExtract x d fl) c) -> uses_map c x = None.
Proof.
  induction c as [|i c IH]; intros x H; cbn [uses_map]; [reflexivity|].
  assert (uses_map c x = None) as E by (apply IH; intros d fl Hin; apply (H d fl); now right).
  destruct i; auto. destruct (String.eqb_spec x0 x) as [->|]; [|exact E].
  exfalso. apply (H d flagPart). now left.
Qed.
Lemma in_defs : forall c x, (exists i, In (OPlain x i) c) \/ (exists d fl, In (OExtract x d fl) c) -> In x (defs c).
Proof.
  induction c as [|i c IH]; intros x H; [destruct H as [[? []]|[? [? []]]]|].
  destruct i; cbn [defs].
  - destruct H as [[j [E|H]]|(d & fl & [E|H])]; try discriminate.
    + left. congruence.
    + right. apply IH. eauto.
    + right. apply IH. eauto.
  - apply IH. destruct H as [[j [E|H]]|(? & fl & [E|H])]; try discriminate; eauto.
  - destruct H as [[j [E|H]]|(? & fl & [E|H])]; try discriminate.
    + right. apply IH. eauto.
    + left. congruence.
    + right. apply IH. eauto.
  - apply IH. destruct H as [[j [E|H]]|(? & fl & [E|H])]; try discriminate; eauto.
Qed.
Lemma ssa_defs : forall G c R D, ssa G R D c -> NoDup (defs c) /\ (forall x, In x (defs c) -> ~ In x R).
Proof.
  intros G c. induction c as [|i c IH]; intros R D H; [split; [constructor|intros x []]|].
  destruct i; cbn [ssa defs] in *.
  - destruct H as (_ & Hx & _ & _ & H). destruct (IH _ _ H) as [H1 H2]. split.
    + constructor; [|exact H1]. intro Hin. apply (H2 x Hin). now left.
    + intros y [<-|Hy]; [exact Hx|]. intro. apply (H2 y Hy). now right.
  - destruct H as (_ & _ & _ & _ & _ & _ & _ & H). exact (IH _ _ H).
  - destruct H as (Hx & _ & H). destruct (IH _ _ H) as [H1 H2]. split.
    + constructor; [|exact H1]. intro Hin. apply (H2 x Hin). now left.
    + intros y [<-|Hy]; [exact Hx|]. intro. apply (H2 y Hy). now right.
  - destruct H as [_ H]. exact (IH _ _ H).
Qed.
Lemma uses_map_covers : forall c, NoDup (defs c) -> covers (uses_map c) c.
Proof.
  induction c as [|i c IH]; intros H; [split; intros; contradiction|].
  destruct i; cbn [defs] in H.
  - inversion H as [|? ? Hx Hnd]; subst. destruct (IH Hnd) as [C1 C2]. split.
    + intros y j [E|Hin]; [|eapply C1; eauto]. injection E as <- <-. cbn.
      apply uses_map_none. intros d fl Hin. apply Hx, in_defs. right. eauto.
    + intros y d fl [E|Hin]; [discriminate|]. cbn. eapply C2; eauto.
  - destruct (IH H) as [C1 C2]. split.
    + intros y j [E|Hin]; [discriminate|]. eapply C1; eauto.
    + intros y d' fl [E|Hin]; [discriminate|]. eapply C2; eauto.
  - inversion H as [|? ? Hx Hnd]; subst. destruct (IH Hnd) as [C1 C2]. split.
    + intros y j [E|Hin]; [discriminate|]. cbn [uses_map].
      destruct (String.eqb_spec x y) as [->|]; [exfalso; apply Hx, in_defs; left; eauto|]. eapply C1; eauto.
    + intros y d' fl [E|Hin]; cbn [uses_map].
      * injection E as <- <- <-. now rewrite String.eqb_refl.
      * destruct (String.eqb_spec x y) as [->|]; [exfalso; apply Hx, in_defs; right; eauto|]. eapply C2; eauto.
  - destruct (IH H) as [C1 C2]. split.
    + intros y j [E|Hin]; [discriminate|]. eapply C1; eauto.
    + intros y d' fl [E|Hin]; [discriminate|]. eapply C2; eauto.
Qed.

(** ** Top level: arguments [R] defined on entry *)
Lemma pass_correct : forall io ck G R c r,
  ssa G R [] c -> (forall x, In x (R ++ defs c) -> plain x) ->
  (forall x n a, G x = Some n -> r x = Some a -> is_iN n a) ->
  same_ending (uses_map c) (R ++ defs c) (reference (io && ck) io r (fun _ => None) c)
    (run_tinsts r (overflow_pass io ck c)).
Proof.
  intros io ck G R c r Hssa Hpl Hr.
  destruct (ssa_defs G c R [] Hssa) as [Hnd Hnr].
  assert (forall x, In x R -> uses_map c x = None) as HR.
  { intros x Hx. apply uses_map_none. intros d fl Hin. apply (Hnr x); [|exact Hx]. apply in_defs. right. eauto. }
  apply (pass_sim io ck G (uses_map c) c R [] r (fun _ => None) r); auto.
  - apply uses_map_covers, Hnd.
  - split; [|intros d v f []]. intros x Hx. unfold rename. now rewrite HR.
  - intros x Hx. left. apply HR, Hx.
  - intros d n [].
Qed.
