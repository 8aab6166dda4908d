(** Executions of whole programs and of the Boogie programs for them, in the
    default encoding with memory split into regions. *)
From Coq Require Import ZArith List String Bool Lia ZifyBool.
From Verif.Base Require Import ZBits.
From Verif.Spec Require Import LLVMInt IR CFG BitVectorIR ByteMemory Encodings Pointers Aliasing FlatMemory PointsTo Program DefaultMode SplitMemory.
From Verif.Model Require Import Boogie Regions RegionVars PreludeInt SmackRepInt PreludeMem ControlFlow NormalizeLoops WholeProgram DefaultMode SplitMemory.
From Verif.Proofs Require Import Lookup PreludeCalls ExprSim IntUnbounded ByteMem MemMain ControlMain ProgramSim Lockstep DefaultExpr DefaultSim FlatRegions MapFunc.
From Verif.Props Require Import RegionProps.
Import ListNotations.
Open Scope string_scope.
Open Scope list_scope.
Open Scope Z_scope.

(** ** The regions of described accesses *)
Section Places.
  Context (dsa : nat -> node_info) (l : list Regions.access) (Hl : Forall proper l) (ok : expected) (Hd : describes dsa l ok).
  Notation "'R' A" := (region_at dsa l A) (at level 9, A at level 9).

  Definition seen (a : Z) (w : Program.access) (A : Regions.access) : dyn := Dyn A (AInt (Program.width w)) a None.
  Lemma pair_separated : forall a w A a' w' A', ok a w A = true -> ok a' w' A' = true ->
    separated UnboundedInteger false 64
      (map (fun x => Acc (region_var false false dsa l (d_static x)) (d_ty x) (d_addr x) (d_val x)) [seen a w A; seen a' w' A']).
  Proof.
    intros a w A a' w' A' H H'.
    assert (forall x, In x [seen a w A; seen a' w' A'] -> one_of ok x) as Hone.
    { intros x [<-|[<-|[]]]; [exists w|exists w']; auto. }
    apply (regions_separate false false 64 dsa l _ (or_intror eq_refl) (ds_pointers _ _ _ Hd) (ds_sound _ _ _ Hd _ Hone)).
    - intros x Hx. destruct (Hone x Hx) as (u & _ & Hu). exact (ds_address _ _ _ Hd _ _ _ Hu).
    - split; congruence.
    - intros _. split; [reflexivity|]. intros x y Hx Hy (i & j & Hi & Hj & E). destruct (Hone x Hx) as (u & Eu & Hu), (Hone y Hy) as (v & Ev & Hv).
      rewrite Eu in Hi. rewrite Ev in Hj. destruct (ds_typed _ _ _ Hd _ _ _ _ _ _ i j Hu Hv Hi Hj E) as [Ea ->]. split; [exact Ea|congruence].
  Qed.
  Lemma width_bytes : forall w, 0 < bytes_needed (Program.width w).
  Proof. intros []; cbn; lia. Qed.
  Lemma place_type : forall a w A w' A', ok a w A = true -> ok a w' A' = true -> w = w'.
  Proof.
    intros a w A w' A' H H'. pose proof (width_bytes w). pose proof (width_bytes w').
    exact (proj2 (ds_typed _ _ _ Hd a w A a w' A' 0 0 H H' ltac:(lia) ltac:(lia) eq_refl)).
  Qed.
  Lemma place_region : forall a w A w' A', ok a w A = true -> ok a w' A' = true -> R A = R A'.
  Proof.
    intros a w A w' A' H H'. refine (sep_region _ _ _ _ (pair_separated a w A a w' A' H H') _ _ (or_introl eq_refl) (or_intror (or_introl eq_refl)) _).
    pose proof (width_bytes w). pose proof (width_bytes w'). exists 0, 0. cbn. unfold size. cbn. repeat split; lia.
  Qed.
  Lemma place_name : forall a w A a' w' A', ok a w A = true -> ok a' w' A' = true -> PreludeMem.reg (R A) = PreludeMem.reg (R A') -> R A = R A'.
  Proof.
    intros a w A a' w' A' H H' E.
    exact (sep_name _ _ _ _ (pair_separated a w A a' w' A' H H') _ _ (or_introl eq_refl) (or_intror (or_introl eq_refl)) E).
  Qed.
  Lemma place_single : forall a w A a' w' A', ok a w A = true -> ok a' w' A' = true -> R A = R A' -> singleton (R A) = true -> a = a'.
  Proof.
    intros a w A a' w' A' H H' E Hs.
    exact (proj1 (sep_singleton _ _ _ _ (pair_separated a w A a' w' A' H H') _ _ (or_introl eq_refl) (or_intror (or_introl eq_refl)) E Hs)).
  Qed.
  Lemma region_same : forall A B, In A l -> In B l -> PreludeMem.reg (R A) = PreludeMem.reg (R B) -> R A = R B.
  Proof.
    intros A B HA HB E. destruct (region_found false dsa l Hl A HA) as (i & g & Ni & _ & EA & _), (region_found false dsa l Hl B HB) as (j & h & Nj & _ & EB & _).
    unfold region_at in *. rewrite EA, EB in *. cbn in E. apply memReg_inj in E. subst j. rewrite Ni in Nj. injection Nj as ->. reflexivity.
  Qed.
  Lemma place_var : forall a w A, ok a w A = true -> bytewise (R A) = false /\ exists i, PreludeMem.reg (R A) = memReg i.
  Proof.
    intros a w A H. pose proof (ds_sound _ _ _ Hd [seen a w A] ltac:(intros x [<-|[]]; now exists w)) as Hs.
    pose proof (pt_seen _ _ _ _ Hs _ (or_introl eq_refl)) as Hin. cbn in Hin.
    destruct (region_found false dsa l (ds_pointers _ _ _ Hd) A Hin) as (i & g & _ & _ & E & _ & Hg).
    unfold region_at. rewrite E. cbn. split; [|eauto].
    assert (Forall (fun g => rbytewise g = false) (visit false false dsa [] l)) as Hall.
    { apply visit_all; [| |constructor].
      - intros b _. unfold init. destruct (ac_node b); reflexivity.
      - intros g1 g2 _ _ _. reflexivity. }
    rewrite Forall_forall in Hall. now apply Hall.
  Qed.
End Places.

(** ** Instructions *)
Section ROps.
  Context (I : interp) (dsa : nat -> node_info) (l : list Regions.access) (ok : expected) (Hd : describes dsa l ok).
  Notation "'R' A" := (region_at dsa l A) (at level 9, A at level 9).
  Lemma bound_var : forall x V rest, bindings ((x, V) :: rest) x = Some V.
  Proof. intros. unfold bindings. cbn. now rewrite String.eqb_refl. Qed.
  Lemma load_holds : forall a w A V z v, ok a w A = true -> holds (R A) V a z ->
    (int_value_of I [(PreludeMem.reg (R A), V); ("p", VInt (int_value 64 a))] (load_split dsa l w A) v <-> v = VInt z).
  Proof.
    intros a w A V z v Hok Hh. destruct (place_var dsa l ok Hd a w A Hok) as [Hb [i Hi]].
    assert (int_value_of I [(PreludeMem.reg (R A), V); ("p", VInt (int_value 64 a))] (load_split dsa l w A) (VInt z)) as H.
    { unfold holds in Hh. destruct (singleton (R A)) eqn:Es.
      - subst V. exists O. unfold load_split, load. rewrite Es. cbn [eval]. apply bound_var.
      - destruct Hh as (M & -> & <-).
        refine (load_typed UnboundedInteger false 64 default_prelude I extends_default (or_intror eq_refl) (R A)
                 (bindings [(PreludeMem.reg (R A), imap M); ("p", VInt (int_value 64 a))]) (intType default_flags (Program.width w)) (EVar "p")
                 (int_value 64 a) None M Hb Es _ _ (bound_var _ _ _) (ex_intro _ O _)).
        + right. exists (Program.width w). split; [apply width_in|reflexivity].
        + intros E. discriminate E.
        + rewrite Hi. reflexivity. }
    split; [|intros ->; exact H]. intros Hv. exact (evaluates_det default_prelude I _ _ _ _ Hv H).
  Qed.
  Lemma store_holds : forall a w A V z x V', ok a w A = true -> holds (R A) V a z ->
    (int_value_of I [(PreludeMem.reg (R A), V); ("p", VInt (int_value 64 a)); ("v", VInt x)] (snd (store_split dsa l w A)) V' <->
     if singleton (R A) then V' = VInt x
     else exists M, V = imap M /\ V' = imap (fun q => if q =? int_value 64 a then x else M q)).
  Proof.
    intros a w A V z x V' Hok Hh. destruct (place_var dsa l ok Hd a w A Hok) as [Hb [i Hi]].
    unfold holds in Hh. destruct (singleton (R A)) eqn:Es.
    - assert (int_value_of I [(PreludeMem.reg (R A), V); ("p", VInt (int_value 64 a)); ("v", VInt x)] (snd (store_split dsa l w A)) (VInt x)) as H.
      { exists O. unfold store_split, store. rewrite Es, Hi. reflexivity. }
      split; [|intros ->; exact H]. intros Hv. exact (evaluates_det default_prelude I _ _ _ _ Hv H).
    - destruct Hh as (M & -> & _).
      assert (int_value_of I [(PreludeMem.reg (R A), imap M); ("p", VInt (int_value 64 a)); ("v", VInt x)] (snd (store_split dsa l w A))
                (imap (fun q => if q =? int_value 64 a then x else M q))) as H.
      { refine (store_typed UnboundedInteger false 64 default_prelude I extends_default (or_intror eq_refl) (R A)
                 (bindings [(PreludeMem.reg (R A), imap M); ("p", VInt (int_value 64 a)); ("v", VInt x)]) (intType default_flags (Program.width w))
                 (EVar "p") (EVar "v") (int_value 64 a) None M (VInt x) x Hb Es _ _ (bound_var _ _ _) (ex_intro _ O _) (ex_intro _ O _) eq_refl).
        + right. exists (Program.width w). split; [apply width_in|reflexivity].
        + intros E. discriminate E.
        + rewrite Hi. reflexivity.
        + rewrite Hi. reflexivity. }
      split; [|intros (M' & E & ->); injection E as ->; exact H]. intros Hv. exists M. split; [reflexivity|].
      exact (evaluates_det default_prelude I _ _ _ _ Hv H).
  Qed.

  Lemma described_dec : forall o vs, described ok o vs \/ ~ described ok o vs.
  Proof.
    intros [o A] vs. unfold described. cbn [what about]. destruct o as [w|w|w| | |f]; cbn; auto.
    - destruct vs as [|[|n a| |] [|]]; auto. destruct (Z.eq_dec n 64), (ok a w A); intuition congruence.
    - destruct vs as [|[|k x| |] [|[|n a| |] [|]]]; auto. destruct (Z.eq_dec k (Program.width w)), (Z.eq_dec n 64), (ok a w A); intuition congruence.
    - destruct vs; auto.
    - destruct vs as [|[|n a| |] [|]]; auto. lia.
    - destruct vs as [|[|n a| |] [|]]; auto. lia.
  Qed.

  Lemma region_store_related : forall (m m' : mem) Ms V' a w A x, ok a w A = true -> is_iN (Program.width w) x ->
    written (bytes_at a) (bytes_needed (Program.width w)) x (proj1_sig m) (proj1_sig m') ->
    (if singleton (R A) then V' = VInt (int_value (Program.width w) x)
     else exists M, Ms (PreludeMem.reg (R A)) = imap M /\
       V' = imap (fun q => if q =? int_value 64 a then int_value (Program.width w) x else M q)) ->
    same_regions dsa l ok m Ms -> same_regions dsa l ok m' (set_variable Ms (PreludeMem.reg (R A)) V').
  Proof.
    intros m m' Ms V' a w A x Ha Hx Hw HV H a' w' A' v Ha' Hv. unfold set_variable.
    assert (forall u, 0 <= bytes_needed (Program.width u)) as Hk by (intros []; cbn; lia).
    assert (a' <> a -> reads_as (bytes_at a') (bytes_needed (Program.width w')) (proj1_sig m) v) as Hold.
    { intros Hne. destruct Hv as [Hv1 Hv2]. split; [exact Hv1|]. intros j Hj. rewrite (Hv2 j Hj).
      destruct Hw as [_ Hw]. apply Hw. intros i Hi Eq. apply Hne. symmetry.
      exact (proj1 (ds_typed _ _ _ Hd _ _ _ _ _ _ i j Ha Ha' Hi Hj (eq_sym Eq))). }
    assert (a' = a -> w' = w /\ R A' = R A /\ int_value (Program.width w') (pat (Program.width w') v) = int_value (Program.width w) x) as Hnew.
    { intros ->. pose proof (place_type dsa l ok Hd a w' A' w A Ha' Ha) as ->.
      split; [reflexivity|]. split; [exact (place_region dsa l ok Hd a w A' w A Ha' Ha)|].
      pose proof (written_reads _ _ _ _ _ (Hk w) (width_fits w x Hx) Hw) as Hx'.
      rewrite (reads_as_unique _ _ _ _ _ (Hk w) Hv Hx'). now rewrite pat_id. }
    destruct (String.eqb_spec (PreludeMem.reg (R A')) (PreludeMem.reg (R A))) as [En|En].
    - pose proof (place_name dsa l ok Hd a' w' A' a w A Ha' Ha En) as ER. unfold holds. rewrite ER.
      destruct (singleton (R A)) eqn:Es.
      + assert (a' = a) as Ea by (eapply place_single; eauto; now rewrite ER).
        destruct (Hnew Ea) as (_ & _ & ->). exact HV.
      + destruct HV as (M & EM & ->). eexists. split; [reflexivity|]. cbv beta.
        destruct (Z.eqb_spec (int_value 64 a') (int_value 64 a)) as [E|E].
        * apply sval64_inj in E; [|exact (ds_address _ _ _ Hd _ _ _ Ha')|exact (ds_address _ _ _ Hd _ _ _ Ha)].
          now destruct (Hnew E) as (_ & _ & ->).
        * assert (a' <> a) as Hne by congruence. specialize (H a' w' A' v Ha' (Hold Hne)). unfold holds in H. rewrite ER, Es in H.
          destruct H as (M2 & E2 & <-). rewrite EM in E2. injection E2 as ->. reflexivity.
    - apply H; [exact Ha'|]. apply Hold. intros Ea. apply En. now destruct (Hnew Ea) as (_ & -> & _).
  Qed.
End ROps.

Section RSides.
  Context (I : interp) (dsa : nat -> node_info) (l : list Regions.access) (ok : expected) (Hd : describes dsa l ok).
  Notation "'R' A" := (region_at dsa l A) (at level 9, A at level 9).
  Notation same := (same_regions dsa l ok).
  Notation rexec := (rexec_op I dsa l).

  Lemma rop_to_int : forall (call : string -> effect) (icall : string -> reffect),
    (forall f vs ws m M t v m', Forall2 Rw vs ws -> same m M -> call f vs m t v m' ->
      (exists w M', icall f ws M t w M' /\ Rv v w /\ same m' M') \/ (exists u w M', cutF t u /\ icall f ws M u w M')) ->
    forall o vs ws m M t v m', Forall2 Rw vs ws -> same m M -> exec_op call (what o) vs m t v m' -> described ok o vs ->
      (exists w M', rexec icall o ws M t w M' /\ Rv v w /\ same m' M') \/
      (exists u w M', cutF t u /\ rexec icall o ws M u w M').
  Proof.
    intros call icall Hc [o A] vs ws m M t v m' Hvs HM H Hty. unfold described in Hty. cbn [what about] in *. destruct H; cbn in Hty.
    - left. inversion Hvs as [|? y ? ? Hy Hn]; subst. inversion Hn; subst. apply Rw_bv in Hy. destruct Hy as (_ & _ & ->).
      destruct Hty as [_ Hty]. exists (VInt (int_value (Program.width w) (pat (Program.width w) v))), M.
      split; [|split; [intros _; reflexivity|exact HM]]. constructor. apply (load_holds I dsa l ok Hd a w A _ _ _ Hty (HM a w A v Hty H0)). reflexivity.
    - left. inversion Hvs as [|? y ? ? Hy Hn]; subst. inversion Hn as [|? z ? ? Hz Hn2]; subst. inversion Hn2; subst.
      apply Rw_bv in Hy, Hz. destruct Hy as (_ & _ & ->), Hz as (_ & _ & ->). destruct Hty as (_ & _ & Hty).
      destruct (read_exists m a w H) as (v0 & Hv0). pose proof (HM a w A v0 Hty Hv0) as Hh.
      set (V' := if singleton (R A) then VInt (int_value (Program.width w) x)
                 else match M (PreludeMem.reg (R A)) with
                      | VMap _ _ M1 => imap (fun q => if q =? int_value 64 a then int_value (Program.width w) x else M1 q)
                      | v => v end).
      assert (if singleton (R A) then V' = VInt (int_value (Program.width w) x)
              else exists M1, M (PreludeMem.reg (R A)) = imap M1 /\
                V' = imap (fun q => if q =? int_value 64 a then int_value (Program.width w) x else M1 q)) as HV.
      { unfold V'. unfold holds in Hh. destruct (singleton (R A)); [reflexivity|]. destruct Hh as (M1 & -> & _). exists M1. split; reflexivity. }
      exists (as_int u), (set_variable M (PreludeMem.reg (R A)) V').
      split; [|split; [intros _; reflexivity|eapply region_store_related; eassumption]].
      apply (R_store I dsa l icall w A (int_value 64 a) (int_value (Program.width w) x) M V' (as_int u)).
      apply (store_holds I dsa l ok Hd a w A _ _ _ _ Hty Hh). exact HV.
    - left. inversion Hvs; subst. exists (VInt (int_value (Program.width w) x)), M.
      split; [constructor; apply int_value_range; [apply width_pos|exact H]|]. split; [intros _; reflexivity|exact HM].
    - left. inversion Hvs as [|? y ? ? Hy Hn]; subst. inversion Hn; subst. apply Rw_bv in Hy. destruct Hy as (_ & Hx & ->).
      exists (as_int u), M. split; [|split; [intros _; reflexivity|exact HM]]. constructor. apply check_int_value.
      rewrite int32_zero by exact Hx. lia.
    - left. inversion Hvs as [|? y ? ? Hy Hn]; subst. inversion Hn; subst. apply Rw_bv in Hy. destruct Hy as (_ & Hx & ->).
      exists (as_int u), M. split; [|split; [intros _; reflexivity|exact HM]]. apply R_assert_holds. apply check_int_value.
      rewrite int32_zero by exact Hx. lia.
    - left. inversion Hvs as [|? y ? ? Hy Hn]; subst. inversion Hn; subst. apply Rw_bv in Hy. destruct Hy as (_ & Hx & ->).
      exists (as_int u), M. split; [|split; [intros _; reflexivity|exact HM]]. apply R_assert_fails. now apply check_int_value.
    - destruct (Hc _ _ _ _ _ _ _ _ Hvs HM H) as [(w & M' & H1 & H2)|(u & w & M' & H1 & H2)].
      + left. exists w, M'. split; [now constructor|exact H2].
      + right. exists u, w, M'. split; [exact H1|now constructor].
  Qed.
  Lemma rop_from_int : forall (call : string -> effect) (icall : string -> reffect),
    (forall f vs ws m M t w M', Forall2 Rw vs ws -> same m M -> icall f ws M t w M' ->
      (exists v m', call f vs m t v m' /\ Rv v w /\ same m' M') \/
      (exists u v m', (cutU t u \/ cutF t u) /\ call f vs m u v m')) ->
    forall o vs ws m M t w M', Forall2 Rw vs ws -> same m M -> rexec icall o ws M t w M' ->
      (exists v m', described_op ok call o vs m t v m' /\ Rv v w /\ same m' M') \/
      (exists u v m', (cutU t u \/ cutF t u) /\ described_op ok call o vs m u v m').
  Proof.
    intros call icall Hc o vs ws m M t w M' Hvs HM H.
    destruct (described_dec ok o vs) as [Hty|Hty].
    2:{ right. exists [Undefined], (VBool true), m. split; [left; apply cutU_nil|]. now apply D_other. }
    pose proof Hty as Hd0. destruct H; unfold described in Hty; cbn in Hty.
    - left. inversion Hvs as [|y ? ? ? Hy Hn]; subst. inversion Hn; subst. apply Rw_int in Hy. destruct Hy as (n & b & -> & _ & Hb & ->).
      destruct Hty as [-> Hty]. destruct (read_exists m b w Hb) as (x0 & Hx).
      apply (load_holds I dsa l ok Hd b w A _ _ _ Hty (HM b w A x0 Hty Hx)) in H. subst v.
      exists (VBv (Program.width w) (pat (Program.width w) x0)), m. split; [constructor; [now constructor|exact Hd0]|]. split; [|exact HM].
      intros _. reflexivity.
    - left. inversion Hvs as [|y ? ? ? Hy Hn]; subst. inversion Hn as [|z0 ? ? ? Hz Hn2]; subst. inversion Hn2; subst.
      apply Rw_int in Hy, Hz. destruct Hy as (k & y' & -> & _ & Hk & ->), Hz as (n & b & -> & _ & Hb & ->).
      destruct Hty as (-> & -> & Hty). destruct (store_exists m b w y' Hb Hk) as (m2 & Hm2). destruct (read_exists m b w Hb) as (x0 & Hx).
      apply (store_holds I dsa l ok Hd b w A _ _ _ _ Hty (HM b w A x0 Hty Hx)) in H.
      exists (VBool true), m2. split; [constructor; [now constructor|exact Hd0]|]. split; [apply Rv_any|].
      eapply region_store_related; eassumption.
    - left. inversion Hvs; subst. exists (VBv (Program.width w) (pat (Program.width w) x)), m.
      assert (is_iN (Program.width w) (pat (Program.width w) x)) as Hp by (apply pat_range; pose proof (width_pos w); lia).
      split; [constructor; [now constructor|exact Logic.I]|]. split; [|exact HM]. intros _. cbn [as_int]. f_equal. symmetry.
      apply (pat_sval (Program.width w) x); [apply width_pos|exact H].
    - left. inversion Hvs as [|y ? ? ? Hy Hn]; subst. inversion Hn; subst. apply Rw_int in Hy. destruct Hy as (n & b & -> & _ & Hb & ->).
      subst n. apply check_int_value in H. rewrite int32_zero in H by exact Hb.
      exists (VBool true), m. split; [constructor; [constructor; lia|exact Hd0]|]. split; [apply Rv_any|exact HM].
    - left. inversion Hvs as [|y ? ? ? Hy Hn]; subst. inversion Hn; subst. apply Rw_int in Hy. destruct Hy as (n & b & -> & _ & Hb & ->).
      subst n. apply check_int_value in H. rewrite int32_zero in H by exact Hb.
      exists (VBool true), m. split; [constructor; [apply X_assert_holds; lia|exact Hd0]|]. split; [apply Rv_any|exact HM].
    - left. inversion Hvs as [|y ? ? ? Hy Hn]; subst. inversion Hn; subst. apply Rw_int in Hy. destruct Hy as (n & b & -> & _ & Hb & ->).
      subst n. apply check_int_value in H. rewrite int32_zero in H by exact Hb. assert (b = 0) as -> by lia.
      exists (VBool true), m. split; [constructor; [apply X_assert_fails|exact Hd0]|]. split; [apply Rv_any|exact HM].
    - destruct (Hc _ _ _ _ _ _ _ _ Hvs HM H) as [(x & m2 & H1 & H2)|(u & x & m2 & H1 & H2)].
      + left. exists x, m2. split; [|exact H2]. constructor; [now constructor|exact Logic.I].
      + right. exists u, x, m2. split; [exact H1|]. constructor; [now constructor|exact Logic.I].
  Qed.
End RSides.

(** ** Functions *)
Lemma no_ainv : forall p vs m t v w m', ~ no_ainvoke p vs m t v w m'.
Proof. intros p vs m t v w m' []. Qed.
Lemma no_rinv : forall p vs m t v w m', ~ no_rinvoke p vs m t v w m'.
Proof. intros p vs m t v w m' []. Qed.
Lemma find_ain : forall q f F, find_afn q f = Some F -> In (f, F) q.
Proof.
  induction q as [|[g G] q IH]; intros f F H; cbn in *; [discriminate|].
  destruct (String.eqb_spec f g) as [->|]; [injection H as ->; now left|right; auto].
Qed.
Lemma find_plain : forall q f, find_fn (plain q) f = option_map plain_fn (find_afn q f).
Proof. induction q as [|[g G] q IH]; intros f; cbn; [reflexivity|]. destruct (String.eqb f g); [reflexivity|apply IH]. Qed.
Definition aruns (call : string -> effect) (F : afn) :=
  behaves (typed_den (areg_widths F) width_ok) (fun o => exec_op call (what o)) no_ainvoke bv_true bv_eq (acode F).
Lemma runs_plain : forall call F args m t o, runs call (plain_fn F) args m t o <-> aruns call F args m t o.
Proof.
  intros call F args m t o. exact (behaves_map what (acode F) (typed_den (areg_widths F) width_ok) (exec_op call) no_invoke bv_true bv_eq args m t o).
Qed.

Section Functions.
  Context (p : aprogram) (Hwf : awell_formed p) (all : bool) (dsa : nat -> node_info) (ptrs : list Regions.access) (ok : expected) (Hd : describes dsa ptrs ok).

  Lemma runs_exact : forall f F (call1 call2 : string -> effect), In (f, F) p ->
    (forall g vs m t v m', okU t -> call1 g vs m t v m' -> call2 g vs m t v m' \/ exists u v' m1, cutU t u /\ call2 g vs m u v' m1) ->
    forall args m t o, okU t -> aruns call1 F args m t o ->
      described_runs all ok call2 F args m t o \/
      (exists u, cutU t u /\ described_runs all ok call2 F args m u None) \/
      (exists t1 t2, t = t1 ++ t2 /\ described_undefined all ok call2 F args m t1).
  Proof.
    intros f F call1 call2 Hin Hc args m t o Ht Hr.
    set (primA := fun (q : pop) vs (m : mem) t v (m' : mem) => exec_op call1 (what q) vs m t v m' /\ okU t).
    assert (behaves (typed_den (areg_widths F) width_ok) primA no_ainvoke bv_true bv_eq (acode F) args m t o) as HA.
    { destruct Hr as (s0 & s & Hs0 & Hs & Ho). exists s0, s. split; [exact Hs0|]. split; [|exact Ho].
      refine (steps_ok _ _ primA no_ainvoke _ _ _ no_ainv okU okU_app _ s0 t s Ht Hs). intros. split; assumption. }
    destruct (behaves_R (acode F) (typed_den (areg_widths F) width_ok) (exact_den all (areg_widths F)) primA (described_op ok call2)
                no_ainvoke no_ainvoke bv_true bv_true bv_eq bv_eq eq eq eq True cutU eq) with (argsA := args) (argsB := args) (mA := m) (mB := m) (t := t) (o := o)
      as [(o' & H1 & H2)|[(u & H1 & H2)|(_ & H1)]]; auto.
    - exact eq_upd.
    - intros rA rB e v -> He. destruct (exact_den all (areg_widths F) rB e) as [w|] eqn:E; [|now right].
      left. exists w. split; [reflexivity|]. apply exact_plain in E. congruence.
    - intros l b e l1 l2 rA rB v w _ _ -> He Hx. apply exact_plain in Hx. congruence.
    - intros q vs ws mA mB t' v mA' Hvs <- [Hq Hok]. apply Forall2_eq in Hvs. subst ws.
      destruct (described_dec ok q vs) as [Hty|Hty].
      2:{ right. exists [Undefined], v, mA'. split; [apply cutU_nil|now apply D_other]. }
      assert (exec_op call2 (what q) vs mA t' v mA' \/ exists u v' m1, cutU t' u /\ exec_op call2 (what q) vs mA u v' m1) as Hx.
      { destruct Hq as [| | | | | |g vs m0 t0 v0 m0' Hg]; try (left; now constructor).
        destruct (Hc _ _ _ _ _ _ Hok Hg) as [Hg'|(u & v' & m1 & Hu & Hg')]; [left; now constructor|].
        right. exists u, v', m1. split; [exact Hu|now constructor]. }
      destruct Hx as [Hx|(u & v' & m1 & Hu & Hx)].
      + left. exists v, mA'. split; [now apply D_described|split; reflexivity].
      + right. exists u, v', m1. split; [exact Hu|now apply D_described].
    - exact cutU_app.
    - exact (low_no_switch _ (aw_lowered p Hwf f F Hin)).
    - left. apply Rres_eq in H2. now subst o'.
    - right. left. eauto.
  Qed.

  Lemma exact_runs_plain : forall f F (call1 call2 : string -> effect), In (f, F) p ->
    (forall g vs m t v m', okU t -> call1 g vs m t v m' -> call2 g vs m t v m') ->
    forall args m t o, okU t -> described_runs all ok call1 F args m t o -> aruns call2 F args m t o.
  Proof.
    intros f F call1 call2 Hin Hc args m t o Ht (s0 & s & Hs0 & Hs & Ho).
    set (primA := fun q vs m t v m' => described_op ok call1 q vs m t v m' /\ okU t).
    assert (behaves (exact_den all (areg_widths F)) primA no_ainvoke bv_true bv_eq (acode F) args m t o) as HA.
    { exists s0, s. split; [exact Hs0|]. split; [|exact Ho].
      refine (steps_ok _ _ primA no_ainvoke _ _ _ no_ainv okU okU_app _ s0 t s Ht Hs). intros. split; assumption. }
    destruct (behaves_R (acode F) (exact_den all (areg_widths F)) (typed_den (areg_widths F) width_ok) primA (fun o => exec_op call2 (what o))
                no_ainvoke no_ainvoke bv_true bv_true bv_eq bv_eq eq eq eq False (fun _ _ => False) eq) with (argsA := args) (argsB := args) (mA := m) (mB := m) (t := t) (o := o)
      as [(o' & H1 & H2)|[(u & [] & H2)|([] & H1)]]; auto.
    - exact eq_upd.
    - intros rA rB e v -> He. left. exists v. split; [|reflexivity]. eapply exact_plain; eassumption.
    - intros l b e l1 l2 rA rB v w _ _ -> He Hx. apply exact_plain in He. congruence.
    - intros q vs ws mA mB t' v mA' Hvs <- [Hq Hok]. apply Forall2_eq in Hvs. subst ws. left. exists v, mA'. split; [|split; reflexivity].
      destruct Hq as [o1 vs m1 t1 v1 m1' Hq _|o1 vs m1 v1 m1' Hq].
      + destruct Hq as [| | | | | |g vs m0 t0 v0 m0' Hg]; try now constructor. constructor. apply Hc; assumption.
      + destruct Hok. now left.
    - exact (low_no_switch _ (aw_lowered p Hwf f F Hin)).
    - apply Rres_eq in H2. now subst o'.
  Qed.

  Lemma Rreg_params : forall ps args args' r ri, Rreg r ri -> Forall2 Rw args args' ->
    Rreg (upds r (combine ps args)) (upds ri (combine ps args')).
  Proof.
    induction ps as [|x ps IH]; intros args args' r ri H Ha; [exact H|]. destruct Ha as [|v w args args' Hv Ha]; [exact H|].
    cbn. apply IH; [|exact Ha]. apply Rreg_upd; [exact H|]. now apply Rw_Rv.
  Qed.
  Lemma Rreg_empty : Rreg (fun _ => None) (fun _ => None).
  Proof. intros x v E. discriminate. Qed.
  Lemma exact_int : forall f F r ri e v, In (f, F) p -> Rreg r ri -> exact_den all (areg_widths F) r e = Some v ->
    int_den all (areg_widths F) ri e = Some (as_int v) /\ Rw v (as_int v).
  Proof.
    intros f F r ri e v Hin Hr He. unfold int_den.
    rewrite (exact_den_sub all (areg_widths F) r (decode (areg_widths F) ri) e v); [|apply Rreg_bits; [exact Hr|]|exact He].
    - split; [reflexivity|]. split; [|reflexivity]. apply exact_plain, typed_den_int in He. destruct He as (a & -> & H1 & H2).
      now apply machine_int_bv.
    - intros x n Hx. exact (aw_registers p Hwf f F x n Hin Hx).
  Qed.
  Lemma cond_int : forall f F l b e l1 l2 r v, In (f, F) p -> block_of (acode F) l = Some b -> bterm b = TCond e l1 l2 ->
    exact_den all (areg_widths F) r e = Some v -> bv_eq v bv_true = int_eq (as_int v) int_true.
  Proof.
    intros f F l b e l1 l2 r v Hin Hb Ht He. apply exact_plain, typed_den_int in He. destruct He as (a & -> & _ & _).
    rewrite (aw_conditions p Hwf f F l b e l1 l2 Hin Hb Ht). cbn. destruct a as [|[]|]; reflexivity.
  Qed.

  Context (I : interp).
  Lemma runs_int : forall f F (call : string -> effect) (icall : string -> reffect), In (f, F) p ->
    (forall g vs ws m M t v m', okU t -> Forall2 Rw vs ws -> same_regions dsa ptrs ok m M -> call g vs m t v m' ->
      (exists w M', icall g ws M t w M' /\ Rv v w /\ same_regions dsa ptrs ok m' M') \/ (exists u w M', cutF t u /\ icall g ws M u w M')) ->
    forall args args' m M t o, okU t -> Forall2 Rw args args' -> same_regions dsa ptrs ok m M -> described_runs all ok call F args m t o ->
      (exists o', behaves (int_den all (areg_widths F)) (rexec_op I dsa ptrs icall) no_rinvoke int_true int_eq (acode F) args' M t o' /\
         Rres Rw (same_regions dsa ptrs ok) o o') \/
      (exists u, cutF t u /\ behaves (int_den all (areg_widths F)) (rexec_op I dsa ptrs icall) no_rinvoke int_true int_eq (acode F) args' M u None).
  Proof.
    intros f F call icall Hin Hc args args' m M t o Ht Hargs HM (s0 & s & Hs0 & Hs & Ho).
    set (primA := fun q vs m t v m' => described_op ok call q vs m t v m' /\ okU t).
    assert (behaves (exact_den all (areg_widths F)) primA no_ainvoke bv_true bv_eq (acode F) args m t o) as HA.
    { exists s0, s. split; [exact Hs0|]. split; [|exact Ho].
      refine (steps_ok _ _ primA no_ainvoke _ _ _ no_ainv okU okU_app _ s0 t s Ht Hs). intros. split; assumption. }
    destruct (behaves_R (acode F) (exact_den all (areg_widths F)) (int_den all (areg_widths F)) primA (rexec_op I dsa ptrs icall)
                no_ainvoke no_rinvoke bv_true int_true bv_eq int_eq Rw Rv (same_regions dsa ptrs ok) False cutF Rreg)
      with (argsA := args) (argsB := args') (mA := m) (mB := M) (t := t) (o := o)
      as [H|[H|([] & H1)]]; auto.
    - exact Rreg_upd.
    - exact Rw_Rv.
    - intros rA rB e v HR He. left. exists (as_int v). exact (exact_int f F rA rB e v Hin HR He).
    - intros l b e l1 l2 rA rB v w Hb Hte HR He Hx. destruct (exact_int f F rA rB e v Hin HR He) as [E _].
      rewrite E in Hx. injection Hx as <-. eapply cond_int; eassumption.
    - intros q vs ws mA mB t' v mA' Hvs Hm [Hq Hok]. destruct Hq as [o1 vs m1 t1 v1 m1' Hq Hty|o1 vs m1 v1 m1' Hq]; [|destruct Hok; now left].
      apply (rop_to_int I dsa ptrs ok Hd (fun g vs m t v m' => call g vs m t v m' /\ okU t) icall) with (vs := vs) (m := m1); auto.
      + intros g vs' ws' m2 M2 t2 v2 m2' Hvs' Hm2 [Hg Hok2]. eapply Hc; eassumption.
      + destruct Hq; now constructor.
    - exact cutF_app.
    - exact (low_no_switch _ (aw_lowered p Hwf f F Hin)).
    - apply Rreg_params; [exact Rreg_empty|exact Hargs].
  Qed.

  Lemma int_runs : forall f F (call : string -> effect) (icall : string -> reffect), In (f, F) p ->
    (forall g vs ws m M t w M', Forall2 Rw vs ws -> same_regions dsa ptrs ok m M -> icall g ws M t w M' ->
      (exists v m', call g vs m t v m' /\ Rv v w /\ same_regions dsa ptrs ok m' M') \/
      (exists u v m', (cutU t u \/ cutF t u) /\ call g vs m u v m')) ->
    forall args args' m M t o', Forall2 Rw args args' -> same_regions dsa ptrs ok m M ->
      behaves (int_den all (areg_widths F)) (rexec_op I dsa ptrs icall) no_rinvoke int_true int_eq (acode F) args' M t o' ->
      (exists o, described_runs all ok call F args m t o /\ Rres (fun w v => Rw v w) (fun M m => same_regions dsa ptrs ok m M) o' o) \/
      (exists u, (cutU t u \/ cutF t u) /\ described_runs all ok call F args m u None) \/
      (exists t1 t2, t = t1 ++ t2 /\ described_undefined all ok call F args m t1).
  Proof.
    intros f F call icall Hin Hc args args' m M t o' Hargs HM HA.
    destruct (behaves_R (acode F) (int_den all (areg_widths F)) (exact_den all (areg_widths F)) (rexec_op I dsa ptrs icall) (described_op ok call)
                no_rinvoke no_ainvoke int_true bv_true int_eq bv_eq (fun w v => Rw v w) (fun w v => Rv v w) (fun M m => same_regions dsa ptrs ok m M)
                True (fun t u => cutU t u \/ cutF t u) (fun ri r => Rreg r ri))
      with (argsA := args') (argsB := args) (mA := M) (mB := m) (t := t) (o := o')
      as [H|[H|(_ & H1)]]; auto.
    - intros rA rB x v w. apply Rreg_upd.
    - intros v w. apply Rw_Rv.
    - intros rA rB e w HR He. destruct (exact_den all (areg_widths F) rB e) as [v|] eqn:E; [|now right].
      left. exists v. split; [reflexivity|]. destruct (exact_int f F rB rA e v Hin HR E) as [E1 E2]. rewrite He in E1. now injection E1 as ->.
    - intros l b e l1 l2 rA rB w v Hb Hte HR He Hx. destruct (exact_int f F rB rA e v Hin HR Hx) as [E _].
      rewrite E in He. injection He as <-. symmetry. eapply cond_int; eassumption.
    - intros q ws vs MA mB t' w MA' Hvs Hm Hq.
      apply (rop_from_int I dsa ptrs ok Hd call icall Hc q vs ws mB MA t' w MA'); [|exact Hm|exact Hq]. clear - Hvs. induction Hvs; constructor; auto.
    - intros t0 t1 t2 u [H|H]; [left; now apply cutU_app|right; now apply cutF_app].
    - exact (low_no_switch _ (aw_lowered p Hwf f F Hin)).
    - apply Rreg_params; [exact Rreg_empty|exact Hargs].
  Qed.
  Lemma int_undefined : forall f F (call : string -> effect) (icall : string -> reffect), In (f, F) p ->
    (forall g vs ws m M t w M', Forall2 Rw vs ws -> same_regions dsa ptrs ok m M -> icall g ws M t w M' ->
      (exists v m', call g vs m t v m' /\ Rv v w /\ same_regions dsa ptrs ok m' M') \/
      (exists u v m', (cutU t u \/ cutF t u) /\ call g vs m u v m')) ->
    forall args args' m M t, Forall2 Rw args args' -> same_regions dsa ptrs ok m M ->
      undefined_after (int_den all (areg_widths F)) (rexec_op I dsa ptrs icall) no_rinvoke int_true int_eq (acode F) args' M t ->
      (exists u, (cutU t u \/ cutF t u) /\ described_runs all ok call F args m u None) \/
      (exists t1 t2, t = t1 ++ t2 /\ described_undefined all ok call F args m t1).
  Proof.
    intros f F call icall Hin Hc args args' m M t Hargs HM HA.
    destruct (undefined_R (acode F) (int_den all (areg_widths F)) (exact_den all (areg_widths F)) (rexec_op I dsa ptrs icall) (described_op ok call)
                no_rinvoke no_ainvoke int_true bv_true int_eq bv_eq (fun w v => Rw v w) (fun w v => Rv v w) (fun M m => same_regions dsa ptrs ok m M)
                True (fun t u => cutU t u \/ cutF t u) (fun ri r => Rreg r ri))
      with (argsA := args') (argsB := args) (mA := M) (mB := m) (t := t)
      as [H|[H|(_ & H1)]]; auto.
    - intros rA rB x v w. apply Rreg_upd.
    - intros v w. apply Rw_Rv.
    - intros rA rB e w HR He. destruct (exact_den all (areg_widths F) rB e) as [v|] eqn:E; [|now right].
      left. exists v. split; [reflexivity|]. destruct (exact_int f F rB rA e v Hin HR E) as [E1 E2]. rewrite He in E1. now injection E1 as ->.
    - intros l b e l1 l2 rA rB w v Hb Hte HR He Hx. destruct (exact_int f F rB rA e v Hin HR Hx) as [E _].
      rewrite E in He. injection He as <-. symmetry. eapply cond_int; eassumption.
    - intros q ws vs MA mB t' w MA' Hvs Hm Hq.
      apply (rop_from_int I dsa ptrs ok Hd call icall Hc q vs ws mB MA t' w MA'); [|exact Hm|exact Hq]. clear - Hvs. induction Hvs; constructor; auto.
    - intros t0 t1 t2 u [H|H]; [left; now apply cutU_app|right; now apply cutF_app].
    - exact (low_no_switch _ (aw_lowered p Hwf f F Hin)).
    - intros rA rB e HR He. destruct (exact_den all (areg_widths F) rB e) as [v|] eqn:E; [|reflexivity].
      destruct (exact_int f F rB rA e v Hin HR E) as [E1 _]. congruence.
    - apply Rreg_params; [exact Rreg_empty|exact Hargs].
    - right. exists t, []. rewrite app_nil_r. auto.
  Qed.
End Functions.

(** ** Whole programs *)
Lemma Forall2_len : forall A B (R : A -> B -> Prop) l l', Forall2 R l l' -> List.length l = List.length l'.
Proof. induction 1; cbn; congruence. Qed.

Section Whole.
  Context (p : aprogram) (Hwf : awell_formed p) (all : bool) (dsa : nat -> node_info) (ptrs : list Regions.access) (ok : expected) (Hd : describes dsa ptrs ok).

  Lemma last_undefined : forall t : list event, In Undefined (t ++ [Undefined]).
  Proof. intros t. apply in_app_iff. right. now left. Qed.
  Lemma plain_exact : forall n f args m t v m', okU t -> calls (plain p) n f args m t v m' ->
    described_calls all ok p n f args m t v m' \/ exists u v' m1, cutU t u /\ described_calls all ok p n f args m u v' m1.
  Proof.
    induction n as [|n IH]; intros f args m t v m' Hu H; [destruct H|].
    destruct H as (G & Hf & Hlen & H). rewrite find_plain in Hf. destruct (find_afn p f) as [F|] eqn:Ef; [|discriminate].
    injection Hf as <-. rename Ef into Hf. pose proof (find_ain _ _ _ Hf) as Hin. change (params (code (plain_fn F))) with (params (acode F)) in Hlen.
    assert (forall o, runs (calls (plain p) n) (plain_fn F) args m t o -> described_runs all ok (described_calls all ok p n) F args m t o \/
              exists u v' m1, cutU t u /\ described_calls all ok p (S n) f args m u v' m1) as Hgo.
    { intros o Ho. apply runs_plain in Ho. destruct (runs_exact p Hwf all ok f F _ (described_calls all ok p n) Hin IH args m t o Hu Ho) as [H1|[(u & H1 & H2)|(t1 & t2 & -> & H1)]].
      - now left.
      - right. exists u, v, m'. split; [exact H1|]. exists F. split; [exact Hf|]. split; [exact Hlen|]. right. left. split; [exact H2|].
        right. destruct H1 as (a & b & _ & ->). apply last_undefined.
      - right. exists (t1 ++ [Undefined]), v, m'. split; [now exists t1, t2|]. exists F. split; [exact Hf|]. split; [exact Hlen|].
        right. right. eauto. }
    destruct H as [(r & Hr & Hv)|[[Hr Hb]|(t0 & -> & _)]].
    - destruct (Hgo _ Hr) as [H1|H1]; [|now right]. left. exists F. split; [exact Hf|]. split; [exact Hlen|]. left. eauto.
    - destruct (Hgo _ Hr) as [H1|H1]; [|now right]. left. exists F. split; [exact Hf|]. split; [exact Hlen|]. right. left. auto.
    - destruct Hu. apply last_undefined.
  Qed.
  Lemma exact_calls_plain : forall n f args m t v m', okU t -> described_calls all ok p n f args m t v m' -> calls (plain p) n f args m t v m'.
  Proof.
    induction n as [|n IH]; intros f args m t v m' Hu H; [destruct H|].
    destruct H as (F & Hf & Hlen & H). pose proof (find_ain _ _ _ Hf) as Hin.
    pose proof (exact_runs_plain p Hwf all ok f F _ (calls (plain p) n) Hin IH args m t) as Hgo.
    exists (plain_fn F). split; [now rewrite find_plain, Hf|]. split; [exact Hlen|]. destruct H as [(r & Hr & Hv)|[[Hr Hb]|(t0 & -> & _)]].
    - left. exists r. split; [apply runs_plain; auto|exact Hv].
    - right. left. split; [apply runs_plain; auto|exact Hb].
    - destruct Hu. apply last_undefined.
  Qed.
  Lemma exact_cut : forall n f args m a b v m', described_calls all ok p n f args m (a ++ Failed :: b) v m' ->
    exists v1 m1, described_calls all ok p n f args m (a ++ [Failed]) v1 m1.
  Proof.
    induction n as [|n IH]; intros f args m a b v m' H; [destruct H|].
    destruct H as (F & Hf & Hlen & H). exists v, m', F. split; [exact Hf|]. split; [exact Hlen|].
    assert (forall s0 s c d, lstart (acode F) args m = Some s0 ->
              lsteps (exact_den all (areg_widths F)) (described_op ok (described_calls all ok p n)) no_ainvoke bv_true bv_eq (acode F) s0 (c ++ Failed :: d) s ->
              described_runs all ok (described_calls all ok p n) F args m (c ++ [Failed]) None) as Hgo.
    { intros s0 s c d Hs H1.
      assert (forall q vs m1 a1 b1 v1 m2, described_op ok (described_calls all ok p n) q vs m1 (a1 ++ Failed :: b1) v1 m2 ->
                exists v3 m3, described_op ok (described_calls all ok p n) q vs m1 (a1 ++ [Failed]) v3 m3) as Hc.
      { intros q vs m1 a1 b1 v1 m2 Hq. inversion Hq as [? ? ? ? ? ? Hx Hty|]; subst.
        2:{ destruct a1 as [|[] a1]; try discriminate. match goal with E : [Undefined] = _ |- _ => injection E; intros E2; destruct a1; discriminate E2 end. }
        inversion Hx; subst;
        try (match goal with E : [] = ?l ++ _ :: _ |- _ => destruct l; discriminate E end).
        - assert (a1 = [] /\ b1 = []) as [-> ->].
          { destruct a1 as [|x a1]; cbn in *; [split; congruence|].
            match goal with E : [Failed] = _ |- _ => injection E; intros E2 _; destruct a1; discriminate E2 end. }
          exists v1, m2. apply D_described; [exact Hx|exact Hty].
        - match goal with Hc : described_calls _ _ _ n _ _ _ _ _ _ |- _ => destruct (IH _ _ _ _ _ _ _ Hc) as (v3 & m3 & H3) end.
          exists v3, m3. apply D_described; [|exact Hty]. match goal with E : Call _ = what _ |- _ => rewrite <- E end. now constructor. }
      destruct (steps_cut _ _ no_ainvoke bv_true bv_eq (acode F) no_ainv Failed Hc s0 _ s H1 c d eq_refl) as (s1 & H2 & H3).
      exists s0, s1. auto. }
    destruct H as [(r & (s0 & s & H1 & H2 & _) & _)|[[(s0 & s & H1 & H2 & _) _]|(t0 & Ht & (s0 & s & H1 & H2 & _))]].
    - right. left. split; [eapply Hgo; eassumption|]. left. apply in_app_iff. right. now left.
    - right. left. split; [eapply Hgo; eassumption|]. left. apply in_app_iff. right. now left.
    - right. left. split; [|left; apply in_app_iff; right; now left].
      destruct b as [|x b] using rev_ind.
      + assert (Failed = Undefined) by (now apply app_inj_tail in Ht). discriminate.
      + rewrite app_comm_cons, app_assoc in Ht. apply app_inj_tail in Ht. destruct Ht as [<- _]. eapply Hgo; eassumption.
  Qed.

  Context (I : interp) (ndebug : bool) (HK : bitwise_knowledge UnboundedInteger false I (bwP all)).
  Lemma translate_int : forall F f call args r0 exn m, In (f, F) p -> List.length args = List.length (params (acode F)) ->
    (forall t o, behaves (int_den all (areg_widths F)) (rexec_op I dsa ptrs call) no_rinvoke int_true int_eq (acode F) args m t o ->
       rruns I dsa ptrs ndebug call F args r0 exn m t o) /\
    (forall t o, rruns I dsa ptrs ndebug call F args r0 exn m t o ->
       behaves (int_den all (areg_widths F)) (rexec_op I dsa ptrs call) no_rinvoke int_true int_eq (acode F) args m t o \/
       exists t1 t2, t = t1 ++ t2 /\
         undefined_after (int_den all (areg_widths F)) (rexec_op I dsa ptrs call) no_rinvoke int_true int_eq (acode F) args m t1).
  Proof.
    intros F f call args r0 exn m Hin Hlen.
    exact (run_translate (int_den all (areg_widths F)) (typed_regs (areg_widths F) width_ok) (rexec_op I dsa ptrs call) no_rinvoke
             int_true int_eq (acode F) (aloops F) (aw_original p Hwf f F Hin) (aw_loops p Hwf f F Hin) (aw_ssa p Hwf f F Hin)
             (trans_default ndebug) (eval_default I) args r0 exn m (default_agree I ndebug all HK (areg_widths F))
             (aw_lowered p Hwf f F Hin) Hlen).
  Qed.

  Lemma exact_boogie : forall n f args args' m M t v m', okU t -> Forall2 Rw args args' -> same_regions dsa ptrs ok m M ->
    described_calls all ok p n f args m t v m' ->
    (exists w M', rcalls I dsa ptrs p ndebug n f args' M t w M' /\ Rv v w /\ same_regions dsa ptrs ok m' M') \/
    (exists u w M', cutF t u /\ rcalls I dsa ptrs p ndebug n f args' M u w M').
  Proof.
    induction n as [|n IH]; intros f args args' m M t v m' Hu Hargs HM H; [destruct H|].
    destruct H as (F & Hf & Hlen & H). pose proof (find_ain _ _ _ Hf) as Hin.
    assert (List.length args' = List.length (params (acode F))) as Hlen' by (rewrite <- Hlen; symmetry; eapply Forall2_len; eassumption).
    pose proof (proj1 (translate_int F f (rcalls I dsa ptrs p ndebug n) args' (fun _ => int_true) false M Hin Hlen')) as Htr.
    assert (forall u, behaves (int_den all (areg_widths F)) (rexec_op I dsa ptrs (rcalls I dsa ptrs p ndebug n)) no_rinvoke int_true int_eq (acode F) args' M u None ->
              In Failed u -> rcalls I dsa ptrs p ndebug (S n) f args' M u int_true M) as Hstop.
    { intros u Hb Hi. exists F, (fun _ => int_true), false. split; [exact Hf|]. split; [exact Hlen'|]. right. auto. }
    pose proof (runs_int p Hwf all dsa ptrs ok Hd I f F (described_calls all ok p n) (rcalls I dsa ptrs p ndebug n) Hin (fun g vs ws m M t v m' => IH g vs ws m M t v m')
                  args args' m M t) as Hgo.
    destruct H as [(r & Hr & Hv)|[[Hr Hb]|(t0 & -> & _)]].
    - destruct (Hgo _ Hu Hargs HM Hr) as [(o & H1 & H2)|(u & H1 & H2)].
      + destruct o as [[[r'|] M']|]; cbn in H2; try tauto. destruct H2 as [H2 H3].
        * left. exists (match r' with Some w => w | None => as_int v end), M'. split; [|split; [|exact H3]].
          -- exists F, (fun _ => int_true), false. split; [exact Hf|]. split; [exact Hlen'|]. left. exists r'. split; [auto|].
             destruct r'; [reflexivity|exact Logic.I].
          -- destruct r as [v0|], r' as [w|]; try contradiction; cbn in *; [subst v0; now apply Rw_Rv|intros _; reflexivity].
        * destruct r; tauto.
      + right. exists u, int_true, M. split; [exact H1|]. apply Hstop; [exact H2|]. destruct H1 as (b & _ & H1). exact H1.
    - assert (In Failed t) as Hi by (destruct Hb as [Hb|Hb]; [exact Hb|destruct (Hu Hb)]).
      destruct (Hgo _ Hu Hargs HM Hr) as [(o & H1 & H2)|(u & H1 & H2)].
      + destruct o as [[? ?]|]; [destruct H2|]. right. exists t, int_true, M. split; [exists []; rewrite app_nil_r; auto|]. now apply Hstop.
      + right. exists u, int_true, M. split; [exact H1|]. apply Hstop; [exact H2|]. destruct H1 as (b & _ & H1). exact H1.
    - destruct Hu. apply last_undefined.
  Qed.

  Lemma boogie_exact : forall n f args args' m M t w M', Forall2 Rw args args' -> same_regions dsa ptrs ok m M ->
    rcalls I dsa ptrs p ndebug n f args' M t w M' ->
    (exists v m', described_calls all ok p n f args m t v m' /\ Rv v w /\ same_regions dsa ptrs ok m' M') \/
    (exists u v m', (cutU t u \/ cutF t u) /\ described_calls all ok p n f args m u v m').
  Proof.
    induction n as [|n IH]; intros f args args' m M t w M' Hargs HM H; [destruct H|].
    destruct H as (F & r0 & exn & Hf & Hlen' & H). pose proof (find_ain _ _ _ Hf) as Hin.
    assert (List.length args = List.length (params (acode F))) as Hlen by (rewrite <- Hlen'; eapply Forall2_len; eassumption).
    assert (forall t1 t2, t = t1 ++ t2 -> described_undefined all ok (described_calls all ok p n) F args m t1 ->
              exists u v m', (cutU t u \/ cutF t u) /\ described_calls all ok p (S n) f args m u v m') as Hund.
    { intros t1 t2 -> H1. exists (t1 ++ [Undefined]), (VBool true), m. split; [left; now exists t1, t2|].
      exists F. split; [exact Hf|]. split; [exact Hlen|]. right. right. eauto. }
    assert (forall u, cutU t u \/ cutF t u -> described_runs all ok (described_calls all ok p n) F args m u None ->
              exists u v m', (cutU t u \/ cutF t u) /\ described_calls all ok p (S n) f args m u v m') as Hstop.
    { intros u Hu H1. exists u, (VBool true), m. split; [exact Hu|]. exists F. split; [exact Hf|]. split; [exact Hlen|]. right. left. split; [exact H1|].
      destruct Hu as [(a & b & _ & ->)|(b & _ & Hi)]; [right; apply last_undefined|now left]. }
    assert (forall o, rruns I dsa ptrs ndebug (rcalls I dsa ptrs p ndebug n) F args' r0 exn M t o ->
              (exists o', described_runs all ok (described_calls all ok p n) F args m t o' /\ Rres (fun w v => Rw v w) (fun M m => same_regions dsa ptrs ok m M) o o') \/
              (exists u v m', (cutU t u \/ cutF t u) /\ described_calls all ok p (S n) f args m u v m')) as Hgo.
    { intros o Ho. apply (translate_int F f (rcalls I dsa ptrs p ndebug n) args' r0 exn M Hin Hlen') in Ho. destruct Ho as [Ho|(t1 & t2 & Et & Ho)].
      - destruct (int_runs p Hwf all dsa ptrs ok Hd I f F (described_calls all ok p n) (rcalls I dsa ptrs p ndebug n) Hin IH args args' m M t o Hargs HM Ho)
          as [H1|[(u & H1 & H2)|(t1 & t2 & Et & H1)]]; [now left|right; eauto|right; eauto].
      - right. destruct (int_undefined p Hwf all dsa ptrs ok Hd I f F (described_calls all ok p n) (rcalls I dsa ptrs p ndebug n) Hin IH args args' m M t1 Hargs HM Ho)
          as [(u & H1 & H2)|(t3 & t4 & Et2 & H1)].
        + apply (Hstop u); [|exact H2]. subst t. rewrite <- (app_nil_l (t1 ++ t2)). rewrite <- (app_nil_l u).
          destruct H1 as [H1|H1]; [left; now apply cutU_app|right; now apply cutF_app].
        + subst t1. apply (Hund t3 (t4 ++ t2)); [now rewrite app_assoc|exact H1]. }
    destruct H as [(r & Hr & Hv)|[Hr Hb]].
    - destruct (Hgo _ Hr) as [(o & H1 & H2)|H1]; [|now right]. destruct o as [[[r'|] m']|]; cbn in H2; try tauto.
      + destruct H2 as [H2 H3]. left. exists (match r' with Some v => v | None => VBool true end), m'. split; [|split; [|exact H3]].
        * exists F. split; [exact Hf|]. split; [exact Hlen|]. left. exists r'. split; [exact H1|]. destruct r'; [reflexivity|exact Logic.I].
        * destruct r as [w0|], r' as [v|]; try contradiction; cbn in *; [subst w0; now apply Rw_Rv|apply Rv_any].
      + destruct r; tauto.
    - destruct (Hgo _ Hr) as [(o & H1 & H2)|H1]; [|now right]. destruct o as [[? ?]|]; [destruct H2|]. right. apply (Hstop t); [|exact H1].
      right. exists []. rewrite app_nil_r. auto.
  Qed.

  Lemma split_never : forall n f args m t v m', rcalls I dsa ptrs p ndebug n f args m t v m' -> ~ In Undefined t.
  Proof.
    induction n as [|n IH]; intros f args m t v m' H; [destruct H|].
    destruct H as (F & r0 & exn & Hf & Hlen & H).
    assert (forall o, rruns I dsa ptrs ndebug (rcalls I dsa ptrs p ndebug n) F args r0 exn m t o -> ~ In Undefined t) as Hgo.
    { intros o (s0 & s & _ & Hs & _). refine (bsteps_never _ _ _ no_rinvoke _ _ _ no_rinv Undefined _ s0 t s Hs).
      intros q vs m1 t1 v1 m2 Hq. destruct Hq; try (intros []; fail); [|eauto].
      intros [E|[]]; discriminate. }
    destruct H as [(r & Hr & _)|[Hr _]]; eauto.
  Qed.

  Context (args : list val) (Hargs : Forall machine_int args).
  Lemma args_related : Forall2 Rw args (map as_int args).
  Proof. induction Hargs as [|v vs Hv _ IH]; cbn; constructor; [split; [exact Hv|reflexivity]|exact (IH ltac:(now inversion Hargs))]. Qed.
  Lemma split_found : forall f m M, same_regions dsa ptrs ok m M -> can_fail (plain p) f args m ->
    split_can_fail I dsa ptrs p ndebug f (map as_int args) M \/ can_be_undescribed all ok p f args m.
  Proof.
    intros f m M HM (n & t & v & m' & H & Hf & Hu).
    assert (okU (t ++ [Failed])) as Hok by (unfold okU; rewrite in_app_iff; intros [Hi|[Hi|[]]]; [auto|discriminate]).
    assert ((exists v1 m1, described_calls all ok p n f args m (t ++ [Failed]) v1 m1) -> split_can_fail I dsa ptrs p ndebug f (map as_int args) M) as Hgo.
    { intros (v1 & m1 & H1). destruct (exact_boogie n f args (map as_int args) m M _ v1 m1 Hok args_related HM H1) as [(w & M' & H2 & _)|(u & w & M' & H2 & H3)].
      - exists n, (t ++ [Failed]), w, M'. split; [exact H2|]. apply in_app_iff. right. now left.
      - destruct H2 as (b & _ & Hi). exists n, u, w, M'. auto. }
    destruct (plain_exact n f args m _ v m' Hok H) as [H1|(u & v1 & m1 & (a & b & Et & ->) & H1)]; [left; eauto|].
    destruct (failed_dec a) as [Ha|Ha].
    - left. apply Hgo. apply first_failed in Ha. destruct Ha as (a1 & a2 & -> & Ha1).
      rewrite <- app_assoc in H1. cbn in H1. apply exact_cut in H1. destruct H1 as (v2 & m2 & H1).
      assert (a1 = t) as <-; [|eauto]. rewrite <- app_assoc in Et. cbn in Et. clear - Et Hf Ha1.
      revert a1 Et Ha1. induction t as [|x t IH]; intros [|y a1] Et Ha1; cbn in *; auto; try congruence.
      + injection Et as _ E. destruct a1; discriminate.
      + injection Et as -> E. destruct Hf. now left.
      + injection Et as -> E. f_equal. apply IH; auto.
    - right. exists n, a, v1, m1. split; [exact H1|]. split; [exact Ha|]. intros Hi.
      assert (In Undefined (t ++ [Failed])) by (rewrite Et; apply in_app_iff; now left). now apply Hok.
  Qed.
  Lemma split_real : forall f m M, same_regions dsa ptrs ok m M -> split_can_fail I dsa ptrs p ndebug f (map as_int args) M ->
    can_fail (plain p) f args m \/ can_be_undescribed all ok p f args m.
  Proof.
    intros f m M HM (n & t & w & M' & H & Hf). pose proof (split_never n _ _ _ _ _ _ H) as Hu.
    assert (forall a c v1 m1, described_calls all ok p n f args m (a ++ c) v1 m1 -> In Failed a -> okU a -> can_fail (plain p) f args m) as Hcut.
    { intros a c v1 m1 H1 Ha Hok. apply first_failed in Ha. destruct Ha as (a1 & a2 & -> & Ha1).
      rewrite <- app_assoc in H1. cbn in H1. apply exact_cut in H1. destruct H1 as (v2 & m2 & H1).
      assert (okU a1) as Hok1 by (intros Hi; apply Hok, in_app_iff; now left).
      exists n, a1, v2, m2. split; [|split; assumption]. apply (exact_calls_plain n); [|exact H1].
      unfold okU. rewrite in_app_iff. intros [Hi|[Hi|[]]]; [auto|discriminate]. }
    destruct (boogie_exact n f args (map as_int args) m M t w M' args_related HM H) as [(v & m' & H1 & _)|(u & v & m' & Hc & H1)].
    - left. apply (Hcut t [] v m'); [now rewrite app_nil_r|exact Hf|exact Hu].
    - destruct Hc as [(a & b & -> & ->)|(b & -> & Hi)].
      + assert (okU a) as Hok by (intros Hi; apply Hu, in_app_iff; now left).
        destruct (failed_dec a) as [Ha|Ha]; [left; eapply Hcut; eassumption|]. right. exists n, a, v, m'. auto.
      + left. apply (Hcut u [] v m'); [now rewrite app_nil_r|exact Hi|]. intros Hi2. apply Hu, in_app_iff. now left.
  Qed.
End Whole.
