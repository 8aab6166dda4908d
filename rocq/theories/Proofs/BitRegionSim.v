(** Executions of whole programs and of the Boogie programs for them, with
    bit-vectors and memory split into regions. *)
From Coq Require Import ZArith List String Bool Lia ZifyBool.
From Verif.Base Require Import ZBits.
From Verif.Spec Require Import LLVMInt IR CFG BitVectorIR ByteMemory Encodings Pointers Aliasing FlatMemory PointsTo Program DefaultMode SplitMemory SplitBits.
From Verif.Model Require Import Boogie Regions RegionVars PreludeInt SmackRepInt PreludeMem BitVectorCode ControlFlow NormalizeLoops WholeProgram DefaultMode SplitMemory SplitBits.
From Verif.Proofs Require Import Lookup PreludeCalls ExprSim ByteMem MemMain BitVectorCFG ControlMain FlatSim ProgramSim Lockstep DefaultExpr DefaultSim FlatRegions MapFunc RegionSim.
From Verif.Props Require Import RegionProps.
Import ListNotations.
Open Scope string_scope.
Open Scope list_scope.
Open Scope Z_scope.

(** ** Places *)
Section Places.
  Context (dsa : nat -> node_info) (l : list Regions.access) (ok : expected) (Hd : graph_right dsa l ok).
  Notation "'R' A" := (bit_region dsa l A) (at level 9, A at level 9).
  Definition place (a : Z) (w : Program.access) (A : Regions.access) : acc := Acc (R A) (AInt (Program.width w)) a None.
  Lemma places_separated : forall a w A a' w' A', ok a w A = true -> ok a' w' A' = true ->
    separated BitVector true 64 [place a w A; place a' w' A'].
  Proof.
    intros a w A a' w' A' H H'.
    assert (forall x, In x [seen a w A; seen a' w' A'] -> one_of ok x) as Hone.
    { intros x [<-|[<-|[]]]; [exists w|exists w']; auto. }
    refine (regions_separate true true 64 dsa l [seen a w A; seen a' w' A'] (or_intror eq_refl) (gr_pointers _ _ _ Hd) (gr_sound _ _ _ Hd _ Hone) _ BitVector _ _).
    - intros x Hx. destruct (Hone x Hx) as (u & _ & Hu). exact (gr_address _ _ _ Hd _ _ _ Hu).
    - tauto.
    - congruence.
  Qed.
  Lemma place_ok : forall a w A, ok a w A = true -> acc_ok BitVector true 64 (place a w A).
  Proof.
    intros a w A H. split; [exact (gr_address _ _ _ Hd _ _ _ H)|]. split; [intros n [= <-]; apply width_in|]. split; [discriminate|].
    split; [|discriminate]. intros _ _. split; [reflexivity|]. apply ProgramSim.width_bytes.
  Qed.
  Lemma bit_name : forall a w A, ok a w A = true -> exists i, PreludeMem.reg (R A) = memReg i.
  Proof.
    intros a w A H. pose proof (gr_sound _ _ _ Hd [seen a w A] ltac:(intros x [<-|[]]; now exists w)) as Hs.
    pose proof (pt_seen _ _ _ _ Hs _ (or_introl eq_refl)) as Hin. cbn in Hin.
    destruct (region_found true dsa l (gr_pointers _ _ _ Hd) A Hin) as (i & g & _ & _ & E & _ & Hg).
    unfold bit_region. rewrite E. cbn. eauto.
  Qed.
  Lemma holds_place : forall a w A V (m : mem), holds_bits (R A) V a w m <-> FlatSim.holds BitVector true 64 (place a w A) V (proj1_sig m).
  Proof.
    intros a w A V m. unfold holds_bits, FlatSim.holds. cbn [place a_reg a_ty a_addr]. destruct (singleton (R A)).
    - split.
      + intros (v & H1 & ->). exists (pat (Program.width w) v). split; [exists v; split; [exact H1|reflexivity]|reflexivity].
      + intros (y & (v & H1 & ->) & H2). exists v. split; [exact H1|exact H2].
    - destruct (bytewise (R A)).
      + split; intros (mm & -> & H1 & H2); exists mm; (split; [reflexivity|]); (split; [exact H1|]); exact H2.
      + split.
        * intros (mm & -> & v & H1 & H2). exists mm. split; [reflexivity|]. exists (pat (Program.width w) v).
          split; [exists v; split; [exact H1|reflexivity]|]. cbn. now rewrite H2.
        * intros (mm & -> & y & (v & H1 & ->) & H2). exists mm. split; [reflexivity|]. exists v. split; [exact H1|].
          cbn in H2. now injection H2.
  Qed.
End Places.

(** ** Loads and stores *)
Section VOps.
  Context (I : interp) (dsa : nat -> node_info) (l : list Regions.access) (ok : expected) (Hd : graph_right dsa l ok).
  Notation "'R' A" := (bit_region dsa l A) (at level 9, A at level 9).
  Notation same := (same_bits dsa l ok).
  Lemma not_bound : forall Ms a w A bs, ok a w A = true -> Forall (fun b => fst b = "p" \/ fst b = "v") bs ->
    with_memory Ms bs (PreludeMem.reg (R A)) = Some (Ms (PreludeMem.reg (R A))).
  Proof.
    intros Ms a w A bs Hok Hb. destruct (bit_name dsa l ok Hd a w A Hok) as [i ->]. unfold with_memory.
    replace (bindings bs (memReg i)) with (@None val); [reflexivity|]. unfold bindings.
    induction Hb as [|[x v] bs [E|E] _ IH]; cbn in *; [reflexivity| |]; subst x; exact IH.
  Qed.
  Lemma bits_det : forall r e v v', has_bits I r e v -> has_bits I r e v' -> v = v'.
  Proof. intros r e v v' H H'. exact (evaluates_det whole_prelude I _ _ _ _ H H'). Qed.
  Lemma load_bits_value : forall a w A (m : mem) Ms v, ok a w A = true -> same m Ms ->
    (has_bits I (with_memory Ms [("p", VBv 64 a)]) (load_bits dsa l w A) v <->
     exists x, reads_as (bytes_at a) (bytes_needed (Program.width w)) (proj1_sig m) x /\ v = VBv (Program.width w) (pat (Program.width w) x)).
  Proof.
    intros a w A m Ms v Hok HM. set (r := with_memory Ms [("p", VBv 64 a)]).
    assert (r (PreludeMem.reg (R A)) = Some (Ms (PreludeMem.reg (R A)))) as Hr
      by (eapply not_bound; [exact Hok|]; repeat constructor; now left).
    destruct (load_step BitVector true 64 (or_intror eq_refl) whole_prelude I extends_whole (place dsa l a w A) r (proj1_sig m) (EVar "p") _
                (place_ok dsa l ok Hd a w A Hok) Hr (proj1 (holds_place dsa l a w A _ m) (HM a w A Hok)) (ex_intro _ O eq_refl)) as (v1 & y & H1 & (x & H2 & ->) & H3).
    cbn in H3. subst v1. assert (forall x', reads_as (bytes_at a) (bytes_needed (Program.width w)) (proj1_sig m) x' -> x' = x) as Hu.
    { intros x' Hx'. assert (0 <= bytes_needed (Program.width w)) as Hk by (now destruct w). exact (reads_as_unique _ _ _ _ _ Hk Hx' H2). }
    split.
    - intros H. exists x. split; [exact H2|]. exact (bits_det _ _ _ _ H H1).
    - intros (x' & Hx & ->). rewrite (Hu x' Hx). exact H1.
  Qed.
  Lemma store_bits_value : forall a w A x (m : mem) Ms, ok a w A = true -> is_iN (Program.width w) x -> same m Ms ->
    exists V, has_bits I (with_memory Ms [("p", VBv 64 a); ("v", VBv (Program.width w) x)]) (snd (store_bits dsa l w A)) V /\
      forall m' : mem, written (bytes_at a) (bytes_needed (Program.width w)) x (proj1_sig m) (proj1_sig m') ->
        same m' (set_variable Ms (fst (store_bits dsa l w A)) V).
  Proof.
    intros a w A x m Ms Hok Hx HM. set (r := with_memory Ms [("p", VBv 64 a); ("v", VBv (Program.width w) x)]).
    assert (forall a' w' A', ok a' w' A' = true -> r (PreludeMem.reg (R A')) = Some (Ms (PreludeMem.reg (R A')))) as Hr
      by (intros a' w' A' H'; eapply not_bound; [exact H'|]; (constructor; [now left|]; constructor; [now right|]; constructor)).
    assert (forall a' w' A', ok a' w' A' = true -> exists V,
      has_bits I r (snd (store_bits dsa l w A)) V /\
      forall m' : mem, written (bytes_at a) (bytes_needed (Program.width w)) x (proj1_sig m) (proj1_sig m') ->
        holds_bits (R A') (set_variable Ms (fst (store_bits dsa l w A)) V (PreludeMem.reg (R A'))) a' w' m') as Hone.
    { intros a' w' A' H'.
      destruct (store_step BitVector true 64 (or_intror eq_refl) whole_prelude I extends_whole [place dsa l a w A; place dsa l a' w' A'] (place dsa l a w A) x r
                  (proj1_sig m) (EVar "p") (EVar "v") (VBv (Program.width w) x) (places_separated dsa l ok Hd a w A a' w' A' Hok H')) as (V & H1 & H2).
      - constructor; [eapply place_ok; eassumption|]. constructor; [eapply place_ok; eassumption|constructor].
      - now left.
      - intros z [<-|[<-|[]]]; cbn [place a_reg]; eexists; (split; [eapply Hr; eassumption|]); apply holds_place; now apply HM.
      - exact Hx.
      - exists O. reflexivity.
      - exists O. reflexivity.
      - reflexivity.
      - exists V. split; [exact H1|]. intros m' Hw. destruct (H2 (proj1_sig m') Hw (place dsa l a' w' A') (or_intror (or_introl eq_refl))) as (W & HW & Hh).
        apply holds_place. replace (set_variable Ms (fst (store_bits dsa l w A)) V (PreludeMem.reg (R A'))) with W; [exact Hh|].
        unfold upd_env in HW. cbn [place a_reg] in HW. unfold set_variable, store_bits. unfold store in *. cbn [fst] in *. rewrite String.eqb_sym in HW.
        destruct (String.eqb _ _); [congruence|]. rewrite (Hr a' w' A' H') in HW. congruence. }
    destruct (Hone a w A Hok) as (V & HV & _). exists V. split; [exact HV|]. intros m' Hw a' w' A' H'.
    destruct (Hone a' w' A' H') as (V' & HV' & Hh). rewrite (bits_det _ _ _ _ HV HV'). now apply Hh.
  Qed.
End VOps.

Section VSides.
  Context (I : interp) (dsa : nat -> node_info) (l : list Regions.access) (ok : expected) (Hd : graph_right dsa l ok).
  Notation same := (same_bits dsa l ok).
  Notation vexec := (vexec_op I dsa l).

  Lemma op_to_bits : forall (call : string -> effect) (vcall : string -> reffect),
    (forall f vs m M t v m', same m M -> call f vs m t v m' ->
      (exists M', vcall f vs M t v M' /\ same m' M') \/ (exists u w M', cutF t u /\ vcall f vs M u w M')) ->
    forall o vs m M t v m', same m M -> exec_op call (what o) vs m t v m' -> described ok o vs ->
      (exists M', vexec vcall o vs M t v M' /\ same m' M') \/
      (exists u w M', cutF t u /\ vexec vcall o vs M u w M').
  Proof.
    intros call vcall Hc [o A] vs m M t v m' HM H Hty. unfold described in Hty. cbn [what about] in *. destruct H; cbn in Hty.
    - left. exists M. split; [|exact HM]. constructor; [exact H|]. destruct Hty as [_ Hty]. apply (load_bits_value I dsa l ok Hd a w A m M _ Hty HM). eauto.
    - left. destruct Hty as (_ & _ & Hty). destruct (store_bits_value I dsa l ok Hd a w A x m M Hty H0 HM) as (V & HV & Hs).
      eexists. split; [econstructor; eassumption|]. now apply Hs.
    - left. exists M. split; [now constructor|exact HM].
    - left. exists M. split; [|exact HM]. constructor. apply check_value. lia.
    - left. exists M. split; [|exact HM]. apply V_assert_holds. apply check_value. lia.
    - left. exists M. split; [|exact HM]. apply V_assert_fails. now apply check_value.
    - destruct (Hc _ _ _ _ _ _ _ HM H) as [(M' & H1 & H2)|(u & w & M' & H1 & H2)].
      + left. exists M'. split; [now constructor|exact H2].
      + right. exists u, w, M'. split; [exact H1|now constructor].
  Qed.
  Lemma op_from_bits : forall (call : string -> effect) (vcall : string -> reffect),
    (forall f vs m M t w M', same m M -> vcall f vs M t w M' ->
      (exists m', call f vs m t w m' /\ same m' M') \/ (exists u v m', (cutU t u \/ cutF t u) /\ call f vs m u v m')) ->
    forall o vs m M t w M', same m M -> vexec vcall o vs M t w M' ->
      (exists m', described_op ok call o vs m t w m' /\ same m' M') \/
      (exists u v m', (cutU t u \/ cutF t u) /\ described_op ok call o vs m u v m').
  Proof.
    intros call vcall Hc o vs m M t w M' HM H.
    destruct (described_dec ok o vs) as [Hty|Hty].
    2:{ right. exists [Undefined], (VBool true), m. split; [left; apply cutU_nil|]. now apply D_other. }
    pose proof Hty as Hd0. destruct H; unfold described in Hty; cbn in Hty.
    - left. destruct Hty as [_ Hty]. apply (load_bits_value I dsa l ok Hd a w A m _ _ Hty HM) in H0. destruct H0 as (x & Hx & ->).
      exists m. split; [|exact HM]. constructor; [now constructor|exact Hd0].
    - left. destruct Hty as (_ & _ & Hty). destruct (store_bits_value I dsa l ok Hd a w A x m Ms Hty H0 HM) as (V' & HV & Hs).
      rewrite (bits_det I _ _ _ _ H1 HV). destruct (store_exists m a w x H H0) as (m2 & Hm2). exists m2.
      split; [constructor; [now constructor|exact Hd0]|]. now apply Hs.
    - left. exists m. split; [|exact HM]. constructor; [now constructor|exact Logic.I].
    - left. exists m. split; [|exact HM]. apply check_value in H. constructor; [constructor; lia|exact Hd0].
    - left. exists m. split; [|exact HM]. apply check_value in H. constructor; [apply X_assert_holds; lia|exact Hd0].
    - left. exists m. split; [|exact HM]. apply check_value in H. assert (x = 0) as -> by lia. constructor; [apply X_assert_fails|exact Hd0].
    - destruct (Hc _ _ _ _ _ _ _ HM H) as [(m2 & H1 & H2)|(u & x & m2 & H1 & H2)].
      + left. exists m2. split; [|exact H2]. constructor; [now constructor|exact Logic.I].
      + right. exists u, x, m2. split; [exact H1|]. constructor; [now constructor|exact Logic.I].
  Qed.
End VSides.

(** ** Functions *)
Section Functions.
  Context (p : aprogram) (Hwf : awell_formed p) (dsa : nat -> node_info) (ptrs : list Regions.access) (ok : expected) (Hd : graph_right dsa ptrs ok).
  Notation den F := (typed_den (areg_widths F) width_ok).
  Notation same := (same_bits dsa ptrs ok).

  Lemma runs_graph : forall f F (call1 call2 : string -> effect), In (f, F) p ->
    (forall g vs m t v m', okU t -> call1 g vs m t v m' -> call2 g vs m t v m' \/ exists u v' m1, cutU t u /\ call2 g vs m u v' m1) ->
    forall args m t o, okU t -> aruns call1 F args m t o ->
      graph_runs ok call2 F args m t o \/ (exists u, cutU t u /\ graph_runs ok call2 F args m u None).
  Proof.
    intros f F call1 call2 Hin Hc args m t o Ht Hr.
    set (primA := fun (q : pop) vs (m : mem) t v (m' : mem) => exec_op call1 (what q) vs m t v m' /\ okU t).
    assert (behaves (den F) primA no_ainvoke bv_true bv_eq (acode F) args m t o) as HA.
    { destruct Hr as (s0 & s & Hs0 & Hs & Ho). exists s0, s. split; [exact Hs0|]. split; [|exact Ho].
      refine (steps_ok _ _ primA no_ainvoke _ _ _ no_ainv okU okU_app _ s0 t s Ht Hs). intros. split; assumption. }
    destruct (behaves_R (acode F) (den F) (den F) primA (described_op ok call2)
                no_ainvoke no_ainvoke bv_true bv_true bv_eq bv_eq eq eq eq False cutU eq) with (argsA := args) (argsB := args) (mA := m) (mB := m) (t := t) (o := o)
      as [(o' & H1 & H2)|[(u & H1 & H2)|([] & H1)]]; auto.
    - exact eq_upd.
    - intros rA rB e v -> He. left. exists v. auto.
    - intros l b e l1 l2 rA rB v w _ _ -> He Hx. congruence.
    - intros q vs ws mA mB t' v mA' Hvs <- [Hq Hok]. apply Forall2_eq in Hvs. subst ws.
      destruct (described_dec ok q vs) as [Hty|Hty].
      2:{ right. exists [Undefined], v, mA'. split; [apply cutU_nil|now apply D_other]. }
      assert (exec_op call2 (what q) vs mA t' v mA' \/ exists u v' m1, cutU t' u /\ exec_op call2 (what q) vs mA u v' m1) as Hx.
      { destruct Hq as [| | | | | |g vs m0 t0 v0 m0' Hg]; try (left; now constructor).
        destruct (Hc _ _ _ _ _ _ Hok Hg) as [Hg'|(u & v' & m1 & Hu & Hg')]; [left; now constructor|].
        right. exists u, v', m1. split; [exact Hu|now constructor]. }
      destruct Hx as [Hx|(u & v' & m1 & Hu & Hx)].
      + left. exists v, mA'. split; [now apply D_described|split; reflexivity].
      + right. exists u, v', m1. split; [exact Hu|now apply D_described].
    - exact cutU_app.
    - exact (low_no_switch _ (aw_lowered p Hwf f F Hin)).
    - left. apply Rres_eq in H2. now subst o'.
    - right. eauto.
  Qed.
  Lemma graph_runs_plain : forall f F (call1 call2 : string -> effect), In (f, F) p ->
    (forall g vs m t v m', okU t -> call1 g vs m t v m' -> call2 g vs m t v m') ->
    forall args m t o, okU t -> graph_runs ok call1 F args m t o -> aruns call2 F args m t o.
  Proof.
    intros f F call1 call2 Hin Hc args m t o Ht (s0 & s & Hs0 & Hs & Ho).
    exists s0, s. split; [exact Hs0|]. split; [|exact Ho].
    refine (steps_ok _ _ _ no_ainvoke _ _ _ no_ainv okU okU_app _ s0 t s Ht Hs).
    intros q vs mA t' v mA' Hok Hq. destruct Hq as [o1 vs m1 t1 v1 m1' Hq _|o1 vs m1 v1 m1' Hq].
    - destruct Hq as [| | | | | |g vs m0 t0 v0 m0' Hg]; try now constructor. constructor. apply Hc; assumption.
    - destruct Hok. now left.
  Qed.

  Context (I : interp).
  Lemma graph_to_bits : forall f F (call : string -> effect) (vcall : string -> reffect), In (f, F) p ->
    (forall g vs m M t v m', okU t -> same m M -> call g vs m t v m' ->
      (exists M', vcall g vs M t v M' /\ same m' M') \/ (exists u w M', cutF t u /\ vcall g vs M u w M')) ->
    forall args m M t o, okU t -> same m M -> graph_runs ok call F args m t o ->
      (exists o', behaves (den F) (vexec_op I dsa ptrs vcall) no_rinvoke bv_true bv_eq (acode F) args M t o' /\ Rres eq same o o') \/
      (exists u, cutF t u /\ behaves (den F) (vexec_op I dsa ptrs vcall) no_rinvoke bv_true bv_eq (acode F) args M u None).
  Proof.
    intros f F call vcall Hin Hc args m M t o Ht HM (s0 & s & Hs0 & Hs & Ho).
    set (primA := fun q vs m t v m' => described_op ok call q vs m t v m' /\ okU t).
    assert (behaves (den F) primA no_ainvoke bv_true bv_eq (acode F) args m t o) as HA.
    { exists s0, s. split; [exact Hs0|]. split; [|exact Ho].
      refine (steps_ok _ _ primA no_ainvoke _ _ _ no_ainv okU okU_app _ s0 t s Ht Hs). intros. split; assumption. }
    destruct (behaves_R (acode F) (den F) (den F) primA (vexec_op I dsa ptrs vcall)
                no_ainvoke no_rinvoke bv_true bv_true bv_eq bv_eq eq eq same False cutF eq)
      with (argsA := args) (argsB := args) (mA := m) (mB := M) (t := t) (o := o)
      as [H|[H|([] & H1)]]; auto.
    - exact eq_upd.
    - intros rA rB e v -> He. left. exists v. auto.
    - intros l b e l1 l2 rA rB v w _ _ -> He Hx. congruence.
    - intros q vs ws mA mB t' v mA' Hvs Hm [Hq Hok]. apply Forall2_eq in Hvs. subst ws.
      destruct Hq as [o1 vs m1 t1 v1 m1' Hq Hty|o1 vs m1 v1 m1' Hq]; [|destruct Hok; now left].
      destruct (op_to_bits I dsa ptrs ok Hd (fun g vs m t v m' => call g vs m t v m' /\ okU t) vcall) with (o := o1) (vs := vs) (m := m1) (M := mB) (t := t1) (v := v1) (m' := m1')
        as [(M' & H1 & H2)|H1]; auto.
      + intros g vs' m2 M2 t2 v2 m2' Hm2 [Hg Hok2]. eapply Hc; eassumption.
      + destruct Hq; now constructor.
      + left. exists v1, M'. auto.
    - exact cutF_app.
    - exact (low_no_switch _ (aw_lowered p Hwf f F Hin)).
  Qed.
  Lemma bits_to_graph : forall f F (call : string -> effect) (vcall : string -> reffect), In (f, F) p ->
    (forall g vs m M t w M', same m M -> vcall g vs M t w M' ->
      (exists m', call g vs m t w m' /\ same m' M') \/ (exists u v m', (cutU t u \/ cutF t u) /\ call g vs m u v m')) ->
    forall args m M t o', same m M -> behaves (den F) (vexec_op I dsa ptrs vcall) no_rinvoke bv_true bv_eq (acode F) args M t o' ->
      (exists o, graph_runs ok call F args m t o /\ Rres eq (fun M m => same m M) o' o) \/
      (exists u, (cutU t u \/ cutF t u) /\ graph_runs ok call F args m u None).
  Proof.
    intros f F call vcall Hin Hc args m M t o' HM HA.
    destruct (behaves_R (acode F) (den F) (den F) (vexec_op I dsa ptrs vcall) (described_op ok call)
                no_rinvoke no_ainvoke bv_true bv_true bv_eq bv_eq eq eq (fun M m => same m M) False (fun t u => cutU t u \/ cutF t u) eq)
      with (argsA := args) (argsB := args) (mA := M) (mB := m) (t := t) (o := o')
      as [H|[H|([] & H1)]]; auto.
    - exact eq_upd.
    - intros rA rB e v -> He. left. exists v. auto.
    - intros l b e l1 l2 rA rB v w _ _ -> He Hx. congruence.
    - intros q ws vs MA mB t' w MA' Hvs Hm Hq. apply Forall2_eq in Hvs. subst ws.
      destruct (op_from_bits I dsa ptrs ok Hd call vcall Hc q vs mB MA t' w MA' Hm Hq) as [(m' & H1 & H2)|H1]; [left; exists w, m'; auto|now right].
    - intros t0 t1 t2 u [H|H]; [left; now apply cutU_app|right; now apply cutF_app].
    - exact (low_no_switch _ (aw_lowered p Hwf f F Hin)).
  Qed.
  Lemma bits_undefined : forall f F (call : string -> effect) (vcall : string -> reffect), In (f, F) p ->
    (forall g vs m M t w M', same m M -> vcall g vs M t w M' ->
      (exists m', call g vs m t w m' /\ same m' M') \/ (exists u v m', (cutU t u \/ cutF t u) /\ call g vs m u v m')) ->
    forall args m M t, same m M -> undefined_after (den F) (vexec_op I dsa ptrs vcall) no_rinvoke bv_true bv_eq (acode F) args M t ->
      graph_undefined ok call F args m t \/ (exists u, (cutU t u \/ cutF t u) /\ graph_runs ok call F args m u None).
  Proof.
    intros f F call vcall Hin Hc args m M t HM HA.
    destruct (undefined_R (acode F) (den F) (den F) (vexec_op I dsa ptrs vcall) (described_op ok call)
                no_rinvoke no_ainvoke bv_true bv_true bv_eq bv_eq eq eq (fun M m => same m M) False (fun t u => cutU t u \/ cutF t u) eq)
      with (argsA := args) (argsB := args) (mA := M) (mB := m) (t := t)
      as [H|[H|([] & H1)]]; auto.
    - exact eq_upd.
    - intros rA rB e v -> He. left. exists v. auto.
    - intros l b e l1 l2 rA rB v w _ _ -> He Hx. congruence.
    - intros q ws vs MA mB t' w MA' Hvs Hm Hq. apply Forall2_eq in Hvs. subst ws.
      destruct (op_from_bits I dsa ptrs ok Hd call vcall Hc q vs mB MA t' w MA' Hm Hq) as [(m' & H1 & H2)|H1]; [left; exists w, m'; auto|now right].
    - intros t0 t1 t2 u [H|H]; [left; now apply cutU_app|right; now apply cutF_app].
    - exact (low_no_switch _ (aw_lowered p Hwf f F Hin)).
    - intros rA rB e -> He. exact He.
  Qed.
End Functions.

(** ** Whole programs *)
Section Whole.
  Context (p : aprogram) (Hwf : awell_formed p) (dsa : nat -> node_info) (ptrs : list Regions.access) (ok : expected) (Hd : graph_right dsa ptrs ok).
  Notation same := (same_bits dsa ptrs ok).
  Lemma plain_graph : forall ub n f args m t v m', okU t -> calls (plain p) n f args m t v m' ->
    graph_calls ub ok p n f args m t v m' \/ exists u v' m1, cutU t u /\ graph_calls ub ok p n f args m u v' m1.
  Proof.
    intros ub. induction n as [|n IH]; intros f args m t v m' Hu H; [destruct H|].
    destruct H as (G & Hf & Hlen & H). rewrite find_plain in Hf. destruct (find_afn p f) as [F|] eqn:Ef; [|discriminate].
    injection Hf as <-. rename Ef into Hf. pose proof (find_ain _ _ _ Hf) as Hin. change (params (code (plain_fn F))) with (params (acode F)) in Hlen.
    assert (forall o, runs (calls (plain p) n) (plain_fn F) args m t o -> graph_runs ok (graph_calls ub ok p n) F args m t o \/
              exists u v' m1, cutU t u /\ graph_calls ub ok p (S n) f args m u v' m1) as Hgo.
    { intros o Ho. apply runs_plain in Ho. destruct (runs_graph p Hwf ok f F _ (graph_calls ub ok p n) Hin IH args m t o Hu Ho) as [H1|(u & H1 & H2)].
      - now left.
      - right. exists u, v, m'. split; [exact H1|]. exists F. split; [exact Hf|]. split; [exact Hlen|]. right. left. split; [exact H2|].
        right. destruct H1 as (a & b & _ & ->). apply last_undefined. }
    destruct H as [(r & Hr & Hv)|[[Hr Hb]|(t0 & -> & _)]].
    - destruct (Hgo _ Hr) as [H1|H1]; [|now right]. left. exists F. split; [exact Hf|]. split; [exact Hlen|]. left. eauto.
    - destruct (Hgo _ Hr) as [H1|H1]; [|now right]. left. exists F. split; [exact Hf|]. split; [exact Hlen|]. right. left. auto.
    - destruct Hu. apply last_undefined.
  Qed.
  Lemma graph_calls_plain : forall ub n f args m t v m', okU t -> graph_calls ub ok p n f args m t v m' -> calls (plain p) n f args m t v m'.
  Proof.
    intros ub. induction n as [|n IH]; intros f args m t v m' Hu H; [destruct H|].
    destruct H as (F & Hf & Hlen & H). pose proof (find_ain _ _ _ Hf) as Hin.
    pose proof (graph_runs_plain p ok f F _ (calls (plain p) n) Hin IH args m t) as Hgo.
    exists (plain_fn F). split; [now rewrite find_plain, Hf|]. split; [exact Hlen|]. destruct H as [(r & Hr & Hv)|[[Hr Hb]|(_ & t0 & -> & _)]].
    - left. exists r. split; [apply runs_plain; auto|exact Hv].
    - right. left. split; [apply runs_plain; auto|exact Hb].
    - destruct Hu. apply last_undefined.
  Qed.
  Lemma graph_cut : forall ub n f args m a b v m', graph_calls ub ok p n f args m (a ++ Failed :: b) v m' ->
    exists v1 m1, graph_calls ub ok p n f args m (a ++ [Failed]) v1 m1.
  Proof.
    intros ub. induction n as [|n IH]; intros f args m a b v m' H; [destruct H|].
    destruct H as (F & Hf & Hlen & H). exists v, m', F. split; [exact Hf|]. split; [exact Hlen|].
    assert (forall s0 s c d, lstart (acode F) args m = Some s0 ->
              lsteps (typed_den (areg_widths F) width_ok) (described_op ok (graph_calls ub ok p n)) no_ainvoke bv_true bv_eq (acode F) s0 (c ++ Failed :: d) s ->
              graph_runs ok (graph_calls ub ok p n) F args m (c ++ [Failed]) None) as Hgo.
    { intros s0 s c d Hs H1.
      assert (forall q vs m1 a1 b1 v1 m2, described_op ok (graph_calls ub ok p n) q vs m1 (a1 ++ Failed :: b1) v1 m2 ->
                exists v3 m3, described_op ok (graph_calls ub ok p n) q vs m1 (a1 ++ [Failed]) v3 m3) as Hc.
      { intros q vs m1 a1 b1 v1 m2 Hq. inversion Hq as [? ? ? ? ? ? Hx Hty|]; subst.
        2:{ destruct a1 as [|[] a1]; try discriminate. match goal with E : [Undefined] = _ |- _ => injection E; intros E2; destruct a1; discriminate E2 end. }
        inversion Hx; subst;
        try (match goal with E : [] = ?l ++ _ :: _ |- _ => destruct l; discriminate E end).
        - assert (a1 = [] /\ b1 = []) as [-> ->].
          { destruct a1 as [|x a1]; cbn in *; [split; congruence|].
            match goal with E : [Failed] = _ |- _ => injection E; intros E2 _; destruct a1; discriminate E2 end. }
          exists v1, m2. apply D_described; [exact Hx|exact Hty].
        - match goal with Hc : graph_calls _ _ _ n _ _ _ _ _ _ |- _ => destruct (IH _ _ _ _ _ _ _ Hc) as (v3 & m3 & H3) end.
          exists v3, m3. apply D_described; [|exact Hty]. match goal with E : Call _ = what _ |- _ => rewrite <- E end. now constructor. }
      destruct (steps_cut _ _ no_ainvoke bv_true bv_eq (acode F) no_ainv Failed Hc s0 _ s H1 c d eq_refl) as (s1 & H2 & H3).
      exists s0, s1. auto. }
    destruct H as [(r & (s0 & s & H1 & H2 & _) & _)|[[(s0 & s & H1 & H2 & _) _]|(_ & t0 & Ht & (s0 & s & H1 & H2 & _))]].
    - right. left. split; [eapply Hgo; eassumption|]. left. apply in_app_iff. right. now left.
    - right. left. split; [eapply Hgo; eassumption|]. left. apply in_app_iff. right. now left.
    - right. left. split; [|left; apply in_app_iff; right; now left].
      destruct b as [|x b] using rev_ind.
      + assert (Failed = Undefined) by (now apply app_inj_tail in Ht). discriminate.
      + rewrite app_comm_cons, app_assoc in Ht. apply app_inj_tail in Ht. destruct Ht as [<- _]. eapply Hgo; eassumption.
  Qed.

  Context (I : interp) (ndebug : bool).
  Lemma translate_bits : forall F f call args r0 exn m, In (f, F) p -> List.length args = List.length (params (acode F)) ->
    (forall t o, behaves (typed_den (areg_widths F) width_ok) (vexec_op I dsa ptrs call) no_rinvoke bv_true bv_eq (acode F) args m t o ->
       vruns I dsa ptrs ndebug call F args r0 exn m t o) /\
    (forall t o, vruns I dsa ptrs ndebug call F args r0 exn m t o ->
       behaves (typed_den (areg_widths F) width_ok) (vexec_op I dsa ptrs call) no_rinvoke bv_true bv_eq (acode F) args m t o \/
       exists t1 t2, t = t1 ++ t2 /\
         undefined_after (typed_den (areg_widths F) width_ok) (vexec_op I dsa ptrs call) no_rinvoke bv_true bv_eq (acode F) args m t1).
  Proof.
    intros F f call args r0 exn m Hin Hlen.
    exact (run_translate (typed_den (areg_widths F) width_ok) (typed_regs (areg_widths F) width_ok) (vexec_op I dsa ptrs call) no_rinvoke
             bv_true bv_eq (acode F) (aloops F) (aw_original p Hwf f F Hin) (aw_loops p Hwf f F Hin) (aw_ssa p Hwf f F Hin)
             (trans_typed true ndebug) (eval_emitted true I) args r0 exn m (typed_sim true ndebug I (areg_widths F))
             (aw_lowered p Hwf f F Hin) Hlen).
  Qed.

  Lemma graph_boogie : forall ub n f args m M t v m', okU t -> same m M -> graph_calls ub ok p n f args m t v m' ->
    (exists M', vcalls I dsa ptrs p ndebug n f args M t v M' /\ same m' M') \/
    (exists u w M', cutF t u /\ vcalls I dsa ptrs p ndebug n f args M u w M').
  Proof.
    intros ub. induction n as [|n IH]; intros f args m M t v m' Hu HM H; [destruct H|].
    destruct H as (F & Hf & Hlen & H). pose proof (find_ain _ _ _ Hf) as Hin.
    pose proof (proj1 (translate_bits F f (vcalls I dsa ptrs p ndebug n) args (fun _ => bv_true) false M Hin Hlen)) as Htr.
    assert (forall u, behaves (typed_den (areg_widths F) width_ok) (vexec_op I dsa ptrs (vcalls I dsa ptrs p ndebug n)) no_rinvoke bv_true bv_eq (acode F) args M u None ->
              In Failed u -> vcalls I dsa ptrs p ndebug (S n) f args M u bv_true M) as Hstop.
    { intros u Hb Hi. exists F, (fun _ => bv_true), false. split; [exact Hf|]. split; [exact Hlen|]. right. auto. }
    pose proof (graph_to_bits p Hwf dsa ptrs ok Hd I f F (graph_calls ub ok p n) (vcalls I dsa ptrs p ndebug n) Hin (fun g vs m M t v m' => IH g vs m M t v m')
                  args m M t) as Hgo.
    destruct H as [(r & Hr & Hv)|[[Hr Hb]|(_ & t0 & -> & _)]].
    - destruct (Hgo _ Hu HM Hr) as [(o & H1 & H2)|(u & H1 & H2)].
      + destruct o as [[[r'|] M']|]; cbn in H2; try tauto.
        * destruct H2 as [H2 H3]. assert (r' = r) as -> by (destruct r, r'; cbn in H2; try contradiction; congruence).
          left. exists M'. split; [|exact H3]. exists F, (fun _ => bv_true), false. split; [exact Hf|]. split; [exact Hlen|]. left. exists r. auto.
        * destruct r; tauto.
      + right. exists u, bv_true, M. split; [exact H1|]. apply Hstop; [exact H2|]. destruct H1 as (b & _ & H1). exact H1.
    - assert (In Failed t) as Hi by (destruct Hb as [Hb|Hb]; [exact Hb|destruct (Hu Hb)]).
      destruct (Hgo _ Hu HM Hr) as [(o & H1 & H2)|(u & H1 & H2)].
      + destruct o as [[? ?]|]; [destruct H2|]. right. exists t, bv_true, M. split; [exists []; rewrite app_nil_r; auto|]. now apply Hstop.
      + right. exists u, bv_true, M. split; [exact H1|]. apply Hstop; [exact H2|]. destruct H1 as (b & _ & H1). exact H1.
    - destruct Hu. apply last_undefined.
  Qed.

  Lemma boogie_graph : forall n f args m M t w M', same m M -> vcalls I dsa ptrs p ndebug n f args M t w M' ->
    (exists m', graph_calls true ok p n f args m t w m' /\ same m' M') \/
    (exists u v m', (cutU t u \/ cutF t u) /\ graph_calls true ok p n f args m u v m').
  Proof.
    induction n as [|n IH]; intros f args m M t w M' HM H; [destruct H|].
    destruct H as (F & r0 & exn & Hf & Hlen & H). pose proof (find_ain _ _ _ Hf) as Hin.
    assert (forall t1 t2, t = t1 ++ t2 -> graph_undefined ok (graph_calls true ok p n) F args m t1 ->
              exists u v m', (cutU t u \/ cutF t u) /\ graph_calls true ok p (S n) f args m u v m') as Hund.
    { intros t1 t2 -> H1. exists (t1 ++ [Undefined]), (VBool true), m. split; [left; now exists t1, t2|].
      exists F. split; [exact Hf|]. split; [exact Hlen|]. right. right. split; [reflexivity|]. eauto. }
    assert (forall u, cutU t u \/ cutF t u -> graph_runs ok (graph_calls true ok p n) F args m u None ->
              exists u v m', (cutU t u \/ cutF t u) /\ graph_calls true ok p (S n) f args m u v m') as Hstop.
    { intros u Hu H1. exists u, (VBool true), m. split; [exact Hu|]. exists F. split; [exact Hf|]. split; [exact Hlen|]. right. left. split; [exact H1|].
      destruct Hu as [(a & b & _ & ->)|(b & _ & Hi)]; [right; apply last_undefined|now left]. }
    assert (forall o, vruns I dsa ptrs ndebug (vcalls I dsa ptrs p ndebug n) F args r0 exn M t o ->
              (exists o', graph_runs ok (graph_calls true ok p n) F args m t o' /\ Rres eq (fun M m => same m M) o o') \/
              (exists u v m', (cutU t u \/ cutF t u) /\ graph_calls true ok p (S n) f args m u v m')) as Hgo.
    { intros o Ho. apply (translate_bits F f (vcalls I dsa ptrs p ndebug n) args r0 exn M Hin Hlen) in Ho. destruct Ho as [Ho|(t1 & t2 & Et & Ho)].
      - destruct (bits_to_graph p Hwf dsa ptrs ok Hd I f F (graph_calls true ok p n) (vcalls I dsa ptrs p ndebug n) Hin IH args m M t o HM Ho)
          as [H1|(u & H1 & H2)]; [now left|right; eauto].
      - right. destruct (bits_undefined p Hwf dsa ptrs ok Hd I f F (graph_calls true ok p n) (vcalls I dsa ptrs p ndebug n) Hin IH args m M t1 HM Ho)
          as [H1|(u & H1 & H2)]; [eauto|].
        apply (Hstop u); [|exact H2]. subst t. rewrite <- (app_nil_l (t1 ++ t2)). rewrite <- (app_nil_l u).
        destruct H1 as [H1|H1]; [left; now apply cutU_app|right; now apply cutF_app]. }
    destruct H as [(r & Hr & Hv)|[Hr Hb]].
    - destruct (Hgo _ Hr) as [(o & H1 & H2)|H1]; [|now right]. destruct o as [[[r'|] m']|]; cbn in H2; try tauto.
      + destruct H2 as [H2 H3]. assert (r' = r) as -> by (destruct r, r'; cbn in H2; try contradiction; congruence).
        left. exists m'. split; [|exact H3]. exists F. split; [exact Hf|]. split; [exact Hlen|]. left. exists r. auto.
      + destruct r; tauto.
    - destruct (Hgo _ Hr) as [(o & H1 & H2)|H1]; [|now right]. destruct o as [[? ?]|]; [destruct H2|]. right. apply (Hstop t); [|exact H1].
      right. exists []. rewrite app_nil_r. auto.
  Qed.

  Lemma bits_never : forall n f args m t v m', vcalls I dsa ptrs p ndebug n f args m t v m' -> ~ In Undefined t.
  Proof.
    induction n as [|n IH]; intros f args m t v m' H; [destruct H|].
    destruct H as (F & r0 & exn & Hf & Hlen & H).
    assert (forall o, vruns I dsa ptrs ndebug (vcalls I dsa ptrs p ndebug n) F args r0 exn m t o -> ~ In Undefined t) as Hgo.
    { intros o (s0 & s & _ & Hs & _). refine (bsteps_never _ _ _ no_rinvoke _ _ _ no_rinv Undefined _ s0 t s Hs).
      intros q vs m1 t1 v1 m2 Hq. destruct Hq; try (intros []; fail); [|eauto].
      intros [E|[]]; discriminate. }
    destruct H as [(r & Hr & _)|[Hr _]]; eauto.
  Qed.

  Lemma bits_found : forall ub f args m M, same m M -> can_fail (plain p) f args m ->
    split_bits_can_fail I dsa ptrs p ndebug f args M \/ can_leave_graph ub ok p f args m.
  Proof.
    intros ub f args m M HM (n & t & v & m' & H & Hf & Hu).
    assert (okU (t ++ [Failed])) as Hok by (unfold okU; rewrite in_app_iff; intros [Hi|[Hi|[]]]; [auto|discriminate]).
    assert ((exists v1 m1, graph_calls ub ok p n f args m (t ++ [Failed]) v1 m1) -> split_bits_can_fail I dsa ptrs p ndebug f args M) as Hgo.
    { intros (v1 & m1 & H1). destruct (graph_boogie ub n f args m M _ v1 m1 Hok HM H1) as [(M' & H2 & _)|(u & w & M' & H2 & H3)].
      - exists n, (t ++ [Failed]), v1, M'. split; [exact H2|]. apply in_app_iff. right. now left.
      - destruct H2 as (b & _ & Hi). exists n, u, w, M'. auto. }
    destruct (plain_graph ub n f args m _ v m' Hok H) as [H1|(u & v1 & m1 & (a & b & Et & ->) & H1)]; [left; eauto|].
    destruct (failed_dec a) as [Ha|Ha].
    - left. apply Hgo. apply first_failed in Ha. destruct Ha as (a1 & a2 & -> & Ha1).
      rewrite <- app_assoc in H1. cbn in H1. apply graph_cut in H1. destruct H1 as (v2 & m2 & H1).
      assert (a1 = t) as <-; [|eauto]. rewrite <- app_assoc in Et. cbn in Et. clear - Et Hf Ha1.
      revert a1 Et Ha1. induction t as [|x t IH]; intros [|y a1] Et Ha1; cbn in *; auto; try congruence.
      + injection Et as _ E. destruct a1; discriminate.
      + injection Et as -> E. destruct Hf. now left.
      + injection Et as -> E. f_equal. apply IH; auto.
    - right. exists n, a, v1, m1. split; [exact H1|]. split; [exact Ha|]. intros Hi.
      assert (In Undefined (t ++ [Failed])) by (rewrite Et; apply in_app_iff; now left). now apply Hok.
  Qed.
  Lemma bits_real : forall f args m M, same m M -> split_bits_can_fail I dsa ptrs p ndebug f args M ->
    can_fail (plain p) f args m \/ can_leave_graph true ok p f args m.
  Proof.
    intros f args m M HM (n & t & w & M' & H & Hf). pose proof (bits_never n _ _ _ _ _ _ H) as Hu.
    assert (forall a c v1 m1, graph_calls true ok p n f args m (a ++ c) v1 m1 -> In Failed a -> okU a -> can_fail (plain p) f args m) as Hcut.
    { intros a c v1 m1 H1 Ha Hok. apply first_failed in Ha. destruct Ha as (a1 & a2 & -> & Ha1).
      rewrite <- app_assoc in H1. cbn in H1. apply graph_cut in H1. destruct H1 as (v2 & m2 & H1).
      assert (okU a1) as Hok1 by (intros Hi; apply Hok, in_app_iff; now left).
      exists n, a1, v2, m2. split; [|split; assumption]. apply (graph_calls_plain true n); [|exact H1].
      unfold okU. rewrite in_app_iff. intros [Hi|[Hi|[]]]; [auto|discriminate]. }
    destruct (boogie_graph n f args m M t w M' HM H) as [(m' & H1 & _)|(u & v & m' & Hc & H1)].
    - left. apply (Hcut t [] w m'); [now rewrite app_nil_r|exact Hf|exact Hu].
    - destruct Hc as [(a & b & -> & ->)|(b & -> & Hi)].
      + assert (okU a) as Hok by (intros Hi; apply Hu, in_app_iff; now left).
        destruct (failed_dec a) as [Ha|Ha]; [left; eapply Hcut; eassumption|]. right. exists n, a, v, m'. auto.
      + left. apply (Hcut u [] v m'); [now rewrite app_nil_r|exact Hi|]. intros Hi2. apply Hu, in_app_iff. now left.
  Qed.
End Whole.
