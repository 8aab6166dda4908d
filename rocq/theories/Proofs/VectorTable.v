(** The table of auxiliary declarations: every declaration an instruction adds is in
    it, and nothing else. *)
From Coq Require Import ZArith List String Bool Lia.
From Verif.Spec Require Import LLVMInt IR Encodings VectorOps VectorEnc.
From Verif.Model Require Import Boogie PreludeInt SmackRepInt Vectors VectorSem.
Import ListNotations.
Open Scope list_scope.
Open Scope Z_scope.

Lemma intType_inj : forall O a b, intType O a = intType O b -> a = b.
Proof. intros O a b H. unfold intType in H. destruct (bitPrecise O); congruence. Qed.

Section Table.
  Context (O : opts).
  Inductive shape : decl -> Prop :=
  | sh_type n t : shape (DType n t)
  | sh_mk n t : shape (DMk n t)
  | sh_bin op n w : shape (DFun (binary O op n w))
  | sh_cmp p n w : shape (DFun (cmp O p n w))
  | sh_cast c s d : shape (DFun (castFn c s d))
  | sh_inv c s d : shape (inverseAxiom c s d)
  | sh_shuf n w mask F : shuffle O n w (List.length mask) mask = Some F -> shape (DFun F)
  | sh_ins n w iw : shape (DFun (fst (insert O n w iw)))
  | sh_insax n w iw d : In d (snd (insert O n w iw)) -> shape d
  | sh_ext n w iw : shape (DFun (fst (extract O n w iw)))
  | sh_extax n w iw d : In d (snd (extract O n w iw)) -> shape d.

  Lemma shape_key : forall d1 d2, shape d1 -> shape d2 -> decl_key d1 = decl_key d2 -> d1 = d2.
  Proof.
    assert (forall n w iw d, In d (snd (insert O n w iw)) -> exists i, (i < n)%nat /\ d = DAxiom (VName OInsert [Vec n (intType O w); Sc (intType O iw)]) (AtIndex i) [("v"%string, Vec n (intType O w)); ("x"%string, Sc (intType O w))]
       (XFun (VName OInsert [Vec n (intType O w); Sc (intType O iw)]) [XVar "v"; XVar "x"; XInt (Z.of_nat i)])
       (XMk n (intType O w) (map (fun j => if (i =? j)%nat then XVar "x" else XSel n (intType O w) j (XVar "v")) (seq 0 n)))) as HI.
    { intros n w iw d H. cbn in H. apply in_map_iff in H as (i & <- & Hi). exists i. apply in_seq in Hi. split; [lia|reflexivity]. }
    assert (forall n w iw d, In d (snd (extract O n w iw)) -> exists i, (i < n)%nat /\ d = DAxiom (VName OExtract [Vec n (intType O w); Sc (intType O iw)]) (AtIndex i) [("v"%string, Vec n (intType O w))]
       (XFun (VName OExtract [Vec n (intType O w); Sc (intType O iw)]) [XVar "v"; XInt (Z.of_nat i)]) (XSel n (intType O w) i (XVar "v"))) as HX.
    { intros n w iw d H. cbn in H. apply in_map_iff in H as (i & <- & Hi). exists i. apply in_seq in Hi. split; [lia|reflexivity]. }
    assert (forall n w mask F, shuffle O n w (List.length mask) mask = Some F -> vf_name F = VName (OShuffle mask) [Vec n (intType O w)]) as HS.
    { intros n w mask F H. unfold shuffle in H. destruct (forallb _ mask); [|discriminate]. now injection H as <-. }
    intros d1 d2 H1 H2 E.
    destruct H1 as [| | | | | |? ? ? ? S1| |? ? ? ? S1| |? ? ? ? S1]; try (apply HI in S1 as (? & ? & ->)); try (apply HX in S1 as (? & ? & ->));
    destruct H2 as [| | | | | |? ? ? ? S2| |? ? ? ? S2| |? ? ? ? S2]; try (apply HI in S2 as (? & ? & ->)); try (apply HX in S2 as (? & ? & ->));
    cbn in E; try discriminate E; try (rewrite (HS _ _ _ _ S1) in E); try (rewrite (HS _ _ _ _ S2) in E); try discriminate E;
    injection E; intros; subst;
    repeat match goal with H : intType O _ = intType O _ |- _ => apply intType_inj in H; subst end; try reflexivity.
    congruence.
  Qed.

  Lemma visit_shape : forall i f ds d, well_formed i -> visit O i = Some (f, ds) -> In d ds -> shape d.
  Proof.
    intros i f ds d W H Hd.
    destruct i as [op n w|p n w|c src dst|n w n' mask|n w iw|n w iw]; cbn [visit] in H.
    - injection H as <- <-. cbn -[binary] in Hd. destruct Hd as [<-|[<-|[<-|[]]]]; [apply sh_type|apply sh_mk|apply sh_bin].
    - injection H as <- <-. cbn -[cmp] in Hd. destruct Hd as [<-|[<-|[<-|[<-|[<-|[]]]]]]; [apply sh_type|apply sh_mk|apply sh_type|apply sh_mk|apply sh_cmp].
    - injection H as <- <-.
      assert (forall T d, In d (type_decls T) -> shape d) as HT by (intros [?|? ?] d' H'; cbn in H'; [tauto|destruct H' as [<-|[<-|[]]]; constructor]).
      destruct (typ O dst) eqn:E; [destruct Hd|]. apply in_app_iff in Hd as [Hd|Hd]; [eauto|].
      apply in_app_iff in Hd as [Hd|Hd]; [eauto|]. destruct Hd as [<-|[<-|[<-|[<-|[]]]]]; [apply sh_cast|apply sh_cast|apply sh_inv|apply sh_inv].
    - destruct W as (_ & _ & Hm & _). destruct (shuffle O n w n' mask) as [F|] eqn:E; [|discriminate].
      injection H as <- <-. cbn in Hd. destruct Hd as [<-|[<-|[<-|[<-|[<-|[]]]]]]; [apply sh_type|apply sh_mk|apply sh_type|apply sh_mk|]. rewrite <- Hm in E. eapply sh_shuf, E.
    - cbn in H. injection H as <- <-. destruct Hd as [<-|[<-|[<-|Hd]]]; [apply sh_type|apply sh_mk|exact (sh_ins n w iw)|eapply sh_insax, Hd].
    - cbn in H. injection H as <- <-. destruct Hd as [<-|[<-|[<-|Hd]]]; [apply sh_type|apply sh_mk|exact (sh_ext n w iw)|eapply sh_extax, Hd].
  Qed.

  Lemma add_in : forall tbl d, Forall shape tbl -> shape d ->
    In d (addAuxiliaryDeclaration tbl d) /\ incl tbl (addAuxiliaryDeclaration tbl d) /\
    (forall x, In x (addAuxiliaryDeclaration tbl d) -> In x tbl \/ x = d).
  Proof.
    intros tbl d Ht Hd. unfold addAuxiliaryDeclaration. destruct (existsb _ tbl) eqn:E.
    - apply existsb_exists in E as (d' & Hd' & Ek). destruct (key_dec _ _) as [Ek'|]; [|discriminate].
      rewrite Forall_forall in Ht. pose proof (shape_key d' d (Ht d' Hd') Hd Ek') as ->. split; [exact Hd'|]. split; [apply incl_refl|auto].
    - split; [apply in_or_app; cbn; auto|]. split; [apply incl_appl, incl_refl|]. intros x Hx. apply in_app_iff in Hx as [Hx|[Hx|[]]]; auto.
  Qed.
  Lemma fold_in : forall ds tbl, Forall shape tbl -> Forall shape ds ->
    incl ds (fold_left addAuxiliaryDeclaration ds tbl) /\ incl tbl (fold_left addAuxiliaryDeclaration ds tbl) /\
    (forall x, In x (fold_left addAuxiliaryDeclaration ds tbl) -> In x tbl \/ In x ds).
  Proof.
    induction ds as [|d ds IH]; intros tbl Ht Hds; cbn [fold_left]; [split; [intros ? []|]; split; [apply incl_refl|auto]|].
    inversion Hds as [|? ? Hd Hds']; subst. destruct (add_in tbl d Ht Hd) as (A1 & A2 & A3).
    destruct (IH (addAuxiliaryDeclaration tbl d)) as (B1 & B2 & B3).
    { rewrite Forall_forall in *. intros x Hx. apply A3 in Hx as [Hx| ->]; auto. } { assumption. }
    split; [|split].
    - intros x [<-|Hx]; [apply B2, A1|apply B1, Hx].
    - intros x Hx. apply B2, A2, Hx.
    - intros x Hx. apply B3 in Hx as [Hx|Hx]; [|cbn; auto]. apply A3 in Hx as [Hx| ->]; cbn; auto.
  Qed.
  Lemma declarations_in : forall l tbl tbl', Forall well_formed l -> Forall shape tbl -> declarations O tbl l = Some tbl' ->
    incl tbl tbl' /\ (forall i f ds, In i l -> visit O i = Some (f, ds) -> incl ds tbl') /\
    (forall x, In x tbl' -> In x tbl \/ exists i f ds, In i l /\ visit O i = Some (f, ds) /\ In x ds).
  Proof.
    induction l as [|i l IH]; intros tbl tbl' W Ht H; cbn [declarations] in H.
    - injection H as <-. split; [apply incl_refl|]. split; [intros ? ? ? []|auto].
    - inversion W as [|? ? Wi Wl]; subst. destruct (visit O i) as [[f ds]|] eqn:E; [|discriminate].
      assert (Forall shape ds) as Hds by (rewrite Forall_forall; intros d Hd; eapply visit_shape; eauto).
      destruct (fold_in ds tbl Ht Hds) as (A1 & A2 & A3).
      assert (Forall shape (fold_left addAuxiliaryDeclaration ds tbl)) as Hf
        by (rewrite Forall_forall in *; intros x Hx; apply A3 in Hx as [Hx|Hx]; auto).
      destruct (IH _ tbl' Wl Hf H) as (B1 & B2 & B3).
      split; [|split].
      + intros x Hx. apply B1, A2, Hx.
      + intros i' f' ds' [<-|Hi] E'; [|eauto]. rewrite E in E'. injection E' as <- <-. intros x Hx. apply B1, A1, Hx.
      + intros x Hx. apply B3 in Hx as [Hx|(i' & f' & ds' & Hi & E' & Hx)].
        * apply A3 in Hx as [Hx|Hx]; [auto|]. right. exists i, f, ds. cbn. auto.
        * right. exists i', f', ds'. cbn. auto.
  Qed.
  (** From the empty table. *)
  Lemma table_in : forall l tbl i f ds, Forall well_formed l -> declarations O [] l = Some tbl -> In i l -> visit O i = Some (f, ds) -> incl ds tbl.
  Proof. intros l tbl i f ds W H Hi E. destruct (declarations_in l [] tbl W ltac:(constructor) H) as (_ & B & _). eauto. Qed.
  Lemma table_from : forall l tbl x, Forall well_formed l -> declarations O [] l = Some tbl -> In x tbl ->
    exists i f ds, In i l /\ visit O i = Some (f, ds) /\ In x ds.
  Proof. intros l tbl x W H Hx. destruct (declarations_in l [] tbl W ltac:(constructor) H) as (_ & _ & B). destruct (B x Hx) as [[]|?]. assumption. Qed.
  Lemma table_shape : forall l tbl x, Forall well_formed l -> declarations O [] l = Some tbl -> In x tbl -> shape x.
  Proof.
    intros l tbl x W H Hx. destruct (table_from l tbl x W H Hx) as (i & f & ds & Hi & E & Hd).
    rewrite Forall_forall in W. eapply visit_shape; eauto.
  Qed.
  (** Legal instructions are translated. *)
  Lemma visit_total : forall i, well_formed i -> exists f ds, visit O i = Some (f, ds).
  Proof.
    intros [op n w|p n w|c src dst|n w n' mask|n w iw|n w iw] W; cbn; try (eexists _, _; reflexivity).
    destruct W as (_ & _ & _ & Hm). unfold shuffle.
    assert (forallb (fun m => 0 <=? m) mask = true) as ->; [|eexists _, _; reflexivity].
    apply forallb_forall. rewrite Forall_forall in Hm. intros m Hin. specialize (Hm m Hin). lia.
  Qed.
  Lemma declarations_total : forall l tbl, Forall well_formed l -> exists tbl', declarations O tbl l = Some tbl'.
  Proof.
    induction l as [|i l IH]; intros tbl W; cbn; [eauto|]. inversion W as [|? ? Wi Wl]; subst.
    destruct (visit_total i Wi) as (f & ds & ->). auto.
  Qed.
End Table.
