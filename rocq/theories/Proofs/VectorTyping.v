(** Which programs with vector instructions pass Boogie's type checker. *)
From Coq Require Import ZArith List String Bool Lia.
From Verif.Spec Require Import LLVMInt IR Encodings VectorOps VectorEnc.
From Verif.Model Require Import Boogie PreludeInt SmackRepInt Vectors VectorSem.
From Verif.Proofs Require Import VectorTable.
Import ListNotations.
Open Scope string_scope.
Open Scope list_scope.
Open Scope Z_scope.

(** *** The scalar functions *)
Definition all_ops := [Add; Sub; Mul; UDiv; SDiv; URem; SRem; Shl; LShr; AShr; And; Or; Xor].
Definition all_preds := [EQ; NE; UGT; UGE; ULT; ULE; SGT; SGE; SLT; SLE].
Definition sig_check (O : opts) (name : string) (w rw : Z) : bool :=
  match lookup (preludeInt O) (indexedName name [intType O w]) with
  | Some d => tys_eqb (map snd (fd_params d)) [intType O w; intType O w] && tyname_eqb (fd_ret d) (intType O rw)
  | None => false
  end.
Lemma tyname_eqb_true : forall a b, tyname_eqb a b = true -> a = b.
Proof. intros [] [] H; cbn in H; try discriminate; try reflexivity; apply Z.eqb_eq in H; congruence. Qed.
Lemma tys_eqb_true : forall a b, tys_eqb a b = true -> a = b.
Proof.
  induction a as [|x a IH]; intros [|y b] H; cbn in H; try discriminate; [reflexivity|].
  apply andb_true_iff in H as [H1 H2]. apply tyname_eqb_true in H1. apply IH in H2. congruence.
Qed.
Lemma bin_sigs : forallb (fun O => forallb (fun op => forallb (fun w => sig_check O (INSTRUCTION_TABLE op) w w) INTEGER_SIZES) all_ops)
  [flags BitVector false; flags BitVector true; flags WrappedInteger false; flags WrappedInteger true; flags UnboundedInteger false; flags UnboundedInteger true] = true.
Proof. vm_compute. reflexivity. Qed.
Lemma cmp_sigs : forallb (fun O => forallb (fun p => forallb (fun w => sig_check O (CMPINST_TABLE p) w 1) INTEGER_SIZES) all_preds)
  [flags BitVector false; flags BitVector true; flags WrappedInteger false; flags WrappedInteger true; flags UnboundedInteger false; flags UnboundedInteger true] = true.
Proof. vm_compute. reflexivity. Qed.
Lemma flags_in : forall enc b, In (flags enc b) [flags BitVector false; flags BitVector true; flags WrappedInteger false; flags WrappedInteger true; flags UnboundedInteger false; flags UnboundedInteger true].
Proof. intros [] []; cbn; tauto. Qed.

Lemma bin_decl : forall enc b op w, In w INTEGER_SIZES -> let t := intType (flags enc b) w in
  exists d, lookup (preludeInt (flags enc b)) (indexedName (INSTRUCTION_TABLE op) [t]) = Some d /\ map snd (fd_params d) = [t; t] /\ fd_ret d = t.
Proof.
  intros enc b op w Hw t. pose proof bin_sigs as H. rewrite forallb_forall in H. specialize (H _ (flags_in enc b)).
  rewrite forallb_forall in H. specialize (H op ltac:(destruct op; cbn; tauto)). rewrite forallb_forall in H. specialize (H w Hw).
  unfold sig_check in H. destruct (lookup _ _) as [d|]; [|discriminate]. apply andb_true_iff in H as [H1 H2].
  exists d. split; [reflexivity|]. split; [now apply tys_eqb_true|now apply tyname_eqb_true].
Qed.
Lemma cmp_decl : forall enc b p w, In w INTEGER_SIZES -> let t := intType (flags enc b) w in
  exists d, lookup (preludeInt (flags enc b)) (indexedName (CMPINST_TABLE p) [t]) = Some d /\ map snd (fd_params d) = [t; t] /\ fd_ret d = intType (flags enc b) 1.
Proof.
  intros enc b op w Hw t. pose proof cmp_sigs as H. rewrite forallb_forall in H. specialize (H _ (flags_in enc b)).
  rewrite forallb_forall in H. specialize (H op ltac:(destruct op; cbn; tauto)). rewrite forallb_forall in H. specialize (H w Hw).
  unfold sig_check in H. destruct (lookup _ _) as [d|]; [|discriminate]. apply andb_true_iff in H as [H1 H2].
  exists d. split; [reflexivity|]. split; [now apply tys_eqb_true|now apply tyname_eqb_true].
Qed.

(** *** Lists of expressions *)
Lemma bty_eqb_true : forall a b, bty_eqb a b = true <-> a = b.
Proof. intros a b. unfold bty_eqb. destruct (bty_dec a b); split; congruence. Qed.
Lemma btys_eqb_true : forall a b, btys_eqb a b = true <-> a = b.
Proof.
  induction a as [|x a IH]; intros [|y b]; cbn; try (split; congruence).
  rewrite andb_true_iff, bty_eqb_true, IH. split; [intros [-> ->]; reflexivity|intros H; injection H; auto].
Qed.
Section T.
  Context (prog : list fdecl) (tbl : list decl).
  Fixpoint typesof (vars : list (string * vtype)) (es : list vexpr) : option (list bty) :=
    match es with
    | [] => Some []
    | e :: es' => match typeof prog tbl vars e, typesof vars es' with Some t, Some ts => Some (t :: ts) | _, _ => None end
    end.
  Lemma typeof_mk : forall vars n t es, typeof prog tbl vars (XMk n t es) =
    match typesof vars es with
    | Some ts => if btys_eqb ts (repeat (bty_of (Sc t)) n) && declared tbl (Vec n t) then Some (TVec n t) else None
    | None => None
    end.
  Proof.
    intros vars n t es. cbn [typeof].
    replace ((fix typesof (es0 : list vexpr) : option (list bty) :=
        match es0 with
        | [] => Some []
        | e :: es' => match typeof prog tbl vars e with
                      | Some t0 => match typesof es' with Some ts => Some (t0 :: ts) | None => None end
                      | None => None end
        end) es) with (typesof vars es); [reflexivity|].
    induction es as [|x es IH]; [reflexivity|]. cbn [typesof]. now rewrite IH.
  Qed.
  Lemma typesof_map : forall vars {A} (g : A -> vexpr) T l, (forall x, In x l -> typeof prog tbl vars (g x) = Some T) ->
    typesof vars (map g l) = Some (repeat T (List.length l)).
  Proof.
    intros vars A g T. induction l as [|x l IH]; intros H; cbn; [reflexivity|].
    rewrite (H x) by (cbn; auto). rewrite IH by (intros; apply H; cbn; auto). reflexivity.
  Qed.
End T.

Section Accept.
  Context (enc : encoding) (bvptr : bool).
  Notation O := (flags enc bvptr).
  Notation prog := (preludeInt (flags enc bvptr)).
  Context (l : list vinst) (tbl : list decl).
  Hypothesis W : Forall well_formed l.
  Hypothesis HT : declarations O [] l = Some tbl.

  Lemma declared_in : forall n t, In (DType n t) tbl -> In (DMk n t) tbl -> declared tbl (Vec n t) = true.
  Proof.
    intros n t H1 H2. cbn [declared]. apply andb_true_iff. split; apply existsb_exists.
    - exists (DType n t). split; [exact H1|]. cbn -[intType flags preludeInt bty_of key_dec]. now match goal with |- context [key_dec ?a ?b] => destruct (key_dec a b) end.
    - exists (DMk n t). split; [exact H2|]. cbn -[intType flags preludeInt bty_of key_dec]. now match goal with |- context [key_dec ?a ?b] => destruct (key_dec a b) end.
  Qed.
  Lemma signature_in : forall F, In (DFun F) tbl -> scalar_name (vf_name F) = None ->
    signature prog tbl (vf_name F) = Some (map (fun p => bty_of (snd p)) (vf_params F), bty_of (vf_ret F)).
  Proof.
    intros F HF Hs. unfold signature. rewrite Hs.
    destruct (find _ tbl) as [d|] eqn:E.
    - apply find_some in E as [Hd Eq]. destruct d as [| |F'|]; try discriminate. destruct (vname_dec _ _) as [En|]; [|discriminate].
      pose proof (shape_key O (DFun F') (DFun F) (table_shape O l tbl _ W HT Hd) (table_shape O l tbl _ W HT HF)) as H.
      cbn in H. rewrite En in H. specialize (H eq_refl). injection H as ->. reflexivity.
    - pose proof (find_none _ _ E _ HF) as H. cbn in H. now destruct (vname_dec _ _).
  Qed.
  Lemma bin_signature : forall op w, In w INTEGER_SIZES ->
    signature prog tbl (VName (OBin op) [Sc (intType O w)]) = Some ([bty_of (Sc (intType O w)); bty_of (Sc (intType O w))], bty_of (Sc (intType O w))).
  Proof.
    intros op w Hw. destruct (bin_decl enc bvptr op w Hw) as (d & E1 & E2 & E3).
    unfold signature. cbn [scalar_name scalar_types vn_types vn_op fold_right op_string]. rewrite E1, E3.
    rewrite <- (map_map snd (fun t => bty_of (Sc t))), E2. reflexivity.
  Qed.
  Lemma cmp_signature : forall op w, In w INTEGER_SIZES ->
    signature prog tbl (VName (OCmp op) [Sc (intType O w)]) = Some ([bty_of (Sc (intType O w)); bty_of (Sc (intType O w))], bty_of (Sc (intType O 1))).
  Proof.
    intros op w Hw. destruct (cmp_decl enc bvptr op w Hw) as (d & E1 & E2 & E3).
    unfold signature. cbn [scalar_name scalar_types vn_types vn_op fold_right op_string]. rewrite E1, E3.
    rewrite <- (map_map snd (fun t => bty_of (Sc t))), E2. reflexivity.
  Qed.
  Lemma typ_declared : forall i f ds T, In i l -> visit O i = Some (f, ds) -> incl (type_decls T) ds -> declared tbl T = true.
  Proof.
    intros i f ds [t|n t] Hi E Hd; [reflexivity|].
    pose proof (table_in O l tbl i f ds W HT Hi E) as H. apply declared_in; apply H, Hd; cbn; auto.
  Qed.

  Notation fine := (supported_inst enc).

  Lemma size_int : forall w, enc <> BitVector -> bty_of (Sc (intType O w)) = TInt.
  Proof. intros w H. destruct enc; [congruence|reflexivity|reflexivity]. Qed.

  Lemma lanes_typed : forall n w (o : vop) rt, In w INTEGER_SIZES -> declared tbl (Vec n (intType O w)) = true ->
    signature prog tbl (VName o [Sc (intType O w)]) = Some ([bty_of (Sc (intType O w)); bty_of (Sc (intType O w))], rt) ->
    typesof prog tbl [("v1", Vec n (intType O w)); ("v2", Vec n (intType O w))]
      (map (fun i => XFun (VName o [Sc (intType O w)]) [XSel n (intType O w) i (XVar "v1"); XSel n (intType O w) i (XVar "v2")]) (seq 0 n))
    = Some (repeat rt n).
  Proof.
    intros n w o rt Hw Hd Hs. rewrite (typesof_map prog tbl _ _ rt), seq_length; [reflexivity|].
    intros i Hi. apply in_seq in Hi. cbn -[intType flags preludeInt bty_of signature btys_eqb bty_eqb declared Nat.ltb]. rewrite Hs, Hd.
    rewrite (proj2 (bty_eqb_true _ _) eq_refl). assert ((i <? n)%nat = true) as -> by (apply Nat.ltb_lt; lia).
    cbn -[intType flags preludeInt bty_of btys_eqb]. now rewrite (proj2 (btys_eqb_true _ _) eq_refl).
  Qed.

  Lemma fine_typed : forall i f ds d, In i l -> visit O i = Some (f, ds) -> fine i -> In d ds -> well_typed prog tbl d = true.
  Proof.
    intros i f ds d Hi E Hf Hd. pose proof (table_in O l tbl i f ds W HT Hi E) as Hin.
    pose proof (proj1 (Forall_forall _ _) W i Hi) as Wi.
    assert (forall T, incl (type_decls T) ds -> declared tbl T = true) as Hdec by (intros T H; eapply typ_declared; eauto).
    assert (forall T d, In d (type_decls T) -> well_typed prog tbl d = true) as Htd by (intros [?|? ?] d' H; cbn in H; [tauto|destruct H as [<-|[<-|[]]]; reflexivity]).
    destruct i as [op n w|p n w|c src dst|n w n' mask|n w iw|n w iw]; cbn [visit] in E; cbn [supported_inst well_formed] in Hf, Wi.
    - injection E as <- <-. destruct Hd as [<-|[<-|[<-|[]]]]; try reflexivity.
      assert (declared tbl (Vec n (intType O w)) = true) as D by (apply Hdec; intros x Hx; cbn in Hx |- *; tauto).
      unfold well_typed, binary. cbn [vf_params vf_ret vf_body forallb map snd]. rewrite D, typeof_mk.
      rewrite (lanes_typed n w (OBin op) _ (proj2 Wi) D (bin_signature op w (proj2 Wi))), D, (proj2 (btys_eqb_true _ _) eq_refl). cbn [andb].
      now rewrite (proj2 (bty_eqb_true _ _) eq_refl).
    - subst w. injection E as <- <-. cbn -[intType flags preludeInt bty_of cmp well_typed] in Hd. destruct Hd as [<-|[<-|[<-|[<-|[<-|[]]]]]]; try reflexivity.
      assert (declared tbl (Vec n (intType O 1)) = true) as D by (apply Hdec; intros x Hx; cbn in Hx |- *; tauto).
      unfold well_typed, cmp. cbn [vf_params vf_ret vf_body forallb map snd]. rewrite D, typeof_mk.
      rewrite (lanes_typed n 1 (OCmp p) _ (proj2 Wi) D (cmp_signature p 1 (proj2 Wi))), D, (proj2 (btys_eqb_true _ _) eq_refl). cbn [andb].
      now rewrite (proj2 (bty_eqb_true _ _) eq_refl).
    - injection E as <- <-. set (s := typ O src) in *. set (t := typ O dst) in *.
      assert (is_vector dst) as Hv by (destruct c as [c|]; [destruct src, dst; cbn; tauto|tauto]).
      destruct t as [|n t'] eqn:Et; [destruct Hd|]. rewrite <- Et in *.
      assert (declared tbl s = true) as Ds by (apply Hdec; intros x Hx; apply in_app_iff; auto).
      assert (declared tbl t = true) as Dt by (apply Hdec; intros x Hx; apply in_app_iff; right; apply in_app_iff; auto).
      assert (In (DFun (castFn c s t)) tbl) as F1 by (apply Hin; apply in_app_iff; right; apply in_app_iff; right; cbn; tauto).
      assert (In (DFun (castFn c t s)) tbl) as F2 by (apply Hin; apply in_app_iff; right; apply in_app_iff; right; cbn; tauto).
      assert (signature prog tbl (VName (OCast c) [s; t]) = Some ([bty_of s], bty_of t)) as S1.
      { apply (signature_in _ F1). unfold t, s. rewrite Et in *. destruct dst; [destruct Hv|]. destruct src; reflexivity. }
      assert (signature prog tbl (VName (OCast c) [t; s]) = Some ([bty_of t], bty_of s)) as S2.
      { apply (signature_in _ F2). unfold t, s. rewrite Et in *. destruct dst; [destruct Hv|]. destruct src; reflexivity. }
      assert (forall w m, src = LI w -> dst = LV 1 m -> bty_of (Sc (intType O w)) = bty_of (Sc (intType O m))) as Hone.
      { intros w m -> ->. destruct c as [c|]; cbn in Wi; [tauto|]. destruct Wi as (_ & _ & _ & Eb). assert (w = m) as -> by (change (w = 1 * m) in Eb; lia). reflexivity. }
      apply in_app_iff in Hd as [Hd|Hd]; [eapply Htd, Hd|]. apply in_app_iff in Hd as [Hd|Hd]; [eapply Htd, Hd|].
      destruct Hd as [<-|[<-|[<-|[<-|[]]]]].
      + unfold well_typed, castFn. cbn [vf_params vf_ret vf_body forallb snd]. rewrite Ds, Dt. cbn [andb].
        unfold s, t in *. destruct src as [w|m w]; destruct dst as [|[|[|m']] w']; try (destruct Hv; fail); cbn [typ] in *; try reflexivity.
        * rewrite typeof_mk. cbn -[intType flags preludeInt bty_of btys_eqb bty_of declared]. rewrite (Hone w w' eq_refl eq_refl), Dt, (proj2 (btys_eqb_true _ _) eq_refl). cbn [andb].
          now rewrite (proj2 (bty_eqb_true _ _) eq_refl).
        * destruct m as [|[|m]]; reflexivity.
        * destruct m as [|[|m]]; reflexivity.
        * destruct m as [|[|m]]; reflexivity.
      + unfold well_typed, castFn. cbn [vf_params vf_ret vf_body forallb snd]. rewrite Ds, Dt. cbn [andb].
        unfold s, t in *. destruct src as [w|m w]; destruct dst as [|[|[|m']] w']; try (destruct Hv; fail); cbn [typ] in *; try reflexivity.
        cbn -[intType flags preludeInt bty_of bty_eqb declared]. rewrite Dt, (Hone w w' eq_refl eq_refl). cbn -[intType flags bty_eqb bty_of].
        rewrite !(proj2 (bty_eqb_true _ _) eq_refl). cbn -[intType flags preludeInt bty_of bty_eqb]. now rewrite (proj2 (bty_eqb_true _ _) eq_refl).
      + unfold well_typed, inverseAxiom. cbn -[intType flags preludeInt bty_of signature btys_eqb bty_eqb declared]. rewrite Ds, S1, S2. cbn -[intType flags btys_eqb bty_eqb bty_of].
        rewrite (proj2 (btys_eqb_true _ _) eq_refl). rewrite (proj2 (btys_eqb_true _ _) eq_refl). now rewrite (proj2 (bty_eqb_true _ _) eq_refl).
      + unfold well_typed, inverseAxiom. cbn -[intType flags preludeInt bty_of signature btys_eqb bty_eqb declared]. rewrite Dt, S1, S2. cbn -[intType flags btys_eqb bty_eqb bty_of].
        rewrite (proj2 (btys_eqb_true _ _) eq_refl). rewrite (proj2 (btys_eqb_true _ _) eq_refl). now rewrite (proj2 (bty_eqb_true _ _) eq_refl).
    - destruct (shuffle O n w n' mask) as [F|] eqn:EF; [|discriminate]. injection E as <- <-.
      cbn -[intType flags preludeInt bty_of well_typed] in Hd. destruct Hd as [<-|[<-|[<-|[<-|[<-|[]]]]]]; try reflexivity.
      assert (declared tbl (Vec n (intType O w)) = true) as D by (apply Hdec; intros x Hx; cbn in Hx |- *; tauto).
      assert (declared tbl (Vec n' (intType O w)) = true) as D' by (apply Hdec; intros x Hx; cbn in Hx |- *; tauto).
      unfold shuffle in EF. destruct (forallb _ mask); [|discriminate]. injection EF as <-.
      unfold well_typed. cbn [vf_params vf_ret vf_body forallb snd]. rewrite D, D', typeof_mk.
      destruct Wi as (_ & _ & Hlen & Hm).
      rewrite (typesof_map prog tbl _ _ (bty_of (Sc (intType O w)))).
      + rewrite Hlen, D', (proj2 (btys_eqb_true _ _) eq_refl). cbn [andb]. now rewrite (proj2 (bty_eqb_true _ _) eq_refl).
      + intros m Hm'. rewrite Forall_forall in Hm. specialize (Hm m Hm').
        destruct (m <? Z.of_nat n) eqn:Em; cbn -[intType flags preludeInt bty_of bty_eqb declared Nat.ltb]; rewrite D; rewrite (proj2 (bty_eqb_true _ _) eq_refl);
          match goal with |- context [(?a <? n)%nat] => assert ((a <? n)%nat = true) as -> by (apply Nat.ltb_lt; lia) end; reflexivity.
    - cbn [insert] in E. injection E as <- <-.
      assert (declared tbl (Vec n (intType O w)) = true) as D by (apply Hdec; intros x Hx; cbn in Hx |- *; tauto).
      assert (In (DFun (fst (insert O n w iw))) tbl) as F1 by (apply Hin; cbn; tauto).
      pose proof (signature_in _ F1 eq_refl) as S1. cbn -[intType flags preludeInt bty_of signature] in S1.
      destruct Hd as [<-|[<-|[<-|Hd]]]; try reflexivity.
      + unfold well_typed. cbn -[intType flags preludeInt bty_of declared]. rewrite D. reflexivity.
      + apply in_map_iff in Hd as (i & <- & Hi'). apply in_seq in Hi'.
        unfold well_typed. cbn [forallb snd]. rewrite D, typeof_mk. cbn [andb].
        rewrite (typesof_map prog tbl _ _ (bty_of (Sc (intType O w)))).
        * cbn -[intType flags preludeInt bty_of signature bty_eqb btys_eqb declared bty_of repeat]. rewrite S1. rewrite (size_int iw Hf).
          rewrite seq_length, D, !(proj2 (btys_eqb_true _ _) eq_refl). cbn -[intType flags preludeInt bty_of bty_eqb]. now rewrite (proj2 (bty_eqb_true _ _) eq_refl).
        * intros j Hj. apply in_seq in Hj. destruct (i =? j)%nat; [reflexivity|]. cbn -[intType flags preludeInt bty_of bty_eqb declared Nat.ltb]. rewrite D, (proj2 (bty_eqb_true _ _) eq_refl).
          assert ((j <? n)%nat = true) as -> by (apply Nat.ltb_lt; lia). reflexivity.
    - cbn [extract] in E. injection E as <- <-.
      assert (declared tbl (Vec n (intType O w)) = true) as D by (apply Hdec; intros x Hx; cbn in Hx |- *; tauto).
      assert (In (DFun (fst (extract O n w iw))) tbl) as F1 by (apply Hin; cbn; tauto).
      pose proof (signature_in _ F1 eq_refl) as S1. cbn -[intType flags preludeInt bty_of signature] in S1.
      destruct Hd as [<-|[<-|[<-|Hd]]]; try reflexivity.
      + unfold well_typed. cbn -[intType flags preludeInt bty_of declared]. rewrite D. reflexivity.
      + apply in_map_iff in Hd as (i & <- & Hi'). apply in_seq in Hi'.
        unfold well_typed. cbn [forallb snd]. rewrite D. cbn [andb].
        cbn -[intType flags preludeInt bty_of signature bty_eqb btys_eqb declared bty_of Nat.ltb]. rewrite S1, (size_int iw Hf), D.
        assert ((i <? n)%nat = true) as -> by (apply Nat.ltb_lt; lia).
        rewrite (proj2 (btys_eqb_true _ _) eq_refl). cbn -[intType flags preludeInt bty_of bty_eqb]. rewrite (proj2 (bty_eqb_true _ _) eq_refl). cbn -[intType flags bty_eqb bty_of].
        now rewrite (proj2 (bty_eqb_true _ _) eq_refl).
  Qed.

  Lemma typed_fine : forall i f ds, In i l -> visit O i = Some (f, ds) -> (forall d, In d ds -> well_typed prog tbl d = true) -> fine i.
  Proof.
    intros i f ds Hi E Hd. pose proof (proj1 (Forall_forall _ _) W i Hi) as Wi.
    pose proof (table_in O l tbl i f ds W HT Hi E) as Hin.
    destruct i as [op n w|p n w|c src dst|n w n' mask|n w iw|n w iw]; cbn [visit] in E; cbn [supported_inst well_formed] in Wi |- *; try exact I.
    - injection E as <- <-. specialize (Hd (DFun (cmp O p n w)) ltac:(cbn; tauto)).
      unfold well_typed, cmp in Hd. cbn [vf_params vf_ret vf_body] in Hd. apply andb_true_iff in Hd as [_ Hd]. rewrite typeof_mk in Hd.
      destruct (typesof _ _ _ _) as [ts|]; [|discriminate]. destruct (_ && _); [|discriminate].
      apply bty_eqb_true in Hd. injection Hd as Hd. now apply intType_inj in Hd.
    - cbn [insert] in E. injection E as <- <-. intros He.
      assert (In (DFun (fst (insert O n w iw))) tbl) as F1 by (apply Hin; cbn; tauto).
      pose proof (signature_in _ F1 eq_refl) as S1. cbn -[intType flags preludeInt bty_of signature] in S1.
      destruct Wi as [[Hn _] _]. destruct n as [|n]; [lia|].
      assert (well_typed prog tbl (DAxiom (VName OInsert [Vec (S n) (intType O w); Sc (intType O iw)]) (AtIndex 0) [("v", Vec (S n) (intType O w)); ("x", Sc (intType O w))]
       (XFun (VName OInsert [Vec (S n) (intType O w); Sc (intType O iw)]) [XVar "v"; XVar "x"; XInt 0])
       (XMk (S n) (intType O w) (map (fun j => if (0 =? j)%nat then XVar "x" else XSel (S n) (intType O w) j (XVar "v")) (seq 0 (S n))))) = true) as H by (apply Hd; cbn; auto).
      unfold well_typed in H. apply andb_true_iff in H as [_ H]. cbn -[intType flags preludeInt bty_of signature btys_eqb bty_eqb] in H. rewrite S1 in H.
      assert (bty_of (Sc (intType O iw)) <> TInt) as Hne by (rewrite He; discriminate).
      destruct (btys_eqb _ _) eqn:Eb; [|discriminate]. apply btys_eqb_true in Eb. apply (f_equal (fun l => nth 2 l TOther)) in Eb. cbn [nth] in Eb. congruence.
    - cbn [extract] in E. injection E as <- <-. intros He.
      assert (In (DFun (fst (extract O n w iw))) tbl) as F1 by (apply Hin; cbn; tauto).
      pose proof (signature_in _ F1 eq_refl) as S1. cbn -[intType flags preludeInt bty_of signature] in S1.
      destruct Wi as [[Hn _] _]. destruct n as [|n]; [lia|].
      assert (well_typed prog tbl (DAxiom (VName OExtract [Vec (S n) (intType O w); Sc (intType O iw)]) (AtIndex 0) [("v", Vec (S n) (intType O w))]
       (XFun (VName OExtract [Vec (S n) (intType O w); Sc (intType O iw)]) [XVar "v"; XInt 0]) (XSel (S n) (intType O w) 0 (XVar "v"))) = true) as H by (apply Hd; cbn; auto).
      unfold well_typed in H. apply andb_true_iff in H as [_ H]. cbn -[intType flags preludeInt bty_of signature btys_eqb bty_eqb] in H. rewrite S1 in H.
      assert (bty_of (Sc (intType O iw)) <> TInt) as Hne by (rewrite He; discriminate).
      destruct (btys_eqb _ _) eqn:Eb; [|discriminate]. apply btys_eqb_true in Eb. apply (f_equal (fun l => nth 1 l TOther)) in Eb. cbn [nth] in Eb. congruence.
  Qed.

  Lemma accepted_iff : accepted prog tbl = true <-> Forall fine l.
  Proof.
    unfold accepted. rewrite forallb_forall, Forall_forall. split.
    - intros H i Hi. pose proof (proj1 (Forall_forall _ _) W i Hi) as Wi. destruct (visit_total O i Wi) as (f & ds & E).
      eapply typed_fine; eauto. intros d Hd. apply H. eapply table_in; eauto.
    - intros H d Hd. destruct (table_from O l tbl d W HT Hd) as (i & f & ds & Hi & E & Hd'). eapply fine_typed; eauto.
  Qed.
End Accept.
