(** The emitted declarations give the vector functions their lane-wise meaning. *)
From Coq Require Import ZArith List String Bool Lia.
From Verif.Base Require Import ZBits.
From Verif.Spec Require Import LLVMInt IR Encodings VectorOps VectorEnc.
From Verif.Model Require Import Boogie PreludeInt SmackRepInt Vectors VectorSem.
From Verif.Proofs Require Import Lookup PreludeCalls ExprSim IntEncodings IntUnbounded EventGuards IntMain VectorTable VectorTyping.
Import ListNotations.
Open Scope string_scope.
Open Scope list_scope.
Open Scope Z_scope.

(** *** Scalars *)
Lemma lane_b : forall w v x, Rb w v x -> is_iN w x -> lane BitVector w v x.
Proof.
  intros w v x -> Hx. split; [exact Hx|]. split; [reflexivity|]. intros ->. destruct (i1_cases x Hx) as [-> | ->]; reflexivity.
Qed.
Lemma lane_w : forall w v x, Rw w v x -> is_iN w x -> lane WrappedInteger w v x.
Proof.
  intros w v x (z & -> & E & E1) Hx. split; [exact Hx|]. split; [exists z; auto|]. intros ->. rewrite (E1 eq_refl).
  destruct (i1_cases x Hx) as [-> | ->]; reflexivity.
Qed.
Lemma lane_u : forall w v x, Ru w v x -> is_iN w x -> lane UnboundedInteger w v x.
Proof.
  intros w v x -> Hx. split; [exact Hx|]. split; [reflexivity|]. intros ->. destruct (i1_cases x Hx) as [-> | ->]; reflexivity.
Qed.
Lemma lane_Rw : forall w v x, lane WrappedInteger w v x -> Rw w v x.
Proof.
  intros w v x (Hx & (z & -> & E) & H1). exists z. split; [reflexivity|]. split; [exact E|]. intros ->. specialize (H1 eq_refl).
  destruct (i1_cases x Hx) as [-> | ->]; cbn in H1; congruence.
Qed.
Lemma lane_scalar : forall enc p w v x, lane enc w v x -> scalar_in (intType (flags enc p) w) v.
Proof.
  intros [] p w v x (Hx & Hr & _); cbn in *.
  - exists x. split; [exact Hr|exact Hx].
  - destruct Hr as (z & -> & _). eauto.
  - eauto.
Qed.

Section Scalar.
  Context (enc : encoding) (p : bool) (I : interp) (bw : binop -> Z -> Prop).
  Hypothesis HK : known_bitwise enc p I bw.
  Notation prog := (preludeInt (flags enc p)).
  Lemma lane_binop : forall op w va vb a b c, In w INTEGER_SIZES -> lane enc w va a -> lane enc w vb b ->
    llvm_binop op w a b = Some c -> exact_on enc bw (EvBin op w a b) ->
    exists v, eval_call prog I 5 (indexedName (INSTRUCTION_TABLE op) [intType (flags enc p) w]) [va; vb] = Some v /\ lane enc w v c.
  Proof.
    intros op w va vb a b c Hw Ha Hb Hc He. pose proof (size_pos w Hw) as Hw1.
    assert (is_iN w c) as Hcr by (eapply (llvm_binop_range op w a b); eauto; [apply Ha|apply Hb]).
    destruct enc eqn:Eenc; cbn [exact_on] in He.
    - destruct (b_bin (flags BitVector p) true _ I 0%nat (extends_refl _) eq_refl eq_refl op w va vb a b c) as (v & Hv & HR); try assumption;
        try (apply Ha); try (apply Hb); try exact Logic.I. exists v. split; [exact Hv|]. now apply lane_b.
    - destruct HK as [HK'|HK']; [discriminate|].
      destruct (w_bin (flags WrappedInteger p) true _ I 0%nat (extends_refl _) eq_refl eq_refl bw (wrapped_knowledge p I bw HK') op w va vb a b c) as (v & Hv & HR); try assumption;
        try (apply Ha); try (apply Hb); try (apply lane_Rw; assumption); try (destruct op; exact He). exists v. split; [exact Hv|]. now apply lane_w.
    - destruct HK as [HK'|HK']; [discriminate|].
      destruct (u_bin (flags UnboundedInteger p) true _ I 0%nat (extends_refl _) eq_refl eq_refl bw (unbounded_knowledge p I bw HK') op w va vb a b c) as (v & Hv & HR); try assumption;
        try (apply Ha); try (apply Hb); try (destruct op; exact He). exists v. split; [exact Hv|]. now apply lane_u.
  Qed.
  Lemma lane_icmp : forall q w va vb a b, In w INTEGER_SIZES -> lane enc w va a -> lane enc w vb b ->
    exact_on enc bw (EvCmp q w a b) ->
    exists v, eval_call prog I 5 (indexedName (CMPINST_TABLE q) [intType (flags enc p) w]) [va; vb] = Some v /\ lane enc 1 v (b2z (llvm_icmp q w a b)).
  Proof.
    clear HK. intros q w va vb a b Hw Ha Hb He. pose proof (b2z_range (llvm_icmp q w a b)) as Hcr.
    destruct enc eqn:Eenc; cbn [exact_on] in He.
    - destruct (b_icmp (flags BitVector p) true _ I 0%nat (extends_refl _) eq_refl eq_refl q w va vb a b) as (v & Hv & HR); try assumption;
        try (apply Ha); try (apply Hb); try exact Logic.I. exists v. split; [exact Hv|]. now apply lane_b.
    - destruct (w_icmp (flags WrappedInteger p) true _ I 0%nat (extends_refl _) eq_refl eq_refl bw q w va vb a b) as (v & Hv & HR); try assumption;
        try (apply Ha); try (apply Hb); try (apply lane_Rw; assumption); try exact Logic.I. exists v. split; [exact Hv|]. now apply lane_w.
    - destruct (u_icmp (flags UnboundedInteger p) true _ I 0%nat (extends_refl _) eq_refl eq_refl bw q w va vb a b) as (v & Hv & HR); try assumption;
        try (apply Ha); try (apply Hb); try (destruct q; exact He). exists v. split; [exact Hv|]. now apply lane_u.
  Qed.
  Lemma lane_lit : forall nd w c r, In w INTEGER_SIZES -> is_iN w c ->
    exists e v, lit (flags enc p) nd w c false false = Some e /\ eval prog I 5 r e = Some v /\ lane enc w v c.
  Proof.
    clear HK. intros nd w c r Hw Hc.
    assert (exists e, lit (flags enc p) nd w c false false = Some e) as [e E] by (unfold lit; destruct (1 <? w); eauto).
    exists e. destruct enc eqn:Eenc.
    - destruct (b_lit (flags BitVector p) nd _ I 0%nat (extends_refl _) eq_refl eq_refl w c false false e r) as (v & Hv & HR); auto; try (intros _ H; discriminate).
      exists v. split; [exact E|]. split; [exact Hv|]. now apply lane_b.
    - destruct (w_lit (flags WrappedInteger p) nd _ I 0%nat (extends_refl _) eq_refl eq_refl bw w c false false e r) as (v & Hv & HR); auto; try (intros _ H; discriminate).
      exists v. split; [exact E|]. split; [exact Hv|]. now apply lane_w.
    - destruct (u_lit (flags UnboundedInteger p) nd _ I 0%nat (extends_refl _) eq_refl eq_refl bw w c false false e r) as (v & Hv & HR); auto; try (split; [intros _ H; discriminate|auto]).
      exists v. split; [exact E|]. split; [exact Hv|]. now apply lane_u.
  Qed.
End Scalar.

(** *** Evaluating lists of expressions *)
Section V.
  Context (prog : list fdecl) (I : interp) (M : vname -> list vval -> vval).
  Fixpoint vevals (r : venv) (es : list vexpr) : option (list vval) :=
    match es with
    | [] => Some []
    | e :: es' => match veval prog I M r e, vevals r es' with Some v, Some vs => Some (v :: vs) | _, _ => None end
    end.
  Lemma vevals_eq : forall r es, (fix vevals (es : list vexpr) : option (list vval) :=
      match es with
      | [] => Some []
      | e :: es' => match veval prog I M r e with Some v => match vevals es' with Some vs => Some (v :: vs) | None => None end | None => None end
      end) es = vevals r es.
  Proof. intros r. induction es as [|e es IH]; [reflexivity|]. cbn [vevals]. now rewrite IH. Qed.
  Lemma veval_mk : forall r n t es, veval prog I M r (XMk n t es) =
    match vevals r es with
    | Some vs => match unSs vs with
                 | Some xs => if (List.length xs =? n)%nat then Some (VV n t xs) else None
                 | None => None
                 end
    | None => None
    end.
  Proof. intros. cbn [veval]. now rewrite vevals_eq. Qed.
  Lemma veval_fun : forall r f es, veval prog I M r (XFun f es) = match vevals r es with Some vs => Some (M f vs) | None => None end.
  Proof. intros. cbn [veval]. now rewrite vevals_eq. Qed.
  Lemma vevals_map : forall r {A} (g : A -> vexpr) h l, (forall x, In x l -> veval prog I M r (g x) = Some (h x)) -> vevals r (map g l) = Some (map h l).
  Proof.
    intros r A g h. induction l as [|x l IH]; intros H; [reflexivity|]. cbn [map vevals]. rewrite (H x) by (cbn; auto).
    rewrite IH by (intros; apply H; cbn; auto). reflexivity.
  Qed.
  Lemma unSs_map : forall xs, unSs (map SV xs) = Some xs.
  Proof. induction xs as [|x xs IH]; [reflexivity|]. cbn. now rewrite IH. Qed.
  Lemma mk_map : forall r n t {A} (g : A -> vexpr) (h : A -> val) l, (forall x, In x l -> veval prog I M r (g x) = Some (SV (h x))) ->
    List.length l = n -> veval prog I M r (XMk n t (map g l)) = Some (VV n t (map h l)).
  Proof.
    intros r n t A g h l H Hl. rewrite veval_mk, (vevals_map r g (fun x => SV (h x))) by exact H.
    rewrite <- (map_map h SV), unSs_map, map_length, Hl, Nat.eqb_refl. reflexivity.
  Qed.
  Lemma sel_var : forall r x n t i us d, r x = Some (VV n t us) -> (i < List.length us)%nat ->
    veval prog I M r (XSel n t i (XVar x)) = Some (SV (nth i us d)).
  Proof.
    intros r x n t i us d H Hi. cbn [veval]. rewrite H, Nat.eqb_refl. destruct (tyname_dec t t); [|congruence]. cbn [andb].
    now rewrite (nth_error_nth' us d Hi).
  Qed.
End V.

Lemma map_nth_seq : forall {A} (l : list A) d, map (fun i => nth i l d) (seq 0 (List.length l)) = l.
Proof.
  intros A l d. induction l as [|x l IH]; [reflexivity|]. cbn [List.length seq map nth]. f_equal.
  rewrite <- seq_shift, map_map. exact IH.
Qed.
Lemma f2_length : forall {A B} (R : A -> B -> Prop) l m, Forall2 R l m -> List.length l = List.length m.
Proof. induction 1; cbn; congruence. Qed.
Lemma f2_nth : forall {A B} (R : A -> B -> Prop) l m i a b, Forall2 R l m -> nth_error l i = Some a -> nth_error m i = Some b -> R a b.
Proof.
  intros A B R l m i a b H. revert i. induction H as [|x y l m Hxy H IH]; intros [|i] Ha Hb; cbn in *; try discriminate; [congruence|eauto].
Qed.

(** *** The theorems' core *)
Section Lanes.
  Context (enc : encoding) (p : bool) (I : interp) (bw : binop -> Z -> Prop).
  Notation O := (flags enc p).
  Notation prog := (preludeInt (flags enc p)).
  Hypothesis HK : known_bitwise enc p I bw.
  Context (l : list vinst) (tbl : list decl) (M : vname -> list vval -> vval).
  Hypothesis W : Forall well_formed l.
  Hypothesis HT : declarations O [] l = Some tbl.
  Hypothesis HM : satisfies prog I M tbl.

  Lemma vector_in : forall w us xs, Forall2 (lane enc w) us xs -> in_type (vector O w us) (Vec (List.length us) (intType O w)).
  Proof.
    intros w us xs H. cbn. split; [reflexivity|]. split; [reflexivity|]. split; [reflexivity|].
    induction H; constructor; eauto using lane_scalar.
  Qed.

  (** A scalar function of the prelude applied to lanes. *)
  Lemma scalar_apply : forall o w va vb a b g rt v,
    scalar_name (VName o [Sc (intType O w)]) = Some g ->
    (exists d, lookup prog g = Some d /\ map snd (fd_params d) = [intType O w; intType O w] /\ fd_ret d = rt) ->
    lane enc w va a -> lane enc w vb b -> scalar_in rt v -> eval_call prog I 5 g [va; vb] = Some v ->
    M (VName o [Sc (intType O w)]) [SV va; SV vb] = SV v.
  Proof.
    intros o w va vb a b g rt v Hg (d & E1 & E2 & E3) Ha Hb Hv He.
    apply (sat_scalar _ _ _ _ HM _ g d [va; vb] v Hg E1); [|now rewrite E3|exact He].
    rewrite <- (map_map snd Sc), E2. cbn. repeat constructor; cbn; eauto using lane_scalar.
  Qed.

  Lemma lane_list : forall (o : vop) (w rw : Z) (ev : Z -> Z -> event) (f : Z -> Z -> option Z) g,
    scalar_name (VName o [Sc (intType O w)]) = Some g ->
    (exists d, lookup prog g = Some d /\ map snd (fd_params d) = [intType O w; intType O w] /\ fd_ret d = intType O rw) ->
    (forall va vb a b c, lane enc w va a -> lane enc w vb b -> f a b = Some c -> exact_on enc bw (ev a b) ->
      exists v, eval_call prog I 5 g [va; vb] = Some v /\ lane enc rw v c) ->
    forall us vs xs ys zs, Forall2 (lane enc w) us xs -> Forall2 (lane enc w) vs ys -> lanes f xs ys = Some zs -> lanes_exact enc bw ev xs ys ->
    exists ws, Forall2 (lane enc rw) ws zs /\ List.length ws = List.length us /\ List.length vs = List.length us /\
      forall i, (i < List.length us)%nat -> M (VName o [Sc (intType O w)]) [SV (nth i us (VInt 0)); SV (nth i vs (VInt 0))] = SV (nth i ws (VInt 0)).
  Proof.
    intros o w rw ev f g Hg Hd Hf us vs xs ys zs H1. revert vs ys zs.
    induction H1 as [|u x us xs Hu H1 IH]; intros vs ys zs H2 Hz He.
    - destruct H2; [|discriminate]. injection Hz as <-. exists []. split; [constructor|]. split; [reflexivity|]. split; [reflexivity|]. cbn. lia.
    - destruct H2 as [|v y vs ys Hv H2]; [discriminate|]. cbn [lanes] in Hz.
      destruct (f x y) as [z|] eqn:Ez; [|discriminate]. destruct (lanes f xs ys) as [zs'|] eqn:Ezs; [|discriminate]. injection Hz as <-.
      inversion He as [|? ? ? ? He1 He2]; subst.
      destruct (IH vs ys zs' H2 Ezs He2) as (ws & A1 & A2 & A3 & A4). destruct (Hf u v x y z Hu Hv Ez He1) as (r & B1 & B2).
      exists (r :: ws). split; [constructor; assumption|]. split; [cbn; congruence|]. split; [cbn; congruence|].
      intros [|i] Hi; cbn [nth]; [eapply scalar_apply; eauto using lane_scalar|apply A4; cbn in Hi; lia].
  Qed.

  Lemma body_value : forall F b vs, In (DFun F) tbl -> vf_body F = Some b -> Forall2 in_type vs (map snd (vf_params F)) ->
    forall v, veval prog I M (assign (vf_params F) vs) b = Some v -> M (vf_name F) vs = v.
  Proof. intros F b vs HF Hb Hv v H. pose proof (sat_body _ _ _ _ HM F b vs HF Hb Hv) as E. congruence. Qed.

  Lemma binop_value : forall op n w us vs xs ys zs, In (IVBin op n w) l -> List.length us = n -> Forall2 (lane enc w) us xs -> Forall2 (lane enc w) vs ys ->
    vec_binop op w xs ys = Some zs -> lanes_exact enc bw (EvBin op w) xs ys ->
    exists ws, M (VName (OBin op) [Vec n (intType O w)]) [vector O w us; vector O w vs] = vector O w ws /\ Forall2 (lane enc w) ws zs.
  Proof.
    intros op n w us vs xs ys zs Hi Hn H1 H2 Hz He. pose proof (proj1 (Forall_forall _ _) W _ Hi) as [_ Hw].
    destruct (lane_list (OBin op) w w (EvBin op w) (llvm_binop op w) _ eq_refl (bin_decl enc p op w Hw)) with us vs xs ys zs as (ws & A1 & A2 & A3 & A4); try assumption.
    { intros. eapply (lane_binop enc p I bw HK); eauto. }
    exists ws. split; [|exact A1].
    assert (In (DFun (binary O op n w)) tbl) as HF by (eapply (table_in O l tbl); [exact W|exact HT|exact Hi|reflexivity|cbn; tauto]).
    apply (body_value _ _ _ HF eq_refl).
    { cbn [binary vf_params map snd]. constructor; [|constructor; [|constructor]]; [rewrite <- Hn|rewrite <- Hn, <- A3]; eauto using vector_in. }
    cbn [binary vf_params assign].
    rewrite (mk_map prog I M _ n _ _ (fun i => nth i ws (VInt 0))).
    - unfold vector. rewrite <- Hn, <- A2, map_nth_seq. reflexivity.
    - intros i Hi'. apply in_seq in Hi'. rewrite veval_fun. cbn [vevals].
      rewrite (sel_var prog I M _ "v1" n _ i us (VInt 0)); [|unfold vector; rewrite Hn; reflexivity|lia].
      rewrite (sel_var prog I M _ "v2" n _ i vs (VInt 0)); [|unfold vector; rewrite A3, Hn; reflexivity|lia].
      rewrite A4 by lia. reflexivity.
    - apply seq_length.
  Qed.

  Lemma icmp_value : forall q n us vs xs ys zs, In (IVCmp q n 1) l -> List.length us = n -> Forall2 (lane enc 1) us xs -> Forall2 (lane enc 1) vs ys ->
    vec_icmp q 1 xs ys = Some zs -> lanes_exact enc bw (EvCmp q 1) xs ys ->
    exists ws, M (VName (OCmp q) [Vec n (intType O 1)]) [vector O 1 us; vector O 1 vs] = vector O 1 ws /\ Forall2 (lane enc 1) ws zs.
  Proof.
    clear HK. intros op n us vs xs ys zs Hi Hn H1 H2 Hz He. pose proof (proj1 (Forall_forall _ _) W _ Hi) as [_ Hw].
    destruct (lane_list (OCmp op) 1 1 (EvCmp op 1) (fun a b => Some (if llvm_icmp op 1 a b then 1 else 0)) _ eq_refl (cmp_decl enc p op 1 Hw)) with us vs xs ys zs as (ws & A1 & A2 & A3 & A4); try assumption.
    { intros va vb a b c Ha Hb Hc He'. injection Hc as <-. eapply (lane_icmp enc p I bw); eauto. }
    exists ws. split; [|exact A1].
    assert (In (DFun (cmp O op n 1)) tbl) as HF by (eapply (table_in O l tbl); [exact W|exact HT|exact Hi|reflexivity|cbn; tauto]).
    apply (body_value _ _ _ HF eq_refl).
    { cbn [cmp vf_params map snd]. constructor; [|constructor; [|constructor]]; [rewrite <- Hn|rewrite <- Hn, <- A3]; eauto using vector_in. }
    cbn [cmp vf_params assign].
    rewrite (mk_map prog I M _ n _ _ (fun i => nth i ws (VInt 0))).
    - unfold vector. rewrite <- Hn, <- A2, map_nth_seq. reflexivity.
    - intros i Hi'. apply in_seq in Hi'. rewrite veval_fun. cbn [vevals].
      rewrite (sel_var prog I M _ "v1" n _ i us (VInt 0)); [|unfold vector; rewrite Hn; reflexivity|lia].
      rewrite (sel_var prog I M _ "v2" n _ i vs (VInt 0)); [|unfold vector; rewrite A3, Hn; reflexivity|lia].
      rewrite A4 by lia. reflexivity.
    - apply seq_length.
  Qed.

  Lemma shuffle_lanes : forall w us vs xs ys mask zs, Forall2 (lane enc w) us xs -> Forall2 (lane enc w) vs ys -> shufflevector xs ys mask = Some zs ->
    Forall2 (lane enc w) (map (fun m => nth (Z.to_nat m) (us ++ vs) (VInt 0)) mask) zs.
  Proof.
    intros w us vs xs ys mask zs H1 H2. pose proof (Forall2_app H1 H2) as H. revert zs.
    induction mask as [|m mask IH]; intros zs Hz; cbn [shufflevector] in Hz; [injection Hz as <-; constructor|].
    destruct (extractelement (xs ++ ys) m) as [z|] eqn:Ez; [|discriminate]. destruct (shufflevector xs ys mask) as [zs'|]; [|discriminate].
    injection Hz as <-. cbn [map]. constructor; [|auto]. unfold extractelement in Ez. destruct (_ && _) eqn:Eb; [|discriminate].
    apply andb_true_iff in Eb as [Eb1 Eb2]. apply Z.leb_le in Eb1. apply Z.ltb_lt in Eb2.
    eapply (f2_nth _ _ _ _ _ _ H); [|exact Ez]. apply nth_error_nth'. rewrite (f2_length _ _ _ H). lia.
  Qed.
  Lemma shuffle_value : forall n w n' mask us vs xs ys zs, In (IVShuffle n w n' mask) l -> List.length us = n -> List.length vs = n ->
    Forall2 (lane enc w) us xs -> Forall2 (lane enc w) vs ys -> shufflevector xs ys mask = Some zs ->
    exists ws, M (VName (OShuffle mask) [Vec n (intType O w)]) [vector O w us; vector O w vs] = vector O w ws /\ Forall2 (lane enc w) ws zs.
  Proof.
    intros n w n' mask us vs xs ys zs Hi Hn Hn2 H1 H2 Hz. pose proof (proj1 (Forall_forall _ _) W _ Hi) as (_ & _ & Hlen & Hm).
    eexists. split; [|exact (shuffle_lanes w us vs xs ys mask zs H1 H2 Hz)].
    destruct (visit_total O _ (proj1 (Forall_forall _ _) W _ Hi)) as (f & ds & E). pose proof E as E'. cbn [visit] in E.
    destruct (shuffle O n w n' mask) as [F|] eqn:EF; [|discriminate]. injection E as <- <-.
    assert (In (DFun F) tbl) as HF by (eapply (table_in O l tbl); [exact W|exact HT|exact Hi|exact E'|cbn; tauto]).
    unfold shuffle in EF. destruct (forallb _ mask) eqn:Epos; [|discriminate]. injection EF as <-.
    apply (body_value _ _ _ HF eq_refl).
    { cbn [vf_params map snd]. constructor; [|constructor; [|constructor]]; [rewrite <- Hn|rewrite <- Hn2]; eauto using vector_in. }
    cbn [vf_params assign].
    rewrite (mk_map prog I M _ n' _ _ (fun m => nth (Z.to_nat m) (us ++ vs) (VInt 0))).
    - unfold vector. rewrite map_length, Hlen. reflexivity.
    - intros m Hm'. rewrite Forall_forall in Hm. specialize (Hm m Hm'). destruct (m <? Z.of_nat n) eqn:Em.
      + rewrite (sel_var prog I M _ "v1" n _ _ us (VInt 0)); [|unfold vector; rewrite Hn; reflexivity|lia]. now rewrite app_nth1 by lia.
      + rewrite (sel_var prog I M _ "v2" n _ _ vs (VInt 0)); [|unfold vector; rewrite Hn2; reflexivity|lia]. rewrite app_nth2 by lia. do 3 f_equal. lia.
    - exact Hlen.
  Qed.

  Lemma extract_value : forall n w iw us i, In (IVExtract n w iw) l -> in_type (vector O w us) (Vec n (intType O w)) -> (i < n)%nat ->
    M (VName OExtract [Vec n (intType O w); Sc (intType O iw)]) [vector O w us; SV (VInt (Z.of_nat i))] = SV (nth i us (VInt 0)).
  Proof.
    intros n w iw us i Hi (Hn & _ & _ & Hs) Hin.
    assert (exists d, In d (snd (extract O n w iw)) /\ d = DAxiom (VName OExtract [Vec n (intType O w); Sc (intType O iw)]) (AtIndex i) [("v", Vec n (intType O w))]
       (XFun (VName OExtract [Vec n (intType O w); Sc (intType O iw)]) [XVar "v"; XInt (Z.of_nat i)]) (XSel n (intType O w) i (XVar "v"))) as (d & Hd & Ed).
    { eexists. split; [|reflexivity]. cbn [extract snd]. apply in_map_iff. exists i. split; [reflexivity|]. apply in_seq. lia. }
    assert (In d tbl) as HD.
    { eapply (table_in O l tbl); [exact W|exact HT|exact Hi|reflexivity|]. apply in_app_iff. right. right. exact Hd. }
    rewrite Ed in HD.
    destruct (sat_axiom _ _ _ _ HM _ _ _ _ _ [vector O w us] HD) as (v & E1 & E2).
    { constructor; [|constructor]. cbn. auto. }
    rewrite veval_fun in E1. cbn [vevals assign veval String.eqb Ascii.eqb Bool.eqb] in E1. injection E1 as E1.
    rewrite (sel_var prog I M _ "v" n _ _ us (VInt 0)) in E2; [|cbn; unfold vector; now rewrite Hn|lia]. congruence.
  Qed.

  Lemma insert_value : forall n w iw us v i, In (IVInsert n w iw) l -> in_type (vector O w us) (Vec n (intType O w)) -> scalar_in (intType O w) v -> (i < n)%nat ->
    M (VName OInsert [Vec n (intType O w); Sc (intType O iw)]) [vector O w us; SV v; SV (VInt (Z.of_nat i))]
    = vector O w (map (fun j => if (i =? j)%nat then v else nth j us (VInt 0)) (seq 0 n)).
  Proof.
    intros n w iw us x i Hi (Hn & _ & _ & Hs) Hx Hin.
    assert (exists d, In d (snd (insert O n w iw)) /\ d = DAxiom (VName OInsert [Vec n (intType O w); Sc (intType O iw)]) (AtIndex i) [("v", Vec n (intType O w)); ("x", Sc (intType O w))]
       (XFun (VName OInsert [Vec n (intType O w); Sc (intType O iw)]) [XVar "v"; XVar "x"; XInt (Z.of_nat i)])
       (XMk n (intType O w) (map (fun j => if (i =? j)%nat then XVar "x" else XSel n (intType O w) j (XVar "v")) (seq 0 n)))) as (d & Hd & Ed).
    { eexists. split; [|reflexivity]. cbn [insert snd]. apply in_map_iff. exists i. split; [reflexivity|]. apply in_seq. lia. }
    assert (In d tbl) as HD.
    { eapply (table_in O l tbl); [exact W|exact HT|exact Hi|reflexivity|]. apply in_app_iff. right. right. exact Hd. }
    rewrite Ed in HD.
    destruct (sat_axiom _ _ _ _ HM _ _ _ _ _ [vector O w us; SV x] HD) as (v & E1 & E2).
    { constructor; [|constructor; [|constructor]]; cbn; auto. }
    rewrite veval_fun in E1. cbn [vevals assign veval String.eqb Ascii.eqb Bool.eqb] in E1. injection E1 as E1.
    rewrite (mk_map prog I M _ n _ _ (fun j => if (i =? j)%nat then x else nth j us (VInt 0))) in E2.
    - injection E2 as E2. rewrite E1, <- E2. unfold vector. now rewrite map_length, seq_length.
    - intros j Hj. apply in_seq in Hj. destruct (i =? j)%nat; [reflexivity|]. apply sel_var; [cbn; unfold vector; now rewrite Hn|lia].
    - apply seq_length.
  Qed.

  Lemma insert_lanes : forall w us xs v x i, Forall2 (lane enc w) us xs -> lane enc w v x -> (i < List.length us)%nat ->
    Forall2 (lane enc w) (map (fun j => if (i =? j)%nat then v else nth j us (VInt 0)) (seq 0 (List.length us))) (firstn i xs ++ x :: skipn (S i) xs).
  Proof.
    intros w us xs v x i H Hv. revert i. induction H as [|u y us xs Hu H IH]; intros i Hi; cbn [List.length] in Hi; [lia|].
    cbn [List.length seq map]. rewrite <- seq_shift, map_map. destruct i as [|i]; cbn [Nat.eqb nth firstn skipn app].
    - constructor; [exact Hv|]. rewrite map_nth_seq. exact H.
    - constructor; [exact Hu|]. apply (IH i). lia.
  Qed.

  Lemma inverse_value : forall c src dst v, In (IVCast c src dst) l -> in_type v (typ O src) ->
    M (VName (OCast c) [typ O dst; typ O src]) [M (VName (OCast c) [typ O src; typ O dst]) [v]] = v.
  Proof.
    intros c src dst v Hi Hv. pose proof (proj1 (Forall_forall _ _) W _ Hi) as Wi. cbn [well_formed] in Wi.
    assert (exists n w, dst = LV n w) as (n & w & ->) by (destruct dst; [destruct c, src; cbn in Wi; tauto|eauto]).
    assert (In (inverseAxiom c (typ O src) (typ O (LV n w))) tbl) as HD.
    { eapply (table_in O l tbl); [exact W|exact HT|exact Hi|reflexivity|]. cbn [typ]. do 2 (apply in_app_iff; right). cbn; auto. }
    destruct (sat_axiom _ _ _ _ HM _ _ _ _ _ [v] HD) as (v' & E1 & E2); [constructor; [exact Hv|constructor]|].
    cbn [veval assign String.eqb Ascii.eqb Bool.eqb] in E1, E2. congruence.
  Qed.
  Lemma inverse_value' : forall c src dst v, In (IVCast c src dst) l -> in_type v (typ O dst) ->
    M (VName (OCast c) [typ O src; typ O dst]) [M (VName (OCast c) [typ O dst; typ O src]) [v]] = v.
  Proof.
    intros c src dst v Hi Hv. pose proof (proj1 (Forall_forall _ _) W _ Hi) as Wi. cbn [well_formed] in Wi.
    assert (exists n w, dst = LV n w) as (n & w & ->) by (destruct dst; [destruct c, src; cbn in Wi; tauto|eauto]).
    assert (In (inverseAxiom c (typ O (LV n w)) (typ O src)) tbl) as HD.
    { eapply (table_in O l tbl); [exact W|exact HT|exact Hi|reflexivity|]. cbn [typ]. do 2 (apply in_app_iff; right). cbn; auto. }
    destruct (sat_axiom _ _ _ _ HM _ _ _ _ _ [v] HD) as (v' & E1 & E2); [constructor; [exact Hv|constructor]|].
    cbn [veval assign String.eqb Ascii.eqb Bool.eqb] in E1, E2. congruence.
  Qed.
  Lemma cast_type : forall c src dst v, In (IVCast c src dst) l -> in_type v (typ O src) -> in_type (M (VName (OCast c) [typ O src; typ O dst]) [v]) (typ O dst).
  Proof.
    intros c src dst v Hi Hv. pose proof (proj1 (Forall_forall _ _) W _ Hi) as Wi. cbn [well_formed] in Wi.
    assert (exists n w, dst = LV n w) as (n & w & ->) by (destruct dst; [destruct c, src; cbn in Wi; tauto|eauto]).
    apply (sat_type _ _ _ _ HM (castFn c (typ O src) (typ O (LV n w)))); [|constructor; [exact Hv|constructor]].
    eapply (table_in O l tbl); [exact W|exact HT|exact Hi|reflexivity|]. cbn [typ]. do 2 (apply in_app_iff; right). cbn; auto.
  Qed.
  Lemma cast_type' : forall c src dst v, In (IVCast c src dst) l -> in_type v (typ O dst) -> in_type (M (VName (OCast c) [typ O dst; typ O src]) [v]) (typ O src).
  Proof.
    intros c src dst v Hi Hv. pose proof (proj1 (Forall_forall _ _) W _ Hi) as Wi. cbn [well_formed] in Wi.
    assert (exists n w, dst = LV n w) as (n & w & ->) by (destruct dst; [destruct c, src; cbn in Wi; tauto|eauto]).
    apply (sat_type _ _ _ _ HM (castFn c (typ O (LV n w)) (typ O src))); [|constructor; [exact Hv|constructor]].
    eapply (table_in O l tbl); [exact W|exact HT|exact Hi|reflexivity|]. cbn [typ]. do 2 (apply in_app_iff; right). cbn; auto.
  Qed.
  Lemma one_lane_value : forall w v, In (IVCast VBitCast (LI w) (LV 1 w)) l -> scalar_in (intType O w) v ->
    M (VName (OCast VBitCast) [Sc (intType O w); Vec 1 (intType O w)]) [SV v] = vector O w [v].
  Proof.
    intros w v Hi Hv.
    apply (body_value (castFn VBitCast (Sc (intType O w)) (Vec 1 (intType O w))) (XMk 1 (intType O w) [XVar "v"])); [|reflexivity|constructor; [exact Hv|constructor]|reflexivity].
    eapply (table_in O l tbl); [exact W|exact HT|exact Hi|reflexivity|]. cbn; auto.
  Qed.
End Lanes.

Lemma constant_value : forall enc p I M nd n w cs r, In w INTEGER_SIZES -> Forall (is_iN w) cs -> List.length cs = n ->
  exists e ws, constant (flags enc p) nd n w cs = Some e /\ veval (preludeInt (flags enc p)) I M r e = Some (vector (flags enc p) w ws) /\ Forall2 (lane enc w) ws cs.
Proof.
  intros enc p I M nd n w cs r Hw Hc Hn. unfold constant.
  assert (exists es ws, (fix go (cs : list Z) : option (list vexpr) :=
      match cs with
      | [] => Some []
      | c :: cs' => match lit (flags enc p) nd w c false false with Some e => match go cs' with Some es => Some (XScalar e :: es) | None => None end | None => None end
      end) cs = Some es /\ vevals (preludeInt (flags enc p)) I M r es = Some (map SV ws) /\ Forall2 (lane enc w) ws cs) as (es & ws & E1 & E2 & E3).
  { clear Hn. induction Hc as [|c cs Hc _ IH]; [exists [], []; repeat split; constructor|].
    destruct IH as (es & ws & E1 & E2 & E3).
    destruct (lane_lit enc p I all_bitwise nd w c (fun x => match r x with Some (SV v) => Some v | _ => None end) Hw Hc) as (e & v & L1 & L2 & L3).
    exists (XScalar e :: es), (v :: ws). rewrite L1, E1. split; [reflexivity|]. split; [|constructor; assumption].
    cbn [vevals veval map]. rewrite L2, E2. reflexivity. }
  rewrite E1. exists (XMk n (intType (flags enc p) w) es), ws. split; [reflexivity|]. split; [|exact E3].
  rewrite veval_mk, E2, unSs_map. unfold vector. rewrite (f2_length _ _ _ E3), Hn, Nat.eqb_refl. reflexivity.
Qed.
