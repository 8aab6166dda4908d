(** C38: merging getelementptr instructions preserves the address. *)
From Coq Require Import ZArith List Bool Lia.
From Verif.Spec Require Import Aggregates Gep LLVMInt.
From Verif.Model Require Import MergeGEP.
From Verif.Proofs Require Import AggregateProofs.
Import ListNotations.
Open Scope list_scope.
Open Scope Z_scope.

(** ** Well-formed getelementptrs (what LLVM's verifier requires) *)

(** The types agree: indices into structs are constants in range; other indices
    are of any kind.  [reaches t Is s]: from [t] the indices lead to type [s]. *)
Inductive reaches : ty -> list index -> ty -> Prop :=
| r_nil : forall t, reaches t [] t
| r_array : forall n t i l s, 1 <= width i -> reaches t l s -> reaches (TArray n t) (i :: l) s
| r_struct : forall k ts w z o t l s, 0 <= z < 2 ^ (w - 1) -> child (TStruct k ts) z = Some (o, t) -> reaches t l s ->
    reaches (TStruct k ts) (IConst w z :: l) s.
Definition result (t : ty) (l : list index) (s : ty) : Prop :=
  match l with i :: p => 1 <= width i /\ reaches t p s | [] => False end.
Inductive ok_pointer : pointer -> ty -> Prop :=
| ok_value : forall x t, ok_pointer (PValue x) t
| ok_inst : forall g t, ok_gep g t -> ok_pointer (GInst g) t
| ok_expr : forall g t, ok_gep g t -> ok_pointer (GExpr g) t
with ok_gep : gep -> ty -> Prop :=
| ok_g : forall t b l s, ok_pointer b t -> result t l s -> ok_gep (Gep t b l) s.

(** The sum of the last index of the inner and the first index of the outer
    getelementptr does not overflow, or is at least as wide as a pointer. *)
Definition sum_fits (P : Z) (env : nat -> Z) (g : gep) : Prop :=
  forall g1 Is SO1 GO1 J, source (g_base g) = Some g1 -> g_idxs g1 = Is ++ [SO1] -> g_idxs g = GO1 :: J ->
    P <= width SO1 \/ - 2 ^ (width SO1 - 1) <= ival env SO1 + ival env GO1 < 2 ^ (width SO1 - 1).

(** ** Proofs *)
Lemma signed_pat_id : forall w z, 1 <= w -> - 2 ^ (w - 1) <= z < 2 ^ (w - 1) -> signed w (pat w z) = z.
Proof.
  intros w z Hw Hz. assert (2 ^ w = 2 * 2 ^ (w - 1)) as E by (rewrite <- Z.pow_succ_r by lia; f_equal; lia).
  unfold signed, pat. destruct (Z_lt_ge_dec z 0).
  - assert (z mod 2 ^ w = z + 2 ^ w) as -> by (symmetry; apply Z.mod_unique with (q := -1); lia). destruct (z + 2 ^ w <? 2 ^ (w - 1)) eqn:?; lia.
  - rewrite Z.mod_small by lia. destruct (z <? 2 ^ (w - 1)) eqn:?; lia.
Qed.
Lemma signed_mod : forall w x, 0 <= w -> exists k, signed w (pat w x) = x + k * 2 ^ w.
Proof.
  intros w x Hw. assert (0 < 2 ^ w) by (apply Z.pow_pos_nonneg; lia). pose proof (Z.div_mod x (2 ^ w) ltac:(lia)). unfold signed, pat.
  destruct (_ <? _); [exists (- (x / 2 ^ w))|exists (- (x / 2 ^ w) - 1)]; lia.
Qed.

Lemma walk_reaches : forall env t l s, reaches t l s -> exists o, walk t (map (ival env) l) = Some (o, s).
Proof.
  intros env t l s H. induction H as [t|n t i l s _ _ (o & IH)|k ts w z o t l s Hz Hc _ (o' & IH)].
  - exists 0. reflexivity.
  - cbn [map walk step_in]. rewrite IH. eauto.
  - cbn [map walk step_in ival]. assert (1 <= w). { destruct (Z_lt_ge_dec w 1); [|lia]. rewrite Z.pow_neg_r in Hz by lia. lia. }
    rewrite signed_pat_id by lia. rewrite Hc, IH. eauto.
Qed.
Lemma walk_app : forall p t q o s, walk t p = Some (o, s) -> walk t (p ++ q) = match walk s q with Some (o', s') => Some (o + o', s') | None => None end.
Proof.
  induction p as [|i p IH]; intros t q o s H; cbn in *.
  - injection H as <- <-. destruct (walk t q) as [[? ?]|]; reflexivity.
  - destruct (step_in t i) as [[o1 t1]|]; [|discriminate]. destruct (walk t1 p) as [[o2 s2]|] eqn:E; [|discriminate].
    injection H as <- <-. rewrite (IH t1 q o2 s2 E). destruct (walk s2 q) as [[? ?]|]; [|reflexivity]. do 2 f_equal. lia.
Qed.
Lemma reaches_app : forall p t q s, reaches t (p ++ q) s <-> exists u, reaches t p u /\ reaches u q s.
Proof.
  induction p as [|i p IH]; intros t q s; cbn [app].
  - split; [intros H; exists t; split; [constructor|exact H]|]. intros (u & H1 & H2). inversion H1; subst. exact H2.
  - split.
    + intros H. inversion H as [|n t1 ? l ? Hw H1|k ts w z o t1 l ? Hz Hc H1]; subst.
      * apply IH in H1 as (u & ? & ?). exists u. split; [now constructor|assumption].
      * apply IH in H1 as (u & ? & ?). exists u. split; [econstructor; eauto|assumption].
    + intros (u & H1 & H2). inversion H1 as [|n t1 ? l ? Hw H3|k ts w z o t1 l ? Hz Hc H3]; subst.
      * constructor; [exact Hw|]. apply IH. eauto.
      * econstructor; eauto. apply IH. eauto.
Qed.
Lemma reaches_fun : forall t l s s', reaches t l s -> reaches t l s' -> s = s'.
Proof. intros t l s s' H. revert s'. induction H; intros s' H'; inversion H'; subst; auto. apply IHreaches. congruence. Qed.
Lemma ends_seq_spec : forall p t acc x u s, reaches t p u -> reaches u [x] s ->
  ends_seq t acc (map static (p ++ [x])) = match u with TStruct _ _ => false | _ => true end.
Proof.
  induction p as [|i p IH]; intros t acc x u s H H2.
  - inversion H; subst. inversion H2 as [|n t1 ? l ? Hw H1|k ts w z o t1 l ? Hz Hc H1]; subst; cbn [map app ends_seq step_in static]; [reflexivity|].
    rewrite Hc. reflexivity.
  - inversion H as [|n t1 ? l ? Hw H1|k ts w z o t1 l ? Hz Hc H1]; subst; cbn [map app ends_seq step_in static].
    + eapply IH; eauto.
    + rewrite Hc. eapply IH; eauto.
Qed.

Lemma pat_step : forall P x y, 0 <= P -> pat P (pat P x + y) = pat P (x + y).
Proof. intros. unfold pat. apply Zplus_mod_idemp_l. Qed.
Lemma pat_cong : forall P x y k, 0 <= P -> x = y + k * 2 ^ P -> pat P x = pat P y.
Proof. intros P x y k HP ->. unfold pat. apply Z_mod_plus_full. Qed.

Lemma isNull_val : forall env i, isNull i = true -> 1 <= width i -> ival env i = 0.
Proof.
  intros env [w z|w x|a b] H Hw; try discriminate. cbn in *. apply Z.eqb_eq in H. subst. apply signed_pat_id; [exact Hw|].
  assert (0 < 2 ^ (w - 1)) by (apply Z.pow_pos_nonneg; lia). lia.
Qed.

Lemma sum_cong : forall P env SO1 GO1 sum, 0 <= P -> 1 <= width SO1 -> 1 <= width GO1 ->
  (if isNull SO1 then Some GO1 else if isNull GO1 then Some SO1 else if width SO1 =? width GO1 then Some (ISum SO1 GO1) else None) = Some sum ->
  P <= width SO1 \/ - 2 ^ (width SO1 - 1) <= ival env SO1 + ival env GO1 < 2 ^ (width SO1 - 1) ->
  1 <= width sum /\ exists k, ival env sum = ival env SO1 + ival env GO1 + k * 2 ^ P.
Proof.
  intros P env SO1 GO1 sum HP H1 H2 Hs Hf. destruct (isNull SO1) eqn:E1; [|destruct (isNull GO1) eqn:E2; [|destruct (width SO1 =? width GO1) eqn:E3; [|discriminate]]];
    injection Hs as <-.
  - rewrite (isNull_val env SO1) by assumption. split; [exact H2|]. exists 0. lia.
  - rewrite (isNull_val env GO1) by assumption. split; [exact H1|]. exists 0. lia.
  - split; [exact H1|]. cbn [ival]. destruct Hf as [Hf|Hf].
    + destruct (signed_mod (width SO1) (ival env SO1 + ival env GO1) ltac:(lia)) as (k & ->). exists (k * 2 ^ (width SO1 - P)).
      rewrite <- Z.mul_assoc, <- Z.pow_add_r by lia. do 2 f_equal. f_equal. lia.
    + exists 0. rewrite signed_pat_id by lia. lia.
Qed.

(** ** C38 *)
Theorem C38_merge : forall P env g g' s, 0 <= P -> ok_gep g s -> sum_fits P env g -> simplifyGEP g = Some g' ->
  ok_gep g' s /\ gval P env g' = gval P env g.
Proof.
  intros P env g g' s HP Hok Hfit H. destruct Hok as [T b J s Hb HJ]. cbn [simplifyGEP] in H.
  destruct (source b) as [[T1 P1 Is]|] eqn:Esrc; [|discriminate].
  assert (ok_gep (Gep T1 P1 Is) T) as Hsrc by (destruct b; try discriminate; injection Esrc as ->; inversion Hb; auto).
  assert (pval P env b = gval P env (Gep T1 P1 Is)) as Eb by (destruct b; try discriminate; injection Esrc as ->; reflexivity).
  inversion Hsrc as [? ? ? ? HP1 HIs]; subst.
  set (wait := match P1 with PValue _ => _ | _ => _ end) in H. destruct wait; [discriminate|].
  destruct J as [|GO1 J']; [destruct HJ|]. destruct HJ as (HGO & HJ'). destruct Is as [|I0 Ip]; [destruct HIs|]. destruct HIs as (HI0 & HIp).
  destruct (walk_reaches env _ _ _ HJ') as (oj & Wj). destruct (walk_reaches env _ _ _ HIp) as (oi & Wi).
  cbn [tl] in H.
  assert (gval P env (Gep T b (GO1 :: J')) = option_map (fun a => pat P (a + (ival env I0 * asize T1 + oi) + (ival env GO1 * asize T + oj))) (pval P env P1)) as Ev.
  { cbn [gval]. rewrite Eb. cbn [gval]. unfold gep_address. cbn [map gep_walk]. rewrite Wi, Wj. destruct (pval P env P1); [|reflexivity]. cbn [option_map]. f_equal. apply pat_step. exact HP. }
  destruct (ends_seq T1 true (map static Ip)) eqn:Eseq.
  - destruct (rev (I0 :: Ip)) as [|SO1 r] eqn:Erev; [discriminate|].
    assert (I0 :: Ip = rev r ++ [SO1]) as EIs by (rewrite <- (rev_involutive (I0 :: Ip)), Erev; reflexivity).
    destruct (if isNull SO1 then _ else _) as [sum|] eqn:Esum; [|discriminate].
    assert (1 <= width SO1) as HSO1.
    { destruct Ip as [|y Ip]; [destruct r as [|a r]; [injection EIs as <-; exact HI0|destruct (rev r) eqn:E; cbn in EIs; rewrite E in EIs; discriminate]|].
      assert (exists p, y :: Ip = p ++ [SO1]) as (p & Ep).
      { destruct (rev r) as [|z q] eqn:E; [discriminate|]. injection EIs as -> ->. exists q. reflexivity. }
      rewrite Ep in HIp. apply reaches_app in HIp as (u & _ & Hu). inversion Hu as [|n t1 ? l ? Hw H1|k ts w z o t1 l ? Hz Hc H1]; subst; [exact Hw|].
      cbn. destruct (Z_lt_ge_dec w 1); [|lia]. rewrite Z.pow_neg_r in Hz by lia. lia. }
    destruct (sum_cong P env SO1 GO1 sum HP HSO1 HGO Esum) as (Hws & k & Ek).
    { apply (Hfit (Gep T1 P1 (I0 :: Ip)) (rev r) SO1 GO1 J'); auto. }
    destruct (length (I0 :: Ip) =? 1)%nat eqn:El.
    + destruct Ip as [|y Ip]; [|discriminate]. destruct r as [|a r]; [|destruct (rev r) eqn:E; cbn in EIs; rewrite E in EIs; discriminate].
      injection EIs as <-. injection H as <-. inversion HIp; subst. cbn in Wi. injection Wi as <-.
      split.
      * constructor; [exact HP1|]. split; [exact Hws|exact HJ'].
      * rewrite Ev. cbn [gval]. unfold gep_address. cbn [map gep_walk]. rewrite Wj. destruct (pval P env P1) as [a|]; [|reflexivity]. cbn [option_map]. f_equal.
        rewrite Ek. apply pat_cong with (k := k * asize T); [exact HP|]. lia.
    + destruct Ip as [|y Ip]; [discriminate|]. destruct (rev r) as [|z q] eqn:Er; [discriminate|].
      injection EIs as -> Ep. rewrite Ep in *. pose proof HIp as HIp'. apply reaches_app in HIp as (u & Hu1 & Hu2).
      rewrite (ends_seq_spec q T1 true SO1 u T Hu1 Hu2) in Eseq.
      inversion Hu2 as [|n t1 ? l ? Hw H1|]; subst; [|discriminate]. inversion H1; subst.
      change (z :: q ++ [SO1]) with ((z :: q) ++ [SO1]) in H. rewrite removelast_last in H. injection H as <-.
      destruct (walk_reaches env _ _ _ Hu1) as (oq & Wq).
      assert (oi = oq + ival env SO1 * asize T) as ->.
      { rewrite map_app, (walk_app _ _ _ _ _ Wq) in Wi. cbn in Wi. injection Wi as <-. lia. }
      split.
      * constructor; [exact HP1|]. split; [exact HI0|]. cbn [app]. apply reaches_app. exists (TArray n T). split; [exact Hu1|]. now constructor.
      * rewrite Ev. cbn [gval]. unfold gep_address. cbn [map app gep_walk]. rewrite map_app, (walk_app _ _ _ _ _ Wq). cbn [map walk step_in]. rewrite Wj.
        destruct (pval P env P1) as [a|]; [|reflexivity]. cbn [option_map]. f_equal. rewrite Ek. apply pat_cong with (k := k * asize T); [exact HP|]. lia.
  - destruct (isNull GO1) eqn:En; [|discriminate]. injection H as <-. split.
    + constructor; [exact HP1|]. split; [exact HI0|]. apply reaches_app. eauto.
    + rewrite Ev. cbn [gval]. unfold gep_address. cbn [map app gep_walk]. rewrite map_app, (walk_app _ _ _ _ _ Wi), Wj, (isNull_val env GO1 En HGO).
      destruct (pval P env P1) as [a|]; [|reflexivity]. cbn [option_map]. do 2 f_equal. lia.
Qed.
Print Assumptions C38_merge.

(** Merging repeatedly, with all indices at least as wide as pointers. *)
Inductive merges : gep -> gep -> Prop :=
| m_refl : forall g, merges g g
| m_step : forall g g1 g2, simplifyGEP g = Some g1 -> merges g1 g2 -> merges g g2.
Inductive wide_pointer (P : Z) : pointer -> Prop :=
| wide_value : forall x, wide_pointer P (PValue x)
| wide_inst : forall g, wide P g -> wide_pointer P (GInst g)
| wide_expr : forall g, wide P g -> wide_pointer P (GExpr g)
with wide (P : Z) : gep -> Prop :=
| wide_gep : forall t b l, wide_pointer P b -> Forall (fun i => P <= width i) l -> wide P (Gep t b l).

Lemma wide_step : forall P g g', wide P g -> simplifyGEP g = Some g' -> wide P g'.
Proof.
  intros P g g' H Hs. destruct H as [T b J Hb HJ]. cbn [simplifyGEP] in Hs.
  destruct (source b) as [[T1 P1 Is]|] eqn:Esrc; [|discriminate].
  assert (wide P (Gep T1 P1 Is)) as Hsrc by (destruct b; try discriminate; injection Esrc as ->; inversion Hb; auto).
  inversion Hsrc as [? ? ? HP1 HIs]; subst. set (wait := match P1 with PValue _ => _ | _ => _ end) in Hs. destruct wait; [discriminate|].
  destruct J as [|GO1 J']; [discriminate|]. inversion HJ as [|? ? H1 H2]; subst.
  destruct (ends_seq _ _ _).
  - destruct (rev Is) as [|SO1 r] eqn:Erev; [discriminate|].
    assert (Is = rev r ++ [SO1]) as -> by (rewrite <- (rev_involutive Is), Erev; reflexivity).
    apply Forall_app in HIs as (HI1 & HI2). inversion HI2; subst.
    destruct (if isNull SO1 then _ else _) as [sum|] eqn:Esum; [|discriminate].
    assert (P <= width sum). { destruct (isNull SO1); [injection Esum as <-; auto|]. destruct (isNull GO1); [injection Esum as <-; auto|].
      destruct (_ =? _); [injection Esum as <-; auto|discriminate]. }
    destruct (_ =? _)%nat; injection Hs as <-; constructor; auto. rewrite removelast_last. apply Forall_app. auto.
  - destruct (isNull GO1); [|discriminate]. injection Hs as <-. constructor; auto. apply Forall_app. auto.
Qed.

Theorem C38_chains : forall P env g g' s, 0 <= P -> ok_gep g s -> wide P g -> merges g g' -> gval P env g' = gval P env g.
Proof.
  intros P env g g' s HP Hok Hw H. induction H as [g|g g1 g2 H1 _ IH]; [reflexivity|].
  destruct (C38_merge P env g g1 s HP Hok) as (Hok' & E); [|exact H1|rewrite <- E; apply IH; auto; eapply wide_step; eauto].
  intros g0 Is SO1 GO1 J E1 E2 E3. left. destruct Hw as [t b l Hb Hl]. cbn in E1, E3.
  assert (wide P g0) as Hw0 by (destruct b; try discriminate; injection E1 as ->; inversion Hb; auto).
  destruct Hw0 as [? ? l0 _ Hl0]. cbn in E2. subst. apply Forall_app in Hl0 as (_ & Hl0). now inversion Hl0.
Qed.
Print Assumptions C38_chains.

(** Indices of i32 with 64-bit pointers whose sum overflows: the address changes. *)
Theorem C38_narrow_refuted : exists g g' s env, ok_gep g s /\ simplifyGEP g = Some g' /\ gval 64 env g <> gval 64 env g'.
Proof.
  set (i8 := TScalar 8 1).
  exists (Gep i8 (GInst (Gep i8 (PValue 0) [IValue 32 1])) [IValue 32 2]), (Gep i8 (PValue 0) [ISum (IValue 32 1) (IValue 32 2)]), i8,
    (fun x => match x with 0%nat => 4096 | 1%nat => 2147483647 | _ => 1 end).
  split; [|split; [reflexivity|vm_compute; discriminate]].
  constructor; [|split; [cbn; lia|constructor]]. constructor. constructor; [constructor|]. split; [cbn; lia|constructor].
Qed.
Print Assumptions C38_narrow_refuted.

(** A field of an array element: gep (gep P, 0, 1), i, 0 with sequential merging,
    then through a struct. *)
Example C38_nonvacuous :
  let i32 := TScalar 32 4 in let S := TStruct false [i32; TArray 10 i32] in
  let inner := Gep S (PValue 0) [IConst 64 0; IConst 32 1] in
  let g := Gep (TArray 10 i32) (GInst inner) [IConst 64 0; IValue 64 1] in
  let g' := Gep S (PValue 0) [IConst 64 0; IConst 32 1; IValue 64 1] in
  ok_gep g i32 /\ simplifyGEP g = Some g' /\
  gval 64 (fun x => match x with 0%nat => 4096 | _ => 3 end) g = Some 4112 /\
  let h := Gep i32 (GInst g') [IValue 64 2] in
  ok_gep h i32 /\ simplifyGEP h = Some (Gep S (PValue 0) [IConst 64 0; IConst 32 1; ISum (IValue 64 1) (IValue 64 2)]) /\
  sum_fits 64 (fun _ => 5) h.
Proof.
  cbv zeta.
  assert (reaches (TStruct false [TScalar 32 4; TArray 10 (TScalar 32 4)]) [IConst 32 1] (TArray 10 (TScalar 32 4))) as R.
  { eapply r_struct with (o := 4); [cbn; lia|reflexivity|constructor]. }
  split; [|split; [reflexivity|split; [reflexivity|split; [|split; [reflexivity|]]]]].
  - constructor; [|split; [cbn; lia|]]; [|constructor; [cbn; lia|constructor]]. constructor. constructor; [constructor|]. split; [cbn; lia|exact R].
  - constructor; [|split; [cbn; lia|constructor]]. constructor. constructor; [constructor|]. split; [cbn; lia|].
    change [IConst 32 1; IValue 64 1] with ([IConst 32 1] ++ [IValue 64 1]). apply reaches_app. eexists. split; [exact R|]. constructor; [cbn; lia|constructor].
  - intros g1 Is SO1 GO1 J E1 E2 E3. left. cbn in E1. injection E1 as <-. cbn in E2.
    change [IConst 64 0; IConst 32 1; IValue 64 1] with ([IConst 64 0; IConst 32 1] ++ [IValue 64 1]) in E2. apply app_inj_tail in E2 as (_ & <-). cbn. lia.
Qed.
