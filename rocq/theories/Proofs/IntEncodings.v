(** The three integer encodings as instances of the simulation. *)
From Coq Require Import ZArith List String Bool Lia ZifyBool.
From Verif.Base Require Import ZBits.
From Verif.Spec Require Import LLVMInt IR.
From Verif.Model Require Import Boogie PreludeInt SmackRepInt.
From Verif.Proofs Require Import Lookup PreludeCalls ExprSim.
Import ListNotations.
Open Scope string_scope.
Open Scope Z_scope.

Definition is_bitwise (op : binop) : bool :=
  match op with Shl | LShr | AShr | And | Or | Xor => true | _ => false end.

(** ** Division facts *)
Lemma smt_div_quot : forall a b, b <> 0 -> (0 <= a \/ Z.rem a b = 0) ->
  smt_div a b = Some (Z.quot a b).
Proof.
  intros a b Hb H. unfold smt_div. destruct (b =? 0) eqn:E0; [lia|]. f_equal.
  destruct H as [H|H].
  - destruct (0 <? b) eqn:Eb.
    + symmetry. apply Z.quot_div_nonneg; lia.
    + rewrite <- (Z.opp_involutive b) at 2. rewrite Z.quot_opp_r by lia. f_equal.
      symmetry. apply Z.quot_div_nonneg; lia.
  - pose proof (Z.quot_rem' a b) as Q. rewrite H, Z.add_0_r in Q.
    destruct (0 <? b) eqn:Eb.
    + rewrite Q at 1. rewrite Z.mul_comm, Z.div_mul by lia. reflexivity.
    + rewrite Q at 1. replace (b * (a ÷ b)) with ((- (a ÷ b)) * (- b)) by lia.
      rewrite Z.div_mul by lia. lia.
Qed.

Lemma rem_euclid : forall a b, b <> 0 ->
  Z.rem a b = if negb (a mod Z.abs b =? 0) && (a <? 0) then a mod Z.abs b - Z.abs b else a mod Z.abs b.
Proof.
  intros a b Hb. rewrite <- Z.rem_abs_r by assumption.
  set (m := Z.abs b). assert (0 < m) by lia. clearbody m. clear b Hb.
  destruct (a <? 0) eqn:Ea.
  - rewrite andb_true_r.
    replace (Z.rem a m) with (- Z.rem (- a) m) by (rewrite Z.rem_opp_l by lia; lia).
    rewrite Z.rem_mod_nonneg by lia.
    destruct (a mod m =? 0) eqn:E; cbn [negb].
    + rewrite Z.mod_opp_l_z by lia. lia.
    + rewrite Z.mod_opp_l_nz by lia. lia.
  - rewrite andb_false_r. apply Z.rem_mod_nonneg; lia.
Qed.

Lemma land_bool : forall a b, is_iN 1 a -> is_iN 1 b -> In a [0;1] /\ In b [0;1].
Proof. intros a b [H1 H2] [H3 H4]. cbn in *. lia. Qed.

(** ** Wrapped integers *)
Section Wrapped.
  Context (O : opts) (nd : bool) (prog : list fdecl) (I : interp) (j : nat).
  Hypothesis Hext : extends prog (preludeInt O).
  Hypothesis Hbp : bitPrecise O = false.
  Hypothesis Hw : wrappedIntegerEncoding O = true.
  (** the bitwise operations the interpretation gets right *)
  Context (bw : binop -> Z -> Prop).
  Notation k := (S (S (S (S (S j))))).
  Notation C := (eval_call prog I k).

  Definition Rw (n : Z) (v : val) (x : Z) : Prop :=
    exists z, v = VInt z /\ pat n z = x /\ (n = 1 -> z = x).

  Hypothesis HI : forall op n va vb a b c, bw op n -> is_bitwise op = true ->
    supported n -> is_iN n a -> is_iN n b -> Rw n va a -> Rw n vb b -> llvm_binop op n a b = Some c ->
    exists v, I (indexedName (INSTRUCTION_TABLE op) [NInt n]) [va; vb] = Some v /\ Rw n v c.

  Definition gw : guards := {|
    g_bin := fun op n a b =>
      match op with
      | Add | Sub => n <> 1
      | SDiv => 0 <= signed n a \/ Z.rem (signed n a) (signed n b) = 0
      | Shl | LShr | AShr | And | Or | Xor => bw op n
      | _ => True
      end;
    g_icmp := fun _ _ _ _ => True;
    g_cast := fun _ _ _ _ => True;
    g_lit := fun n c u ui => nd = true -> u = true -> ui = false -> n <= 64 |}.

  Lemma wU : forall n a, wrapU O n a = pat n a.
  Proof. intros. unfold wrapU. now rewrite Hw. Qed.
  Lemma wS : forall n a, wrapS O n a = signed n (pat n a).
  Proof. intros. unfold wrapS. now rewrite Hw. Qed.

  Lemma Rw_mk : forall n z x, n <> 1 -> pat n z = x -> Rw n (VInt z) x.
  Proof. intros n z x H1 H2. exists z. repeat split; auto. lia. Qed.
  Lemma Rw_id : forall n x, is_iN n x -> Rw n (VInt x) x.
  Proof. intros n x H. exists x. repeat split; auto. apply pat_id, H. Qed.

  Lemma w_lit : forall n c u ui e r, supported n -> is_iN n c -> g_lit gw n c u ui ->
    lit O nd n c u ui = Some e -> exists v, eval_with C r e = Some v /\ Rw n v c.
  Proof.
    intros n c u ui e r Hn Hc Hg He. pose proof (size_pos n Hn) as Hn1.
    pose proof (pow2_pos n ltac:(lia)) as P0. pose proof (pow2_half n Hn1) as P1.
    pose proof (pow2_half_pos n Hn1) as P2.
    assert (exists v, eval_with C r (EInt c) = Some v /\ Rw n v c) as Hpos.
    { exists (VInt c). split; [reflexivity|]. apply Rw_id, Hc. }
    assert (1 < n -> APInt_isNegative n c = true ->
       exists v, eval_with C r (EFun (indexedName "$sub" [intType O n]) [integerLitU O 0 n; EInt (APInt_abs n c)]) = Some v /\ Rw n v c) as Hneg.
    { intros Hn2 Hneg. unfold intType, integerLitU. rewrite Hbp. cbn -[eval_call APInt_abs].
      rewrite (c_sub O prog I Hext Hbp) by assumption.
      exists (VInt (0 - APInt_abs n c)). split; [reflexivity|]. apply Rw_mk; [lia|].
      unfold APInt_abs. rewrite Hneg. fold (pat n (- c)).
      transitivity (pat n (- - c)); [|rewrite Z.opp_involutive; apply pat_id, Hc].
      rewrite <- (pat_neg_pat n (- c)). f_equal. }
    unfold lit in He. rewrite Hbp in He.
    destruct (1 <? n) eqn:En; [|injection He as <-; exact Hpos].
    destruct u; [destruct ui; [injection He as <-; exact Hpos|]|].
    - destruct (APInt_getSExtValue nd n c) as [s|] eqn:Es; [|discriminate].
      destruct (s =? -1) eqn:Em; injection He as <-; [|exact Hpos].
      apply Hneg; [lia|]. unfold APInt_getSExtValue in Es.
      destruct (APInt_isNegative n c) eqn:Eneg; [reflexivity|exfalso].
      destruct ((- 2 ^ 63 <=? c) && (c <? 2 ^ 63)) eqn:Er.
      + injection Es as <-. unfold is_iN in Hc. lia.
      + destruct nd eqn:End; [|discriminate]. specialize (Hg End eq_refl eq_refl).
        unfold is_iN in Hc. unfold APInt_isNegative in Eneg.
        pose proof (pow2_le (n - 1) 63 ltac:(lia)). lia.
    - destruct (APInt_isNegative n c) eqn:Eneg; injection He as <-; [apply Hneg; [lia|reflexivity]|exact Hpos].
  Qed.


  Lemma w_bin : forall op n va vb a b c, supported n -> is_iN n a -> is_iN n b ->
    Rw n va a -> Rw n vb b -> llvm_binop op n a b = Some c -> g_bin gw op n a b ->
    exists v, C (indexedName (INSTRUCTION_TABLE op) [intType O n]) [va; vb] = Some v /\ Rw n v c.
  Proof.
    intros op n va vb a b c Hn Ha Hb HRa HRb Hc Hg. pose proof (size_pos n Hn) as Hn1.
    pose proof (llvm_binop_range op n a b c Hn1 Ha Hb Hc) as Hcr.
    unfold intType. rewrite Hbp.
    destruct (is_bitwise op) eqn:Ebw.
    { assert (bw op n) as Hbw by (destruct op; try discriminate; exact Hg).
      destruct (HI op n va vb a b c Hbw Ebw Hn Ha Hb HRa HRb Hc) as (v & Hv & HR).
      exists v. split; [|exact HR].
      destruct op; try discriminate; cbn [INSTRUCTION_TABLE] in *;
      match goal with |- context [indexedName ?s _] =>
        match s with String _ ?t => change s with ("$" ++ t) in * ;
          rewrite (c_uninterp O prog I Hext Hbp t (Some OpBuiltin)) end end;
        try assumption; in_table. }
    destruct HRa as (za & -> & Ea & Ea1). destruct HRb as (zb & -> & Eb & Eb1).
    destruct op; try discriminate; cbn [INSTRUCTION_TABLE]; cbn in Hc.
    - rewrite (c_add O prog I Hext Hbp) by assumption. injection Hc as <-.
      exists (VInt (za + zb)). split; [reflexivity|]. apply Rw_mk; [exact Hg|].
      rewrite <- Ea, <- Eb. symmetry. apply pat_add.
    - rewrite (c_sub O prog I Hext Hbp) by assumption. injection Hc as <-.
      exists (VInt (za - zb)). split; [reflexivity|]. apply Rw_mk; [exact Hg|].
      rewrite <- Ea, <- Eb. symmetry. apply pat_sub.
    - rewrite (c_mul O prog I Hext Hbp) by assumption. injection Hc as <-.
      exists (VInt (za * zb)). split; [reflexivity|]. exists (za * zb).
      split; [reflexivity|]. split; [rewrite <- Ea, <- Eb; symmetry; apply pat_mul|].
      intros ->. rewrite Ea1, Eb1 by reflexivity.
      destruct (i1_cases a Ha) as [-> | ->], (i1_cases b Hb) as [-> | ->]; reflexivity.
    - rewrite (c_udiv O prog I Hext Hbp) by assumption. rewrite !wU, Ea, Eb.
      destruct (b =? 0) eqn:E0; [discriminate|]. injection Hc as <-. unfold smt_div. rewrite E0.
      destruct (0 <? b) eqn:E1; [|unfold is_iN in Hb; lia].
      exists (VInt (a / b)). split; [reflexivity|]. apply Rw_id, Hcr.
    - rewrite (c_sdiv O prog I Hext Hbp) by assumption. rewrite !wS, Ea, Eb.
      destruct (b =? 0) eqn:E0; [discriminate|]. cbn [orb] in Hc.
      destruct ((signed n a =? - 2 ^ (n - 1)) && (signed n b =? -1)) eqn:E1; [discriminate|].
      injection Hc as <-.
      assert (signed n b <> 0) as Hb0.
      { intro E. assert (b = 0); [|lia]. apply (signed_eq_iff n); auto.
        - unfold is_iN. pose proof (pow2_pos n ltac:(lia)). lia.
        - rewrite E. symmetry. apply signed_0, Hn1. }
      rewrite smt_div_quot by assumption. eexists. split; [reflexivity|].
      exists (signed n a ÷ signed n b). split; [reflexivity|]. split; [reflexivity|].
      intros ->. destruct (i1_cases b Hb) as [-> | ->]; [discriminate|].
      destruct (i1_cases a Ha) as [-> | ->]; [reflexivity|discriminate].
    - rewrite (c_urem O prog I Hext Hbp) by assumption. rewrite !wU, Ea, Eb.
      destruct (b =? 0) eqn:E0; [discriminate|]. injection Hc as <-. unfold smt_mod. rewrite E0.
      rewrite Z.abs_eq by (unfold is_iN in Hb; lia).
      exists (VInt (a mod b)). split; [reflexivity|]. apply Rw_id, Hcr.
    - rewrite (c_srem O prog I Hext Hbp) by assumption. rewrite !wS, Ea, Eb.
      destruct (b =? 0) eqn:E0; [discriminate|]. cbn [orb] in Hc.
      destruct ((signed n a =? - 2 ^ (n - 1)) && (signed n b =? -1)) eqn:E1; [discriminate|].
      injection Hc as <-.
      assert (signed n b <> 0) as Hb0.
      { intro E. assert (b = 0); [|lia]. apply (signed_eq_iff n); auto.
        - unfold is_iN. pose proof (pow2_pos n ltac:(lia)). lia.
        - rewrite E. symmetry. apply signed_0, Hn1. }
      pose proof (signed_range n a Hn1 Ha) as Sa. pose proof (signed_range n b Hn1 Hb) as Sb.
      pose proof (pow2_half n Hn1) as P1. pose proof (pow2_half_pos n Hn1) as P2.
      exists (VInt (Z.rem (signed n a) (signed n b))). split.
      + unfold smt_mod. destruct (signed n b =? 0) eqn:E2; [lia|].
        rewrite (rem_euclid (signed n a) (signed n b) Hb0).
        pose proof (Z.mod_pos_bound (signed n a) (Z.abs (signed n b)) ltac:(lia)) as M.
        set (m := signed n a mod Z.abs (signed n b)) in *. cbn beta iota. rewrite !wU.
        assert (pat n m = m) as -> by (unfold pat; apply Z.mod_small; lia).
        assert (pat n 0 = 0) as -> by (unfold pat; apply Z.mod_small; lia).
        rewrite (signed_pat n a), signed_0 by assumption.
        destruct (negb (m =? 0) && (signed n a <? 0)); [|reflexivity].
        do 3 f_equal. rewrite (signed_pat n b) by assumption.
        destruct (Z.eq_dec (signed n b) (- 2 ^ (n - 1))) as [Em|Em].
        * rewrite Em. replace (0 - - 2 ^ (n - 1)) with (2 ^ (n - 1)) by lia.
          assert (pat n (2 ^ (n - 1)) = 2 ^ (n - 1)) as -> by (unfold pat; apply Z.mod_small; lia).
          unfold signed at 1. destruct (2 ^ (n - 1) <? 2 ^ (n - 1)) eqn:E3; [lia|].
          destruct (2 ^ (n - 1) - 2 ^ n <? - 2 ^ (n - 1)) eqn:E4; lia.
        * rewrite pat_signed by lia. destruct (0 - signed n b <? signed n b) eqn:E4; lia.
      + exists (Z.rem (signed n a) (signed n b)). split; [reflexivity|]. split; [reflexivity|].
        intros ->. destruct (i1_cases b Hb) as [-> | ->]; [discriminate|].
        destruct (i1_cases a Ha) as [-> | ->]; [reflexivity|discriminate].
  Qed.

  Lemma w_icmp : forall p n va vb a b, supported n -> is_iN n a -> is_iN n b ->
    Rw n va a -> Rw n vb b -> g_icmp gw p n a b ->
    exists v, C (indexedName (CMPINST_TABLE p) [intType O n]) [va; vb] = Some v /\
              Rw 1 v (b2z (llvm_icmp p n a b)).
  Proof.
    intros p n va vb a b Hn Ha Hb (za & -> & Ea & _) (zb & -> & Eb & _) _.
    unfold intType. rewrite Hbp.
    exists (VInt (b2z (llvm_icmp p n a b))). split; [|apply Rw_id, b2z_range].
    destruct p; cbn [CMPINST_TABLE];
    match goal with |- context [indexedName ?s _] =>
      match s with
      | String _ "eq" => rewrite (c_pred O prog I Hext Hbp "eq" BEq false (Some (intPredExpr O BEq false)))
      | String _ "ne" => rewrite (c_pred O prog I Hext Hbp "ne" BNeq false (Some (intPredExpr O BNeq false)))
      | String _ "ugt" => rewrite (c_pred O prog I Hext Hbp "ugt" Gt false None)
      | String _ "uge" => rewrite (c_pred O prog I Hext Hbp "uge" Gte false None)
      | String _ "ult" => rewrite (c_pred O prog I Hext Hbp "ult" Lt false None)
      | String _ "ule" => rewrite (c_pred O prog I Hext Hbp "ule" Lte false None)
      | String _ "sgt" => rewrite (c_pred O prog I Hext Hbp "sgt" Gt true None)
      | String _ "sge" => rewrite (c_pred O prog I Hext Hbp "sge" Gte true None)
      | String _ "slt" => rewrite (c_pred O prog I Hext Hbp "slt" Lt true None)
      | String _ "sle" => rewrite (c_pred O prog I Hext Hbp "sle" Lte true None)
      end
    end; try (reflexivity || assumption || in_table);
    cbn [sem_cmp llvm_icmp]; rewrite ?wU, ?wS, Ea, Eb; reflexivity.
  Qed.

  Lemma w_cast : forall c n1 n2 va a, supported n1 -> supported n2 -> cast_ok c n1 n2 -> is_iN n1 a ->
    Rw n1 va a -> g_cast gw c n1 n2 a ->
    exists v, C (indexedName (CAST_TABLE c) [intType O n1; intType O n2]) [va] = Some v /\
              Rw n2 v (llvm_cast c n1 n2 a).
  Proof.
    intros c n1 n2 va a Hn1 Hn2 Hc Ha (za & -> & Ea & _) _.
    pose proof (size_pos n1 Hn1). pose proof (size_pos n2 Hn2).
    unfold intType. rewrite Hbp. destruct c; cbn [CAST_TABLE llvm_cast cast_ok] in *.
    - rewrite (c_trunc O prog I Hext Hbp) by assumption. rewrite wU.
      eexists. split; [reflexivity|].
      replace (pat n2 za) with (pat n2 a) by (rewrite <- Ea; apply pat_narrow; lia).
      apply Rw_id, pat_range. lia.
    - rewrite (c_zext O prog I Hext Hbp) by assumption. rewrite wU, Ea.
      eexists. split; [reflexivity|]. apply Rw_id, (is_iN_widen n1); [lia|assumption].
    - rewrite (c_sext O prog I Hext Hbp) by assumption. rewrite wS, Ea.
      eexists. split; [reflexivity|]. apply Rw_mk; [lia|reflexivity].
  Qed.

  Lemma w_cond : forall r e v c, eval_with C r e = Some v -> is_iN 1 c -> Rw 1 v c ->
    eval_with C r (EBin BEq e (integerLit O 1 1)) = Some (VBool (c =? 1)).
  Proof.
    intros r e v c He _ (z & -> & _ & Hz). rewrite (Hz eq_refl) in He. cbn [eval_with].
    unfold integerLit, integerLitU. rewrite Hbp. cbn [Z.leb Z.compare eval_with]. rewrite He. reflexivity.
  Qed.

  Definition w_code_sim := code_sim O nd prog I k Rw gw w_lit w_bin w_icmp w_cast w_cond.
  Definition w_inst_sim := inst_sim O nd prog I k Rw gw w_lit w_bin w_icmp w_cast w_cond.
End Wrapped.

(** ** Bit-vectors *)
Section Bv.
  Context (O : opts) (nd : bool) (prog : list fdecl) (I : interp) (j : nat).
  Hypothesis Hext : extends prog (preludeInt O).
  Hypothesis Hbp : bitPrecise O = true.
  Hypothesis Hw : wrappedIntegerEncoding O = false.
  Notation k := (S (S (S (S (S j))))).
  Notation C := (eval_call prog I k).

  Definition Rb (n : Z) (v : val) (x : Z) : Prop := v = VBv n x.
  Definition gb : guards := {|
    g_bin := fun _ _ _ _ => True;
    g_icmp := fun _ _ _ _ => True;
    g_cast := fun _ _ _ _ => True;
    g_lit := fun n c u ui => nd = true -> u = true -> ui = false -> n <= 64 |}.

  Lemma bv_lit_eval : forall r z n, is_iN n z -> eval_with C r (EBv z n) = Some (VBv n z).
  Proof.
    intros r z n [H1 H2]. cbn [eval_with]. destruct (0 <=? z) eqn:E1; [|lia].
    destruct (z <? 2 ^ n) eqn:E2; [|lia]. reflexivity.
  Qed.

  Lemma b_sub : forall n a b, supported n ->
    C (indexedName "$sub" [NBv n]) [VBv n a; VBv n b] = Some (VBv n (pat n (a - b))).
  Proof.
    intros n a b Hn. change "$sub" with ("$" ++ "sub").
    rewrite (b_builtin O prog I Hext Hbp "sub" (Some (OpInlined (intArithExpr Minus))) true);
      [reflexivity|in_table|assumption].
  Qed.

  Lemma b_lit : forall n c u ui e r, supported n -> is_iN n c -> g_lit gb n c u ui ->
    lit O nd n c u ui = Some e -> exists v, eval_with C r e = Some v /\ Rb n v c.
  Proof.
    intros n c u ui e r Hn Hc Hg He. pose proof (size_pos n Hn) as Hn1.
    pose proof (pow2_pos n ltac:(lia)) as P0. pose proof (pow2_half n Hn1) as P1.
    pose proof (pow2_half_pos n Hn1) as P2.
    assert (exists v, eval_with C r (EBv c n) = Some v /\ Rb n v c) as Hpos.
    { exists (VBv n c). split; [apply bv_lit_eval, Hc|reflexivity]. }
    assert (APInt_isNegative n c = true ->
       exists v, eval_with C r (EFun (indexedName "$sub" [intType O n]) [integerLitU O 0 n; EBv (APInt_abs n c) n]) = Some v /\ Rb n v c) as Hneg.
    { intros Hneg. unfold intType, integerLitU. rewrite Hbp. rewrite eval_fun. cbn [evals_with].
      rewrite !bv_lit_eval.
      - rewrite b_sub by assumption. eexists. split; [reflexivity|]. unfold Rb. f_equal.
        unfold APInt_abs. rewrite Hneg. fold (pat n (- c)).
        replace (0 - pat n (- c)) with (- pat n (- c)) by lia.
        rewrite pat_neg_pat, Z.opp_involutive. apply pat_id, Hc.
      - unfold APInt_abs. rewrite Hneg. apply pat_range. lia.
      - unfold is_iN. lia. }
    unfold lit in He. rewrite Hbp in He.
    destruct (1 <? n) eqn:En; [|injection He as <-; exact Hpos].
    destruct u; [destruct ui; [injection He as <-; exact Hpos|]|].
    - destruct (APInt_getSExtValue nd n c) as [s|] eqn:Es; [|discriminate].
      destruct (s =? -1) eqn:Em; injection He as <-; [|exact Hpos].
      apply Hneg. unfold APInt_getSExtValue in Es.
      destruct (APInt_isNegative n c) eqn:Eneg; [reflexivity|exfalso].
      destruct ((- 2 ^ 63 <=? c) && (c <? 2 ^ 63)) eqn:Er.
      + injection Es as <-. unfold is_iN in Hc. lia.
      + destruct nd eqn:End; [|discriminate]. specialize (Hg End eq_refl eq_refl).
        unfold is_iN in Hc. unfold APInt_isNegative in Eneg.
        pose proof (pow2_le (n - 1) 63 ltac:(lia)). lia.
    - destruct (APInt_isNegative n c) eqn:Eneg; injection He as <-; [apply Hneg; reflexivity|exact Hpos].
  Qed.

  (** SMT-LIB signed division/remainder by cases on signs, and LLVM's. *)
  Lemma msb_signed : forall n a, is_iN n a -> msb n a = (signed n a <? 0).
  Proof.
    intros n a [H1 H2]. unfold msb, signed.
    destruct (Z.ltb_spec a (2 ^ (n - 1))); destruct (2 ^ (n - 1) <=? a) eqn:E; lia.
  Qed.
  Lemma smt_neg_signed : forall n a, 1 <= n -> is_iN n a -> signed n a < 0 -> smt_neg n a = - signed n a.
  Proof.
    intros n a Hn [H1 H2] H. unfold smt_neg, bvn, signed in *.
    pose proof (pow2_half n Hn). pose proof (pow2_half_pos n Hn).
    destruct (a <? 2 ^ (n - 1)) eqn:E; [lia|].
    apply mod_unique_pos with (k := -1); lia.
  Qed.

  Lemma smt_sdiv_quot : forall n a b, 1 <= n -> is_iN n a -> is_iN n b -> b <> 0 ->
    smt_sdiv n a b = pat n (Z.quot (signed n a) (signed n b)).
  Proof.
    intros n a b Hn Ha Hb H0. pose proof (signed_range n a Hn Ha). pose proof (signed_range n b Hn Hb).
    pose proof (pow2_half n Hn). pose proof (pow2_half_pos n Hn).
    assert (signed n b <> 0) as Hs0.
    { intro E. apply H0. apply (signed_eq_iff n); auto; [unfold is_iN; lia|]. rewrite E. symmetry. apply signed_0, Hn. }
    unfold smt_sdiv. rewrite !msb_signed by assumption.
    destruct (signed n a <? 0) eqn:Ea, (signed n b <? 0) eqn:Eb.
    - rewrite (smt_neg_signed n a), (smt_neg_signed n b) by (assumption || lia). unfold smt_udiv.
      destruct (- signed n b =? 0) eqn:E; [lia|].
      rewrite <- Z.quot_div_nonneg by lia. rewrite Z.quot_opp_opp by lia. symmetry.
      apply pat_id. split.
      + rewrite <- Z.quot_opp_opp by lia. apply Z.quot_pos; lia.
      + rewrite <- Z.quot_opp_opp by lia. rewrite Z.quot_div_nonneg by lia.
        apply Z.div_lt_upper_bound; nia.
    - rewrite (smt_neg_signed n a) by (assumption || lia). rewrite <- (signed_nn n b) at 1 by (assumption || lia).
      unfold smt_udiv. destruct (signed n b =? 0) eqn:E; [lia|].
      rewrite <- Z.quot_div_nonneg by lia. unfold smt_neg, bvn, pat. f_equal.
      rewrite Z.quot_opp_l by lia. lia.
    - rewrite (smt_neg_signed n b) by (assumption || lia). rewrite <- (signed_nn n a) at 1 by (assumption || lia).
      unfold smt_udiv. destruct (- signed n b =? 0) eqn:E; [lia|].
      rewrite <- Z.quot_div_nonneg by lia. unfold smt_neg, bvn, pat. f_equal.
      rewrite Z.quot_opp_r by lia. lia.
    - rewrite <- (signed_nn n a) at 1 by (assumption || lia). rewrite <- (signed_nn n b) at 1 by (assumption || lia).
      unfold smt_udiv. destruct (signed n b =? 0) eqn:E; [lia|].
      rewrite <- Z.quot_div_nonneg by lia. symmetry. apply pat_id. split.
      + apply Z.quot_pos; lia.
      + rewrite Z.quot_div_nonneg by lia. apply Z.div_lt_upper_bound; nia.
  Qed.

  Lemma smt_srem_rem : forall n a b, 1 <= n -> is_iN n a -> is_iN n b -> b <> 0 ->
    smt_srem n a b = pat n (Z.rem (signed n a) (signed n b)).
  Proof.
    intros n a b Hn Ha Hb H0. pose proof (signed_range n a Hn Ha). pose proof (signed_range n b Hn Hb).
    pose proof (pow2_half n Hn). pose proof (pow2_half_pos n Hn).
    assert (signed n b <> 0) as Hs0.
    { intro E. apply H0. apply (signed_eq_iff n); auto; [unfold is_iN; lia|]. rewrite E. symmetry. apply signed_0, Hn. }
    unfold smt_srem. rewrite !msb_signed by assumption.
    destruct (signed n a <? 0) eqn:Ea, (signed n b <? 0) eqn:Eb.
    - rewrite (smt_neg_signed n a), (smt_neg_signed n b) by (assumption || lia). unfold smt_urem.
      destruct (- signed n b =? 0) eqn:E; [lia|].
      rewrite <- Z.rem_mod_nonneg by lia. unfold smt_neg, bvn, pat. f_equal.
      rewrite Z.rem_opp_opp by lia. lia.
    - rewrite (smt_neg_signed n a) by (assumption || lia). rewrite <- (signed_nn n b) at 1 by (assumption || lia).
      unfold smt_urem. destruct (signed n b =? 0) eqn:E; [lia|].
      rewrite <- Z.rem_mod_nonneg by lia. unfold smt_neg, bvn, pat. f_equal.
      rewrite Z.rem_opp_l by lia. lia.
    - rewrite (smt_neg_signed n b) by (assumption || lia). rewrite <- (signed_nn n a) at 1 by (assumption || lia).
      unfold smt_urem. destruct (- signed n b =? 0) eqn:E; [lia|].
      rewrite <- Z.rem_mod_nonneg by lia. rewrite Z.rem_opp_r by lia. symmetry. apply pat_id.
      rewrite <- Z.rem_opp_r by lia. rewrite Z.rem_mod_nonneg by lia.
      pose proof (Z.mod_pos_bound (signed n a) (- signed n b)). split; lia.
    - rewrite <- (signed_nn n a) at 1 by (assumption || lia). rewrite <- (signed_nn n b) at 1 by (assumption || lia).
      unfold smt_urem. destruct (signed n b =? 0) eqn:E; [lia|].
      rewrite <- Z.rem_mod_nonneg by lia. symmetry. apply pat_id.
      rewrite Z.rem_mod_nonneg by lia.
      pose proof (Z.mod_pos_bound (signed n a) (signed n b)). split; lia.
  Qed.

  Lemma b_bin : forall op n va vb a b c, supported n -> is_iN n a -> is_iN n b ->
    Rb n va a -> Rb n vb b -> llvm_binop op n a b = Some c -> g_bin gb op n a b ->
    exists v, C (indexedName (INSTRUCTION_TABLE op) [intType O n]) [va; vb] = Some v /\ Rb n v c.
  Proof.
    intros op n va vb a b c Hn Ha Hb -> -> Hc _. pose proof (size_pos n Hn) as Hn1.
    unfold intType. rewrite Hbp. exists (VBv n c). split; [|reflexivity].
    assert (exists name int p, INSTRUCTION_TABLE op = "$" ++ name /\
       In (IntArithOp name 2 int (Some OpBuiltin) p) (intArithOpTable O) /\
       eval_bvbuiltin2 ("bv" ++ name) n a b = Some (VBv n c)) as (name & int & p & E1 & E2 & E3).
    { destruct op; cbn in Hc.
      - exists "add", (Some (OpInlined (intArithExpr Plus))), true. split; [reflexivity|]. split; [in_table|].
        injection Hc as <-. reflexivity.
      - exists "sub", (Some (OpInlined (intArithExpr Minus))), true. split; [reflexivity|]. split; [in_table|].
        injection Hc as <-. reflexivity.
      - exists "mul", (Some (OpInlined (intArithExpr Times))), true. split; [reflexivity|]. split; [in_table|].
        injection Hc as <-. reflexivity.
      - exists "udiv", (Some (OpInlined (divExpr O false))), false. split; [reflexivity|]. split; [in_table|].
        destruct (b =? 0) eqn:E0; [discriminate|]. injection Hc as <-. cbn. unfold smt_udiv. rewrite E0. reflexivity.
      - exists "sdiv", (Some (OpInlined (divExpr O true))), false. split; [reflexivity|]. split; [in_table|].
        destruct (b =? 0) eqn:E0; [discriminate|]. cbn [orb] in Hc.
        destruct (_ && _); [discriminate|]. injection Hc as <-. cbn -[smt_sdiv].
        rewrite smt_sdiv_quot by (assumption || lia). reflexivity.
      - exists "urem", (Some (OpInlined (uremExpr O))), false. split; [reflexivity|]. split; [in_table|].
        destruct (b =? 0) eqn:E0; [discriminate|]. injection Hc as <-. cbn. unfold smt_urem. rewrite E0. reflexivity.
      - exists "srem", (Some (OpInlined (sremExpr O))), false. split; [reflexivity|]. split; [in_table|].
        destruct (b =? 0) eqn:E0; [discriminate|]. cbn [orb] in Hc.
        destruct (_ && _); [discriminate|]. injection Hc as <-. cbn -[smt_srem].
        rewrite smt_srem_rem by (assumption || lia). reflexivity.
      - exists "shl", (Some OpUninterp), false. split; [reflexivity|]. split; [in_table|].
        destruct (b <? n); [|discriminate]. injection Hc as <-. reflexivity.
      - exists "lshr", (Some OpUninterp), false. split; [reflexivity|]. split; [in_table|].
        destruct (b <? n); [|discriminate]. injection Hc as <-. reflexivity.
      - exists "ashr", (Some OpUninterp), false. split; [reflexivity|]. split; [in_table|].
        destruct (b <? n); [|discriminate]. injection Hc as <-. reflexivity.
      - exists "and", (Some OpUninterp), false. split; [reflexivity|]. split; [in_table|].
        injection Hc as <-. reflexivity.
      - exists "or", (Some OpUninterp), false. split; [reflexivity|]. split; [in_table|].
        injection Hc as <-. reflexivity.
      - exists "xor", (Some OpUninterp), false. split; [reflexivity|]. split; [in_table|].
        injection Hc as <-. reflexivity. }
    rewrite E1. rewrite (b_builtin O prog I Hext Hbp name int p E2) by assumption. exact E3.
  Qed.

  Lemma b_icmp : forall p n va vb a b, supported n -> is_iN n a -> is_iN n b ->
    Rb n va a -> Rb n vb b -> g_icmp gb p n a b ->
    exists v, C (indexedName (CMPINST_TABLE p) [intType O n]) [va; vb] = Some v /\
              Rb 1 v (b2z (llvm_icmp p n a b)).
  Proof.
    intros p n va vb a b Hn Ha Hb -> -> _. unfold intType. rewrite Hbp.
    eexists. split; [|reflexivity]. unfold b2z.
    destruct p; cbn [CMPINST_TABLE llvm_icmp].
    - change "$eq" with ("$" ++ "eq"). eapply (b_pred O prog I Hext Hbp "eq"); [in_table|assumption|].
      rewrite (b_predbool_eq O prog I Hext Hbp Hw "eq" (intPredExpr O BEq false) BEq);
        [reflexivity|auto|in_table|assumption].
    - change "$ne" with ("$" ++ "ne"). eapply (b_pred O prog I Hext Hbp "ne"); [in_table|assumption|].
      rewrite (b_predbool_eq O prog I Hext Hbp Hw "ne" (intPredExpr O BNeq false) BNeq);
        [reflexivity|auto|in_table|assumption].
    - change "$ugt" with ("$" ++ "ugt"). eapply (b_pred O prog I Hext Hbp "ugt"); [in_table|assumption|].
      rewrite (b_predbool_builtin O prog I Hext Hbp "ugt" (intPredExpr O Gt false)); [reflexivity|in_table|assumption].
    - change "$uge" with ("$" ++ "uge"). eapply (b_pred O prog I Hext Hbp "uge"); [in_table|assumption|].
      rewrite (b_predbool_builtin O prog I Hext Hbp "uge" (intPredExpr O Gte false)); [reflexivity|in_table|assumption].
    - change "$ult" with ("$" ++ "ult"). eapply (b_pred O prog I Hext Hbp "ult"); [in_table|assumption|].
      rewrite (b_predbool_builtin O prog I Hext Hbp "ult" (intPredExpr O Lt false)); [reflexivity|in_table|assumption].
    - change "$ule" with ("$" ++ "ule"). eapply (b_pred O prog I Hext Hbp "ule"); [in_table|assumption|].
      rewrite (b_predbool_builtin O prog I Hext Hbp "ule" (intPredExpr O Lte false)); [reflexivity|in_table|assumption].
    - change "$sgt" with ("$" ++ "sgt"). eapply (b_pred O prog I Hext Hbp "sgt"); [in_table|assumption|].
      rewrite (b_predbool_builtin O prog I Hext Hbp "sgt" (intPredExpr O Gt true)); [reflexivity|in_table|assumption].
    - change "$sge" with ("$" ++ "sge"). eapply (b_pred O prog I Hext Hbp "sge"); [in_table|assumption|].
      rewrite (b_predbool_builtin O prog I Hext Hbp "sge" (intPredExpr O Gte true)); [reflexivity|in_table|assumption].
    - change "$slt" with ("$" ++ "slt"). eapply (b_pred O prog I Hext Hbp "slt"); [in_table|assumption|].
      rewrite (b_predbool_builtin O prog I Hext Hbp "slt" (intPredExpr O Lt true)); [reflexivity|in_table|assumption].
    - change "$sle" with ("$" ++ "sle"). eapply (b_pred O prog I Hext Hbp "sle"); [in_table|assumption|].
      rewrite (b_predbool_builtin O prog I Hext Hbp "sle" (intPredExpr O Lte true)); [reflexivity|in_table|assumption].
  Qed.

  Lemma b_cast : forall c n1 n2 va a, supported n1 -> supported n2 -> cast_ok c n1 n2 -> is_iN n1 a ->
    Rb n1 va a -> g_cast gb c n1 n2 a ->
    exists v, C (indexedName (CAST_TABLE c) [intType O n1; intType O n2]) [va] = Some v /\
              Rb n2 v (llvm_cast c n1 n2 a).
  Proof.
    intros c n1 n2 va a Hn1 Hn2 Hc Ha -> _. unfold intType. rewrite Hbp.
    eexists. split; [|reflexivity]. destruct c; cbn [CAST_TABLE llvm_cast cast_ok] in *.
    - apply (b_trunc O prog I Hext Hbp); assumption.
    - apply (b_ext O prog I Hext Hbp Hw false); assumption.
    - apply (b_ext O prog I Hext Hbp Hw true); assumption.
  Qed.

  Lemma b_cond : forall r e v c, eval_with C r e = Some v -> is_iN 1 c -> Rb 1 v c ->
    eval_with C r (EBin BEq e (integerLit O 1 1)) = Some (VBool (c =? 1)).
  Proof.
    intros r e v c He _ ->. cbn [eval_with]. unfold integerLit, integerLitU. rewrite Hbp.
    change (0 <=? 1) with true. cbn iota. rewrite bv_lit_eval by (unfold is_iN; cbn; lia).
    rewrite He. reflexivity.
  Qed.

  Definition b_code_sim := code_sim O nd prog I k Rb gb b_lit b_bin b_icmp b_cast b_cond.
  Definition b_inst_sim := inst_sim O nd prog I k Rb gb b_lit b_bin b_icmp b_cast b_cond.
End Bv.
