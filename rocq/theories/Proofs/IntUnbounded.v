(** The default encoding (unbounded integers, no wrapping). *)
From Coq Require Import ZArith List String Bool Lia ZifyBool.
From Verif.Base Require Import ZBits.
From Verif.Spec Require Import LLVMInt IR.
From Verif.Model Require Import Boogie PreludeInt SmackRepInt.
From Verif.Proofs Require Import Lookup PreludeCalls ExprSim IntEncodings.
Import ListNotations.
Open Scope string_scope.
Open Scope Z_scope.

(** The mathematical integer that stands for a bit pattern: its signed value,
    except that an i1 is 0 or 1. *)
Definition sval (n x : Z) : Z := if n =? 1 then x else signed n x.
Definition fits (n z : Z) : Prop :=
  if n =? 1 then 0 <= z <= 1 else - 2 ^ (n - 1) <= z < 2 ^ (n - 1).

Lemma sval_fits : forall n x, 1 <= n -> is_iN n x -> fits n (sval n x).
Proof.
  intros n x Hn Hx. unfold fits, sval. destruct (n =? 1) eqn:E.
  - assert (n = 1) as -> by lia. unfold is_iN in Hx. cbn in Hx. lia.
  - apply signed_range; assumption.
Qed.
Lemma sval_pat : forall n x, 1 <= n -> is_iN n x -> pat n (sval n x) = x.
Proof.
  intros n x Hn Hx. unfold sval. destruct (n =? 1) eqn:E.
  - apply pat_id, Hx.
  - apply signed_pat; assumption.
Qed.
Lemma pat_sval : forall n z, 1 <= n -> fits n z -> sval n (pat n z) = z.
Proof.
  intros n z Hn Hz. unfold fits, sval in *. destruct (n =? 1) eqn:E.
  - assert (n = 1) as -> by lia. unfold pat. apply Z.mod_small. cbn. lia.
  - apply pat_signed; assumption.
Qed.
Lemma sval_nn : forall n x, is_iN n x -> 0 <= sval n x -> sval n x = x.
Proof.
  intros n x Hx H. unfold sval in *. destruct (n =? 1); [reflexivity|]. apply signed_nn; assumption.
Qed.
Lemma sval_inj : forall n a b, 1 <= n -> is_iN n a -> is_iN n b -> sval n a = sval n b -> a = b.
Proof.
  intros n a b Hn Ha Hb E. rewrite <- (sval_pat n a), <- (sval_pat n b) by assumption. now rewrite E.
Qed.

Section Unbounded.
  Context (O : opts) (nd : bool) (prog : list fdecl) (I : interp) (j : nat).
  Hypothesis Hext : extends prog (preludeInt O).
  Hypothesis Hbp : bitPrecise O = false.
  Hypothesis Hw : wrappedIntegerEncoding O = false.
  Context (bw : binop -> Z -> Prop).
  Notation k := (S (S (S (S (S j))))).
  Notation C := (eval_call prog I k).

  Definition Ru (n : Z) (v : val) (x : Z) : Prop := v = VInt (sval n x).

  Hypothesis HI : forall op n a b c, bw op n -> is_bitwise op = true ->
    supported n -> is_iN n a -> is_iN n b -> llvm_binop op n a b = Some c ->
    I (indexedName (INSTRUCTION_TABLE op) [NInt n]) [VInt (sval n a); VInt (sval n b)] = Some (VInt (sval n c)).

  (** No operation leaves the signed range; unsigned operations only see values
      that are non-negative as signed numbers; constants under an unsigned hint
      are non-negative (or the special -1); i1 values are not sign-extended. *)
  Definition gu : guards := {|
    g_bin := fun op n a b =>
      match op with
      | Add => fits n (sval n a + sval n b)
      | Sub => fits n (sval n a - sval n b)
      | Mul => fits n (sval n a * sval n b)
      | UDiv | URem => 0 <= sval n a /\ 0 <= sval n b
      | SDiv => 0 <= signed n a \/ Z.rem (signed n a) (signed n b) = 0
      | SRem => True
      | Shl | LShr | AShr | And | Or | Xor => bw op n
      end;
    g_icmp := fun p n a b =>
      match p with
      | EQ | NE => True
      | UGT | UGE | ULT | ULE => 0 <= sval n a /\ 0 <= sval n b
      | SGT | SGE | SLT | SLE => n <> 1
      end;
    g_cast := fun c n1 n2 a =>
      match c with
      | Trunc => fits n2 (sval n1 a)
      | ZExt => 0 <= sval n1 a
      | SExt => n1 = 1 -> a = 0
      end;
    g_lit := fun n c u ui =>
      (nd = true -> u = true -> ui = false -> n <= 64) /\
      (u = false \/ c < 2 ^ (n - 1) \/ n = 1 \/ (ui = false /\ c = 2 ^ n - 1)) |}.

  Lemma uU : forall n a, wrapU O n a = a.
  Proof. intros. unfold wrapU. now rewrite Hw. Qed.
  Lemma uS : forall n a, wrapS O n a = a.
  Proof. intros. unfold wrapS. now rewrite Hw. Qed.

  Lemma u_lit : forall n c u ui e r, supported n -> is_iN n c -> g_lit gu n c u ui ->
    lit O nd n c u ui = Some e -> exists v, eval_with C r e = Some v /\ Ru n v c.
  Proof.
    intros n c u ui e r Hn Hc Hg He. pose proof (size_pos n Hn) as Hn1.
    pose proof (pow2_pos n ltac:(lia)) as P0. pose proof (pow2_half n Hn1) as P1.
    pose proof (pow2_half_pos n Hn1) as P2. unfold Ru, sval. unfold is_iN in Hc.
    assert (n = 1 \/ c < 2 ^ (n - 1) -> exists v, eval_with C r (EInt c) = Some v /\
              v = VInt (if n =? 1 then c else signed n c)) as Hpos.
    { intros H. exists (VInt c). split; [reflexivity|]. f_equal. destruct (n =? 1) eqn:E; [reflexivity|].
      unfold signed. destruct (c <? 2 ^ (n - 1)) eqn:E2; lia. }
    assert (1 < n -> 2 ^ (n - 1) <= c ->
       exists v, eval_with C r (EFun (indexedName "$sub" [intType O n]) [integerLitU O 0 n; EInt (APInt_abs n c)]) = Some v /\
         v = VInt (if n =? 1 then c else signed n c)) as Hneg.
    { intros Hn2 Hneg. unfold intType, integerLitU. rewrite Hbp. cbn -[eval_call APInt_abs signed Z.pow].
      rewrite (c_sub O prog I Hext Hbp) by assumption. eexists. split; [reflexivity|]. f_equal.
      destruct (n =? 1) eqn:E; [lia|]. unfold APInt_abs, APInt_isNegative, signed.
      destruct (2 ^ (n - 1) <=? c) eqn:E1; [|lia]. destruct (c <? 2 ^ (n - 1)) eqn:E2; [lia|].
      rewrite (mod_unique_pos (- c) (2 ^ n - c) (2 ^ n) (-1)) by lia. lia. }
    unfold lit in He. rewrite Hbp in He. cbn in Hg. destruct Hg as [Hnd Hg]. unfold APInt_isNegative in He.
    destruct (1 <? n) eqn:En; [|injection He as <-; apply Hpos; lia].
    destruct u; [destruct ui|].
    - injection He as <-. apply Hpos. destruct Hg as [Hg|[Hg|[Hg|[Hg _]]]]; try discriminate; lia.
    - destruct (APInt_getSExtValue nd n c) as [s|] eqn:Es; [|discriminate].
      unfold APInt_getSExtValue, APInt_isNegative in Es.
      destruct (2 ^ (n - 1) <=? c) eqn:Eneg.
      + (* the constant is -1 *)
        assert (c = 2 ^ n - 1) as Ec by (destruct Hg as [Hg|[Hg|[Hg|[_ Hg]]]]; try discriminate; lia).
        assert (s = -1) as ->.
        { replace (c - 2 ^ n) with (-1) in Es by lia. cbn in Es. congruence. }
        cbn in He. injection He as <-. apply Hneg; lia.
      + assert (c < 2 ^ (n - 1)) as Hlt by lia.
        destruct (s =? -1) eqn:Em; injection He as <-.
        * (* low 64 bits are -1 although the value is not: only with assertions off *)
          exfalso. destruct ((- 2 ^ 63 <=? c) && (c <? 2 ^ 63)) eqn:Er.
          -- injection Es as <-. lia.
          -- destruct nd eqn:End; [|discriminate]. specialize (Hnd eq_refl eq_refl eq_refl).
             pose proof (pow2_le (n - 1) 63 ltac:(lia)). lia.
        * apply Hpos. lia.
    - destruct (2 ^ (n - 1) <=? c) eqn:Eneg; injection He as <-; [apply Hneg; lia|apply Hpos; lia].
  Qed.

  Lemma u_bin : forall op n va vb a b c, supported n -> is_iN n a -> is_iN n b ->
    Ru n va a -> Ru n vb b -> llvm_binop op n a b = Some c -> g_bin gu op n a b ->
    exists v, C (indexedName (INSTRUCTION_TABLE op) [intType O n]) [va; vb] = Some v /\ Ru n v c.
  Proof.
    intros op n va vb a b c Hn Ha Hb -> -> Hc Hg. pose proof (size_pos n Hn) as Hn1.
    pose proof (llvm_binop_range op n a b c Hn1 Ha Hb Hc) as Hcr.
    pose proof (sval_pat n a Hn1 Ha) as Pa. pose proof (sval_pat n b Hn1 Hb) as Pb.
    unfold intType. rewrite Hbp.
    destruct (is_bitwise op) eqn:Ebw.
    { assert (bw op n) as Hbw by (destruct op; try discriminate; exact Hg).
      pose proof (HI op n a b c Hbw Ebw Hn Ha Hb Hc) as Hv.
      eexists. split; [|reflexivity].
      destruct op; try discriminate; cbn [INSTRUCTION_TABLE] in *;
      match goal with |- context [indexedName ?s _] =>
        match s with String _ ?t => change s with ("$" ++ t) in * ;
          rewrite (c_uninterp O prog I Hext Hbp t (Some OpBuiltin)) end end;
        try eassumption; in_table. }
    assert (b <> 0 -> sval n b <> 0) as Hb0.
    { intros Hb0 E. apply Hb0. rewrite <- Pb, E. apply pat_id. unfold is_iN.
      pose proof (pow2_pos n ltac:(lia)). lia. }
    unfold Ru.
    destruct op; try discriminate; cbn [INSTRUCTION_TABLE]; cbn in Hc, Hg.
    - rewrite (c_add O prog I Hext Hbp) by assumption. injection Hc as <-. eexists. split; [reflexivity|]. f_equal.
      rewrite <- Pa at 2. rewrite <- Pb at 2. rewrite pat_add. symmetry. apply pat_sval; assumption.
    - rewrite (c_sub O prog I Hext Hbp) by assumption. injection Hc as <-. eexists. split; [reflexivity|]. f_equal.
      rewrite <- Pa at 2. rewrite <- Pb at 2. rewrite pat_sub. symmetry. apply pat_sval; assumption.
    - rewrite (c_mul O prog I Hext Hbp) by assumption. injection Hc as <-. eexists. split; [reflexivity|]. f_equal.
      rewrite <- Pa at 2. rewrite <- Pb at 2. rewrite pat_mul. symmetry. apply pat_sval; assumption.
    - rewrite (c_udiv O prog I Hext Hbp) by assumption. rewrite !uU.
      destruct (b =? 0) eqn:E0; [discriminate|]. injection Hc as <-. unfold smt_div.
      rewrite (sval_nn n a), (sval_nn n b) by tauto. rewrite E0.
      destruct (0 <? b) eqn:E1; [|unfold is_iN in Hb; lia].
      eexists. split; [reflexivity|]. f_equal. symmetry.
      destruct Hg as [Hg1 Hg2].
      unfold sval in *. destruct (n =? 1) eqn:E; [reflexivity|].
      pose proof (signed_nn n a Ha Hg1) as S1. pose proof (signed_range n a Hn1 Ha) as S2.
      apply signed_nonneg_id. unfold is_iN in *.
      assert (0 <= a / b <= a) by (split; [apply Z.div_pos; lia|apply Z.div_le_upper_bound; nia]). lia.
    - rewrite (c_sdiv O prog I Hext Hbp) by assumption. rewrite !uS.
      destruct (b =? 0) eqn:E0; [discriminate|]. cbn [orb] in Hc.
      destruct ((signed n a =? - 2 ^ (n - 1)) && (signed n b =? -1)) eqn:E1; [discriminate|].
      injection Hc as <-. specialize (Hb0 ltac:(lia)).
      unfold sval in *. destruct (n =? 1) eqn:E.
      + assert (n = 1) as -> by lia. destruct (i1_cases a Ha) as [-> | ->], (i1_cases b Hb) as [-> | ->]; try discriminate.
        eexists. split; reflexivity.
      + rewrite smt_div_quot by assumption. eexists. split; [reflexivity|]. f_equal. symmetry.
        apply pat_signed; [assumption|].
        pose proof (signed_range n a Hn1 Ha) as Sa. pose proof (signed_range n b Hn1 Hb) as Sb.
        assert (Z.abs (signed n a ÷ signed n b) <= Z.abs (signed n a)) as Q.
        { rewrite <- Z.quot_abs by assumption. rewrite Z.quot_div_nonneg by lia.
          apply Z.div_le_upper_bound; nia. }
        destruct (Z.eq_dec (signed n a ÷ signed n b) (2 ^ (n - 1))) as [Eq|Ne]; [exfalso|lia].
        assert (signed n a = - 2 ^ (n - 1)) as Ea by lia.
        assert (Z.abs (signed n b) = 1 \/ 2 <= Z.abs (signed n b)) as [H1|H1] by lia.
        * assert (signed n b = 1) as Eb1 by lia. rewrite Eb1, Z.quot_1_r in Eq. lia.
        * assert (Z.abs (signed n a ÷ signed n b) * 2 <= Z.abs (signed n a)).
          { rewrite <- Z.quot_abs by assumption. rewrite Z.quot_div_nonneg by lia.
            pose proof (Z.mul_div_le (Z.abs (signed n a)) (Z.abs (signed n b))).
            assert (0 <= Z.abs (signed n a) / Z.abs (signed n b)) by (apply Z.div_pos; lia). nia. }
          pose proof (pow2_half_pos n Hn1). lia.
    - rewrite (c_urem O prog I Hext Hbp) by assumption. rewrite !uU.
      destruct (b =? 0) eqn:E0; [discriminate|]. injection Hc as <-. unfold smt_mod.
      rewrite (sval_nn n a), (sval_nn n b) by tauto. rewrite E0.
      rewrite Z.abs_eq by (unfold is_iN in Hb; lia).
      eexists. split; [reflexivity|]. f_equal. symmetry.
      unfold sval in *. destruct (n =? 1) eqn:E; [reflexivity|].
      pose proof (signed_range n b Hn1 Hb). rewrite (signed_nn n b Hb) in H by tauto.
      apply signed_nonneg_id. unfold is_iN in *. pose proof (Z.mod_pos_bound a b). lia.
    - rewrite (c_srem O prog I Hext Hbp) by assumption. rewrite !uS.
      destruct (b =? 0) eqn:E0; [discriminate|]. cbn [orb] in Hc.
      destruct ((signed n a =? - 2 ^ (n - 1)) && (signed n b =? -1)) eqn:E1; [discriminate|].
      injection Hc as <-. specialize (Hb0 ltac:(lia)).
      unfold sval in *. destruct (n =? 1) eqn:E.
      + assert (n = 1) as -> by lia. destruct (i1_cases a Ha) as [-> | ->], (i1_cases b Hb) as [-> | ->]; try discriminate.
        eexists. split; [cbn; rewrite !uU; reflexivity|reflexivity].
      + unfold smt_mod. destruct (signed n b =? 0) eqn:E2; [lia|]. rewrite !uU.
        exists (VInt (Z.rem (signed n a) (signed n b))). split.
        * rewrite (rem_euclid (signed n a) (signed n b) Hb0).
          destruct (negb (_ =? 0) && (signed n a <? 0)); [|reflexivity].
          do 3 f_equal. destruct (0 - signed n b <? signed n b) eqn:E4; lia.
        * f_equal. symmetry. apply pat_signed; [assumption|].
          pose proof (signed_range n b Hn1 Hb). pose proof (Z.rem_bound_abs (signed n a) (signed n b) Hb0). lia.
  Qed.

  Lemma u_icmp : forall p n va vb a b, supported n -> is_iN n a -> is_iN n b ->
    Ru n va a -> Ru n vb b -> g_icmp gu p n a b ->
    exists v, C (indexedName (CMPINST_TABLE p) [intType O n]) [va; vb] = Some v /\
              Ru 1 v (b2z (llvm_icmp p n a b)).
  Proof.
    intros p n va vb a b Hn Ha Hb -> -> Hg. pose proof (size_pos n Hn) as Hn1.
    unfold intType. rewrite Hbp.
    exists (VInt (b2z (llvm_icmp p n a b))). split; [|reflexivity].
    destruct p; cbn [CMPINST_TABLE]; cbn in Hg;
    match goal with |- context [indexedName ?s _] =>
      match s with
      | String _ "eq" => rewrite (c_pred O prog I Hext Hbp "eq" BEq false (Some (intPredExpr O BEq false)))
      | String _ "ne" => rewrite (c_pred O prog I Hext Hbp "ne" BNeq false (Some (intPredExpr O BNeq false)))
      | String _ "ugt" => rewrite (c_pred O prog I Hext Hbp "ugt" Gt false None)
      | String _ "uge" => rewrite (c_pred O prog I Hext Hbp "uge" Gte false None)
      | String _ "ult" => rewrite (c_pred O prog I Hext Hbp "ult" Lt false None)
      | String _ "ule" => rewrite (c_pred O prog I Hext Hbp "ule" Lte false None)
      | String _ "sgt" => rewrite (c_pred O prog I Hext Hbp "sgt" Gt true None)
      | String _ "sge" => rewrite (c_pred O prog I Hext Hbp "sge" Gte true None)
      | String _ "slt" => rewrite (c_pred O prog I Hext Hbp "slt" Lt true None)
      | String _ "sle" => rewrite (c_pred O prog I Hext Hbp "sle" Lte true None)
      end
    end; try (reflexivity || assumption || in_table);
    cbn [sem_cmp llvm_icmp]; rewrite ?uU, ?uS;
    try (rewrite (sval_nn n a), (sval_nn n b) by tauto; reflexivity);
    try (unfold sval; destruct (n =? 1) eqn:E; [lia|reflexivity]).
    - replace (sval n a =? sval n b) with (a =? b); [reflexivity|].
      destruct (a =? b) eqn:E; symmetry; [assert (a = b) as -> by lia; apply Z.eqb_refl|].
      apply Z.eqb_neq. intro E2. apply (sval_inj n) in E2; auto. lia.
    - replace (sval n a =? sval n b) with (a =? b); [reflexivity|].
      destruct (a =? b) eqn:E; symmetry; [assert (a = b) as -> by lia; apply Z.eqb_refl|].
      apply Z.eqb_neq. intro E2. apply (sval_inj n) in E2; auto. lia.
  Qed.

  Lemma u_cast : forall c n1 n2 va a, supported n1 -> supported n2 -> cast_ok c n1 n2 -> is_iN n1 a ->
    Ru n1 va a -> g_cast gu c n1 n2 a ->
    exists v, C (indexedName (CAST_TABLE c) [intType O n1; intType O n2]) [va] = Some v /\
              Ru n2 v (llvm_cast c n1 n2 a).
  Proof.
    intros c n1 n2 va a Hn1 Hn2 Hc Ha -> Hg.
    pose proof (size_pos n1 Hn1) as H1. pose proof (size_pos n2 Hn2) as H2.
    unfold intType. rewrite Hbp. unfold Ru. destruct c; cbn [CAST_TABLE llvm_cast cast_ok] in *; cbn in Hg.
    - rewrite (c_trunc O prog I Hext Hbp) by assumption. rewrite uU.
      eexists. split; [reflexivity|]. f_equal.
      rewrite <- (sval_pat n1 a H1 Ha) at 2. rewrite pat_narrow by lia. symmetry. apply pat_sval; assumption.
    - rewrite (c_zext O prog I Hext Hbp) by assumption. rewrite uU.
      eexists. split; [reflexivity|]. f_equal. rewrite (sval_nn n1 a Ha Hg).
      unfold sval. destruct (n2 =? 1) eqn:E; [lia|]. symmetry. apply signed_nonneg_id.
      unfold is_iN in Ha. pose proof (pow2_le n1 (n2 - 1) ltac:(lia)). lia.
    - rewrite (c_sext O prog I Hext Hbp) by assumption. rewrite uS.
      eexists. split; [reflexivity|]. f_equal. unfold sval. destruct (n2 =? 1) eqn:E; [lia|].
      pose proof (pow2_le (n1 - 1) (n2 - 1) ltac:(lia)) as P.
      rewrite pat_signed; [|lia|].
      + destruct (n1 =? 1) eqn:E1; [|reflexivity]. rewrite Hg by lia. symmetry. apply signed_0; lia.
      + pose proof (signed_range n1 a H1 Ha). lia.
  Qed.

  Lemma u_cond : forall r e v c, eval_with C r e = Some v -> is_iN 1 c -> Ru 1 v c ->
    eval_with C r (EBin BEq e (integerLit O 1 1)) = Some (VBool (c =? 1)).
  Proof.
    intros r e v c He _ ->. cbn [eval_with].
    unfold integerLit, integerLitU. rewrite Hbp. cbn [Z.leb Z.compare eval_with]. rewrite He. reflexivity.
  Qed.

  Definition u_code_sim := code_sim O nd prog I k Ru gu u_lit u_bin u_icmp u_cast u_cond.
  Definition u_inst_sim := inst_sim O nd prog I k Ru gu u_lit u_bin u_icmp u_cast u_cond.
End Unbounded.
