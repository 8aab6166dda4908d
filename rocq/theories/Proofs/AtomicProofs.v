(** Atomic instructions: loads and stores of a cell, and the value stored. *)
From Coq Require Import ZArith List String Bool Lia ZifyBool.
From Verif.Base Require Import ZBits.
From Verif.Spec Require Import LLVMInt IR Encodings ByteMemory Pointers Atomics.
From Verif.Model Require Import Boogie PreludeInt SmackRepInt PreludeMem Atomics.
From Verif.Proofs Require Import Lookup PreludeCalls EvalCompose ExprSim ByteMem IntEncodings MemCalls MemMain.
Import ListNotations.
Open Scope string_scope.
Open Scope list_scope.
Open Scope Z_scope.

Section Atomic.
  Context (enc : encoding) (bvptr : bool) (P : Z) (prog : list fdecl) (I : interp).
  Hypothesis Hext : extends prog (preludeMem (flags enc bvptr) P).
  Hypothesis HP : P = 32 \/ P = 64.
  Context (n : Z).
  Hypothesis Hn : In n INTEGER_SIZES.
  Hypothesis Hn8 : 8 <= n.
  Notation O := (flags enc bvptr).
  Notation t := (intType (flags enc bvptr) n).
  Notation ev := (evaluates prog I).

  Let Hint : extends prog (preludeInt O) := ext_int O P prog Hext.
  Local Lemma n_ne1 : (n =? 1) = false. Proof. lia. Qed.

  Lemma repr_scalar : forall v x, represents enc n v x ->
    exists y, to_scalar (cell_type enc n) v = Some y /\ scalar_of (cell_type enc n) y = v.
  Proof.
    intros v x H. destruct enc; cbn in H |- *.
    - subst v. exists x. now rewrite Z.eqb_refl.
    - destruct H as (z & -> & _). now exists z.
    - subst v. rewrite n_ne1. now exists (signed n x).
  Qed.

  Lemma load_cell : forall R r p V a x, region_ok enc n R -> is_iN n x -> address bvptr P a ->
    r (reg R) = Some V -> cell_at enc bvptr P n R V a x -> ev r p (pointer bvptr P a) ->
    exists v, ev r (load R t p) v /\ represents enc n v x.
  Proof.
    intros R r p V a x Hok Hx Ha HV Hc Hp. unfold cell_at in Hc. unfold region_ok in Hok.
    destruct (singleton R) eqn:Es.
    { exists V. split; [|exact Hc]. unfold load. rewrite Es. now apply ev_var. }
    destruct (bytewise R) eqn:Eb.
    - destruct (Hok eq_refl eq_refl) as [He H8]. destruct Hc as (m & -> & Hm & Hr).
      assert (t = NBv n) as Et by (rewrite He; reflexivity). rewrite Et.
      destruct (load_bytes enc bvptr P prog I Hext HP R r n p a m He Eb Es Hn ltac:(lia) Ha Hm HV Hp) as (w & L1 & L2).
      assert (0 <= bytes_needed n) as Hk by (unfold bytes_needed; apply Z.div_pos; lia).
      rewrite (reads_as_unique _ _ _ _ _ Hk L2 Hr), pat_id in L1 by exact Hx.
      eexists. split; [exact L1|]. rewrite He. reflexivity.
    - destruct Hc as (m & -> & Hr).
      exists (scalar_of (cell_type enc n) (m a)). split; [|exact Hr].
      apply (load_typed enc bvptr P prog I Hext HP R r t p a (cell_type enc n) m Eb Es); auto.
      right. now exists n.
  Qed.

  Lemma store_cell : forall R r p e V a x y v, region_ok enc n R -> is_iN n y -> address bvptr P a ->
    r (reg R) = Some V -> cell_at enc bvptr P n R V a x -> ev r p (pointer bvptr P a) ->
    ev r e v -> represents enc n v y ->
    exists V', ev r (snd (store R t p e)) V' /\ cell_at enc bvptr P n R V' a y /\
      same_elsewhere bvptr P n R a V V'.
  Proof.
    intros R r p e V a x y v Hok Hy Ha HV Hc Hp He Hv. unfold cell_at, same_elsewhere in *. unfold region_ok in Hok.
    destruct (singleton R) eqn:Es.
    { exists v. split; [|split; [exact Hv|exact Logic.I]]. unfold store. rewrite Es. exact He. }
    destruct (bytewise R) eqn:Eb.
    - destruct (Hok eq_refl eq_refl) as [Hb H8]. destruct Hc as (m & -> & Hm & Hr).
      assert (t = NBv n) as Et by (rewrite Hb; reflexivity). rewrite Et.
      assert (v = VBv n y) as -> by (rewrite Hb in Hv; exact Hv).
      destruct (store_bytes enc bvptr P prog I Hext HP R r n p e a m y Hb Eb Es Hn ltac:(lia) Ha Hy HV Hp He) as (m' & S1 & S2).
      exists (memory_map bvptr P (Some 8) m'). split; [exact S1|].
      assert (0 <= bytes_needed n) as Hk by (unfold bytes_needed; apply Z.div_pos; lia).
      assert (8 * bytes_needed n = n) as Hbn.
      { unfold bytes_needed. pose proof (Z.div_mod n 8 ltac:(lia)).
        replace ((n + 7) / 8) with (n / 8); [lia|]. apply Z.div_unique with 7; lia. }
      split.
      + exists m'. split; [reflexivity|]. split; [exact (written_byte_memory bvptr P a _ _ _ _ Hk Hm S2)|].
        split; [rewrite Hbn; exact Hy|]. intros i Hi. symmetry. apply S2, Hi.
      + exists (Some 8), m, m'. split; [reflexivity|]. split; [reflexivity|]. apply S2.
    - destruct Hc as (m & -> & Hr).
      destruct (repr_scalar v y Hv) as (z & Hz & Ez).
      exists (memory_map bvptr P (cell_type enc n) (fun q => if q =? a then z else m q)). split; [|split].
      + apply (store_typed enc bvptr P prog I Hext HP R r t p e a (cell_type enc n) m v z Eb Es); auto.
        right. now exists n.
      + eexists. split; [reflexivity|]. cbn beta. rewrite Z.eqb_refl, Ez. exact Hv.
      + eexists _, _, _. split; [reflexivity|]. split; [reflexivity|].
        intros q Hq. cbn beta. destruct (Z.eqb_spec q a); [contradiction|reflexivity].
  Qed.

  Lemma rmw_range : forall op x y, is_iN n x -> is_iN n y -> is_iN n (rmw_result op n x y).
  Proof.
    intros op x y Hx Hy. pose proof (pow2_pos n ltac:(lia)) as H2.
    pose proof (llvm_binop_range And n x y _ ltac:(lia) Hx Hy eq_refl) as HA.
    destruct op; cbn [rmw_result].
    - exact Hy.
    - apply pat_range. lia.
    - apply pat_range. lia.
    - exact HA.
    - unfold is_iN in *. lia.
    - exact (llvm_binop_range Or n x y _ ltac:(lia) Hx Hy eq_refl).
    - exact (llvm_binop_range Xor n x y _ ltac:(lia) Hx Hy eq_refl).
    - destruct (_ <? _); assumption.
    - destruct (_ <? _); assumption.
    - unfold is_iN in *. lia.
    - unfold is_iN in *. lia.
  Qed.

  Lemma wU : forall z, wrapU O n z = match enc with WrappedInteger => pat n z | _ => z end.
  Proof. intros z. unfold wrapU. case enc; reflexivity. Qed.
  Lemma wS : forall z, wrapS O n z = match enc with WrappedInteger => signed n (pat n z) | _ => z end.
  Proof. intros z. unfold wrapS. case enc; reflexivity. Qed.

  (** Integer encodings: the integer that stands for [x]. *)
  Lemma repr_int : forall v x, enc <> BitVector -> represents enc n v x ->
    exists z, v = VInt z /\ wrapS O n z = signed n x /\ (enc = WrappedInteger -> pat n z = x) /\
      (enc = UnboundedInteger -> z = signed n x).
  Proof.
    intros v x He H. assert (enc = WrappedInteger \/ enc = UnboundedInteger) as [E|E] by (destruct enc; [congruence|tauto..]);
      rewrite E in H; cbn in H.
    - destruct H as (z & -> & Hz). exists z. rewrite wS, E, Hz. repeat split; try reflexivity; intros; congruence.
    - rewrite n_ne1 in H. exists (signed n x). rewrite wS, E. repeat split; auto; intros; discriminate.
  Qed.

  (** The call of the operation function. *)
  Lemma rmw_call_int : forall op f va vb x y, enc <> BitVector -> ATOMICRMWINST_TABLE op = Some f ->
    is_iN n x -> is_iN n y -> represents enc n va x -> represents enc n vb y ->
    rmw_exact enc I op n x y ->
    exists v, calls prog I (indexedName f [NInt n]) [va; vb] v /\ represents enc n v (rmw_result op n x y).
  Proof.
    intros op f va vb x y He Hf Hx Hy Ha Hb Hex.
    assert (bitPrecise O = false) as Hbp by (destruct enc; [congruence|reflexivity|reflexivity]).
    destruct (is_bitwise_rmw op) eqn:Ebw.
    { unfold rmw_exact in Hex. rewrite Ebw in Hex. assert (exists w, I (indexedName (bitwise_name op) [NInt n]) [va; vb] = Some w /\ represents enc n w (rmw_result op n x y)) as (w & Hw & HR).
      { destruct enc; [congruence| |]; apply Hex; assumption. }
      exists w. split; [|exact HR]. exists 1%nat. destruct op; try discriminate Ebw; injection Hf as <-; cbn [bitwise_name] in Hw;
      match goal with |- context [indexedName ?s _] =>
        match s with String _ ?u => change s with ("$" ++ u)%string in *; rewrite (c_uninterp O prog I Hint Hbp u (Some OpBuiltin)) end end;
      try assumption; in_table. }
    destruct (repr_int va x He Ha) as (za & -> & Sa & Wa & Ua). destruct (repr_int vb y He Hb) as (zb & -> & Sb & Wb & Ub).
    destruct op; try discriminate; injection Hf as <-; cbn [rmw_result].
    - (* add *) exists (VInt (za + zb)). split; [exists 1%nat; now apply (c_add O)|].
      unfold rmw_exact in Hex. destruct enc; [congruence| |]; cbn in Hex |- *.
      + exists (za + zb). split; [reflexivity|]. rewrite <- (Wa eq_refl), <- (Wb eq_refl). symmetry. apply pat_add.
      + rewrite n_ne1. f_equal. rewrite (Ua eq_refl), (Ub eq_refl). unfold in_range in Hex. rewrite n_ne1 in Hex.
        rewrite <- (pat_signed n (signed n x + signed n y)) by lia. f_equal.
        rewrite <- pat_add, !signed_pat by (lia || assumption). reflexivity.
    - (* sub *) exists (VInt (za - zb)). split; [exists 1%nat; now apply (c_sub O)|].
      unfold rmw_exact in Hex. destruct enc; [congruence| |]; cbn in Hex |- *.
      + exists (za - zb). split; [reflexivity|]. rewrite <- (Wa eq_refl), <- (Wb eq_refl). symmetry. apply pat_sub.
      + rewrite n_ne1. f_equal. rewrite (Ua eq_refl), (Ub eq_refl). unfold in_range in Hex. rewrite n_ne1 in Hex.
        rewrite <- (pat_signed n (signed n x - signed n y)) by lia. f_equal.
        rewrite <- pat_sub, !signed_pat by (lia || assumption). reflexivity.
    - (* max *) eexists. split; [exists 4%nat; change "$smax" with ("$" ++ "smax")%string; rewrite (c_minmax O prog I Hint Hbp "smax" false true (Some (OpInlined (bvMinMaxExpr true false)))) by (assumption || in_table); cbv zeta; rewrite Sa, Sb; reflexivity|].
      destruct (signed n y <? signed n x); assumption.
    - (* min *) eexists. split; [exists 4%nat; change "$smin" with ("$" ++ "smin")%string; rewrite (c_minmax O prog I Hint Hbp "smin" true true (Some (OpInlined (bvMinMaxExpr true true)))) by (assumption || in_table); cbv zeta; rewrite Sa, Sb; reflexivity|].
      destruct (signed n x <? signed n y); assumption.
    - (* umax *) assert (wrapU O n za = x /\ wrapU O n zb = y) as [E1 E2].
      { rewrite !wU. unfold rmw_exact in Hex. destruct enc; [congruence| |]; cbn in Hex; [auto|].
        rewrite (Ua eq_refl), (Ub eq_refl). split; apply signed_nn; tauto. }
      eexists. split; [exists 4%nat; change "$umax" with ("$" ++ "umax")%string; rewrite (c_minmax O prog I Hint Hbp "umax" false false (Some (OpInlined (bvMinMaxExpr false false)))) by (assumption || in_table); cbv zeta; rewrite E1, E2; reflexivity|].
      destruct (Z.ltb_spec y x); [rewrite Z.max_l by lia|rewrite Z.max_r by lia]; assumption.
    - (* umin *) assert (wrapU O n za = x /\ wrapU O n zb = y) as [E1 E2].
      { rewrite !wU. unfold rmw_exact in Hex. destruct enc; [congruence| |]; cbn in Hex; [auto|].
        rewrite (Ua eq_refl), (Ub eq_refl). split; apply signed_nn; tauto. }
      eexists. split; [exists 4%nat; change "$umin" with ("$" ++ "umin")%string; rewrite (c_minmax O prog I Hint Hbp "umin" true false (Some (OpInlined (bvMinMaxExpr false true)))) by (assumption || in_table); cbv zeta; rewrite E1, E2; reflexivity|].
      destruct (Z.ltb_spec x y); [rewrite Z.min_l by lia|rewrite Z.min_r by lia]; assumption.
  Qed.

  Lemma rmw_call_bv : forall op f x y, enc = BitVector -> ATOMICRMWINST_TABLE op = Some f ->
    is_iN n x -> is_iN n y ->
    calls prog I (indexedName f [NBv n]) [VBv n x; VBv n y] (VBv n (rmw_result op n x y)).
  Proof.
    intros op f x y He Hf Hx Hy.
    assert (bitPrecise O = true) as Hbp by (rewrite He; reflexivity).
    assert (wrappedIntegerEncoding O = false) as Hw by (rewrite He; reflexivity).
    assert (forall name int p, In (IntArithOp name 2 int (Some OpBuiltin) p) (intArithOpTable O) ->
      forall z, eval_bvbuiltin2 ("bv" ++ name)%string n x y = Some (VBv n z) ->
      calls prog I (indexedName ("$" ++ name)%string [NBv n]) [VBv n x; VBv n y] (VBv n z)) as HB.
    { intros name int p Hin z Hz. exists 1%nat. rewrite (b_builtin O prog I Hint Hbp name int p Hin) by assumption. exact Hz. }
    assert (forall name sign mn int, In (IntArithOp name 2 int (Some (OpInlined (bvMinMaxExpr sign mn))) false) (intArithOpTable O) ->
      forall c : bool, eval_bvbuiltin2 ("bv" ++ (if sign then "s" else "u") ++ (if mn then "lt" else "gt"))%string n x y = Some (VBool c) ->
      calls prog I (indexedName ("$" ++ name)%string [NBv n]) [VBv n x; VBv n y] (VBv n (if c then x else y))) as HM.
    { intros name sign mn int Hin c Hc. exists 2%nat.
      erewrite call_inline;
        [ | apply (bv_decl O prog Hint (IntArithOp name 2 int (Some (OpInlined (bvMinMaxExpr sign mn))) false));
          [rewrite Hbp; reflexivity|assumption|assumption|reflexivity] | reflexivity | reflexivity | reflexivity ].
      unfold bvMinMaxExpr, minMaxPred. cbn -[eval_call append eval_bvbuiltin2].
      assert (exists g, In (IntPred ((if sign then "s" else "u") ++ (if mn then "lt" else "gt"))%string g None) (intPredTable O)) as (g & Hg)
        by (destruct sign, mn; eexists; in_table).
      rewrite (b_predbool_builtin O prog I Hint Hbp _ g Hg) by assumption. rewrite Hc. destruct c; reflexivity. }
    destruct op; try discriminate; injection Hf as <-; cbn [rmw_result].
    - change "$add" with ("$" ++ "add")%string. eapply HB; [in_table|]. reflexivity.
    - change "$sub" with ("$" ++ "sub")%string. eapply HB; [in_table|]. reflexivity.
    - change "$and" with ("$" ++ "and")%string. eapply HB; [in_table|]. reflexivity.
    - change "$nand" with ("$" ++ "nand")%string. eapply HB; [in_table|]. reflexivity.
    - change "$or" with ("$" ++ "or")%string. eapply HB; [in_table|]. reflexivity.
    - change "$xor" with ("$" ++ "xor")%string. eapply HB; [in_table|]. reflexivity.
    - change (signed n y <? signed n x) with (bvs n y <? bvs n x). pose proof (HM "smax" true false (Some (OpInlined (intMinMaxExpr false true))) ltac:(in_table) (bvs n y <? bvs n x) eq_refl) as H.
      destruct (bvs n y <? bvs n x); exact H.
    - change (signed n x <? signed n y) with (bvs n x <? bvs n y). pose proof (HM "smin" true true (Some (OpInlined (intMinMaxExpr true true))) ltac:(in_table) (bvs n x <? bvs n y) eq_refl) as H.
      destruct (bvs n x <? bvs n y); exact H.
    - pose proof (HM "umax" false false (Some (OpInlined (intMinMaxExpr false false))) ltac:(in_table) (y <? x) eq_refl) as H.
      destruct (Z.ltb_spec y x); [rewrite Z.max_l by lia|rewrite Z.max_r by lia]; exact H.
    - pose proof (HM "umin" false true (Some (OpInlined (intMinMaxExpr true false))) ltac:(in_table) (x <? y) eq_refl) as H.
      destruct (Z.ltb_spec x y); [rewrite Z.min_l by lia|rewrite Z.min_r by lia]; exact H.
  Qed.

  Lemma rmw_call : forall op f va vb x y, ATOMICRMWINST_TABLE op = Some f ->
    is_iN n x -> is_iN n y -> represents enc n va x -> represents enc n vb y ->
    rmw_exact enc I op n x y ->
    exists v, calls prog I (indexedName f [t]) [va; vb] v /\ represents enc n v (rmw_result op n x y).
  Proof.
    intros op f va vb x y Hf Hx Hy Ha Hb Hex. destruct (match enc with BitVector => true | _ => false end) eqn:Ee.
    - assert (enc = BitVector) as He by (destruct enc; congruence || discriminate).
      assert (t = NBv n) as Et by (rewrite He; reflexivity). rewrite Et.
      assert (va = VBv n x /\ vb = VBv n y) as [-> ->] by (rewrite He in Ha, Hb; auto).
      exists (VBv n (rmw_result op n x y)). split; [now apply rmw_call_bv|]. rewrite He. reflexivity.
    - assert (enc <> BitVector) as He by (destruct enc; congruence || discriminate).
      assert (t = NInt n) as Et by (destruct enc; [congruence|reflexivity|reflexivity]). rewrite Et.
      now apply rmw_call_int.
  Qed.
End Atomic.
