(** Pointer conversions and pointer arithmetic: proofs. *)
From Coq Require Import ZArith List String Bool Lia ZifyBool.
From Verif.Base Require Import ZBits.
From Verif.Spec Require Import LLVMInt IR ByteMemory Encodings Pointers.
From Verif.Model Require Import Boogie PreludeInt SmackRepInt PreludeMem.
From Verif.Proofs Require Import Lookup PreludeCalls ExprSim EvalCompose MemCalls ByteMem.
Import ListNotations.
Open Scope string_scope.
Open Scope list_scope.
Open Scope Z_scope.

Lemma flags_bpp : forall enc bvptr, bitPrecisePointers (flags enc bvptr) = bvptr.
Proof. intros []; reflexivity. Qed.

Section Ptr.
  Context (enc : encoding) (bvptr : bool) (P : Z) (prog : list fdecl) (I : interp).
  Let O := flags enc bvptr.
  Hypothesis Hext : extends prog (preludeMem O P).
  Hypothesis HP : ptr_width P.
  Notation ev := (evaluates prog I).

  Lemma O_bpp : bitPrecisePointers O = bvptr.
  Proof. apply flags_bpp. Qed.
  Lemma P1 : 1 <= P. Proof. destruct HP as [->| ->]; lia. Qed.
  Lemma PS : In P INTEGER_SIZES. Proof. exact (ptr_width_size P HP). Qed.

  Lemma ptr_is : forall a, ptr O P a = if bvptr then VBv P a else VInt a.
  Proof. intros. unfold ptr. rewrite O_bpp. reflexivity. Qed.

  (** $int2bv and $bv2int *)
  Lemma lookup_bvint : forall f d, existsb (String.eqb (fn_base f)) ["$int2bv"; "$bv2uint"; "$bv2int"] = true ->
    lookup (bvIntConvs O P) f = Some d -> lookup prog f = Some d.
  Proof.
    intros [b i] d Hb H. apply (in_mem O P prog Hext).
    - apply int_none_base. cbn in Hb. cbn -[String.eqb].
      destruct (String.eqb b "$int2bv") eqn:E1; [apply String.eqb_eq in E1; subst; reflexivity|].
      destruct (String.eqb b "$bv2uint") eqn:E2; [apply String.eqb_eq in E2; subst; reflexivity|].
      destruct (String.eqb b "$bv2int") eqn:E3; [apply String.eqb_eq in E3; subst; reflexivity|].
      discriminate.
    - rewrite lookup_app, H. reflexivity.
  Qed.

  Lemma calls_int2bv : forall z, calls prog I (indexedName "$int2bv" [NNum P]) [VInt z] (VBv P (pat P z)).
  Proof.
    intros z. exists 1%nat. cbn [eval_call].
    erewrite lookup_bvint; [|reflexivity|unfold bvIntConvs; cbn -[Z.eqb]; rewrite Z.eqb_refl; reflexivity].
    cbn [fd_attr]. unfold int2bvAttr, pat. destruct HP as [->| ->]; reflexivity.
  Qed.

  Lemma calls_bv2int_signed : forall a, enc = BitVector -> bvptr = false -> is_iN P a ->
    calls prog I (indexedName "$bv2int" [NNum P]) [VBv P a] (VInt (signed P a)).
  Proof.
    intros a He Hb Ha.
    assert (bitPrecise O = true) as Hbp by (unfold O; rewrite He; reflexivity).
    assert (wrappedIntegerEncoding O = false) as Hw by (unfold O; rewrite He; reflexivity).
    assert (bitPrecise O && negb (bitPrecisePointers O) = true) as Hc by (rewrite Hbp, O_bpp, Hb; reflexivity).
    eapply calls_inline.
    - apply lookup_bvint; [reflexivity|]. unfold bvIntConvs. rewrite Hc. cbn -[Z.eqb Z.pow]. rewrite Z.eqb_refl. reflexivity.
    - reflexivity.
    - reflexivity.
    - reflexivity.
    - set (r := upd_env empty_env "i" (VBv P a)).
      assert (ev r (EFun (indexedName "$bv2uint" [NNum P]) [EVar "i"]) (VInt a)) as Hu.
      { apply ev_fun with [VBv P a]; [repeat constructor; apply ev_var; reflexivity|].
        exists 1%nat. cbn [eval_call].
        erewrite lookup_bvint; [|reflexivity|unfold bvIntConvs; rewrite Hc; cbn -[Z.eqb Z.pow]; rewrite Z.eqb_refl; reflexivity].
        reflexivity. }
      pose proof P1. pose proof (pow2_half_pos P P1). pose proof (pow2_half P P1).
      apply ev_ite with (x := signed P a <? 0).
      + apply ev_fun with [VBv P a; VBv P 0].
        * constructor; [apply ev_var; reflexivity|]. constructor; [|constructor]. apply ev_bv. lia.
        * exists 1%nat. rewrite (b_predbool_builtin O prog I (ext_int O P prog Hext) Hbp "slt" (intPredExpr O Lt true)); [|in_table|apply PS].
          unfold eval_bvbuiltin2. cbn -[Z.pow Z.ltb]. change (bvs P a) with (signed P a).
          replace (bvs P 0) with 0; [reflexivity|]. unfold bvs. destruct (Z.ltb_spec 0 (2 ^ (P - 1))); lia.
      + unfold signed in *. destruct (Z.ltb_spec a (2 ^ (P - 1))).
        * destruct (Z.ltb_spec a 0); [destruct Ha; lia|exact Hu].
        * destruct (Z.ltb_spec (a - 2 ^ P) 0); [|destruct Ha; lia].
          apply ev_fun with [VInt a; VInt (2 ^ P)].
          -- constructor; [exact Hu|]. constructor; [apply ev_int|constructor].
          -- exists 1%nat. erewrite call_inline; [|apply (int_decl O prog (ext_int O P prog Hext)
               (IntArithOp "sub" 2 (Some (OpInlined (intArithExpr Minus))) (Some OpBuiltin) true));
               [rewrite O_bpp, Hb; cbn; apply orb_true_r|apply PS|in_table|reflexivity]|reflexivity..].
             reflexivity.
  Qed.
  Lemma calls_bv2int_nat : forall a, (bitPrecise O && negb (bitPrecisePointers O))%bool = false ->
    calls prog I (indexedName "$bv2int" [NNum P]) [VBv P a] (VInt a).
  Proof.
    intros a Hc. exists 1%nat. cbn [eval_call].
    erewrite lookup_bvint; [|reflexivity|unfold bvIntConvs; rewrite Hc; cbn -[Z.eqb]; rewrite Z.eqb_refl; reflexivity].
    reflexivity.
  Qed.

End Ptr.

  (** The pointer integer obtained from the pattern [x] of width [w]. *)
  Lemma ev_integerToPointer : forall enc bvptr P prog I, extends prog (preludeMem (flags enc bvptr) P) ->
    ptr_width P -> forall r e w v x, In w INTEGER_SIZES -> is_iN w x ->
    evaluates prog I r e v -> represents enc w v x ->
    exists z, evaluates prog I r (integerToPointer (flags enc bvptr) P e w) (if bvptr then VBv P (pat P z) else VInt z) /\
      match enc with
      | BitVector => z = if bvptr then pat P x else signed P (pat P x)
      | WrappedInteger => pat P z = pat P x
      | UnboundedInteger => z = int_value w x
      end.
  Proof.
    intros enc bvptr P prog I Hext HP r e w v x Hw Hx He Hr. unfold integerToPointer, bitConversion.
    rewrite flags_bpp. set (O := flags enc bvptr) in *.
    assert (1 <= P) as HP1 by (destruct HP as [->| ->]; lia). pose proof (ptr_width_size P HP) as HPS. pose proof (size_pos w Hw) as Hw1.
    destruct enc.
    - (* bit-vectors *)
      assert (bitPrecise O = true) as Hbp by reflexivity.
      assert (wrappedIntegerEncoding O = false) as Hwf by reflexivity.
      rewrite Hbp. cbn in Hr. subst v.
      assert (evaluates prog I r (if w <? P then EFun (indexedName "$zext" [intType O w; intType O P]) [e]
              else if P <? w then EFun (indexedName "$trunc" [intType O w; intType O P]) [e] else e) (VBv P (pat P x))) as Hc.
      { unfold intType. rewrite Hbp. destruct (Z.ltb_spec w P); [|destruct (Z.ltb_spec P w)].
        - apply ev_fun with [VBv w x]; [constructor; [exact He|constructor]|]. exists 1%nat.
          rewrite (pat_id P x) by (apply is_iN_widen with w; [lia|assumption]).
          exact (b_ext O prog I (ext_int O P prog Hext) Hbp Hwf false 0%nat w P x Hw HPS ltac:(lia)).
        - apply ev_fun with [VBv w x]; [constructor; [exact He|constructor]|]. exists 1%nat.
          exact (b_trunc O prog I (ext_int O P prog Hext) Hbp Hwf 0%nat w P x Hw HPS ltac:(lia)).
        - replace P with w by lia. rewrite pat_id by assumption. exact He. }
      destruct bvptr; cbn [Bool.eqb].
      + exists (pat P x). rewrite pat_pat. split; [exact Hc|reflexivity].
      + exists (signed P (pat P x)). split; [|reflexivity].
        apply ev_fun with [VBv P (pat P x)]; [constructor; [exact Hc|constructor]|].
        apply (calls_bv2int_signed _ _ P prog I Hext HP (pat P x) eq_refl eq_refl). apply pat_range. lia.
    - (* wrapped *)
      assert (bitPrecise O = false) as Hbp by reflexivity.
      assert (wrappedIntegerEncoding O = true) as Hwt by reflexivity.
      rewrite Hbp. destruct Hr as (z & -> & Hz).
      assert (exists y, evaluates prog I r (if w <? P then EFun (indexedName "$zext" [intType O w; intType O P]) [e]
              else if P <? w then EFun (indexedName "$trunc" [intType O w; intType O P]) [e] else e) (VInt y) /\ pat P y = pat P x) as (y & Hc & Hy).
      { unfold intType. rewrite Hbp. destruct (Z.ltb_spec w P); [|destruct (Z.ltb_spec P w)].
        - exists x. split; [|reflexivity].
          apply ev_fun with [VInt z]; [constructor; [exact He|constructor]|]. exists 3%nat.
          rewrite (c_zext O prog I (ext_int O P prog Hext) Hbp 0%nat w P z Hw HPS ltac:(lia)).
          unfold wrapU. rewrite Hwt, Hz. reflexivity.
        - exists (pat P z). split; [|rewrite pat_pat, <- (pat_narrow w P z), Hz by lia; reflexivity].
          apply ev_fun with [VInt z]; [constructor; [exact He|constructor]|]. exists 3%nat.
          rewrite (c_trunc O prog I (ext_int O P prog Hext) Hbp 0%nat w P z Hw HPS ltac:(lia)).
          unfold wrapU. rewrite Hwt. reflexivity.
        - exists z. split; [exact He|]. replace P with w by lia. rewrite Hz. symmetry. now apply pat_id. }
      destruct bvptr; cbn [Bool.eqb].
      + exists y. split; [|exact Hy].
        apply ev_fun with [VInt y]; [constructor; [exact Hc|constructor]|].
        exact (calls_int2bv _ _ P prog I Hext HP _).
      + exists y. split; [exact Hc|exact Hy].
    - (* unbounded *)
      assert (bitPrecise O = false) as Hbp by reflexivity.
      assert (wrappedIntegerEncoding O = false) as Hwt by reflexivity.
      rewrite Hbp. cbn in Hr. fold (int_value w x) in Hr. subst v.
      assert (evaluates prog I r (if w <? P then EFun (indexedName "$zext" [intType O w; intType O P]) [e]
              else if P <? w then EFun (indexedName "$trunc" [intType O w; intType O P]) [e] else e) (VInt (int_value w x))) as Hc.
      { unfold intType. rewrite Hbp. destruct (Z.ltb_spec w P); [|destruct (Z.ltb_spec P w)].
        - apply ev_fun with [VInt (int_value w x)]; [constructor; [exact He|constructor]|]. exists 3%nat.
          rewrite (c_zext O prog I (ext_int O P prog Hext) Hbp 0%nat w P _ Hw HPS ltac:(lia)).
          unfold wrapU. rewrite Hwt. reflexivity.
        - apply ev_fun with [VInt (int_value w x)]; [constructor; [exact He|constructor]|]. exists 3%nat.
          rewrite (c_trunc O prog I (ext_int O P prog Hext) Hbp 0%nat w P _ Hw HPS ltac:(lia)).
          unfold wrapU. rewrite Hwt. reflexivity.
        - exact He. }
      destruct bvptr; cbn [Bool.eqb].
      + exists (int_value w x). split; [|reflexivity].
        apply ev_fun with [VInt (int_value w x)]; [constructor; [exact Hc|constructor]|].
        exact (calls_int2bv _ _ P prog I Hext HP _).
      + exists (int_value w x). split; [exact Hc|reflexivity].
  Qed.

Lemma pat_add_r : forall n a b, pat n (a + pat n b) = pat n (a + b).
Proof. intros. unfold pat. apply Zplus_mod_idemp_r. Qed.
Lemma pat_add_l : forall n a b, pat n (pat n a + b) = pat n (a + b).
Proof. intros. unfold pat. apply Zplus_mod_idemp_l. Qed.
Lemma pat_mul_l : forall n a b, pat n (pat n a * b) = pat n (a * b).
Proof. intros. unfold pat. apply Zmult_mod_idemp_l. Qed.

(** ** getelementptr *)
Section Gep.
  Context (enc : encoding) (bvptr : bool) (P : Z) (prog : list fdecl) (I : interp).
  Hypothesis Hext : extends prog (preludeMem (flags enc bvptr) P).
  Hypothesis HP : ptr_width P.
  Notation ev := (evaluates prog I).
  Notation fl := (flags enc bvptr).

  Lemma ev_ref_op : forall op r a b x y, In op ["$add"; "$sub"; "$mul"] ->
    ev r a (ptr fl P x) -> ev r b (ptr fl P y) ->
    ev r (EFun (indexedName op [NRef]) [a; b]) (ptr fl P (pwrap fl P (bop op x y))).
  Proof.
    intros op r a b x y Hop Ha Hb. apply ev_fun with [ptr fl P x; ptr fl P y].
    - constructor; [exact Ha|]. constructor; [exact Hb|constructor].
    - exists 2%nat. now apply c_ref_arith.
  Qed.
  Lemma ev_litU : forall r v, 0 <= v < 2 ^ P -> ev r (pointerLitU fl P v) (ptr fl P v).
  Proof. intros r v H. exists 0%nat. apply eval_pointerLitU. intros _. exact H. Qed.

  Lemma pwrap_pat : forall z, pat P (pwrap fl P z) = pat P z.
  Proof. intros z. unfold pwrap. destruct (bitPrecisePointers fl); [apply pat_pat|reflexivity]. Qed.
  Lemma pwrap_int : bvptr = false -> forall z, pwrap fl P z = z.
  Proof. intros H z. unfold pwrap. now rewrite flags_bpp, H. Qed.

  (** one index: its pointer value [i], congruent to the signed value of the index *)
  Lemma ev_pa : forall r base idx z i size, ev r base (ptr fl P z) -> ev r idx (ptr fl P i) -> 0 <= size < 2 ^ P ->
    exists z', ev r (pa_expr base idx (pointerLitU fl P size)) (ptr fl P z') /\
      pat P z' = pat P (z + i * size) /\ (bvptr = false -> z' = z + i * size) /\ paddr fl P z'.
  Proof.
    intros r base idx z i size Hb Hi Hs. unfold pa_expr, pa_off. eexists. split.
    - apply (ev_ref_op "$add"); [cbn; tauto|exact Hb|].
      apply (ev_ref_op "$mul"); [cbn; tauto|exact Hi|apply ev_litU, Hs].
    - unfold bop. cbn [String.eqb Ascii.eqb Bool.eqb]. split; [|split; [|eapply pwrap_addr; eassumption]].
      + rewrite pwrap_pat, <- (pat_add_r P z), pwrap_pat, pat_add_r. reflexivity.
      + intros H. now rewrite !pwrap_int.
  Qed.
  Lemma ev_pa_const : forall r base z idx size, ev r base (ptr fl P z) -> Z.abs idx < 2 ^ P -> 0 <= size < 2 ^ P ->
    exists z', ev r (pa_const fl P base idx size) (ptr fl P z') /\
      pat P z' = pat P (z + idx * size) /\ (bvptr = false -> z' = z + idx * size) /\ paddr fl P z'.
  Proof.
    intros r base z idx size Hb Hi Hs. unfold pa_const. destruct (Z.leb_spec 0 idx).
    - apply ev_pa; [exact Hb|apply ev_litU; lia|exact Hs].
    - destruct (ev_pa r base (EFun (indexedName "$sub" [NRef]) [pointerLitU fl P 0; pointerLitU fl P (Z.abs idx)])
                  z (pwrap fl P (0 - Z.abs idx)) size Hb) as (z' & H1 & H2 & H3 & H4); [|exact Hs|].
      + apply (ev_ref_op "$sub"); [cbn; tauto|apply ev_litU; lia|apply ev_litU; lia].
      + exists z'. split; [exact H1|]. replace (0 - Z.abs idx) with idx in * by lia. split; [|split; [|exact H4]].
        * rewrite H2. rewrite <- (pat_add_r P z), <- (pat_mul_l P (pwrap fl P idx)), pwrap_pat, pat_mul_l, pat_add_r.
          reflexivity.
        * intros Hf. rewrite H3, pwrap_int by assumption. reflexivity.
  Qed.

  (** When a variable index narrower than a pointer is translated faithfully:
      its extension to pointer width is a zero extension (bit-vector and wrapped
      encodings), and an i1 of the unbounded encoding is 0 or 1. *)
  Definition index_ok (w x : Z) : Prop :=
    w < P -> match enc with UnboundedInteger => w <> 1 | _ => 0 <= signed w x end.

  Lemma ev_index : forall r e w v x, In w INTEGER_SIZES -> is_iN w x -> ev r e v -> represents enc w v x ->
    index_ok w x -> exists i, ev r (integerToPointer fl P e w) (ptr fl P i) /\ pat P i = pat P (signed w x) /\
      (bvptr = false -> enc <> WrappedInteger -> w <= P -> i = signed w x).
  Proof.
    intros r e w v x Hw Hx He Hr Hok. unfold index_ok in Hok.
    destruct (ev_integerToPointer enc bvptr P prog I Hext HP r e w v x Hw Hx He Hr) as (z & Hz & Hs).
    assert (1 <= P) as HP1 by (destruct HP as [->| ->]; lia). pose proof (size_pos w Hw) as Hw1.
    assert (1 < P) as HP2 by (destruct HP as [->| ->]; lia).
    assert (pat P (pat P x) = pat P (signed w x) \/ w < P) as Hwide.
    { destruct (Z.lt_ge_cases w P) as [H|H]; [now right|left]. rewrite pat_pat.
      rewrite <- (pat_narrow w P (signed w x)), signed_pat by (lia || assumption). reflexivity. }
    assert (0 <= signed w x -> signed w x = x) as Hpos by (apply signed_nn; assumption).
    exists (if bvptr then pat P z else z). split; [|split].
    - unfold ptr. rewrite flags_bpp. destruct bvptr; exact Hz.
    - assert (pat P (if bvptr then pat P z else z) = pat P z) as -> by (destruct bvptr; [apply pat_pat|reflexivity]).
      destruct enc.
      + assert (pat P z = pat P (pat P x)) as ->.
        { subst z. destruct bvptr; [reflexivity|]. rewrite signed_pat by (lia || apply pat_range; lia). now rewrite pat_pat. }
        destruct (Z.lt_ge_cases w P) as [H|H]; [|destruct Hwide; [assumption|lia]].
        rewrite pat_pat, (Hpos (Hok H)). reflexivity.
      + rewrite Hs. destruct (Z.lt_ge_cases w P) as [H|H].
        * rewrite (Hpos (Hok H)). reflexivity.
        * destruct Hwide as [E|]; [|lia]. now rewrite pat_pat in E.
      + subst z. unfold int_value. destruct (Z.eqb_spec w 1) as [->|Hn]; [|reflexivity].
        exfalso. now apply (Hok ltac:(lia)).
    - intros -> Henc Hle. destruct enc; [|congruence|].
      + subst z. destruct (Z.eq_dec w P) as [->|Hn]; [now rewrite pat_id|].
        assert (w < P) as H by lia. rewrite (Hpos (Hok H)). rewrite pat_id by (apply is_iN_widen with w; [lia|assumption]).
        pose proof (Hok H) as H0. rewrite (Hpos H0) in H0. destruct Hx as [Hx1 Hx2].
        assert (x < 2 ^ (P - 1)) as Hlt by (pose proof (pow2_le w (P - 1) ltac:(lia)); lia).
        unfold signed. destruct (Z.ltb_spec x (2 ^ (P - 1))); [reflexivity|lia].
      + subst z. unfold int_value. destruct (Z.eqb_spec w 1) as [->|Hn]; [|reflexivity].
        exfalso. now apply (Hok ltac:(lia)).
  Qed.

  (** A translated index and the index of the LLVM instruction it comes from. *)
  Inductive index_of (r : env) : gep_index -> gep_step -> Prop :=
  | io_field : forall off, 0 <= off < 2 ^ P -> index_of r (GField off) (Field off)
  | io_const : forall w x size, is_iN w x -> Z.abs (signed w x) < 2 ^ P -> 0 <= size < 2 ^ P ->
      index_of r (GConst (signed w x) size) (Index w x size)
  | io_var : forall w e v x size, In w INTEGER_SIZES -> is_iN w x -> 0 <= size < 2 ^ P ->
      ev r e v -> represents enc w v x -> index_ok w x ->
      index_of r (GVar w e size) (Index w x size).

  Definition step_width_le (s : gep_step) : Prop := match s with Field _ => True | Index w _ _ => w <= P end.

  Lemma gep_exact : forall r l ss, Forall2 (index_of r) l ss -> forall e z, ev r e (ptr fl P z) ->
    exists z', ev r (ptrArith fl P e l) (ptr fl P z') /\ pat P z' = llvm_gep P z ss /\ (paddr fl P z -> paddr fl P z') /\
      (bvptr = false -> enc <> WrappedInteger -> Forall step_width_le ss -> z' = z + gep_offset ss).
  Proof.
    assert (1 < P) as HP2 by (destruct HP as [->| ->]; lia).
    assert (0 <= 1 < 2 ^ P) as H1p.
    { assert (2 ^ 1 <= 2 ^ P) by (apply Z.pow_le_mono_r; lia). lia. }
    intros r l ss H. induction H as [|g s l ss Hg _ IH]; intros e z He.
    - exists z. cbn [ptrArith]. unfold llvm_gep. cbn [gep_offset]. rewrite Z.add_0_r. split; [exact He|]. split; [reflexivity|]. split; auto.
    - assert (exists e' z1, ptrArith fl P e (g :: l) = ptrArith fl P e' l /\ ev r e' (ptr fl P z1) /\ paddr fl P z1 /\
        pat P z1 = pat P (z + step_offset s) /\
        (bvptr = false -> enc <> WrappedInteger -> step_width_le s -> z1 = z + step_offset s)) as (e' & z1 & E & Hz1 & Hr1 & Hp & Hx).
      { destruct Hg as [off Ho|w x size Hx Ha Hs|w i v x size Hw Hx Hs Hi Hr Hok]; cbn [ptrArith step_offset].
        - destruct (ev_pa_const r e z off 1 He ltac:(lia) H1p) as (z1 & A & B & C & D). rewrite Z.mul_1_r in *.
          eexists _, z1. split; [reflexivity|]. split; [exact A|]. split; [exact D|]. split; [exact B|auto].
        - destruct (ev_pa_const r e z (signed w x) size He Ha Hs) as (z1 & A & B & C & D).
          eexists _, z1. split; [reflexivity|]. split; [exact A|]. split; [exact D|]. split; [exact B|auto].
        - destruct (ev_index r i w v x Hw Hx Hi Hr Hok) as (y & Y1 & Y2 & Y3).
          destruct (ev_pa r e (integerToPointer fl P i w) z y size He Y1 Hs) as (z1 & A & B & C & D).
          eexists _, z1. split; [reflexivity|]. split; [exact A|]. split; [exact D|]. split.
          + rewrite B. rewrite <- (pat_add_r P z), <- (pat_mul_l P y), Y2, pat_mul_l, pat_add_r. reflexivity.
          + intros Hf He' Hle. rewrite C, Y3 by assumption. reflexivity. }
      rewrite E. destruct (IH e' z1 Hz1) as (z' & A & B & R & C). exists z'. split; [exact A|]. split; [|split; [auto|]].
      + rewrite B. unfold llvm_gep. cbn [gep_offset]. rewrite <- (pat_add_l P z1), Hp, pat_add_l. f_equal. lia.
      + intros Hf He' HF. inversion HF; subst. rewrite C, Hx by (assumption || auto). cbn [gep_offset]. lia.
  Qed.

  (** A narrow negative variable index in the bit-vector and wrapped encodings:
      the address is off by 2^w elements. *)
  Lemma gep_narrow_negative : forall r e z w i v x size, exact_encoding enc -> In w INTEGER_SIZES -> w < P -> is_iN w x ->
    signed w x < 0 -> 0 <= size < 2 ^ P -> ev r e (ptr fl P z) -> ev r i v -> represents enc w v x ->
    exists z', ev r (ptrArith fl P e [GVar w i size]) (ptr fl P z') /\ paddr fl P z' /\
      pat P z' = pat P (llvm_gep P z [Index w x size] + 2 ^ w * size).
  Proof.
    intros r e z w i v x size Henc Hw Hlt Hx Hneg Hs He Hi Hr.
    destruct (ev_integerToPointer enc bvptr P prog I Hext HP r i w v x Hw Hx Hi Hr) as (y & Hy & Hp).
    assert (1 <= P) as HP1 by (destruct HP as [->| ->]; lia). pose proof (size_pos w Hw) as Hw1.
    set (y' := if bvptr then pat P y else y).
    assert (ev r (integerToPointer fl P i w) (ptr fl P y')) as Hy'.
    { unfold ptr, y'. rewrite flags_bpp. destruct bvptr; exact Hy. }
    destruct (ev_pa r e (integerToPointer fl P i w) z y' size He Hy' Hs) as (z1 & A & B & _ & D).
    exists z1. cbn [ptrArith]. split; [exact A|]. split; [exact D|]. rewrite B. unfold llvm_gep. cbn [gep_offset step_offset].
    rewrite pat_add_l, Z.add_0_r.
    assert (pat P y' = pat P x) as E.
    { unfold y'. transitivity (pat P y); [destruct bvptr; [apply pat_pat|reflexivity]|].
      destruct Henc as [-> | ->]; [|exact Hp]. subst y. destruct bvptr; [apply pat_pat|].
      rewrite signed_pat by (lia || apply pat_range; lia). reflexivity. }
    rewrite <- (pat_add_r P z), <- (pat_mul_l P y'), E, pat_mul_l, pat_add_r. f_equal.
    unfold signed in *. destruct (x <? 2 ^ (w - 1)); [destruct Hx; lia|]. lia.
  Qed.
End Gep.
