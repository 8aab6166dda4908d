(** Calls of the memory and pointer functions of the prelude. *)
From Coq Require Import ZArith List String Bool Lia ZifyBool.
From Verif.Base Require Import ZBits.
From Verif.Spec Require Import LLVMInt IR.
From Verif.Model Require Import Boogie PreludeInt SmackRepInt PreludeMem.
From Verif.Proofs Require Import Lookup PreludeCalls.
Import ListNotations.
Open Scope string_scope.
Open Scope list_scope.
Open Scope Z_scope.

(** ** Lookup *)
Definition no_ref (l : list tyname) : bool := forallb (fun t => negb (tyname_eqb t NRef)) l.

Lemma preludeInt_no_ref : forall O d, In d (preludeInt O) -> no_ref (fn_idx (fd_name d)) = true.
Proof.
  intros O d H. unfold preludeInt in H. apply in_app_or in H as [H|H]; [|apply in_app_or in H as [H|H]].
  - unfold arithDecls in H. apply in_flat_map in H as (o & _ & H). apply in_flat_map in H as (n & _ & H).
    apply arithFuncs_base in H as [->| ->]; reflexivity.
  - unfold predDecls in H. apply in_flat_map in H as (o & _ & H). apply in_flat_map in H as (n & _ & H).
    apply predFuncs_base in H as (t & [->| ->] & [->| ->]); reflexivity.
  - unfold convDecls in H. apply in_flat_map in H as (o & _ & H). apply in_flat_map in H as (n & _ & H).
    destruct (ic_up o); apply convFuncs_base in H as ->; unfold intTypeOf; destruct (bitPrecise O); reflexivity.
Qed.

Lemma preludeInt_bases : forall O, bases_in (arith_names ++ pred_names ++ conv_names) (preludeInt O).
Proof.
  intros O d H. unfold preludeInt in H. apply in_app_or in H as [H|H]; [|apply in_app_or in H as [H|H]].
  - apply in_or_app. left. exact (arithDecls_bases O d H).
  - apply in_or_app. right. apply in_or_app. left. exact (predDecls_bases O d H).
  - apply in_or_app. right. apply in_or_app. right. exact (convDecls_bases O d H).
Qed.

Lemma int_none_ref : forall O f, no_ref (fn_idx f) = false -> lookup (preludeInt O) f = None.
Proof.
  intros O f H. apply lookup_name_ne. intros d Hd E. apply preludeInt_no_ref in Hd. rewrite E in Hd. congruence.
Qed.
Lemma int_none_base : forall O f,
  existsb (String.eqb (fn_base f)) (arith_names ++ pred_names ++ conv_names) = false ->
  lookup (preludeInt O) f = None.
Proof. intros O f H. eapply lookup_none_base; [apply preludeInt_bases|exact H]. Qed.

Definition names_of (l : list fdecl) : list fname := map fd_name l.
Lemma lookup_none_names : forall l f,
  existsb (fun g => fname_eqb g f) (names_of l) = false -> lookup l f = None.
Proof.
  induction l as [|d l IH]; intros f H; [reflexivity|]. cbn in *. apply orb_false_iff in H as [H1 H2].
  rewrite H1. now apply IH.
Qed.

Lemma lookup_intMem : forall O P n f, In n INTEGER_SIZES ->
  (forall m, m <> n -> lookup (intMemFuncs O P m) f = None) ->
  lookup (intMemDecls O P) f = lookup (intMemFuncs O P n) f.
Proof.
  intros O P n f Hn H. unfold intMemDecls. apply lookup_flat_map_key; [assumption|].
  intros m _. destruct (Z.eq_dec m n) as [->|Ne]; [now left|right; now apply H].
Qed.

(** ** Pointer widths *)
Definition ptr_width (P : Z) : Prop := P = 32 \/ P = 64.
Lemma ptr_width_size : forall P, ptr_width P -> In P INTEGER_SIZES.
Proof. intros P [->| ->]; cbn; tauto. Qed.

Section MemCalls.
  Context (O : opts) (P : Z) (prog : list fdecl) (I : interp).
  Hypothesis Hext : extends prog (preludeMem O P).
  Hypothesis HP : ptr_width P.
  Notation C k := (eval_call prog I k).

  Lemma ext_int : extends prog (preludeInt O).
  Proof. intros f d H. apply Hext. unfold preludeMem. now rewrite lookup_app, H. Qed.

  Lemma in_mem : forall f d, lookup (preludeInt O) f = None ->
    lookup (bvIntConvs O P ++ intMemDecls O P ++ ptrArithDecls O P ++ ptrPreds O P ++ ptrMemDecls O P ++ ptrNumConvs O P) f
      = Some d -> lookup prog f = Some d.
  Proof. intros f d H1 H2. apply Hext. unfold preludeMem. now rewrite lookup_app, H1. Qed.

  Lemma bvIntConvs_other : forall f,
    existsb (String.eqb (fn_base f)) ["$int2bv"; "$bv2uint"; "$bv2int"] = false ->
    lookup (bvIntConvs O P) f = None.
  Proof.
    intros f H. apply (lookup_none_base ["$int2bv"; "$bv2uint"; "$bv2int"]); [|assumption].
    intros d Hd. unfold bvIntConvs in Hd. destruct (_ && _); cbn in Hd;
      repeat (destruct Hd as [<-|Hd]; [cbn; tauto|]); destruct Hd.
  Qed.

  Lemma intMem_other : forall f,
    existsb (String.eqb (fn_base f)) ["$load"; "$store"] = false ->
    lookup (intMemDecls O P) f = None.
  Proof.
    intros f H. apply (lookup_none_base ["$load"; "$store"]); [|assumption].
    intros d Hd. unfold intMemDecls in Hd. apply in_flat_map in Hd as (n & _ & Hd).
    unfold intMemFuncs in Hd. destruct (negb _); cbn in Hd;
      repeat (destruct Hd as [<-|Hd]; [cbn; tauto|]); destruct Hd.
  Qed.

  (** the tyname of integers of width n in memory functions *)
  Notation T n := (intType O n).

  Lemma lookup_load_int : forall n, In n INTEGER_SIZES ->
    lookup prog (indexedName "$load" [T n]) = Some (safeLoad O P (T n)).
  Proof.
    intros n Hn. apply in_mem; [apply int_none_base; reflexivity|].
    rewrite lookup_app, bvIntConvs_other by reflexivity. rewrite lookup_app.
    rewrite (lookup_intMem O P n _ Hn).
    - unfold intMemFuncs, intType. destruct (bitPrecise O); cbn -[Z.eqb]; now rewrite Z.eqb_refl.
    - intros m Ne. unfold intMemFuncs, intType. destruct (bitPrecise O); cbn -[Z.eqb];
        destruct (Z.eqb_spec m n); [contradiction|reflexivity|contradiction|reflexivity].
  Qed.
  Lemma lookup_store_int : forall n, In n INTEGER_SIZES ->
    lookup prog (indexedName "$store" [T n]) = Some (safeStore O P ("i", T n)).
  Proof.
    intros n Hn. apply in_mem; [apply int_none_base; reflexivity|].
    rewrite lookup_app, bvIntConvs_other by reflexivity. rewrite lookup_app.
    rewrite (lookup_intMem O P n _ Hn).
    - unfold intMemFuncs, intType. destruct (bitPrecise O); cbn -[Z.eqb]; now rewrite Z.eqb_refl.
    - intros m Ne. unfold intMemFuncs, intType. destruct (bitPrecise O); cbn -[Z.eqb];
        destruct (Z.eqb_spec m n); [contradiction|reflexivity|contradiction|reflexivity].
  Qed.
  Lemma lookup_load_bytes : forall n, bitPrecise O = true -> In n INTEGER_SIZES ->
    lookup prog (indexedName "$load" [NBytes; NBv n]) =
      nth_error (intMemFuncs O P n) 2.
  Proof.
    intros n Hb Hn. unfold intMemFuncs at 1. rewrite Hb. cbn [negb nth_error].
    apply in_mem; [apply int_none_base; reflexivity|].
    rewrite lookup_app, bvIntConvs_other by reflexivity. rewrite lookup_app.
    rewrite (lookup_intMem O P n _ Hn).
    - unfold intMemFuncs. rewrite Hb. cbn -[Z.eqb]. now rewrite Z.eqb_refl.
    - intros m Ne. unfold intMemFuncs. rewrite Hb; cbn -[Z.eqb];
        destruct (Z.eqb_spec m n); [contradiction|reflexivity].
  Qed.
  Lemma lookup_store_bytes : forall n, bitPrecise O = true -> In n INTEGER_SIZES ->
    lookup prog (indexedName "$store" [NBytes; NBv n]) =
      nth_error (intMemFuncs O P n) 3.
  Proof.
    intros n Hb Hn. unfold intMemFuncs at 1. rewrite Hb. cbn [negb nth_error].
    apply in_mem; [apply int_none_base; reflexivity|].
    rewrite lookup_app, bvIntConvs_other by reflexivity. rewrite lookup_app.
    rewrite (lookup_intMem O P n _ Hn).
    - unfold intMemFuncs. rewrite Hb. cbn -[Z.eqb]. now rewrite Z.eqb_refl.
    - intros m Ne. unfold intMemFuncs. rewrite Hb; cbn -[Z.eqb];
        destruct (Z.eqb_spec m n); [contradiction|reflexivity].
  Qed.
  Lemma intMem_ref : forall b pre,
    lookup (intMemDecls O P) (indexedName b (pre ++ [NRef])) = None.
  Proof.
    intros b pre. apply lookup_name_ne. intros d Hd E. unfold intMemDecls in Hd.
    apply in_flat_map in Hd as (n & _ & Hd).
    assert (forall t l, l ++ [NRef] = [t] -> t = NRef) as H1.
    { intros t [|x [|y l]] H; cbn in H; congruence. }
    assert (forall t u l, l ++ [NRef] = [t; u] -> u = NRef) as H2.
    { intros t u [|x [|y [|z l]]] H; cbn in H; congruence. }
    unfold intMemFuncs in Hd. destruct (negb _); cbn in Hd;
      repeat (destruct Hd as [<-|Hd]; [cbn in E; injection E as _ E; symmetry in E;
        (apply H1 in E || apply H2 in E); discriminate|]); destruct Hd.
  Qed.

  Lemma intMem_ref1 : forall b, lookup (intMemDecls O P) (indexedName b [NRef]) = None.
  Proof. intros b. exact (intMem_ref b []). Qed.
  Lemma intMem_ref2 : forall b, lookup (intMemDecls O P) (indexedName b [NBytes; NRef]) = None.
  Proof. intros b. exact (intMem_ref b [NBytes]). Qed.

  Lemma lookup_arith_ref : forall op, In op ["$add"; "$sub"; "$mul"] ->
    lookup prog (indexedName op [NRef]) =
    Some (FuncDecl (indexedName op [NRef]) [("p1", NRef); ("p2", NRef)] NRef
            (Some (EFun (indexedName op [pointerType O P]) [EVar "p1"; EVar "p2"])) AInline).
  Proof.
    intros op Hop. apply in_mem; [apply int_none_ref; reflexivity|].
    rewrite !lookup_app. cbn in Hop.
    destruct Hop as [<-|[<-|[<-|[]]]];
      rewrite bvIntConvs_other, intMem_other by reflexivity; reflexivity.
  Qed.

  Lemma lookup_pred_ref : forall name op (b : bool), In (name, op) ptrPredTable ->
    lookup prog (indexedName name (if b then [NRef; NBool] else [NRef])) =
    Some (if b then
        FuncDecl (indexedName name [NRef; NBool]) [("p1", NRef); ("p2", NRef)] NBool
          (Some (if bitPrecisePointers O
                 then EFun (indexedName name [pointerType O P; NBool]) [makePtrVarExpr 1; makePtrVarExpr 2]
                 else EBin op (makePtrVarExpr 1) (makePtrVarExpr 2))) AInline
      else
        FuncDecl (indexedName name [NRef]) [("p1", NRef); ("p2", NRef)] (intType O 1)
          (Some (EIte (EFun (indexedName name [NRef; NBool]) [makePtrVarExpr 1; makePtrVarExpr 2])
                   (integerLit O 1 1) (integerLit O 0 1))) AInline).
  Proof.
    intros name op b Hop. apply in_mem; [apply int_none_ref; destruct b; reflexivity|].
    rewrite !lookup_app. cbn in Hop.
    repeat (destruct Hop as [E|Hop];
      [injection E as <- <-; rewrite bvIntConvs_other, intMem_other by reflexivity;
       destruct b; reflexivity|]). destruct Hop.
  Qed.

  Lemma lookup_load_ref : lookup prog (indexedName "$load" [NRef]) = Some (safeLoad O P NRef).
  Proof.
    apply in_mem; [apply int_none_ref; reflexivity|]. rewrite !lookup_app.
    rewrite bvIntConvs_other, intMem_ref1 by reflexivity.
    unfold ptrMemDecls. destruct (bitPrecise O); reflexivity.
  Qed.
  Lemma lookup_store_ref : lookup prog (indexedName "$store" [NRef]) = Some (safeStore O P ("i", NRef)).
  Proof.
    apply in_mem; [apply int_none_ref; reflexivity|]. rewrite !lookup_app.
    rewrite bvIntConvs_other, intMem_ref1 by reflexivity.
    unfold ptrMemDecls. destruct (bitPrecise O); reflexivity.
  Qed.
  Lemma lookup_load_bytes_ref : bitPrecise O = true ->
    lookup prog (indexedName "$load" [NBytes; NRef]) = nth_error (ptrMemDecls O P) 0.
  Proof.
    intros Hb. unfold ptrMemDecls at 1. rewrite Hb. cbn [nth_error app].
    apply in_mem; [apply int_none_ref; reflexivity|]. rewrite !lookup_app.
    rewrite bvIntConvs_other, intMem_ref2 by reflexivity.
    unfold ptrMemDecls. rewrite Hb. reflexivity.
  Qed.
  Lemma lookup_store_bytes_ref : bitPrecise O = true ->
    lookup prog (indexedName "$store" [NBytes; NRef]) = nth_error (ptrMemDecls O P) 1.
  Proof.
    intros Hb. unfold ptrMemDecls at 1. rewrite Hb. cbn [nth_error app].
    apply in_mem; [apply int_none_ref; reflexivity|]. rewrite !lookup_app.
    rewrite bvIntConvs_other, intMem_ref2 by reflexivity.
    unfold ptrMemDecls. rewrite Hb. reflexivity.
  Qed.

  Lemma lookup_p2i : forall i, In i [8; 16; 32; 64] ->
    lookup prog (indexedName "$p2i" [NRef; T i]) =
    Some (FuncDecl (indexedName "$p2i" [NRef; T i]) [("p", NRef)] (T i)
            (Some (pointerToInteger O P (EVar "p") i)) AInline).
  Proof.
    intros i Hi. apply in_mem; [apply int_none_ref; reflexivity|]. rewrite !lookup_app.
    rewrite bvIntConvs_other, intMem_other by reflexivity.
    cbn in Hi. unfold intType, ptrMemDecls.
    destruct (bitPrecise O) eqn:Eb; repeat (destruct Hi as [<-|Hi];
      [unfold ptrNumConvs, intType; rewrite ?Eb; reflexivity|]); destruct Hi.
  Qed.
  Lemma lookup_i2p : forall i, In i [8; 16; 32; 64] ->
    lookup prog (indexedName "$i2p" [T i; NRef]) =
    Some (FuncDecl (indexedName "$i2p" [T i; NRef]) [("i", T i)] NRef
            (Some (integerToPointer O P (EVar "i") i)) AInline).
  Proof.
    intros i Hi. apply in_mem; [apply int_none_base; reflexivity|]. rewrite !lookup_app.
    rewrite bvIntConvs_other, intMem_other by reflexivity.
    cbn in Hi. unfold intType, ptrMemDecls.
    destruct (bitPrecise O) eqn:Eb; repeat (destruct Hi as [<-|Hi];
      [unfold ptrNumConvs, intType; rewrite ?Eb; reflexivity|]); destruct Hi.
  Qed.

  (** ** Pointer values *)
  (** An address as a Boogie value, and its arithmetic. *)
  Definition ptr (a : Z) : val := if bitPrecisePointers O then VBv P a else VInt a.
  Definition pwrap (a : Z) : Z := if bitPrecisePointers O then a mod 2 ^ P else a.
  Definition paddr (a : Z) : Prop := bitPrecisePointers O = true -> 0 <= a < 2 ^ P.
  Definition pdom : option Z := if bitPrecisePointers O then Some P else None.

  Lemma ptr_scalar : forall a, to_scalar pdom (ptr a) = Some a.
  Proof. intros. unfold pdom, ptr. destruct (bitPrecisePointers O); cbn; [now rewrite Z.eqb_refl|reflexivity]. Qed.
  Lemma pwrap_addr : forall a, paddr (pwrap a).
  Proof.
    intros a H. unfold pwrap. rewrite H. apply Z.mod_pos_bound, pow2_pos. destruct HP as [->| ->]; lia.
  Qed.

  Lemma eval_pointerLitU : forall call r v, (bitPrecisePointers O = true -> 0 <= v < 2 ^ P) ->
    eval_with call r (pointerLitU O P v) = Some (ptr v).
  Proof.
    intros call r v H. unfold pointerLitU, ptr. destruct (bitPrecisePointers O); cbn [eval_with]; [|reflexivity].
    specialize (H eq_refl). destruct (0 <=? v) eqn:E1; [|lia]. destruct (v <? 2 ^ P) eqn:E2; [|lia]. reflexivity.
  Qed.

  Definition bop (op : string) (a b : Z) : Z :=
    if String.eqb op "$add" then a + b else if String.eqb op "$sub" then a - b else a * b.

  Lemma c_ref_arith : forall op k a b, In op ["$add"; "$sub"; "$mul"] ->
    C (S (S k)) (indexedName op [NRef]) [ptr a; ptr b] = Some (ptr (pwrap (bop op a b))).
  Proof.
    intros op k a b Hop. pose proof (ptr_width_size P HP) as HPs.
    erewrite call_inline; [|apply lookup_arith_ref, Hop|reflexivity..].
    unfold ptr, pwrap, pointerType. destruct (bitPrecisePointers O) eqn:Ep;
      cbn [eval_with fd_params bind_params upd_env String.eqb Ascii.eqb Bool.eqb].
    - cbn in Hop. destruct Hop as [<-|[<-|[<-|[]]]].
      + erewrite call_bvbuiltin; [|apply (bv_decl O prog ext_int (IntArithOp "add" 2 (Some (OpInlined (intArithExpr Plus))) (Some OpBuiltin) true));
          [rewrite Ep; cbn; apply orb_true_r|assumption|in_table|reflexivity]|reflexivity].
        cbn -[Z.pow]. rewrite Z.eqb_refl. reflexivity.
      + erewrite call_bvbuiltin; [|apply (bv_decl O prog ext_int (IntArithOp "sub" 2 (Some (OpInlined (intArithExpr Minus))) (Some OpBuiltin) true));
          [rewrite Ep; cbn; apply orb_true_r|assumption|in_table|reflexivity]|reflexivity].
        cbn -[Z.pow]. rewrite Z.eqb_refl. reflexivity.
      + erewrite call_bvbuiltin; [|apply (bv_decl O prog ext_int (IntArithOp "mul" 2 (Some (OpInlined (intArithExpr Times))) (Some OpBuiltin) true));
          [rewrite Ep; cbn; apply orb_true_r|assumption|in_table|reflexivity]|reflexivity].
        cbn -[Z.pow]. rewrite Z.eqb_refl. reflexivity.
    - cbn in Hop. destruct Hop as [<-|[<-|[<-|[]]]].
      + erewrite call_inline; [|apply (int_decl O prog ext_int (IntArithOp "add" 2 (Some (OpInlined (intArithExpr Plus))) (Some OpBuiltin) true));
          [rewrite Ep; cbn; apply orb_true_r|assumption|in_table|reflexivity]|reflexivity..].
        reflexivity.
      + erewrite call_inline; [|apply (int_decl O prog ext_int (IntArithOp "sub" 2 (Some (OpInlined (intArithExpr Minus))) (Some OpBuiltin) true));
          [rewrite Ep; cbn; apply orb_true_r|assumption|in_table|reflexivity]|reflexivity..].
        reflexivity.
      + erewrite call_inline; [|apply (int_decl O prog ext_int (IntArithOp "mul" 2 (Some (OpInlined (intArithExpr Times))) (Some OpBuiltin) true));
          [rewrite Ep; cbn; apply orb_true_r|assumption|in_table|reflexivity]|reflexivity..].
        reflexivity.
  Qed.
  Lemma c_ref_add : forall k a b,
    C (S (S k)) (indexedName "$add" [NRef]) [ptr a; ptr b] = Some (ptr (pwrap (a + b))).
  Proof. intros. apply (c_ref_arith "$add"). cbn; tauto. Qed.
  Lemma c_ref_sub : forall k a b,
    C (S (S k)) (indexedName "$sub" [NRef]) [ptr a; ptr b] = Some (ptr (pwrap (a - b))).
  Proof. intros. apply (c_ref_arith "$sub"). cbn; tauto. Qed.
  Lemma c_ref_mul : forall k a b,
    C (S (S k)) (indexedName "$mul" [NRef]) [ptr a; ptr b] = Some (ptr (pwrap (a * b))).
  Proof. intros. apply (c_ref_arith "$mul"). cbn; tauto. Qed.

  Lemma eval_pointerLit : forall k r v,
    (bitPrecisePointers O = true -> Z.abs v < 2 ^ P) ->
    eval_with (C (S (S k))) r (pointerLit O P v) = Some (ptr (pwrap v)).
  Proof.
    intros k r v H. unfold pointerLit. destruct (0 <=? v) eqn:E.
    - rewrite eval_pointerLitU by lia. unfold pwrap. destruct (bitPrecisePointers O) eqn:Ep; [|reflexivity].
      rewrite Z.mod_small by lia. reflexivity.
    - cbn [eval_with]. rewrite !eval_pointerLitU by lia. rewrite c_ref_sub. do 3 f_equal. lia.
  Qed.
End MemCalls.
