(** What each integer function of the generated prelude computes. *)
From Coq Require Import ZArith List String Bool Lia ZifyBool.
From Verif.Base Require Import ZBits.
From Verif.Spec Require Import LLVMInt.
From Verif.Model Require Import Boogie PreludeInt.
From Verif.Proofs Require Import Lookup.
Import ListNotations.
Open Scope string_scope.
Open Scope Z_scope.

(** A program that contains every declaration of the prelude. *)
Definition extends (prog base : list fdecl) : Prop :=
  forall f d, lookup base f = Some d -> lookup prog f = Some d.

Lemma extends_refl : forall p, extends p p.
Proof. intros p f d H. exact H. Qed.

Lemma extends_app : forall p q, extends (p ++ q) p.
Proof. intros p q f d H. rewrite lookup_app, H. reflexivity. Qed.

Lemma size_pos : forall n, In n INTEGER_SIZES -> 1 <= n.
Proof. intros n H. cbn in H. lia. Qed.

Section Calls.
  Context (O : opts) (prog : list fdecl) (I : interp).
  Hypothesis Hext : extends prog (preludeInt O).

  Lemma call_inline : forall k f d b r vs,
    lookup prog f = Some d -> fd_attr d = AInline -> fd_body d = Some b ->
    bind_params (fd_params d) vs = Some r ->
    eval_call prog I (S k) f vs = eval_with (eval_call prog I k) r b.
  Proof. intros k f d b r vs H1 H2 H3 H4. cbn [eval_call]. now rewrite H1, H2, H3, H4. Qed.

  Lemma call_builtin : forall k f d s vs,
    lookup prog f = Some d -> fd_attr d = ABuiltin s ->
    eval_call prog I (S k) f vs = eval_builtin s vs.
  Proof. intros k f d s vs H1 H2. cbn [eval_call]. now rewrite H1, H2. Qed.

  Lemma call_bvbuiltin : forall k f d s vs,
    lookup prog f = Some d -> fd_attr d = ABvBuiltin s ->
    eval_call prog I (S k) f vs = eval_bvbuiltin s vs.
  Proof. intros k f d s vs H1 H2. cbn [eval_call]. now rewrite H1, H2. Qed.

  Lemma call_none : forall k f d vs,
    lookup prog f = Some d -> fd_attr d = ANone ->
    eval_call prog I (S k) f vs = I f vs.
  Proof. intros k f d vs H1 H2. cbn [eval_call]. now rewrite H1, H2. Qed.

  Lemma int_name : forall o n d, getIntFunc o n = Some d -> fd_name d = indexedName ("$" ++ ao_name o) [NInt n].
  Proof.
    intros o n d H. unfold getIntFunc in H.
    destruct (ao_int o) as [[| |]|]; inversion H; reflexivity.
  Qed.
  Lemma bv_name : forall o n d, getBvFunc o n = Some d -> fd_name d = indexedName ("$" ++ ao_name o) [NBv n].
  Proof.
    intros o n d H. unfold getBvFunc in H.
    destruct (ao_bv o) as [[| |]|]; inversion H; reflexivity.
  Qed.

  Lemma int_decl : forall o n d,
    negb (bitPrecise O) || (negb (bitPrecisePointers O) && ao_ptr o) = true ->
    In n INTEGER_SIZES -> In o (intArithOpTable O) -> getIntFunc o n = Some d ->
    lookup prog (indexedName ("$" ++ ao_name o) [NInt n]) = Some d.
  Proof.
    intros o n d HO Hn Ho Hd. apply Hext. apply (prelude_arith O o n (NInt n)); auto.
    unfold arithFuncs. rewrite HO, Hd. cbn [opt_list List.app lookup].
    rewrite (int_name o n d Hd), fname_eqb_refl. reflexivity.
  Qed.

  Lemma bv_decl : forall o n d,
    bitPrecise O || (bitPrecisePointers O && ao_ptr o) = true ->
    In n INTEGER_SIZES -> In o (intArithOpTable O) -> getBvFunc o n = Some d ->
    lookup prog (indexedName ("$" ++ ao_name o) [NBv n]) = Some d.
  Proof.
    intros o n d HO Hn Ho Hd. apply Hext. apply (prelude_arith O o n (NBv n)); auto.
    unfold arithFuncs. rewrite lookup_app, HO, Hd. cbn [opt_list lookup].
    rewrite (bv_name o n d Hd), fname_eqb_refl.
    destruct (negb (bitPrecise O) || _); [|reflexivity].
    destruct (getIntFunc o n) eqn:E; [|reflexivity]. cbn [opt_list lookup].
    rewrite (int_name o n f E). unfold fname_eqb. cbn. rewrite andb_false_r. reflexivity.
  Qed.

  Lemma pred_int_decl : forall p n b,
    bitPrecise O = false -> In n INTEGER_SIZES -> In p (intPredTable O) ->
    lookup prog (indexedName ("$" ++ ip_name p) (if b : bool then [NInt n; NBool] else [NInt n])) =
    Some (nth (if b then 0 else 1) (predIntFuncs p n) (FuncDecl (indexedName "" []) [] NBool None ANone)).
  Proof.
    intros p n b HO Hn Hp. apply Hext. apply (prelude_pred O p n (NInt n)); auto; [destruct b; auto|].
    unfold predFuncs. rewrite HO. cbn [negb orb]. unfold predIntFuncs.
    cbn [List.app lookup fd_name inlinedOp nth]. destruct b; rewrite ?fname_eqb_refl; [reflexivity|].
    replace (fname_eqb (indexedName ("$" ++ ip_name p) [NInt n; NBool]) (indexedName ("$" ++ ip_name p) [NInt n]))
      with false; [reflexivity|].
    unfold fname_eqb. cbn. rewrite !andb_false_r. reflexivity.
  Qed.

  Lemma pred_bv_decl : forall p n b,
    bitPrecise O = true -> In n INTEGER_SIZES -> In p (intPredTable O) ->
    lookup prog (indexedName ("$" ++ ip_name p) (if b : bool then [NBv n; NBool] else [NBv n])) =
    Some (nth (if b then 0 else 1) (predBvFuncs p n) (FuncDecl (indexedName "" []) [] NBool None ANone)).
  Proof.
    intros p n b HO Hn Hp. apply Hext. apply (prelude_pred O p n (NBv n)); auto; [destruct b; auto|].
    unfold predFuncs. rewrite HO. cbn [negb orb]. rewrite lookup_app.
    replace (lookup (if negb (bitPrecisePointers O) then predIntFuncs p n else [])
       (indexedName ("$" ++ ip_name p) (if b then [NBv n; NBool] else [NBv n]))) with (@None fdecl).
    2:{ symmetry. apply lookup_name_ne. intros d Hd E.
        destruct (negb _); [|destruct Hd].
        destruct Hd as [<-|[<-|[]]]; cbn in E; destruct b; inversion E. }
    unfold predBvFuncs. cbn [lookup nth]. 
    assert (forall x, fd_name (match ip_bv p with Some f => inlinedOp ("$" ++ ip_name p) [NBv n; NBool] (makeIntVars 2 (NBv n)) NBool (f n)
       | None => builtinOp ("$" ++ ip_name p) x [NBv n; NBool] (makeIntVars 2 (NBv n)) NBool end) = 
       indexedName ("$" ++ ip_name p) [NBv n; NBool]) as E by (intros; destruct (ip_bv p); reflexivity).
    rewrite E. destruct b; rewrite ?fname_eqb_refl; [reflexivity|].
    replace (fname_eqb (indexedName ("$" ++ ip_name p) [NBv n; NBool]) (indexedName ("$" ++ ip_name p) [NBv n]))
      with false.
    - reflexivity.
    - unfold fname_eqb. cbn. rewrite !andb_false_r. reflexivity.
  Qed.

  Lemma conv_decl : forall c n m,
    In c (intConvTable O) -> In n INTEGER_SIZES -> In m INTEGER_SIZES ->
    (if ic_up c then n < m else m < n) ->
    exists d, convFuncs O c n m = [d] /\
    lookup prog (indexedName ("$" ++ ic_name c) [intTypeOf O n; intTypeOf O m]) = Some d.
  Proof.
    intros c n m Hc Hn Hm Hlt.
    assert (exists d, convFuncs O c n m = [d]) as [d Hd].
    { unfold convFuncs. destruct (bitPrecise O); eexists; reflexivity. }
    exists d. split; [assumption|]. apply Hext. apply (prelude_conv O c n m); auto.
    rewrite Hd. cbn [lookup].
    rewrite (convFuncs_base O c n m d) by (rewrite Hd; now left).
    now rewrite fname_eqb_refl.
  Qed.
End Calls.

Ltac in_table := cbn; repeat (try (left; reflexivity); right).

(** ** Integers represented by mathematical integers *)
Section IntMode.
  Context (O : opts) (prog : list fdecl) (I : interp).
  Hypothesis Hext : extends prog (preludeInt O).
  Hypothesis Hbp : bitPrecise O = false.
  Notation C k := (eval_call prog I k).

  Ltac find_int op :=
    erewrite call_inline;
      [ | apply (int_decl O prog Hext op); [rewrite Hbp; reflexivity|assumption|in_table|reflexivity]
        | reflexivity | reflexivity | reflexivity ].

  Lemma c_add : forall k n a b, In n INTEGER_SIZES ->
    C (S k) (indexedName "$add" [NInt n]) [VInt a; VInt b] = Some (VInt (a + b)).
  Proof.
    intros k n a b Hn.
    find_int (IntArithOp "add" 2 (Some (OpInlined (intArithExpr Plus))) (Some OpBuiltin) true).
    reflexivity.
  Qed.
  Lemma c_sub : forall k n a b, In n INTEGER_SIZES ->
    C (S k) (indexedName "$sub" [NInt n]) [VInt a; VInt b] = Some (VInt (a - b)).
  Proof.
    intros k n a b Hn.
    find_int (IntArithOp "sub" 2 (Some (OpInlined (intArithExpr Minus))) (Some OpBuiltin) true).
    reflexivity.
  Qed.
  Lemma c_mul : forall k n a b, In n INTEGER_SIZES ->
    C (S k) (indexedName "$mul" [NInt n]) [VInt a; VInt b] = Some (VInt (a * b)).
  Proof.
    intros k n a b Hn.
    find_int (IntArithOp "mul" 2 (Some (OpInlined (intArithExpr Times))) (Some OpBuiltin) true).
    reflexivity.
  Qed.
  Lemma c_idiv : forall k n a b, In n INTEGER_SIZES ->
    C (S k) (indexedName "$idiv" [NInt n]) [VInt a; VInt b] = option_map VInt (smt_div a b).
  Proof.
    intros k n a b Hn.
    erewrite call_builtin;
      [ | apply (int_decl O prog Hext (IntArithOp "idiv" 2 (Some OpBuiltin) (Some OpBuiltin) false));
          [rewrite Hbp; reflexivity|assumption|in_table|reflexivity] | reflexivity ].
    reflexivity.
  Qed.
  Lemma c_smod : forall k n a b, In n INTEGER_SIZES ->
    C (S k) (indexedName "$smod" [NInt n]) [VInt a; VInt b] = option_map VInt (smt_mod a b).
  Proof.
    intros k n a b Hn.
    erewrite call_builtin;
      [ | apply (int_decl O prog Hext (IntArithOp "smod" 2 (Some OpBuiltin) (Some OpBuiltin) false));
          [rewrite Hbp; reflexivity|assumption|in_table|reflexivity] | reflexivity ].
    reflexivity.
  Qed.

  (** The wrap functions, when they are emitted. *)
  Lemma c_tou : forall k n a, wrappedIntegerEncoding O = true -> In n INTEGER_SIZES ->
    C (S (S k)) (indexedName "$tou" [NInt n]) [VInt a] = Some (VInt (pat n a)).
  Proof.
    intros k n a Hw Hn. pose proof (size_pos n Hn) as Hp. pose proof (pow2_pos n ltac:(lia)).
    assert (In (IntArithOp "tou" 1 (Some (OpInlined touExpr)) None true) (intArithOpTable O)) as Hin
      by (unfold intArithOpTable; rewrite Hw; in_table).
    erewrite call_inline;
      [ | apply (int_decl O prog Hext (IntArithOp "tou" 1 (Some (OpInlined touExpr)) None true));
          [rewrite Hbp; reflexivity|assumption|assumption|reflexivity]
        | reflexivity | reflexivity | reflexivity ].
    cbn -[eval_call Z.pow]. unfold getIntLimit.
    destruct (0 <=? a) eqn:E1, (a <? 2 ^ n) eqn:E2; cbn -[eval_call Z.pow];
      try (rewrite c_smod by assumption; unfold smt_mod;
           destruct (2 ^ n =? 0) eqn:E0; [lia|]; cbn -[Z.pow]; rewrite Z.abs_eq by lia; reflexivity).
    unfold pat. rewrite Z.mod_small by lia. reflexivity.
  Qed.

  Lemma c_tos : forall k n a, wrappedIntegerEncoding O = true -> In n INTEGER_SIZES ->
    C (S (S k)) (indexedName "$tos" [NInt n]) [VInt a] = Some (VInt (signed n (pat n a))).
  Proof.
    intros k n a Hw Hn. pose proof (size_pos n Hn) as Hp. pose proof (pow2_pos n ltac:(lia)).
    pose proof (pow2_half n Hp). pose proof (pow2_half_pos n Hp).
    assert (In (IntArithOp "tos" 1 (Some (OpInlined tosExpr)) None true) (intArithOpTable O)) as Hin
      by (unfold intArithOpTable; rewrite Hw; in_table).
    erewrite call_inline;
      [ | apply (int_decl O prog Hext (IntArithOp "tos" 1 (Some (OpInlined tosExpr)) None true));
          [rewrite Hbp; reflexivity|assumption|assumption|reflexivity]
        | reflexivity | reflexivity | reflexivity ].
    cbn -[eval_call Z.pow signed]. unfold getIntLimit.
    destruct (- 2 ^ (n - 1) <=? a) eqn:E1, (a <? 2 ^ (n - 1)) eqn:E2; cbn -[eval_call Z.pow signed].
    1: { rewrite pat_signed by lia. reflexivity. }
    all: rewrite c_add by assumption; cbn -[eval_call Z.pow signed];
         rewrite c_smod by assumption; unfold smt_mod;
         destruct (2 ^ n =? 0) eqn:E0; [lia|]; cbn -[eval_call Z.pow signed]; rewrite Z.abs_eq by lia;
         rewrite c_sub by assumption;
         (* (a + h) mod 2^n - h is the signed reading *)
         replace (signed n (pat n a)) with ((a + 2 ^ (n - 1)) mod 2 ^ n - 2 ^ (n - 1)); [reflexivity|];
         symmetry; replace (pat n a) with (pat n ((a + 2 ^ (n - 1)) mod 2 ^ n - 2 ^ (n - 1)));
         [ apply pat_signed; [assumption|]; pose proof (Z.mod_pos_bound (a + 2 ^ (n - 1)) (2 ^ n)); lia
         | unfold pat; rewrite Zminus_mod_idemp_l; f_equal; lia ].
  Qed.

  (** Operands of a comparison or division, after the optional wrap. *)
  Definition wrapU (n a : Z) : Z := if wrappedIntegerEncoding O then pat n a else a.
  Definition wrapS (n a : Z) : Z := if wrappedIntegerEncoding O then signed n (pat n a) else a.

  Lemma e_wrap : forall k r n e a u, In n INTEGER_SIZES ->
    eval_with (C (S (S k))) r e = Some (VInt a) ->
    eval_with (C (S (S k))) r (wrappedExpr O n e u) = Some (VInt (if u : bool then wrapU n a else wrapS n a)).
  Proof.
    intros k r n e a u Hn He. unfold wrappedExpr, wrapU, wrapS.
    destruct (wrappedIntegerEncoding O) eqn:Hw.
    - cbn -[eval_call Z.pow]. rewrite He.
      destruct u; unfold getIntWrapFunc; [apply c_tou|apply c_tos]; assumption.
    - rewrite He. destruct u; reflexivity.
  Qed.

  Definition sem_cmp (o : bbin) (x y : Z) : bool :=
    match o with
    | Lt => x <? y | Lte => x <=? y | Gt => y <? x | Gte => y <=? x
    | BEq => x =? y | BNeq => negb (x =? y) | _ => false
    end.

  Definition is_cmp (o : bbin) : bool :=
    match o with Lt | Lte | Gt | Gte | BEq | BNeq => true | _ => false end.

  Lemma c_predbool : forall name op sign bv, is_cmp op = true ->
    In (IntPred name (intPredExpr O op sign) bv) (intPredTable O) ->
    forall k n a b, In n INTEGER_SIZES ->
    C (S (S (S k))) (indexedName ("$" ++ name) [NInt n; NBool]) [VInt a; VInt b] =
    Some (VBool (sem_cmp op (if sign then wrapS n a else wrapU n a) (if sign then wrapS n b else wrapU n b))).
  Proof.
    intros name op sign bv Hop Hin k n a b Hn.
    erewrite call_inline;
      [ | exact (pred_int_decl O prog Hext (IntPred name (intPredExpr O op sign) bv) n true Hbp Hn Hin)
        | reflexivity | reflexivity | reflexivity ].
    cbn [ip_int intPredExpr eval_with]. 
    rewrite (e_wrap k _ n (makeIntVarExpr 1) a (negb sign)) by (auto; reflexivity).
    rewrite (e_wrap k _ n (makeIntVarExpr 2) b (negb sign)) by (auto; reflexivity).
    destruct sign; cbn [negb]; destruct op; try discriminate; reflexivity.
  Qed.

  Lemma c_pred : forall name op sign bv, is_cmp op = true ->
    In (IntPred name (intPredExpr O op sign) bv) (intPredTable O) ->
    forall k n a b, In n INTEGER_SIZES ->
    C (S (S (S (S k)))) (indexedName ("$" ++ name) [NInt n]) [VInt a; VInt b] =
    Some (VInt (if sem_cmp op (if sign then wrapS n a else wrapU n a) (if sign then wrapS n b else wrapU n b)
                then 1 else 0)).
  Proof.
    intros name op sign bv Hop Hin k n a b Hn.
    erewrite call_inline;
      [ | exact (pred_int_decl O prog Hext (IntPred name (intPredExpr O op sign) bv) n false Hbp Hn Hin)
        | reflexivity | reflexivity | reflexivity ].
    cbn -[eval_call sem_cmp append]. 
    rewrite (c_predbool name op sign bv Hop Hin k n a b Hn).
    destruct (sem_cmp _ _ _); reflexivity.
  Qed.

  Lemma c_smax : forall k n a b, In n INTEGER_SIZES ->
    C (S (S (S (S k)))) (indexedName "$smax" [NInt n]) [VInt a; VInt b] =
    Some (VInt (if wrapS n b <? wrapS n a then a else b)).
  Proof.
    intros k n a b Hn.
    find_int (IntArithOp "smax" 2 (Some (OpInlined (intMinMaxExpr false true)))
                (Some (OpInlined (bvMinMaxExpr true false))) false).
    cbn -[eval_call].
    change "$sgt" with ("$" ++ "sgt").
    rewrite (c_predbool "sgt" Gt true None) by (reflexivity || assumption || in_table).
    cbn [sem_cmp]. destruct (wrapS n b <? wrapS n a); reflexivity.
  Qed.

  Lemma c_minmax : forall name min sign bv,
    In (IntArithOp name 2 (Some (OpInlined (intMinMaxExpr min sign))) bv false) (intArithOpTable O) ->
    forall k n a b, In n INTEGER_SIZES ->
    C (S (S (S (S k)))) (indexedName ("$" ++ name) [NInt n]) [VInt a; VInt b] =
    let w := if sign : bool then wrapS n else wrapU n in
    Some (VInt (if (if min : bool then w a <? w b else w b <? w a) then a else b)).
  Proof.
    intros name mn sign bv Hin k n a b Hn.
    erewrite call_inline;
      [ | apply (int_decl O prog Hext (IntArithOp name 2 (Some (OpInlined (intMinMaxExpr mn sign))) bv false));
          [rewrite Hbp; reflexivity|assumption|assumption|reflexivity]
        | reflexivity | reflexivity | reflexivity ].
    unfold intMinMaxExpr, minMaxPred. cbn -[eval_call append].
    destruct sign, mn; cbn [append].
    - change "$slt" with ("$" ++ "slt").
      rewrite (c_predbool "slt" Lt true None) by (reflexivity || assumption || in_table).
      cbn [sem_cmp]. destruct (_ <? _); reflexivity.
    - change "$sgt" with ("$" ++ "sgt").
      rewrite (c_predbool "sgt" Gt true None) by (reflexivity || assumption || in_table).
      cbn [sem_cmp]. destruct (_ <? _); reflexivity.
    - change "$ult" with ("$" ++ "ult").
      rewrite (c_predbool "ult" Lt false None) by (reflexivity || assumption || in_table).
      cbn [sem_cmp]. destruct (_ <? _); reflexivity.
    - change "$ugt" with ("$" ++ "ugt").
      rewrite (c_predbool "ugt" Gt false None) by (reflexivity || assumption || in_table).
      cbn [sem_cmp]. destruct (_ <? _); reflexivity.
  Qed.

  Lemma c_udiv : forall k n a b, In n INTEGER_SIZES ->
    C (S (S (S k))) (indexedName "$udiv" [NInt n]) [VInt a; VInt b] =
    option_map VInt (smt_div (wrapU n a) (wrapU n b)).
  Proof.
    intros k n a b Hn.
    find_int (IntArithOp "udiv" 2 (Some (OpInlined (divExpr O false))) (Some OpBuiltin) false).
    unfold divExpr. cbn [eval_with negb].
    rewrite (e_wrap k _ n (makeIntVarExpr 1) a true) by (auto; reflexivity).
    rewrite (e_wrap k _ n (makeIntVarExpr 2) b true) by (auto; reflexivity).
    apply c_idiv; assumption.
  Qed.
  Lemma c_sdiv : forall k n a b, In n INTEGER_SIZES ->
    C (S (S (S k))) (indexedName "$sdiv" [NInt n]) [VInt a; VInt b] =
    option_map VInt (smt_div (wrapS n a) (wrapS n b)).
  Proof.
    intros k n a b Hn.
    find_int (IntArithOp "sdiv" 2 (Some (OpInlined (divExpr O true))) (Some OpBuiltin) false).
    unfold divExpr. cbn [eval_with negb].
    rewrite (e_wrap k _ n (makeIntVarExpr 1) a false) by (auto; reflexivity).
    rewrite (e_wrap k _ n (makeIntVarExpr 2) b false) by (auto; reflexivity).
    apply c_idiv; assumption.
  Qed.
  Lemma c_urem : forall k n a b, In n INTEGER_SIZES ->
    C (S (S (S k))) (indexedName "$urem" [NInt n]) [VInt a; VInt b] =
    option_map VInt (smt_mod (wrapU n a) (wrapU n b)).
  Proof.
    intros k n a b Hn.
    find_int (IntArithOp "urem" 2 (Some (OpInlined (uremExpr O))) (Some OpBuiltin) false).
    unfold uremExpr. cbn [eval_with negb].
    rewrite (e_wrap k _ n (makeIntVarExpr 1) a true) by (auto; reflexivity).
    rewrite (e_wrap k _ n (makeIntVarExpr 2) b true) by (auto; reflexivity).
    apply c_smod; assumption.
  Qed.

  Lemma c_srem : forall k n a b, In n INTEGER_SIZES ->
    C (S (S (S (S (S k))))) (indexedName "$srem" [NInt n]) [VInt a; VInt b] =
    match smt_mod (wrapS n a) (wrapS n b) with
    | None => None
    | Some m =>
        if negb (wrapU n m =? wrapU n 0) && (wrapS n (wrapS n a) <? wrapS n 0)
        then Some (VInt (m - (if wrapS n (0 - wrapS n b) <? wrapS n (wrapS n b)
                              then wrapS n b else 0 - wrapS n b)))
        else Some (VInt m)
    end.
  Proof.
    intros k n a b Hn.
    find_int (IntArithOp "srem" 2 (Some (OpInlined (sremExpr O))) (Some OpBuiltin) false).
    unfold sremExpr. cbn -[eval_call wrappedExpr].
    rewrite (e_wrap (S (S k)) _ n (makeIntVarExpr 1) a false) by (auto; reflexivity).
    rewrite (e_wrap (S (S k)) _ n (makeIntVarExpr 2) b false) by (auto; reflexivity).
    rewrite c_smod by assumption.
    destruct (smt_mod (wrapS n a) (wrapS n b)) as [m|]; cbn -[eval_call wrappedExpr]; [|reflexivity].
    change "$ne" with ("$" ++ "ne"). change "$slt" with ("$" ++ "slt").
    rewrite (c_predbool "ne" BNeq false (Some (intPredExpr O BNeq false))) by (reflexivity || assumption || in_table).
    rewrite (c_predbool "slt" Lt true None) by (reflexivity || assumption || in_table).
    cbn -[eval_call wrappedExpr append].
    destruct (negb (wrapU n m =? wrapU n 0) && (wrapS n (wrapS n a) <? wrapS n 0)); [|reflexivity].
    rewrite c_sub by assumption. rewrite c_smax by assumption. rewrite c_sub by assumption. reflexivity.
  Qed.

  (** Functions without a body: their value is the interpretation's. *)
  Lemma c_uninterp : forall name bv, 
    In (IntArithOp name 2 (Some OpUninterp) bv false) (intArithOpTable O) ->
    forall k n vs, In n INTEGER_SIZES ->
    C (S k) (indexedName ("$" ++ name) [NInt n]) vs = I (indexedName ("$" ++ name) [NInt n]) vs.
  Proof.
    intros name bv Hin k n vs Hn.
    erewrite call_none;
      [ | apply (int_decl O prog Hext (IntArithOp name 2 (Some OpUninterp) bv false));
          [rewrite Hbp; reflexivity|assumption|assumption|reflexivity] | reflexivity ].
    reflexivity.
  Qed.

  Lemma conv_int : forall c n m d, convFuncs O c n m = [d] ->
    d = inlinedOp ("$" ++ ic_name c) [NInt n; NInt m] (makeIntVars 1 (NInt n)) (NInt m) (ic_int c n m).
  Proof. intros c n m d H. unfold convFuncs in H. rewrite Hbp in H. congruence. Qed.

  Lemma c_conv : forall c, In c (intConvTable O) -> 
    forall k n m a, In n INTEGER_SIZES -> In m INTEGER_SIZES -> (if ic_up c then n < m else m < n) ->
    C (S k) (indexedName ("$" ++ ic_name c) [NInt n; NInt m]) [VInt a] =
    eval_with (C k) (upd_env empty_env "i" (VInt a)) (ic_int c n m).
  Proof.
    intros c Hc k n m a Hn Hm Hlt.
    destruct (conv_decl O prog Hext c n m Hc Hn Hm Hlt) as (d & Hd & Hl).
    unfold intTypeOf in Hl. rewrite Hbp in Hl.
    apply conv_int in Hd. subst d.
    erewrite call_inline; [reflexivity|exact Hl|reflexivity..].
  Qed.

  Lemma c_trunc : forall k n m a, In n INTEGER_SIZES -> In m INTEGER_SIZES -> m < n ->
    C (S (S (S k))) (indexedName "$trunc" [NInt n; NInt m]) [VInt a] = Some (VInt (wrapU m a)).
  Proof.
    intros k n m a Hn Hm Hlt. change "$trunc" with ("$" ++ "trunc").
    rewrite (c_conv (IntConv "trunc" false (intTruncExpr O) ConvTrunc)) by (auto; in_table).
    cbn [ic_int intTruncExpr]. unfold intTruncExpr.
    now rewrite (e_wrap k _ m (makeIntVarExpr 0) a true).
  Qed.
  Lemma c_zext : forall k n m a, In n INTEGER_SIZES -> In m INTEGER_SIZES -> n < m ->
    C (S (S (S k))) (indexedName "$zext" [NInt n; NInt m]) [VInt a] = Some (VInt (wrapU n a)).
  Proof.
    intros k n m a Hn Hm Hlt. change "$zext" with ("$" ++ "zext").
    rewrite (c_conv (IntConv "zext" true (intExtExpr O false) (ConvExt false))) by (auto; in_table).
    cbn [ic_int]. unfold intExtExpr.
    now rewrite (e_wrap k _ n (makeIntVarExpr 0) a true).
  Qed.
  Lemma c_sext : forall k n m a, In n INTEGER_SIZES -> In m INTEGER_SIZES -> n < m ->
    C (S (S (S k))) (indexedName "$sext" [NInt n; NInt m]) [VInt a] = Some (VInt (wrapS n a)).
  Proof.
    intros k n m a Hn Hm Hlt. change "$sext" with ("$" ++ "sext").
    rewrite (c_conv (IntConv "sext" true (intExtExpr O true) (ConvExt true))) by (auto; in_table).
    cbn [ic_int]. unfold intExtExpr.
    now rewrite (e_wrap k _ n (makeIntVarExpr 0) a false).
  Qed.
End IntMode.

(** ** Integers represented by bit-vectors *)
Section BvMode.
  Context (O : opts) (prog : list fdecl) (I : interp).
  Hypothesis Hext : extends prog (preludeInt O).
  Hypothesis Hbp : bitPrecise O = true.
  Hypothesis Hw : wrappedIntegerEncoding O = false.
  Notation C k := (eval_call prog I k).

  Lemma b_builtin : forall name int p, 
    In (IntArithOp name 2 int (Some OpBuiltin) p) (intArithOpTable O) ->
    forall k n a b, In n INTEGER_SIZES ->
    C (S k) (indexedName ("$" ++ name) [NBv n]) [VBv n a; VBv n b] = eval_bvbuiltin2 ("bv" ++ name) n a b.
  Proof.
    intros name int p Hin k n a b Hn.
    erewrite call_bvbuiltin;
      [ | apply (bv_decl O prog Hext (IntArithOp name 2 int (Some OpBuiltin) p));
          [rewrite Hbp; reflexivity|assumption|assumption|reflexivity] | reflexivity ].
    cbn [eval_bvbuiltin ao_name]. now rewrite Z.eqb_refl.
  Qed.

  Lemma b_predbool_builtin : forall name f, 
    In (IntPred name f None) (intPredTable O) ->
    forall k n a b, In n INTEGER_SIZES ->
    C (S k) (indexedName ("$" ++ name) [NBv n; NBool]) [VBv n a; VBv n b] = eval_bvbuiltin2 ("bv" ++ name) n a b.
  Proof.
    intros name f Hin k n a b Hn.
    erewrite call_bvbuiltin;
      [ | exact (pred_bv_decl O prog Hext (IntPred name f None) n true Hbp Hn Hin) | reflexivity ].
    cbn [eval_bvbuiltin ip_name]. now rewrite Z.eqb_refl.
  Qed.

  Lemma b_predbool_eq : forall name f op, (op = BEq \/ op = BNeq) ->
    In (IntPred name f (Some (intPredExpr O op false))) (intPredTable O) ->
    forall k n a b, In n INTEGER_SIZES ->
    C (S k) (indexedName ("$" ++ name) [NBv n; NBool]) [VBv n a; VBv n b] =
    Some (VBool (if match op with BEq => true | _ => false end then a =? b else negb (a =? b))).
  Proof.
    intros name f op Hop Hin k n a b Hn.
    erewrite call_inline;
      [ | exact (pred_bv_decl O prog Hext (IntPred name f (Some (intPredExpr O op false))) n true Hbp Hn Hin)
        | reflexivity | reflexivity | reflexivity ].
    unfold intPredExpr, wrappedExpr. rewrite Hw. cbn -[Z.eqb].
    destruct Hop as [-> | ->]; cbn -[Z.eqb]; rewrite Z.eqb_refl; reflexivity.
  Qed.

  Lemma b_pred : forall name f g, In (IntPred name f g) (intPredTable O) ->
    forall k n a b (c : bool), In n INTEGER_SIZES ->
    C k (indexedName ("$" ++ name) [NBv n; NBool]) [VBv n a; VBv n b] = Some (VBool c) ->
    C (S k) (indexedName ("$" ++ name) [NBv n]) [VBv n a; VBv n b] = Some (VBv 1 (if c then 1 else 0)).
  Proof.
    intros name f g Hin k n a b c Hn Hc.
    erewrite call_inline;
      [ | exact (pred_bv_decl O prog Hext (IntPred name f g) n false Hbp Hn Hin)
        | reflexivity | reflexivity | reflexivity ].
    cbn -[eval_call append]. rewrite Hc. destruct c; reflexivity.
  Qed.

  Lemma b_trunc : forall k n m a, In n INTEGER_SIZES -> In m INTEGER_SIZES -> m < n ->
    C (S k) (indexedName "$trunc" [NBv n; NBv m]) [VBv n a] = Some (VBv m (pat m a)).
  Proof.
    intros k n m a Hn Hm Hlt. change "$trunc" with ("$" ++ "trunc").
    destruct (conv_decl O prog Hext (IntConv "trunc" false (intTruncExpr O) ConvTrunc) n m) as (d & Hd & Hl);
      [in_table|assumption..|].
    unfold intTypeOf in Hl. rewrite Hbp in Hl. unfold convFuncs in Hd. rewrite Hbp in Hd. cbn [ic_bv] in Hd.
    injection Hd as <-.
    erewrite call_inline; [|exact Hl|reflexivity..].
    cbn -[Z.pow]. pose proof (size_pos m Hm).
    destruct (0 <=? m) eqn:E1; [|lia]. destruct (m <=? n) eqn:E2; [|lia]. cbn -[Z.pow].
    rewrite Z.sub_0_r, Z.pow_0_r, Z.div_1_r. reflexivity.
  Qed.
  Lemma b_ext : forall (sg : bool) k n m a, In n INTEGER_SIZES -> In m INTEGER_SIZES -> n < m ->
    C (S k) (indexedName (if sg then "$sext" else "$zext") [NBv n; NBv m]) [VBv n a] =
    Some (VBv m (if sg then pat m (signed n a) else a)).
  Proof.
    intros sg k n m a Hn Hm Hlt.
    destruct (conv_decl O prog Hext (if sg then IntConv "sext" true (intExtExpr O true) (ConvExt true)
        else IntConv "zext" true (intExtExpr O false) (ConvExt false)) n m) as (d & Hd & Hl);
      [destruct sg; in_table|assumption..|destruct sg; assumption|].
    unfold intTypeOf in Hl. rewrite Hbp in Hl. unfold convFuncs in Hd. rewrite Hbp in Hd.
    cbn [eval_call].
    replace (indexedName (if sg then "$sext" else "$zext") [NBv n; NBv m]) with
      (indexedName ("$" ++ ic_name (if sg then IntConv "sext" true (intExtExpr O true) (ConvExt true)
        else IntConv "zext" true (intExtExpr O false) (ConvExt false))) [NBv n; NBv m]) by (destruct sg; reflexivity).
    rewrite Hl. injection Hd as <-. destruct sg; cbn -[Z.pow signed];
      replace (n + (m - n)) with m by lia; reflexivity.
  Qed.
End BvMode.
