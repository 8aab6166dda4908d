(** Pointer comparisons. *)
From Coq Require Import ZArith List String Bool Lia ZifyBool.
From Verif.Base Require Import ZBits.
From Verif.Spec Require Import LLVMInt IR Encodings Pointers.
From Verif.Model Require Import Boogie PreludeInt SmackRepInt PreludeMem.
From Verif.Proofs Require Import Lookup PreludeCalls ExprSim EvalCompose MemCalls PtrProofs.
Import ListNotations.
Open Scope string_scope.
Open Scope list_scope.
Open Scope Z_scope.

Lemma pred_bv_decl' : forall O prog, extends prog (preludeInt O) -> forall p n b,
  (bitPrecise O || bitPrecisePointers O)%bool = true -> In n INTEGER_SIZES -> In p (intPredTable O) ->
  lookup prog (indexedName ("$" ++ ip_name p) (if b : bool then [NBv n; NBool] else [NBv n])) =
  Some (nth (if b then 0 else 1) (predBvFuncs p n) (FuncDecl (indexedName "" []) [] NBool None ANone)).
Proof.
  intros O prog Hext p n b HO Hn Hp. apply Hext. apply (prelude_pred O p n (NBv n)); auto; [destruct b; auto|].
  unfold predFuncs. rewrite HO. rewrite lookup_app.
  replace (lookup (if negb (bitPrecise O) || negb (bitPrecisePointers O) then predIntFuncs p n else [])
     (indexedName ("$" ++ ip_name p) (if b then [NBv n; NBool] else [NBv n]))) with (@None fdecl).
  2:{ symmetry. apply lookup_name_ne. intros d Hd E.
      destruct (negb _ || negb _)%bool; [|destruct Hd].
      destruct Hd as [<-|[<-|[]]]; cbn in E; destruct b; inversion E. }
  unfold predBvFuncs. cbn [lookup nth].
  assert (forall x, fd_name (match ip_bv p with Some f => inlinedOp ("$" ++ ip_name p) [NBv n; NBool] (makeIntVars 2 (NBv n)) NBool (f n)
     | None => builtinOp ("$" ++ ip_name p) x [NBv n; NBool] (makeIntVars 2 (NBv n)) NBool end) =
     indexedName ("$" ++ ip_name p) [NBv n; NBool]) as E by (intros; destruct (ip_bv p); reflexivity).
  rewrite E. destruct b; rewrite ?fname_eqb_refl; [reflexivity|].
  replace (fname_eqb (indexedName ("$" ++ ip_name p) [NBv n; NBool]) (indexedName ("$" ++ ip_name p) [NBv n]))
    with false; [reflexivity|].
  unfold fname_eqb. cbn. rewrite !andb_false_r. reflexivity.
Qed.

Definition pred_op (p : icmp_pred) : bbin :=
  match p with EQ => BEq | NE => BNeq | UGT | SGT => Gt | UGE | SGE => Gte | ULT | SLT => Lt | ULE | SLE => Lte end.

Section Cmp.
  Context (enc : encoding) (bvptr : bool) (P : Z) (prog : list fdecl) (I : interp).
  Notation fl := (flags enc bvptr).
  Hypothesis Hext : extends prog (preludeMem fl P).
  Hypothesis HP : ptr_width P.

  Lemma cmp_in : forall p, In (CMPINST_TABLE p, pred_op p) ptrPredTable.
  Proof. intros []; cbn; tauto. Qed.

  Lemma calls_cmp_of_bool : forall p v w b,
    calls prog I (indexedName (CMPINST_TABLE p) [NRef; NBool]) [v; w] (VBool b) ->
    calls prog I (indexedName (CMPINST_TABLE p) [NRef]) [v; w] (truth enc b).
  Proof.
    intros p v w b H.
    eapply calls_inline; [exact (lookup_pred_ref fl P prog Hext _ _ false (cmp_in p))|reflexivity..|].
    apply ev_ite with (x := b).
    - eapply ev_fun; [|exact H]. constructor; [apply ev_var; reflexivity|]. constructor; [apply ev_var; reflexivity|constructor].
    - unfold integerLit, integerLitU, truth, b2z. destruct b; destruct enc; cbn [bitPrecise flags Z.leb Z.compare].
      all: try apply ev_int. all: apply ev_bv; cbn; lia.
  Qed.

  Lemma calls_cmpbool_int : forall p a b, bvptr = false ->
    calls prog I (indexedName (CMPINST_TABLE p) [NRef; NBool]) [VInt a; VInt b]
      (VBool (match p with
              | EQ => a =? b | NE => negb (a =? b)
              | UGT | SGT => b <? a | UGE | SGE => b <=? a
              | ULT | SLT => a <? b | ULE | SLE => a <=? b end)).
  Proof.
    intros p a b Hb.
    eapply calls_inline; [exact (lookup_pred_ref fl P prog Hext _ _ true (cmp_in p))|reflexivity..|].
    rewrite flags_bpp, Hb.
    eapply ev_bin; [apply ev_var; reflexivity|apply ev_var; reflexivity|].
    destruct p; reflexivity.
  Qed.
  Lemma calls_cmp_int : forall p a b, bvptr = false ->
    calls prog I (indexedName (CMPINST_TABLE p) [NRef]) [VInt a; VInt b]
      (truth enc (match p with
                  | EQ => a =? b | NE => negb (a =? b)
                  | UGT | SGT => b <? a | UGE | SGE => b <=? a
                  | ULT | SLT => a <? b | ULE | SLE => a <=? b end)).
  Proof. intros p a b Hb. apply calls_cmp_of_bool. now apply calls_cmpbool_int. Qed.

  Lemma calls_cmpbool_bv : forall p a b, bvptr = true -> (enc = WrappedInteger -> p <> EQ /\ p <> NE) ->
    calls prog I (indexedName (CMPINST_TABLE p) [NRef; NBool]) [VBv P a; VBv P b] (VBool (llvm_icmp p P a b)).
  Proof.
    intros p a b Hb Hw.
    eapply calls_inline; [exact (lookup_pred_ref fl P prog Hext _ _ true (cmp_in p))|reflexivity..|].
    unfold pointerType. rewrite flags_bpp, Hb.
    eapply ev_fun; [constructor; [apply ev_var; reflexivity|]; constructor; [apply ev_var; reflexivity|constructor]|].
    pose proof (ptr_width_size P HP) as HPS.
    assert ((bitPrecise fl || bitPrecisePointers fl)%bool = true) as HO by (rewrite flags_bpp, Hb; apply orb_true_r).
    pose proof (ext_int fl P prog Hext) as Hi.
    exists 2%nat.
    assert (forall name f, In (IntPred name f None) (intPredTable fl) -> forall a b,
       eval_call prog I 2 (indexedName ("$" ++ name) [NBv P; NBool]) [VBv P a; VBv P b] = eval_bvbuiltin2 ("bv" ++ name) P a b) as Hbu.
    { intros name f Hin x y. erewrite call_bvbuiltin;
        [ | exact (pred_bv_decl' fl prog Hi (IntPred name f None) P true HO HPS Hin) | reflexivity ].
      cbn [eval_bvbuiltin ip_name]. now rewrite Z.eqb_refl. }
    assert (enc <> WrappedInteger -> forall name f op (Hop : op = BEq \/ op = BNeq),
       In (IntPred name f (Some (intPredExpr fl op false))) (intPredTable fl) -> forall a b,
       eval_call prog I 2 (indexedName ("$" ++ name) [NBv P; NBool]) [VBv P a; VBv P b] =
         Some (VBool (if match op with BEq => true | _ => false end then a =? b else negb (a =? b)))) as Heq.
    { intros Hne name f op Hop Hin x y. erewrite call_inline;
        [ | exact (pred_bv_decl' fl prog Hi (IntPred name f (Some (intPredExpr fl op false))) P true HO HPS Hin)
          | reflexivity | reflexivity | reflexivity ].
      unfold intPredExpr, wrappedExpr. assert (wrappedIntegerEncoding fl = false) as -> by (destruct enc; [reflexivity|congruence|reflexivity]).
      cbn -[Z.eqb]. destruct Hop as [-> | ->]; cbn -[Z.eqb]; rewrite Z.eqb_refl; reflexivity. }
    destruct p; cbn [CMPINST_TABLE llvm_icmp].
    1,2: assert (enc <> WrappedInteger) as Hne by (intros E; destruct (Hw E); congruence).
    - exact (Heq Hne "eq" _ BEq (or_introl eq_refl) ltac:(in_table) a b).
    - exact (Heq Hne "ne" _ BNeq (or_intror eq_refl) ltac:(in_table) a b).
    - exact (Hbu "ugt" _ ltac:(in_table) a b).
    - exact (Hbu "uge" _ ltac:(in_table) a b).
    - exact (Hbu "ult" _ ltac:(in_table) a b).
    - exact (Hbu "ule" _ ltac:(in_table) a b).
    - exact (Hbu "sgt" _ ltac:(in_table) a b).
    - exact (Hbu "sge" _ ltac:(in_table) a b).
    - exact (Hbu "slt" _ ltac:(in_table) a b).
    - exact (Hbu "sle" _ ltac:(in_table) a b).
  Qed.

  Lemma calls_cmp_bv : forall p a b, bvptr = true -> (enc = WrappedInteger -> p <> EQ /\ p <> NE) ->
    calls prog I (indexedName (CMPINST_TABLE p) [NRef]) [VBv P a; VBv P b] (truth enc (llvm_icmp p P a b)).
  Proof. intros p a b Hb Hw. apply calls_cmp_of_bool. now apply calls_cmpbool_bv. Qed.

  (** Wrapped integers with bit-vector pointers: (dis)equality has no value, its
      body applies the integer wrapping function to bit-vectors. *)
  Lemma cmp_eq_ill_typed : forall a b k, bvptr = true -> enc = WrappedInteger ->
    eval_call prog I k (indexedName "$eq" [NRef]) [VBv P a; VBv P b] = None.
  Proof.
    intros a b k Hb Hw. pose proof (ptr_width_size P HP) as HPS.
    pose proof (ext_int fl P prog Hext) as Hi.
    assert ((bitPrecise fl || bitPrecisePointers fl)%bool = true) as HO by (rewrite flags_bpp, Hb; apply orb_true_r).
    assert (wrappedIntegerEncoding fl = true /\ bitPrecise fl = false) as [Hwf Hbp] by (rewrite Hw; split; reflexivity).
    assert (forall j, eval_call prog I j (indexedName "$tou" [NInt P]) [VBv P a] = None) as H1.
    { intros [|j]; [reflexivity|].
      assert (In (IntArithOp "tou" 1 (Some (OpInlined touExpr)) None true) (intArithOpTable fl)) as Hin
        by (unfold intArithOpTable; rewrite Hwf; in_table).
      erewrite call_inline;
      [ | apply (int_decl fl prog Hi (IntArithOp "tou" 1 (Some (OpInlined touExpr)) None true));
          [rewrite Hbp; reflexivity|assumption|assumption|reflexivity]
        | reflexivity | reflexivity | reflexivity ].
      reflexivity. }
    destruct k as [|k]; [reflexivity|].
    erewrite call_inline; [|exact (lookup_pred_ref fl P prog Hext "$eq" BEq false ltac:(cbn; tauto))|reflexivity..].
    destruct k as [|k]; [reflexivity|].
    assert (eval_call prog I (S k) (indexedName "$eq" [NRef; NBool]) [VBv P a; VBv P b] = None) as H2.
    { erewrite call_inline; [|exact (lookup_pred_ref fl P prog Hext "$eq" BEq true ltac:(cbn; tauto))|reflexivity..].
      unfold pointerType. rewrite flags_bpp, Hb.
      destruct k as [|k]; [reflexivity|].
      assert (eval_call prog I (S k) (indexedName "$eq" [NBv P; NBool]) [VBv P a; VBv P b] = None) as H3.
      { erewrite call_inline;
        [ | exact (pred_bv_decl' fl prog Hi (IntPred "eq" (intPredExpr fl BEq false) (Some (intPredExpr fl BEq false))) P true HO HPS ltac:(in_table))
          | reflexivity | reflexivity | reflexivity ].
        cbn [ip_bv]. unfold intPredExpr, wrappedExpr. rewrite Hwf. cbn [eval_with].
        cbn [evals_with eval_with makeIntVarExpr upd_env String.eqb Ascii.eqb Bool.eqb makeIntVarName].
        match goal with |- context [eval_call prog I k ?f ?l] => change (eval_call prog I k f l) with (eval_call prog I k (indexedName "$tou" [NInt P]) [VBv P a]) end.
        now rewrite H1. }
      cbn [eval_with evals_with makePtrVarExpr makePtrVarName upd_env String.eqb Ascii.eqb Bool.eqb].
      exact H3. }
    change (match eval_call prog I (S k) (indexedName "$eq" [NRef; NBool]) [VBv P a; VBv P b] with
            | Some (VBool true) => eval_with (eval_call prog I (S k)) (upd_env (upd_env empty_env "p2" (VBv P b)) "p1" (VBv P a)) (integerLit fl 1 1)
            | Some (VBool false) => eval_with (eval_call prog I (S k)) (upd_env (upd_env empty_env "p2" (VBv P b)) "p1" (VBv P a)) (integerLit fl 0 1)
            | _ => None end = None).
    now rewrite H2.
  Qed.
End Cmp.

Lemma cmp_integer : forall enc P prog I, extends prog (preludeMem (flags enc false) P) -> ptr_width P ->
  forall r e1 e2 p a b, - 2 ^ (P - 1) <= a < 2 ^ (P - 1) -> - 2 ^ (P - 1) <= b < 2 ^ (P - 1) ->
    (In p [UGT; UGE; ULT; ULE] -> (0 <= a <-> 0 <= b)) ->
    evaluates prog I r e1 (VInt a) -> evaluates prog I r e2 (VInt b) ->
    evaluates prog I r (EFun (indexedName (CMPINST_TABLE p) [NRef]) [e1; e2])
      (truth enc (llvm_icmp p P (pat P a) (pat P b))).
Proof.
  intros enc P prog I Hext HP r e1 e2 p a b Ha Hb Hp H1 H2.
  assert (1 <= P) as HP1 by (destruct HP as [->| ->]; lia).
  pose proof (pow2_half P HP1) as Hh. pose proof (pow2_half_pos P HP1) as Hpos.
  assert (signed P (pat P a) = a) as Sa by now apply pat_signed.
  assert (signed P (pat P b) = b) as Sb by now apply pat_signed.
  assert (forall y, - 2 ^ (P - 1) <= y < 2 ^ (P - 1) -> pat P y = if 0 <=? y then y else y + 2 ^ P) as Hpat.
  { intros y Hy. unfold pat. destruct (Z.leb_spec 0 y).
    - apply Z.mod_small. lia.
    - symmetry. apply Z.mod_unique with (-1); lia. }
  apply ev_fun with [VInt a; VInt b]; [constructor; [exact H1|]; constructor; [exact H2|constructor]|].
  pose proof (calls_cmp_int enc false P prog I Hext p a b eq_refl) as C.
  replace (llvm_icmp p P (pat P a) (pat P b)) with
    (match p with
     | EQ => a =? b | NE => negb (a =? b)
     | UGT | SGT => b <? a | UGE | SGE => b <=? a
     | ULT | SLT => a <? b | ULE | SLE => a <=? b end); [exact C|].
  destruct p; cbn [llvm_icmp]; rewrite ?Sa, ?Sb; try reflexivity.
  1,2: rewrite (Hpat a Ha), (Hpat b Hb); destruct (Z.leb_spec 0 a), (Z.leb_spec 0 b); lia.
  all: specialize (Hp ltac:(cbn; tauto)); rewrite (Hpat a Ha), (Hpat b Hb);
    destruct (Z.leb_spec 0 a), (Z.leb_spec 0 b); lia.
Qed.
