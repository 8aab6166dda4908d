(** C53: the Boogie text SMACK writes is read back as the program it built. *)
From Coq Require Import ZArith List String Ascii Bool Lia.
From Verif.Spec Require Import Identifiers BoogieSyntax.
From Verif.Model Require Import BoogieAst.
From Verif.Proofs Require Import BoogieLex BoogieParse.
Import ListNotations.
Open Scope string_scope.
Open Scope list_scope.
Open Scope Z_scope.

(** A procedure with two blocks, a comment, a call with results, a map update, an extraction. *)
Definition sample : list decl :=
  [DType [] "i32" (Some (TName "int"));
   DConst [Attr "count" [AExpr (Num 3)]] true "a" (TName "ref");
   DAxiom [] (Bin OEq (Var "a") (Bin OMinus (Num 0) (Num (-8))));
   DFun [Attr "inline" []] "$add.i32" [("i1", TName "i32"); ("i2", TName "i32")] (TName "i32") (Some (Bin OPlus (Var "i1") (Var "i2")));
   DVar [] "$M.0" (TMap [TName "ref"] (TName "i8"));
   DProc (Proc [] "main" [("x", TName "bv32")] [("$r", TName "i32")] ["$M.0"; "$exn"] [Not (Bin OLt (Var "x") (Num 0))]
     [Quant QForall [("p", TName "ref")] (Bin OImp (Fun "f" [Var "p"; BvNum 5 32]) (Bin OOr (BoolLit false) (Neg (Var "$r"))))]
     [("$i0", TName "i32")]
     [Block "$bb0" [Assume [Attr "sourceloc" [AStr "/tmp/a.c"; AExpr (Num 7); AExpr (Num 3)]] (BoolLit true);
                    Comment "%0 = load i32";
                    Assign [Sel (Var "$M.0") [Var "a"]; Var "$i0"] [Sel (Upd (Var "$M.0") [Num 3] (FpNum "-0x1.8e0f24e8")) [Extract (Var "x") 8 0]; Ite (Var "c") (Num (-1)) (RMode "RNE")];
                    Call [] ["$i0"; "$exn"] "g" [BvConcat (Var "x") (BvNum 0 8)];
                    Goto ["$bb1"; "$bb0"]];
      Block "$bb1" [Havoc ["$i0"]; Return]])].

(** The whole program: every declaration list that can be written down. *)
Theorem C53_program : forall l, Forall decl_ok l -> reads_program (print_program l) (map norm_decl l).
Proof. intros l H. exists (flat_map toks_decl l). split; [exact (lx_program l H) | exact (p_program_ok l H)]. Qed.
Print Assumptions C53_program.

(** A text reads as at most one program ... *)
Theorem C53_reads_once : forall s l l', reads_program s l -> reads_program s l' -> l = l'.
Proof.
  intros s l l' (ts & [a A] & [b B]) (ts' & [c C] & [d D]). specialize (A (a + c)%nat ltac:(lia)). specialize (C (a + c)%nat ltac:(lia)).
  assert (ts = ts') as <- by congruence. specialize (B (b + d)%nat ltac:(lia)). specialize (D (b + d)%nat ltac:(lia)). congruence.
Qed.
Print Assumptions C53_reads_once.
(** ... so different programs are written differently. *)
Theorem C53_distinct : forall l l', Forall decl_ok l -> Forall decl_ok l' -> print_program l = print_program l' -> map norm_decl l = map norm_decl l'.
Proof. intros l l' H H' E. apply (C53_reads_once (print_program l)); [apply C53_program, H | rewrite E; apply C53_program, H']. Qed.
Print Assumptions C53_distinct.

(** The same for single expressions and statements. *)
Theorem C53_expression : forall e, expr_ok e -> reads p_expr (print e) (norm e).
Proof.
  intros e H. exists (toks e). split.
  - rewrite <- (sapp_nil (print e)), <- (app_nil_r (toks e)). apply (lexes_expr e H); [exact I | exact lx_nil].
  - pose proof (p_expr_ok e [] H eq_refl) as P. rewrite app_nil_r in P. exact P.
Qed.
Print Assumptions C53_expression.
Theorem C53_statement : forall s s', stmt_ok s -> norm_stmt s = [s'] -> reads p_stmt (print_stmt s) s'.
Proof.
  intros s s' H E. exists (toks_stmt s). split.
  - rewrite <- (sapp_nil (print_stmt s)), <- (app_nil_r (toks_stmt s)). apply (emits_stmt s H). exact lx_nil.
  - pose proof (p_stmt_ok s [] H) as P. rewrite E, app_nil_r in P. exact P.
Qed.
Print Assumptions C53_statement.

(** The names the translator gives (legal by C33_legal) can be written down, unless one is
    a rounding mode. *)
Theorem C53_names : forall x, identifier x -> ~ In x rounding_modes -> name x.
Proof.
  intros x [H1 H2] H3. split; [exact H1|]. unfold reserved. rewrite existsb_app.
  destruct (existsb (String.eqb x) keywords) eqn:E; [apply existsb_exists in E as (y & Hy & E); apply String.eqb_eq in E; subst; contradiction|].
  destruct (existsb (String.eqb x) rounding_modes) eqn:E'; [apply existsb_exists in E' as (y & Hy & E'); apply String.eqb_eq in E'; subst; contradiction | reflexivity].
Qed.
Print Assumptions C53_names.

Lemma name_check x : match x with "" => false | String c s => nondigit c && all ident_char s end && negb (reserved x) = true -> name x.
Proof.
  destruct x as [|c s]; [discriminate|]. intros H. apply andb_prop in H as [H1 H2]. apply andb_prop in H1 as [H0 H1]. split; [split; assumption|].
  destruct (reserved _); [discriminate | reflexivity].
Qed.
Lemma string_check s c t : s = (t ++ String c "")%string -> c <> "\"%char -> all (fun c => negb (existsb (Ascii.eqb c) [""""; "010"; "013"]%char)) s = true -> string_ok s.
Proof.
  intros -> N A. split; [exact A|]. intros u E. apply N. clear N A. revert u E. induction t as [|a t IH]; intros [|b u] E; cbn in E.
  - congruence.
  - destruct u; discriminate E.
  - destruct t; discriminate E.
  - injection E as _ E. exact (IH u E).
Qed.
Ltac ok1 := match goal with
  | |- name _ => apply name_check; vm_compute; reflexivity
  | |- name _ \/ In _ _ => first [left; apply name_check; vm_compute; reflexivity | right; cbn; tauto]
  | |- _ = "" /\ _ \/ block_ok _ => right
  | |- Forall _ _ => constructor
  | |- fold_right and True _ => cbn [map fold_right]
  | |- _ /\ _ => split
  | |- _ <> [] => discriminate
  | |- True => exact I
  | |- _ = [] -> _ = [] => discriminate
  | |- [] = [] => reflexivity
  | |- float_text _ => exists "-0x", "1.8e0f24e8"; split; [left; reflexivity|]; split; [reflexivity|]; split; [discriminate | reflexivity]
  | |- In _ rounding_modes => cbn; tauto
  | |- 0 <= _ => lia
  | |- decl_ok _ => cbn [decl_ok]
  | |- expr_ok _ => cbn [expr_ok]
  | |- ty_ok _ => cbn [ty_ok]
  | |- base_ok _ => cbn [base_ok]
  | |- lhs_ok _ => cbn [lhs_ok]
  | |- stmt_ok _ => cbn [stmt_ok]
  | |- aval_ok _ => cbn [aval_ok]
  | |- blocks_ok _ => cbn [blocks_ok]
  | |- binding_ok _ => split; cbn [fst snd]
  | |- attr_ok _ => split; cbn [at_name at_vals]
  | |- block_ok _ => split; cbn [b_name b_stmts]
  | |- proc_ok _ => unfold proc_ok; cbn [pr_attrs pr_name pr_params pr_rets pr_mods pr_requires pr_ensures pr_locals pr_blocks]
  | |- string_ok _ => apply (string_check _ "c" "/tmp/a."); [reflexivity | discriminate | reflexivity]
  end.
Example C53_nonvacuous : Forall decl_ok sample /\ reads_program (print_program sample) (map norm_decl sample).
Proof.
  assert (H : Forall decl_ok sample); [|split; [exact H | apply C53_program, H]].
  unfold sample. repeat ok1. intros a b. split; intros E; do 14 (destruct a as [|? a]; [discriminate E | try discriminate E; injection E as _ E]).
Qed.

(** A legal name of Boogie's older grammar that is a rounding mode today: a C variable RNE
    is not renamed and reads as the rounding mode. *)
Theorem C53_rounding_mode_refuted : identifier "RNE" /\ reads p_expr (print (Var "RNE")) (RMode "RNE").
Proof.
  split.
  - split; [split; reflexivity|]. cbn. intuition discriminate.
  - exists [TKw "RNE"]. split; exists 20%nat; intros k Hk; do 20 (destruct k as [|k]; [lia|]); reflexivity.
Qed.
Print Assumptions C53_rounding_mode_refuted.
Definition one_block (l : list stmt) : list decl := [DProc (Proc [] "p" [] [] [] [] [] [] [Block "b" l])].
(** Text in a comment (the warning about an inline assembly quotes the assembly) that
    closes it: the rest is program. *)
Theorem C53_comment_refuted : reads_program (print_program (one_block [Comment "*/ assume false; /*"; Return])) (one_block [Assume [] (BoolLit false); Return]).
Proof.
  exists [TKw "procedure"; TId "p"; TSym "("; TSym ")"; TSym "{"; TId "b"; TSym ":"; TKw "assume"; TKw "false"; TSym ";"; TKw "return"; TSym ";"; TSym "}"].
  split; exists 40%nat; intros k Hk; do 40 (destruct k as [|k]; [lia|]); reflexivity.
Qed.
Print Assumptions C53_comment_refuted.
(** A file name with a quote: no program at all. *)
Theorem C53_quote_refuted : forall l, ~ reads_program (print_program (one_block [Assume [Attr "sourceloc" [AStr "a""b.c"; AExpr (Num 1)]] (BoolLit true); Return])) l.
Proof.
  intros l (ts & [a A] & _). specialize (A (a + 40)%nat ltac:(lia)). rewrite PeanoNat.Nat.add_comm in A. discriminate A.
Qed.
Print Assumptions C53_quote_refuted.
(** A global variable with attributes: they are written before the keyword var. *)
Theorem C53_variable_attribute_refuted : forall l, ~ reads_program (print_program [DVar [Attr "count" [AExpr (Num 3)]] "x" (TName "int")]) l.
Proof.
  intros l (ts & [a A] & [b B]). specialize (A (a + 40)%nat ltac:(lia)). rewrite PeanoNat.Nat.add_comm in A. injection A as <-.
  specialize (B (b + 1)%nat ltac:(lia)). rewrite PeanoNat.Nat.add_comm in B. discriminate B.
Qed.
Print Assumptions C53_variable_attribute_refuted.
