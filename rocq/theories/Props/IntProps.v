(** C01-C07: integer instructions.

    Vocabulary: Spec/LLVMInt.v (machine integers), Spec/IR.v (programs and runs),
    Spec/Encodings.v (encodings, [represents], the exactness conditions).
    [evaluates prog I r e v]: with the function declarations [prog], the
    interpretation [I] of the uninterpreted ones and the variable values [r],
    the Boogie expression [e] has the value [v] (unique: [C06_values_unique]).
    [ndebug]: LLVM was built without assertions. *)
From Coq Require Import ZArith List String Bool Lia.
From Verif.Spec Require Import LLVMInt IR Encodings.
From Verif.Model Require Import Boogie PreludeInt SmackRepInt.
From Verif.Proofs Require Import ExprSim IntEncodings IntMain.
Import ListNotations.
Open Scope string_scope.
Open Scope Z_scope.

Definition prelude_of (enc : encoding) (bvptr : bool) : list fdecl := preludeInt (flags enc bvptr).
Definition translate_inst (enc : encoding) (bvptr ndebug : bool) (i : inst) : option expr :=
  inst_expr (flags enc bvptr) ndebug i.
Definition width_supported (n : Z) : Prop := In n INTEGER_SIZES.

(** ** C01 *)
Theorem C01_add_sub_mul_machine :
  forall enc bvptr ndebug I n op nsw x y rb vx vy a b c,
    exact_encoding enc -> width_supported n -> In op [Add; Sub; Mul] ->
    rb x = Some vx -> rb y = Some vy ->
    represents enc n vx a -> represents enc n vy b ->
    llvm_binop op n a b = Some c ->
    exists e v,
      translate_inst enc bvptr ndebug (IBin op nsw n (VReg n x) (VReg n y)) = Some e /\
      evaluates (prelude_of enc bvptr) I rb e v /\ represents enc n v c.
Proof. intros; eapply single_arith; eauto. Qed.
Print Assumptions C01_add_sub_mul_machine.

Definition no_interp : interp := fun _ _ => None.
Definition env2 (v1 v2 : val) : env := upd_env (upd_env (fun _ => None) "x" v1) "y" v2.
(** 2^31-1 + 1 wraps; the operand may already be out of range. *)
Example C01_nonvacuous :
  represents WrappedInteger 32 (VInt (2^31 - 1 + 5 * 2^32)) (2^31 - 1) /\
  represents WrappedInteger 32 (VInt 1) 1 /\
  llvm_binop Add 32 (2^31 - 1) 1 = Some (2^31) /\
  eval (prelude_of WrappedInteger false) no_interp 5 (env2 (VInt (2^31 - 1 + 5 * 2^32)) (VInt 1))
    (EFun (indexedName "$add" [NInt 32]) [EVar "x"; EVar "y"]) = Some (VInt (2^31 + 5 * 2^32)).
Proof. repeat split; try (eexists; split; reflexivity); vm_compute; reflexivity. Qed.

(** ** C02 *)
Theorem C02_icmp_machine :
  forall enc bvptr ndebug I n p x y rb vx vy a b,
    exact_encoding enc -> width_supported n -> is_iN n a -> is_iN n b ->
    rb x = Some vx -> rb y = Some vy ->
    represents enc n vx a -> represents enc n vy b ->
    exists e,
      translate_inst enc bvptr ndebug (IIcmp p n (VReg n x) (VReg n y)) = Some e /\
      evaluates (prelude_of enc bvptr) I rb e (truth enc (llvm_icmp p n a b)).
Proof. intros; eapply single_cmp; eauto. Qed.
Print Assumptions C02_icmp_machine.

(** -1 <s 0 although the operands arrive as 2^32-1 and 2^32. *)
Example C02_nonvacuous :
  represents WrappedInteger 32 (VInt (2^32 - 1)) (2^32 - 1) /\
  represents WrappedInteger 32 (VInt (2^32)) 0 /\
  llvm_icmp SLT 32 (2^32 - 1) 0 = true /\
  eval (prelude_of WrappedInteger false) no_interp 5 (env2 (VInt (2^32 - 1)) (VInt (2^32)))
    (EFun (indexedName "$slt" [NInt 32]) [EVar "x"; EVar "y"]) = Some (VInt 1).
Proof. repeat split; try (eexists; split; reflexivity); vm_compute; reflexivity. Qed.

(** ** C03 *)
Theorem C03_div_rem_machine :
  forall enc bvptr ndebug I n op nsw x y rb vx vy a b c,
    exact_encoding enc -> width_supported n -> In op [UDiv; SDiv; URem; SRem] ->
    is_iN n a -> is_iN n b ->
    (** only for signed division of wrapped integers: *)
    (enc = WrappedInteger -> op = SDiv -> 0 <= signed n a \/ Z.rem (signed n a) (signed n b) = 0) ->
    rb x = Some vx -> rb y = Some vy ->
    represents enc n vx a -> represents enc n vy b ->
    llvm_binop op n a b = Some c ->
    exists e v,
      translate_inst enc bvptr ndebug (IBin op nsw n (VReg n x) (VReg n y)) = Some e /\
      evaluates (prelude_of enc bvptr) I rb e v /\ represents enc n v c.
Proof.
  intros enc bvptr ndebug I n op nsw x y rb vx vy a b c He Hn Hop Ha Hb Hg Hx Hy Rx Ry Hc.
  exact (single_div bvptr ndebug I n Hn enc op nsw x y rb vx vy a b c He Hop Ha Hb Hg Hx Hy Rx Ry Hc).
Qed.
Print Assumptions C03_div_rem_machine.

(** The exception is real and exactly delimited: for wrapped integers signed
    division rounds towards minus infinity (divisor > 0). *)
Theorem C03_sdiv_wrapped_exact_iff :
  forall bvptr ndebug I n nsw x y rb vx vy a b c e v,
    width_supported n -> is_iN n a -> is_iN n b ->
    rb x = Some vx -> rb y = Some vy ->
    represents WrappedInteger n vx a -> represents WrappedInteger n vy b ->
    llvm_binop SDiv n a b = Some c ->
    translate_inst WrappedInteger bvptr ndebug (IBin SDiv nsw n (VReg n x) (VReg n y)) = Some e ->
    evaluates (prelude_of WrappedInteger bvptr) I rb e v ->
    (represents WrappedInteger n v c <-> 0 <= signed n a \/ Z.rem (signed n a) (signed n b) = 0).
Proof. exact sdiv_iff. Qed.
Print Assumptions C03_sdiv_wrapped_exact_iff.

(** sdiv i32 -7, 2 is -3 on the machine and -4 in the wrapped encoding. *)
Theorem C03_sdiv_wrapped_refuted :
  exists a b c v, is_iN 32 a /\ is_iN 32 b /\ llvm_binop SDiv 32 a b = Some c /\
    eval (prelude_of WrappedInteger false) no_interp 5 (env2 (VInt a) (VInt b))
      (EFun (indexedName "$sdiv" [NInt 32]) [EVar "x"; EVar "y"]) = Some v /\
    ~ represents WrappedInteger 32 v c.
Proof.
  exists (2^32 - 7), 2, (2^32 - 3), (VInt (-4)).
  split; [unfold is_iN; lia|]. split; [unfold is_iN; lia|]. split; [reflexivity|].
  split; [vm_compute; reflexivity|]. intros (z & E & H). injection E as <-. vm_compute in H. discriminate.
Qed.
Print Assumptions C03_sdiv_wrapped_refuted.

Example C03_nonvacuous :
  llvm_binop SRem 32 (2^32 - 7) 2 = Some (2^32 - 1) /\
  eval (prelude_of WrappedInteger false) no_interp 5 (env2 (VInt (-7)) (VInt 2))
    (EFun (indexedName "$srem" [NInt 32]) [EVar "x"; EVar "y"]) = Some (VInt (-1)) /\
  llvm_binop SDiv 32 (2^32 - 7) 2 = Some (2^32 - 3) /\
  eval (prelude_of BitVector false) no_interp 5 (env2 (VBv 32 (2^32 - 7)) (VBv 32 2))
    (EFun (indexedName "$sdiv" [NBv 32]) [EVar "x"; EVar "y"]) = Some (VBv 32 (2^32 - 3)).
Proof. repeat split; vm_compute; reflexivity. Qed.

(** ** C04 *)
Theorem C04_casts_machine :
  forall enc bvptr ndebug I n1 n2 c x rb vx a,
    exact_encoding enc -> width_supported n1 -> width_supported n2 -> cast_ok c n1 n2 ->
    is_iN n1 a -> rb x = Some vx -> represents enc n1 vx a ->
    exists e v,
      translate_inst enc bvptr ndebug (ICast c n1 n2 (VReg n1 x)) = Some e /\
      evaluates (prelude_of enc bvptr) I rb e v /\ represents enc n2 v (llvm_cast c n1 n2 a).
Proof. intros; eapply single_cast; eauto. Qed.
Print Assumptions C04_casts_machine.

Example C04_nonvacuous :
  llvm_cast SExt 8 32 200 = 2^32 - 56 /\
  eval (prelude_of WrappedInteger false) no_interp 5 (env2 (VInt 456) (VInt 0))
    (EFun (indexedName "$sext" [NInt 8; NInt 32]) [EVar "x"]) = Some (VInt (-56)) /\
  eval (prelude_of BitVector false) no_interp 5 (env2 (VBv 8 200) (VInt 0))
    (EFun (indexedName "$sext" [NBv 8; NBv 32]) [EVar "x"]) = Some (VBv 32 (2^32 - 56)).
Proof. repeat split; vm_compute; reflexivity. Qed.

(** ** C05 *)
(** [u], [ui]: the two signedness hints (isUnsigned, isUnsignedInst).  Up to 64
    bits nothing is assumed; for wider constants the LLVM assertion in
    APInt::getSExtValue must hold (assertion build) or the hint not be the one
    that calls it. *)
Theorem C05_literals_exact :
  forall enc bvptr ndebug I n c u ui rb,
    exact_encoding enc -> width_supported n -> is_iN n c ->
    (n <= 64 \/ (ndebug = false /\ lit (flags enc bvptr) ndebug n c u ui <> None) \/ u = false \/ ui = true) ->
    exists e v,
      lit (flags enc bvptr) ndebug n c u ui = Some e /\
      evaluates (prelude_of enc bvptr) I rb e v /\ represents enc n v c.
Proof. intros; eapply single_lit; eauto. Qed.
Print Assumptions C05_literals_exact.

(** Without LLVM assertions a 128-bit constant whose low 64 bits are all ones is
    taken for -1 and emitted with the wrong sign. *)
Theorem C05_wide_literal_refuted :
  exists n c e v, width_supported n /\ is_iN n c /\
    lit (flags BitVector false) true n c true false = Some e /\
    eval (prelude_of BitVector false) no_interp 5 (fun _ => None) e = Some v /\
    ~ represents BitVector n v c.
Proof.
  exists 128, (2^64 - 1). eexists _, _. split; [vm_compute; tauto|]. split; [unfold is_iN; lia|].
  split; [vm_compute; reflexivity|]. split; [vm_compute; reflexivity|].
  intro H. vm_compute in H. discriminate.
Qed.
Print Assumptions C05_wide_literal_refuted.

Example C05_nonvacuous :
  exists e, lit (flags BitVector false) true 32 (2^32 - 5) false false = Some e /\
    eval (prelude_of BitVector false) no_interp 5 (fun _ => None) e = Some (VBv 32 (2^32 - 5)).
Proof. eexists. split; [reflexivity|]. vm_compute. reflexivity. Qed.

(** ** C06 *)
(** Boogie expressions have at most one value. *)
Theorem C06_values_unique :
  forall prog I r e v1 v2, evaluates prog I r e v1 -> evaluates prog I r e v2 -> v1 = v2.
Proof. exact evaluates_det. Qed.
Print Assumptions C06_values_unique.

(** Supported widths; at most 64 bits when LLVM has no assertions. *)
Definition program_widths (ndebug : bool) (n : Z) : Prop :=
  width_supported n /\ (ndebug = true -> n <= 64).
Definition translate_code (enc : encoding) (bvptr ndebug : bool) (c : code) :=
  trans_code (flags enc bvptr) ndebug c.

(** Bit-vector encoding: every straight-line program, every operation. *)
Theorem C06_bitvector_programs :
  forall bvptr ndebug I G c r rb r' l,
    wt_code G (program_widths ndebug) c ->
    stores_correspond BitVector G r rb ->
    run_code r c = Some r' ->
    translate_code BitVector bvptr ndebug c = Some l ->
    exists fuel rb',
      run_assigns (prelude_of BitVector bvptr) I fuel rb l = Some rb' /\
      stores_correspond BitVector G r' rb'.
Proof. intros; eapply code_bv; eauto. Qed.
Print Assumptions C06_bitvector_programs.

(** Wrapped integers: every program whose run applies no add/sub to i1, no
    inexact negative sdiv, and only bitwise operations known to the
    interpretation ([bitwise_knowledge]: either only what the emitted axioms
    say, or the machine's operations). *)
Theorem C06_wrapped_programs :
  forall bvptr ndebug I bw G c r rb r' l,
    bitwise_knowledge WrappedInteger bvptr I bw ->
    wt_code G (program_widths ndebug) c ->
    stores_correspond WrappedInteger G r rb ->
    run_code r c = Some r' ->
    Forall (wrapped_exact bw) (code_events r c) ->
    translate_code WrappedInteger bvptr ndebug c = Some l ->
    exists fuel rb',
      run_assigns (prelude_of WrappedInteger bvptr) I fuel rb l = Some rb' /\
      stores_correspond WrappedInteger G r' rb'.
Proof. intros; eapply code_wrapped; eauto. Qed.
Print Assumptions C06_wrapped_programs.

(** The translation itself succeeds. *)
Theorem C06_translation_total :
  forall enc bvptr ndebug G c,
    wt_code G (fun n => width_supported n /\ n <= 64) c ->
    exists l, translate_code enc bvptr ndebug c = Some l.
Proof. intros; eapply trans_total_64; eauto. Qed.
Print Assumptions C06_translation_total.

(** The machine's bitwise operations are an interpretation the axioms allow. *)
Theorem C06_machine_interp_allowed :
  forall enc bvptr, meets_axioms (flags enc bvptr) (machine_interp enc).
Proof. exact machine_meets_axioms. Qed.
Print Assumptions C06_machine_interp_allowed.

(** A run with a deferred wrap: t = x + 1; u = t <s x; z = sext u; s = u ? t : x. *)
Definition prog1 : code :=
  [("t", IBin Add false 32 (VReg 32 "x") (VConst 32 1));
   ("u", IIcmp SLT 32 (VReg 32 "t") (VReg 32 "x"));
   ("z", ICast SExt 1 32 (VReg 1 "u"));
   ("s", ISelect 32 (VReg 1 "u") (VReg 32 "t") (VConst 32 (2^32 - 1)))].
Definition G1 : string -> option Z := fun x => if String.eqb x "u" then Some 1 else Some 32.
Definition r1 : regs := set_reg (fun _ => None) "x" (2^31 - 1).
Definition rb1 (enc : encoding) : env :=
  upd_env (fun _ => None) "x" (match enc with BitVector => VBv 32 (2^31 - 1) | _ => VInt (2^31 - 1) end).
Lemma prog1_wt : forall nd, wt_code G1 (program_widths nd) prog1.
Proof.
  intros nd x i H.
  assert (program_widths nd 32) by (split; [cbv; tauto|lia]).
  assert (program_widths nd 1) by (split; [cbv; tauto|lia]).
  cbn in H. destruct H as [H|[H|[H|[H|[]]]]]; injection H as <- <-; cbn; unfold is_iN; repeat split; auto; try lia; apply H0 || apply H1.
Qed.
Lemma r1_corr : forall enc, stores_correspond enc G1 r1 (rb1 enc).
Proof.
  intros enc x n a Hx Ha. unfold r1, set_reg in Ha. destruct (String.eqb_spec "x" x) as [<-|]; [|discriminate].
  cbn in Hx. injection Hx as <-. injection Ha as <-. split; [unfold is_iN; lia|].
  eexists. split; [reflexivity|]. split; [|lia].
  destruct enc; cbn -[Z.pow]; [reflexivity|eexists; split; [reflexivity|reflexivity]|reflexivity].
Qed.
Example C06_nonvacuous :
  (exists r', run_code r1 prog1 = Some r' /\ r' "u" = Some 1 /\ r' "z" = Some (2^32 - 1) /\ r' "s" = Some (2^31)) /\
  wt_code G1 (program_widths true) prog1 /\
  (forall enc, stores_correspond enc G1 r1 (rb1 enc)) /\
  Forall (wrapped_exact axiomatised) (code_events r1 prog1) /\
  bitwise_knowledge WrappedInteger false (machine_interp WrappedInteger) axiomatised.
Proof.
  split; [eexists; repeat split; vm_compute; reflexivity|].
  split; [apply prog1_wt|]. split; [apply r1_corr|].
  split; [vm_compute; repeat constructor; discriminate|].
  left. split; [reflexivity|apply machine_meets_axioms].
Qed.

(** Subtraction on i1 shows why the condition is needed: 0 - 1 is 1 on the
    machine but the branch/select test of the translation finds -1 <> 1. *)
Theorem C06_wrapped_i1_refuted :
  exists G c r rb r' l rb',
    wt_code G (program_widths true) c /\ stores_correspond WrappedInteger G r rb /\
    run_code r c = Some r' /\ translate_code WrappedInteger false true c = Some l /\
    run_assigns (prelude_of WrappedInteger false) (machine_interp WrappedInteger) 5 rb l = Some rb' /\
    ~ stores_correspond WrappedInteger G r' rb'.
Proof.
  pose (G := fun x => if String.eqb x "r" then Some 32 else Some 1).
  pose (c := [("t", IBin Sub false 1 (VReg 1 "x") (VConst 1 1));
              ("r", ISelect 32 (VReg 1 "t") (VConst 32 10) (VConst 32 20))]).
  exists G, c, (set_reg (fun _ => None) "x" 0), (upd_env (fun _ => None) "x" (VInt 0)).
  eexists _, _, _. split; [|split; [|split; [|split; [|split]]]].
  - intros x i H. assert (program_widths true 32) by (split; [cbv; tauto|lia]).
    assert (program_widths true 1) by (split; [cbv; tauto|lia]).
    cbn in H. destruct H as [H|[H|[]]]; injection H as <- <-; cbn; unfold is_iN; repeat split; auto; try lia; apply H0 || apply H1.
  - intros x n a Hx Ha. unfold set_reg in Ha. destruct (String.eqb_spec "x" x) as [<-|]; [|discriminate].
    cbn in Hx. injection Hx as <-. injection Ha as <-. split; [unfold is_iN; lia|].
    eexists. split; [reflexivity|]. split; [|reflexivity]. eexists; split; reflexivity.
  - reflexivity.
  - reflexivity.
  - vm_compute. reflexivity.
  - intro H. destruct (H "r" 32 10 eq_refl eq_refl) as (_ & v & E & (z & -> & Hz) & _).
    cbn in E. injection E as <-. vm_compute in Hz. discriminate.
Qed.
Print Assumptions C06_wrapped_i1_refuted.

(** ** C07 *)
Theorem C07_unbounded_programs :
  forall bvptr ndebug I bw G c r rb r' l,
    bitwise_knowledge UnboundedInteger bvptr I bw ->
    wt_code G (program_widths ndebug) c ->
    stores_correspond UnboundedInteger G r rb ->
    run_code r c = Some r' ->
    Forall (unbounded_exact bw) (code_events r c) ->
    Forall unbounded_const_exact (code_consts c) ->
    translate_code UnboundedInteger bvptr ndebug c = Some l ->
    exists fuel rb',
      run_assigns (prelude_of UnboundedInteger bvptr) I fuel rb l = Some rb' /\
      stores_correspond UnboundedInteger G r' rb'.
Proof. intros; eapply code_unbounded; eauto. Qed.
Print Assumptions C07_unbounded_programs.

Definition prog2 : code :=
  [("t", IBin Mul true 32 (VReg 32 "x") (VConst 32 (2^32 - 3)));
   ("u", IIcmp SLT 32 (VReg 32 "t") (VConst 32 (2^32 - 7)));
   ("s", ISelect 32 (VReg 1 "u") (VReg 32 "t") (VConst 32 5))].
Definition r2 : regs := set_reg (fun _ => None) "x" 14.
Example C07_nonvacuous :
  (exists r', run_code r2 prog2 = Some r' /\ r' "u" = Some 1 /\ r' "s" = Some (2^32 - 42)) /\
  wt_code G1 (program_widths true) prog2 /\
  stores_correspond UnboundedInteger G1 r2 (upd_env (fun _ => None) "x" (VInt 14)) /\
  Forall (unbounded_exact axiomatised) (code_events r2 prog2) /\
  Forall unbounded_const_exact (code_consts prog2).
Proof.
  split; [eexists; repeat split; vm_compute; reflexivity|].
  split; [|split; [|split]].
  - intros x i H. assert (program_widths true 32) by (split; [cbv; tauto|lia]).
    assert (program_widths true 1) by (split; [cbv; tauto|lia]).
    cbn in H. destruct H as [H|[H|[H|[]]]]; injection H as <- <-; cbn; unfold is_iN; repeat split; auto; try lia; apply H0 || apply H1.
  - intros x n a Hx Ha. unfold r2, set_reg in Ha. destruct (String.eqb_spec "x" x) as [<-|]; [|discriminate].
    cbn in Hx. injection Hx as <-. injection Ha as <-. split; [unfold is_iN; lia|].
    eexists. split; [reflexivity|]. split; [reflexivity|lia].
  - vm_compute. repeat constructor; discriminate.
  - vm_compute. repeat constructor; auto.
Qed.

(** Each condition is needed.  Overflow: 2^31-1 + 1 <s 0 is true on the machine,
    false in the unbounded encoding. *)
Definition unbounded_wrong (c : code) (G : string -> option Z) (r : regs) (rb : env) (z : string) (n : Z) : Prop :=
  exists r' l rb' a,
    wt_code G (program_widths true) c /\ stores_correspond UnboundedInteger G r rb /\
    run_code r c = Some r' /\ translate_code UnboundedInteger false true c = Some l /\
    run_assigns (prelude_of UnboundedInteger false) (machine_interp UnboundedInteger) 5 rb l = Some rb' /\
    G z = Some n /\ r' z = Some a /\
    (forall v, rb' z = Some v -> ~ represents UnboundedInteger n v a).

Definition store_x (a : Z) (n : Z) : regs := set_reg (fun _ => None) "x" a.
Definition env_x (z : Z) : env := upd_env (fun _ => None) "x" (VInt z).
Ltac wrong a :=
  eexists _, _, _, a; split; [|split; [|split; [|split; [|split; [|split; [|split]]]]]];
  [ let H := fresh in intros ? ? H;
    assert (program_widths true 32) as W32 by (split; [cbv; tauto|lia]);
    assert (program_widths true 1) as W1 by (split; [cbv; tauto|lia]);
    cbn in H; repeat (destruct H as [H|H]; [injection H as <- <-; cbn; unfold is_iN; repeat split; auto; try lia; (apply W32 || apply W1)|]); destruct H
  | let x := fresh in let Hx := fresh in let Ha := fresh in
    intros x ? ? Hx Ha; unfold store_x, set_reg in Ha; destruct (String.eqb_spec "x" x) as [<-|]; [|discriminate];
    cbn in Hx; injection Hx as <-; injection Ha as <-; split; [unfold is_iN; lia|];
    eexists; split; [reflexivity|]; split; [reflexivity|]; first [reflexivity|lia]
  | reflexivity | reflexivity | vm_compute; reflexivity | reflexivity | vm_compute; reflexivity
  | let E := fresh in let H := fresh in intros v E H; vm_compute in E; injection E as <-; vm_compute in H; discriminate ].

Theorem C07_overflow_refuted :
  exists c G r rb z n, unbounded_wrong c G r rb z n.
Proof.
  exists [("t", IBin Add false 32 (VReg 32 "x") (VConst 32 1)); ("u", IIcmp SLT 32 (VReg 32 "t") (VConst 32 0))],
    G1, (store_x (2^31 - 1) 32), (env_x (2^31 - 1)), "u", 1. wrong 1.
Qed.
Print Assumptions C07_overflow_refuted.

(** x - (-1): the constant is printed as 2^32 - 1 although nothing overflows. *)
Theorem C07_sub_minus_one_refuted :
  exists c G r rb z n, unbounded_wrong c G r rb z n.
Proof.
  exists [("t", IBin Sub true 32 (VReg 32 "x") (VConst 32 (2^32 - 1)))],
    G1, (store_x 5 32), (env_x 5), "t", 32. wrong 6.
Qed.
Print Assumptions C07_sub_minus_one_refuted.

(** c ? -1 : 0 yields 2^32 - 1. *)
Theorem C07_select_minus_one_refuted :
  exists c G r rb z n, unbounded_wrong c G r rb z n.
Proof.
  exists [("u", IIcmp EQ 32 (VReg 32 "x") (VReg 32 "x"));
          ("t", ISelect 32 (VReg 1 "u") (VConst 32 (2^32 - 1)) (VConst 32 0))],
    G1, (store_x 5 32), (env_x 5), "t", 32. wrong (2^32 - 1).
Qed.
Print Assumptions C07_select_minus_one_refuted.

(** sext i1 true is -1 on the machine and 1 in the encoding. *)
Theorem C07_sext_i1_refuted :
  exists c G r rb z n, unbounded_wrong c G r rb z n.
Proof.
  exists [("u", IIcmp EQ 32 (VReg 32 "x") (VReg 32 "x")); ("t", ICast SExt 1 32 (VReg 1 "u"))],
    G1, (store_x 5 32), (env_x 5), "t", 32. wrong (2^32 - 1).
Qed.
Print Assumptions C07_sext_i1_refuted.

(** -7 / 2. *)
Theorem C07_sdiv_refuted :
  exists c G r rb z n, unbounded_wrong c G r rb z n.
Proof.
  exists [("t", IBin SDiv false 32 (VReg 32 "x") (VConst 32 2))],
    G1, (store_x (2^32 - 7) 32), (env_x (-7)), "t", 32. wrong (2^32 - 3).
Qed.
Print Assumptions C07_sdiv_refuted.
