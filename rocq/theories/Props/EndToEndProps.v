(** C64: what the verifier is given fails exactly if the program does.

    Vocabulary: Spec/Program.v (programs, [can_fail], [can_be_undefined],
    [can_return], [well_formed]); the emitted Boogie program and what the verifier
    looks for is [boogie_can_fail] of Model/WholeProgram.v. *)
From Coq Require Import ZArith List String Bool Lia.
From Verif.Spec Require Import LLVMInt IR CFG BitVectorIR ByteMemory Encodings Program.
From Verif.Model Require Import Boogie PreludeInt SmackRepInt BitVectorCode ControlFlow NormalizeLoops WholeProgram.
From Verif.Proofs Require Import CFGBase SSACheck ControlExamples ProgramSim.
Import ListNotations.
Open Scope string_scope.
Open Scope list_scope.
Open Scope Z_scope.

Section C64.
  (** [I]: any interpretation of the functions the prelude leaves open; [ndebug]:
      how LLVM was built. *)
  Context (I : interp) (ndebug : bool) (p : program).

  (** No failure is missed: if the verifier proves that no assertion of the Boogie
      program can be violated, no execution of the program gets to a failing
      assertion. *)
  Theorem C64_no_missed_failures : well_formed p -> forall f args m,
    ~ boogie_can_fail I p ndebug f args m -> ~ can_fail p f args m.
  Proof. intros Hwf f args m H Hf. exact (H (failure_found I ndebug p Hwf f args m Hf)). Qed.
  (** No false alarms: a failure of the Boogie program is one of the program,
      unless its behaviour is undefined. *)
  Theorem C64_no_false_alarms : well_formed p -> forall f args m,
    ~ can_be_undefined p f args m -> boogie_can_fail I p ndebug f args m -> can_fail p f args m.
  Proof.
    intros Hwf f args m Hu H. destruct (failure_real I ndebug p Hwf f args m H) as [Hf|Hf]; [exact Hf|destruct (Hu Hf)].
  Qed.
  Theorem C64_same_verdict : well_formed p -> forall f args m,
    ~ can_be_undefined p f args m -> (boogie_can_fail I p ndebug f args m <-> can_fail p f args m).
  Proof.
    intros Hwf f args m Hu. split; [now apply C64_no_false_alarms|]. exact (failure_found I ndebug p Hwf f args m).
  Qed.
  (** The results are the same as well: value and memory. *)
  Theorem C64_same_results : well_formed p -> forall f args m v m', ~ can_be_undefined p f args m ->
    ((exists n, bcalls I p ndebug n f args m [] v m') <-> can_return p f args m v m').
  Proof.
    intros Hwf f args m v m' Hu. split.
    - intros (n & H). destruct (returns_real I ndebug p Hwf f args m v m' n H) as [Hr|Hr]; [exact Hr|destruct (Hu Hr)].
    - exact (returns_kept I ndebug p Hwf f args m v m').
  Qed.
End C64.
Print Assumptions C64_no_missed_failures.
Print Assumptions C64_no_false_alarms.
Print Assumptions C64_same_verdict.
Print Assumptions C64_same_results.

(** ** An example: a loop, a call, memory, an input and an assertion.
<<
    count(n): i = 0; do i++ while (i < n); *1000 = i;
    main():   count(input()); y = *1000; assert(y != 2); return y;
>> *)
Definition eG (x : string) : option Z :=
  if existsb (String.eqb x) ["n"; "i"; "i1"; "x"; "y"; "z"] then Some 32
  else if existsb (String.eqb x) ["c"; "d"] then Some 1 else None.
Ltac ewt := unfold wt_operand, width_ok, is_iN; cbn; repeat split; try reflexivity; try lia; tauto.
Definition e_reg32 (x : string) (H : eG x = Some 32) : typed eG width_ok.
Proof. exists (Op (VReg 32 x)). abstract (split; [exact H|ewt]). Defined.
Definition e_reg1 (x : string) (H : eG x = Some 1) : typed eG width_ok.
Proof. exists (Op (VReg 1 x)). abstract (split; [exact H|ewt]). Defined.
Definition e_zero : typed eG width_ok.
Proof. exists (Op (VConst 32 0)). abstract ewt. Defined.
Definition e_address : typed eG width_ok.
Proof. exists (Op (VConst 64 1000)). abstract ewt. Defined.
Definition e_inc : typed eG width_ok.
Proof. exists (Instr (IBin Add false 32 (VReg 32 "i") (VConst 32 1))). abstract ewt. Defined.
Definition e_less : typed eG width_ok.
Proof. exists (Instr (IIcmp ULT 32 (VReg 32 "i1") (VReg 32 "n"))). abstract ewt. Defined.
Definition e_not2 : typed eG width_ok.
Proof. exists (Instr (IIcmp NE 32 (VReg 32 "y") (VConst 32 2))). abstract ewt. Defined.
Definition e_zext : typed eG width_ok.
Proof. exists (Instr (ICast ZExt 1 32 (VReg 1 "d"))). abstract ewt. Defined.
Definition e_div : typed eG width_ok.
Proof. exists (Instr (IBin UDiv false 32 (VReg 32 "n") (VReg 32 "n"))). abstract ewt. Defined.
Definition count_fn : fn := Fn eG (Func ["n"] (Blk 0)
  [ (Blk 0, Block [] [] (TBr (Blk 1)));
    (Blk 1, Block [("i", [(Blk 0, e_zero); (Blk 1, e_reg32 "i1" eq_refl)])]
                  [SAssign "i1" e_inc; SAssign "c" e_less] (TCond (e_reg1 "c" eq_refl) (Blk 1) (Blk 2)));
    (Blk 2, Block [] [SPrim None (Store I32) [e_reg32 "i1" eq_refl; e_address]] (TRet None)) ])
  [Loop (Blk 1) [Blk 1] []].
Definition main_fn : fn := Fn eG (Func [] (Blk 0)
  [ (Blk 0, Block [] [SPrim (Some "x") (Input I32) []; SPrim None (Call "count") [e_reg32 "x" eq_refl];
                      SPrim (Some "y") (Load I32) [e_address]; SAssign "d" e_not2; SAssign "z" e_zext;
                      SPrim None Assert [e_reg32 "z" eq_refl]]
                  (TRet (Some (e_reg32 "y" eq_refl)))) ]) [].
Definition example_program : program := [("count", count_fn); ("main", main_fn)].
Lemma zero_bytes : byte_memory (fun _ => 0).
Proof. intros a. lia. Qed.
Lemma mem2_bytes : byte_memory (fun q => if q =? 1000 then 2 else 0).
Proof. intros a. destruct (a =? 1000); lia. Qed.
Definition zero_mem : mem := exist _ _ zero_bytes.
Definition mem2 : mem := exist _ _ mem2_bytes.

Definition line_doms (l : label) : list label :=
  match l with Blk 0 => [Blk 0] | Blk 1 => [Blk 0; Blk 1] | Blk 2 => [Blk 0; Blk 1; Blk 2] | _ => [] end.
Definition line_avoid (l : label) : list label :=
  match l with Blk 0 => [Blk 0] | Blk 1 => [Blk 1; Blk 0] | _ => [] end.
Lemma example_well_formed : well_formed example_program.
Proof.
  split; intros f F [E|[E|[]]]; injection E as <- <-;
    solve [apply (ssa_check_ok _ line_doms); reflexivity | apply lowered_check_ok; reflexivity
          | apply original_check_ok; reflexivity | apply (forest_check_ok _ line_avoid); reflexivity].
Qed.

(** With input 2 the loop is run twice and the assertion fails. *)
Lemma example_count : calls example_program 1 "count" [VBv 32 2] zero_mem [] (VBv 1 0) mem2.
Proof.
  exists count_fn. split; [reflexivity|]. split; [reflexivity|]. left. exists None. split; [|exact Logic.I].
  eexists _, _. split; [reflexivity|]. split.
  - eapply (lsteps_cons _ _ _ _ _ _ _ []); [eapply L_br; reflexivity|].
    do 2 (do 2 (eapply (lsteps_cons _ _ _ _ _ _ _ []); [eapply L_assign; reflexivity|]);
      eapply (lsteps_cons _ _ _ _ _ _ _ []); [eapply L_cond; reflexivity|]).
    eapply (lsteps_cons _ _ _ _ _ _ _ [] _ []); [eapply L_prim; [reflexivity|]|].
    + apply (X_store _ I32 1000 2 zero_mem mem2 (VBv 1 0)); [unfold is_iN; cbn; lia|unfold is_iN; cbn; lia|].
      split.
      * intros i Hi. change (bytes_needed (width I32)) with 4 in Hi.
        assert (i = 0 \/ i = 1 \/ i = 2 \/ i = 3) as [->|[->|[->| ->]]] by lia; reflexivity.
      * intros q Hq. cbn. destruct (Z.eqb_spec q 1000) as [->|]; [|reflexivity].
        exfalso. apply (Hq 0); [cbn; lia|reflexivity].
    + eapply (lsteps_cons _ _ _ _ _ _ _ []); [eapply L_ret; reflexivity|]. constructor.
  - reflexivity.
Qed.
Lemma example_fails : can_fail example_program "main" [] zero_mem.
Proof.
  exists 2%nat, [], (VBv 1 0), zero_mem. split; [|split; intros []].
  exists main_fn. split; [reflexivity|]. split; [reflexivity|]. right. left. split; [|left; now left].
  eexists _, _. split; [reflexivity|]. split.
  - eapply (lsteps_cons _ _ _ _ _ _ _ []); [eapply L_prim; [reflexivity|apply (X_input _ I32 2); unfold is_iN; cbn; lia]|].
    eapply (lsteps_cons _ _ _ _ _ _ _ []); [eapply L_prim; [reflexivity|apply X_call; exact example_count]|].
    eapply (lsteps_cons _ _ _ _ _ _ _ []); [eapply L_prim; [reflexivity|apply (X_load _ I32 1000 mem2 2); [unfold is_iN; cbn; lia|]]|].
    { split; [cbn; lia|]. intros i Hi. change (bytes_needed (width I32)) with 4 in Hi.
      assert (i = 0 \/ i = 1 \/ i = 2 \/ i = 3) as [->|[->|[->| ->]]] by lia; reflexivity. }
    do 2 (eapply (lsteps_cons _ _ _ _ _ _ _ []); [eapply L_assign; reflexivity|]).
    eapply (lsteps_cons _ _ _ _ _ _ _ [Failed] _ []); [eapply L_prim; [reflexivity|apply (X_assert_fails _ mem2 (VBv 1 0))]|].
    constructor.
  - reflexivity.
Qed.
Example C64_nonvacuous : well_formed example_program /\ can_fail example_program "main" [] zero_mem /\
  can_return example_program "count" [VBv 32 2] zero_mem (VBv 1 0) mem2 /\
  forall I ndebug, boogie_can_fail I example_program ndebug "main" [] zero_mem.
Proof.
  split; [exact example_well_formed|]. split; [exact example_fails|]. split; [exists 1%nat; exact example_count|].
  intros I ndebug. exact (failure_found I ndebug _ example_well_formed _ _ _ example_fails).
Qed.

(** A program that is verified: [x = input(); assume(x); assert(x); return x]. *)
Definition safe_fn : fn := Fn eG (Func [] (Blk 0)
  [ (Blk 0, Block [] [SPrim (Some "x") (Input I32) []; SPrim None Assume [e_reg32 "x" eq_refl];
                      SPrim None Assert [e_reg32 "x" eq_refl]] (TRet (Some (e_reg32 "x" eq_refl)))) ]) [].
Definition safe_program : program := [("safe", safe_fn)].
Lemma safe_well_formed : well_formed safe_program.
Proof.
  split; intros f F [E|[]]; injection E as <- <-;
    solve [apply (ssa_check_ok _ line_doms); reflexivity | apply lowered_check_ok; reflexivity
          | apply original_check_ok; reflexivity | apply (forest_check_ok _ line_avoid); reflexivity].
Qed.
Lemma e_x_den : forall x, is_iN 32 x ->
  typed_den eG width_ok (upd (fun _ => None) "x" (VBv 32 x)) (e_reg32 "x" eq_refl) = Some (VBv 32 x).
Proof.
  intros x Hx. unfold is_iN in Hx. unfold typed_den, e_reg32. cbn [proj1_sig value_den].
  unfold bits. change (eG "x") with (Some 32). change (upd (fun _ => None) "x" (VBv 32 x) "x") with (Some (VBv 32 x)).
  cbn beta iota. replace (0 <=? x) with true by lia. replace (x <? 2 ^ 32) with true by lia. reflexivity.
Qed.
Lemma safe_steps : forall call s0 m t s, lstart (code safe_fn) [] m = Some s0 ->
  lsteps (typed_den eG width_ok) (exec_op call) no_invoke bv_true bv_eq (code safe_fn) s0 t s ->
  t = [] /\ ~ goes_wrong (typed_den eG width_ok) no_invoke bv_true bv_eq (code safe_fn) s.
Proof.
  intros call s0 m t s H1 H2. cbn in H1. injection H1 as <-.
  apply lsteps_head in H2. destruct H2 as [[<- ->]|(t1 & s1 & t2 & Hs & H2 & ->)]; [split; [reflexivity|cbn; discriminate]|].
  inversion Hs as [|? ? ? ? ? ? ? ? ? ? ? He Hp| | | | | | |]; subst. cbn in He. injection He as <-.
  inversion Hp as [| |w x ? Hx| | | |]; subst. cbn [updo] in *. pose proof (e_x_den x Hx) as Hden. clear Hs Hp.
  assert (evals (typed_den eG width_ok) (upd (fun _ => None) "x" (VBv 32 x)) [e_reg32 "x" eq_refl] = Some [VBv 32 x]) as Hev.
  { unfold evals, map. rewrite Hden. reflexivity. }
  apply lsteps_head in H2. destruct H2 as [[<- ->]|(t1 & s2 & t3 & Hs & H2 & ->)].
  { split; [reflexivity|]. intros Hw. discriminate (eq_trans (eq_sym Hev) Hw). }
  inversion Hs as [|? ? ? ? ? ? ? ? ? ? ? He Hp| | | | | | |]; subst.
  assert (vs = [VBv 32 x]) as -> by (injection (eq_trans (eq_sym He) Hev); auto). clear He.
  inversion Hp as [| | |? ? ? Hnz| | |]; subst. cbn [updo] in *. clear Hs Hp.
  apply lsteps_head in H2. destruct H2 as [[<- ->]|(t1 & s3 & t4 & Hs & H2 & ->)].
  { split; [reflexivity|]. intros Hw. discriminate (eq_trans (eq_sym Hev) Hw). }
  inversion Hs as [|? ? ? ? ? ? ? ? ? ? ? He Hp| | | | | | |]; subst.
  assert (vs = [VBv 32 x]) as -> by (injection (eq_trans (eq_sym He) Hev); auto). clear He.
  inversion Hp as [| | | |? ? ? Hnz2| |]; subst; [|congruence]. cbn [updo] in *. clear Hs Hp.
  apply lsteps_head in H2. destruct H2 as [[<- ->]|(t1 & s4 & t5 & Hs & H2 & ->)].
  { split; [reflexivity|]. intros (b & Hb & Hw). cbn in Hb. injection Hb as <-. cbn [bterm] in Hw. discriminate (eq_trans (eq_sym Hden) Hw). }
  inversion Hs as [| |? ? ? b Hb Ht|? ? ? b ? ? Hb Ht|? ? ? b ? ? Hb Ht|? ? ? b ? ? ? Hb Ht|? ? ? b ? ? ? ? ? ? Hb Ht|? ? ? b ? ? ? ? ? ? Hb Ht|? ? ? b ? ? ? ? ? ? ? ? ? ? ? ? Hb Ht]; subst;
    cbn in Hb; injection Hb as <-; cbn in Ht; try discriminate.
  apply lsteps_head in H2. destruct H2 as [[<- ->]|(t1 & s5 & t6 & Hs2 & _ & _)]; [split; [reflexivity|intros []]|inversion Hs2].
Qed.
Lemma safe_calls : forall n m t v m', calls safe_program n "safe" [] m t v m' -> t = [].
Proof.
  intros [|n] m t v m' H; [destruct H|]. destruct H as (F & Hf & _ & H). cbn in Hf. injection Hf as <-.
  destruct H as [(r & (s0 & s & H1 & H2 & _) & _)|[[(s0 & s & H1 & H2 & _) _]|(t0 & -> & (s0 & s & H1 & H2 & H3))]].
  - exact (proj1 (safe_steps _ _ _ _ _ H1 H2)).
  - exact (proj1 (safe_steps _ _ _ _ _ H1 H2)).
  - destruct (safe_steps _ _ _ _ _ H1 H2) as [_ H4]. destruct (H4 H3).
Qed.
Example C64_verified : forall I ndebug m, well_formed safe_program /\
  ~ can_be_undefined safe_program "safe" [] m /\ ~ boogie_can_fail I safe_program ndebug "safe" [] m.
Proof.
  intros I ndebug m. split; [exact safe_well_formed|].
  assert (~ can_be_undefined safe_program "safe" [] m) as Hu.
  { intros (n & t & v & m' & H & _). apply safe_calls in H. destruct t; discriminate. }
  split; [exact Hu|]. intros H. apply (C64_no_false_alarms I ndebug _ safe_well_formed _ _ _ Hu) in H.
  destruct H as (n & t & v & m' & H & _). apply safe_calls in H. destruct t; discriminate.
Qed.

(** The assertion after a division by zero. *)
Definition div_fn : fn := Fn eG (Func ["n"] (Blk 0)
  [ (Blk 0, Block [] [SAssign "x" e_div; SPrim None Assert [e_zero]] (TRet None)) ]) [].
Definition div_program : program := [("div", div_fn)].
Lemma div_well_formed : well_formed div_program.
Proof.
  split; intros f F [E|[]]; injection E as <- <-;
    solve [apply (ssa_check_ok _ line_doms); reflexivity | apply lowered_check_ok; reflexivity
          | apply original_check_ok; reflexivity | apply (forest_check_ok _ line_avoid); reflexivity].
Qed.
(** With undefined behaviour there are false alarms: the Boogie program goes on
    after a division by zero. *)
Theorem C64_undefined_behaviour_refuted : forall I,
  exists p f args, well_formed p /\ forall m, can_be_undefined p f args m /\ ~ can_fail p f args m /\
    boogie_can_fail I p false f args m.
Proof.
  intros I. exists div_program, "div", [VBv 32 0]. split; [exact div_well_formed|]. intros m. split; [|split].
  - exists 1%nat, [], (VBv 1 0), m. split; [|split; intros []]. exists div_fn. split; [reflexivity|]. split; [reflexivity|].
    right. right. exists []. split; [reflexivity|]. eexists _, _. split; [reflexivity|]. split; [constructor|]. reflexivity.
  - assert (forall call s0 t s, lstart (code div_fn) [VBv 32 0] m = Some s0 ->
      lsteps (typed_den eG width_ok) (exec_op call) no_invoke bv_true bv_eq (code div_fn) s0 t s -> t = []) as Hs.
    { intros call s0 t s H1 H2. cbn in H1. injection H1 as <-. apply lsteps_head in H2.
      destruct H2 as [[_ ->]|(t1 & s1 & t2 & H3 & _ & _)]; [reflexivity|]. inversion H3; subst. discriminate. }
    intros ([|n] & t & v & m' & H & _); [destruct H|]. destruct H as (F & Hf & _ & H). cbn in Hf. injection Hf as <-.
    destruct H as [(r & (s0 & s & H1 & H2 & _) & _)|[[(s0 & s & H1 & H2 & _) _]|(t0 & E & _)]].
    + apply (Hs _ _ _ _ H1) in H2. destruct t; discriminate.
    + apply (Hs _ _ _ _ H1) in H2. destruct t; discriminate.
    + apply app_inj_tail in E. destruct E. discriminate.
  - exists 1%nat, [Failed], (VBv 1 0), m. split; [|now left].
    exists div_fn, (fun _ => VBv 1 0), false. split; [reflexivity|]. split; [reflexivity|]. right. split; [|now left].
    eexists _, _. split; [reflexivity|]. split.
    + eapply (bsteps_cons _ _ _ _ _ _ _ _ []).
      * eapply B_assign with (vs := [_]); [constructor; [intros []|constructor]|]. constructor; [reflexivity|constructor].
      * eapply (bsteps_cons _ _ _ _ _ _ _ _ [Failed] _ []); [|constructor].
        eapply B_prim with (vs := [VBv 32 0]); [constructor; [reflexivity|constructor]|].
        apply Y_assert_fails with (m := m) (u := VBv 1 0). now apply check_value.
    + reflexivity.
Qed.
Print Assumptions C64_undefined_behaviour_refuted.
