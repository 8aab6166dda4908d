(** C65: with the default flags, what the verifier is given fails exactly if the
    program does, as long as the program stays within what the unbounded-integer
    encoding describes.

    Vocabulary: Spec/Program.v (programs, [can_fail], [well_formed]),
    Spec/DefaultMode.v ([can_be_inexact], [well_typed], [layout_ok],
    [same_memory]); the emitted Boogie program and what the verifier looks for is
    [default_can_fail] of Model/DefaultMode.v. *)
From Coq Require Import ZArith List String Bool Lia.
From Verif.Spec Require Import LLVMInt IR CFG BitVectorIR ByteMemory Encodings Program DefaultMode.
From Verif.Model Require Import Boogie PreludeInt SmackRepInt BitVectorCode ControlFlow NormalizeLoops WholeProgram DefaultMode.
From Verif.Proofs Require Import CFGBase SSACheck ControlExamples CleanRuns IntMain FlatSim DefaultExpr DefaultSim.
From Verif.Props Require Import EndToEndProps.
Import ListNotations.
Open Scope string_scope.
Open Scope list_scope.
Open Scope Z_scope.

Section C65.
  (** [ly]: the type of what is at each address; [ndebug]: how LLVM was built;
      [m] and [M]: the memory of the program and of the Boogie program. *)
  Context (p : program) (ly : layout) (ndebug : bool) (f : string) (args : list val) (m : mem) (M : Z -> Z).

  (** No failure is missed: if the verifier proves that no assertion of the Boogie
      program can be violated, whatever the functions the prelude leaves open
      mean, then no execution of the program gets to a failing assertion – unless
      some execution leaves what the encoding describes. *)
  Theorem C65_no_missed_failures : well_formed p -> well_typed p -> layout_ok ly -> Forall machine_int args -> same_memory ly m M ->
    ~ can_be_inexact true ly p f args m ->
    (forall I, meets_axioms default_flags I -> ~ default_can_fail I p ndebug f (map as_int args) M) ->
    ~ can_fail p f args m.
  Proof.
    intros Hwf Hwt Hly Ha HM Hx H Hf.
    destruct (default_found p Hwf Hwt true ly Hly (machine_interp UnboundedInteger) ndebug (or_intror (conj eq_refl eq_refl)) args Ha f m M HM Hf) as [H1|H1];
      [|exact (Hx H1)].
    exact (H _ (machine_meets_axioms UnboundedInteger false) H1).
  Qed.
  (** No false alarms, whatever the verifier assumes about the functions the
      prelude leaves open (bitwise operations other than and, or, xor on i1: they
      count as inexact here). *)
  Theorem C65_no_false_alarms : well_formed p -> well_typed p -> layout_ok ly -> Forall machine_int args -> same_memory ly m M ->
    ~ can_be_inexact false ly p f args m ->
    forall I, meets_axioms default_flags I -> default_can_fail I p ndebug f (map as_int args) M -> can_fail p f args m.
  Proof.
    intros Hwf Hwt Hly Ha HM Hx I HI H.
    destruct (default_real p Hwf Hwt false ly Hly I ndebug (or_introl (conj eq_refl HI)) args Ha f m M HM H) as [H1|H1]; [exact H1|destruct (Hx H1)].
  Qed.
  Theorem C65_same_verdict : well_formed p -> well_typed p -> layout_ok ly -> Forall machine_int args -> same_memory ly m M ->
    ~ can_be_inexact false ly p f args m ->
    forall I, meets_axioms default_flags I -> (default_can_fail I p ndebug f (map as_int args) M <-> can_fail p f args m).
  Proof.
    intros Hwf Hwt Hly Ha HM Hx I HI. split; [now apply C65_no_false_alarms|]. intros H.
    destruct (default_found p Hwf Hwt false ly Hly I ndebug (or_introl (conj eq_refl HI)) args Ha f m M HM H) as [H1|H1]; [exact H1|destruct (Hx H1)].
  Qed.
  (** With the machine's meaning of all bitwise operations, these are exact, too. *)
  Theorem C65_same_verdict_machine : well_formed p -> well_typed p -> layout_ok ly -> Forall machine_int args -> same_memory ly m M ->
    ~ can_be_inexact true ly p f args m ->
    (default_can_fail (machine_interp UnboundedInteger) p ndebug f (map as_int args) M <-> can_fail p f args m).
  Proof.
    intros Hwf Hwt Hly Ha HM Hx. pose (or_intror (conj eq_refl eq_refl) : bitwise_knowledge UnboundedInteger false (machine_interp UnboundedInteger) (bwP true)) as HK.
    split; intros H.
    - destruct (default_real p Hwf Hwt true ly Hly _ ndebug HK args Ha f m M HM H) as [H1|H1]; [exact H1|destruct (Hx H1)].
    - destruct (default_found p Hwf Hwt true ly Hly _ ndebug HK args Ha f m M HM H) as [H1|H1]; [exact H1|destruct (Hx H1)].
  Qed.
End C65.
Print Assumptions C65_no_missed_failures.
Print Assumptions C65_no_false_alarms.
Print Assumptions C65_same_verdict.
Print Assumptions C65_same_verdict_machine.

(** Every memory of the program has one for the Boogie program. *)
Theorem C65_memory_described : forall ly m, layout_ok ly -> exists M, same_memory ly m M.
Proof.
  intros ly m [Hly _]. exists (fun z => let a := z mod 2 ^ 64 in
    match ly a with
    | Some w => int_value (width w) (pat (width w) (le_value (bytes_at a) (proj1_sig m) (Z.to_nat (bytes_needed (width w)))))
    | None => 0
    end).
  intros a w v Ha Hv. assert (int_value 64 a mod 2 ^ 64 = a) as E.
  { pose proof (Hly a w Ha). unfold int_value, signed. change (64 =? 1) with false. cbn iota.
    destruct (a <? 2 ^ (64 - 1)) eqn:El; [apply Z.mod_small; lia|].
    symmetry. apply (Z.mod_unique _ _ (-1)); [left; lia|]. lia. }
  cbv zeta. rewrite E, Ha. do 2 f_equal. symmetry.
  assert (0 <= bytes_needed (width w)) as Hk by (destruct w; cbn; lia).
  apply (ByteMem.reads_as_unique (bytes_at a) (bytes_needed (width w)) (proj1_sig m)); [exact Hk|exact Hv|].
  pose proof (le_reads (bytes_at a) (proj1_sig m) (Z.to_nat (bytes_needed (width w))) (fun i _ => proj2_sig m (bytes_at a i))) as Hr.
  rewrite Z2Nat.id in Hr by exact Hk. exact Hr.
Qed.
Print Assumptions C65_memory_described.

(** ** An example: an input, an assumption, arithmetic, memory and an assertion.
<<
    main(): x = input(); assume(x < 100); *1000 = x + 1; u = *1000; assert(u != 50); return u;
>> *)
Definition dG (x : string) : option Z :=
  if existsb (String.eqb x) ["n"; "x"; "y"; "u"; "z"; "w"] then Some 32
  else if existsb (String.eqb x) ["c"; "d"] then Some 1 else None.
Definition d_reg (x : string) (H : dG x = Some 32) : typed dG width_ok.
Proof. exists (Op (VReg 32 x)). abstract (split; [exact H|ewt]). Defined.
Definition d_address : typed dG width_ok.
Proof. exists (Op (VConst 64 1000)). abstract ewt. Defined.
Definition d_small : typed dG width_ok.
Proof. exists (Instr (IIcmp SLT 32 (VReg 32 "x") (VConst 32 100))). abstract ewt. Defined.
Definition d_zext (x : string) (H : dG x = Some 1) : typed dG width_ok.
Proof. exists (Instr (ICast ZExt 1 32 (VReg 1 x))). abstract (revert H; ewt). Defined.
Definition d_inc (x : string) (H : dG x = Some 32) : typed dG width_ok.
Proof. exists (Instr (IBin Add true 32 (VReg 32 x) (VConst 32 1))). abstract (revert H; ewt). Defined.
Definition d_not50 : typed dG width_ok.
Proof. exists (Instr (IIcmp NE 32 (VReg 32 "u") (VConst 32 50))). abstract ewt. Defined.
Definition d_main : fn := Fn dG (Func [] (Blk 0)
  [ (Blk 0, Block [] [SPrim (Some "x") (Input I32) []; SAssign "c" d_small; SAssign "z" (d_zext "c" eq_refl);
                      SPrim None Assume [d_reg "z" eq_refl]; SAssign "y" (d_inc "x" eq_refl);
                      SPrim None (Store I32) [d_reg "y" eq_refl; d_address]; SPrim (Some "u") (Load I32) [d_address];
                      SAssign "d" d_not50; SAssign "w" (d_zext "d" eq_refl); SPrim None Assert [d_reg "w" eq_refl]]
                  (TRet (Some (d_reg "u" eq_refl)))) ]) [].
Definition d_program : program := [("main", d_main)].
Definition d_layout : layout := fun a => if a =? 1000 then Some I32 else None.
Lemma d_layout_ok : layout_ok d_layout.
Proof.
  split; unfold d_layout.
  - intros a w. destruct (Z.eqb_spec a 1000); [lia|discriminate].
  - intros a w a' w' i j. destruct (Z.eqb_spec a 1000); [|discriminate]. destruct (Z.eqb_spec a' 1000); [|discriminate]. congruence.
Qed.
Ltac wfprog E := injection E as <- <-;
    solve [apply (ssa_check_ok _ line_doms); reflexivity | apply lowered_check_ok; reflexivity
          | apply original_check_ok; reflexivity | apply (forest_check_ok _ line_avoid); reflexivity].
Lemma d_well_formed : well_formed d_program.
Proof. split; intros f F [E|[]]; wfprog E. Qed.
Lemma dG_widths : forall x n, dG x = Some n -> 1 <= n.
Proof. intros x n. unfold dG. destruct (existsb _ _); [intros [= <-]; lia|]. destruct (existsb _ _); [intros [= <-]; lia|discriminate]. Qed.
Lemma straight_typed : forall f F l0 b, (forall x n, reg_widths F x = Some n -> 1 <= n) -> blocks (code F) = [(l0, b)] ->
  (exists o, bterm b = TRet o) -> well_typed [(f, F)].
Proof.
  intros f F l0 b HG Hb (o & Ho). split.
  - intros g F' l b' e l1 l2 [E|[]] Hl Ht. injection E as <- <-. unfold block_of in Hl. rewrite Hb in Hl. cbn in Hl.
    destruct (label_eqb l l0); [|discriminate]. injection Hl as <-. congruence.
  - intros g F' x n [E|[]] Hx. injection E as <- <-. exact (HG _ _ Hx).
Qed.
Lemma d_well_typed : well_typed d_program.
Proof. eapply straight_typed; [exact dG_widths|reflexivity|eexists; reflexivity]. Qed.

(** Values of the operands. *)
Lemma d_bits : forall r x n a, dG x = Some n -> r x = Some (VBv n a) -> is_iN n a -> bits dG r x = Some a.
Proof.
  intros r x n a Hx Hr Ha. unfold is_iN in Ha. unfold bits. rewrite Hx, Hr.
  replace (0 <=? a) with true by lia. replace (a <? 2 ^ n) with true by lia. now rewrite Z.eqb_refl.
Qed.
Section Operands.
  Context (all : bool) (r : string -> option val).
  Notation den := (exact_den all dG r).
  Lemma d_reg_den : forall x H a, r x = Some (VBv 32 a) -> is_iN 32 a -> den (d_reg x H) = Some (VBv 32 a).
  Proof. intros x H a Hr Ha. unfold exact_den, typed_den, operand_exact. cbn [proj1_sig d_reg operand_events operand_consts value_events value_consts forallb andb value_den vwidth].
    now rewrite (d_bits r x 32 a H Hr Ha). Qed.
  Lemma d_address_den : den d_address = Some (VBv 64 1000).
  Proof. reflexivity. Qed.
  Lemma d_small_den : forall a, r "x" = Some (VBv 32 a) -> is_iN 32 a -> den d_small = Some (VBv 1 (b2z (signed 32 a <? 100))).
  Proof.
    intros a Hr Ha. pose proof (d_bits r "x" 32 a eq_refl Hr Ha) as Hb. unfold exact_den, typed_den, operand_exact, d_small.
    cbn [proj1_sig operand_events operand_consts inst_events inst_consts value_events value_den inst_den]. unfold ev2. cbn [value_den]. rewrite Hb. reflexivity.
  Qed.
  Lemma d_zext_den : forall x H a, r x = Some (VBv 1 (b2z a)) -> den (d_zext x H) = Some (VBv 32 (b2z a)).
  Proof.
    intros x H a Hr. assert (is_iN 1 (b2z a)) as Ha by (destruct a; unfold is_iN; cbn; lia). pose proof (d_bits r x 1 _ H Hr Ha) as Hb. unfold exact_den, typed_den, operand_exact, d_zext.
    cbn [proj1_sig operand_events operand_consts inst_events inst_consts value_events value_den inst_den]. rewrite Hb. now destruct a.
  Qed.
  Lemma d_inc_den : forall x H a, r x = Some (VBv 32 a) -> is_iN 32 a -> signed 32 a < 100 -> den (d_inc x H) = Some (VBv 32 ((a + 1) mod 2 ^ 32)).
  Proof.
    intros x H a Hr Ha Hs. pose proof (d_bits r x 32 _ H Hr Ha) as Hb. unfold exact_den, typed_den, operand_exact, d_inc.
    cbn [proj1_sig operand_events operand_consts inst_events inst_consts value_events value_den inst_den]. unfold ev2. cbn [value_den]. rewrite Hb.
    cbn [forallb event_exact opt2 app value_den].
    assert (- 2 ^ 31 <= signed 32 a) as Hl by (unfold signed, is_iN in *; destruct (a <? 2 ^ (32 - 1)) eqn:E; lia).
    assert (in_rangeb 32 (int_value 32 a + int_value 32 1) = true) as ->.
    { unfold in_rangeb, int_value. change (32 =? 1) with false. cbn iota. change (signed 32 1) with 1. apply andb_true_intro; lia. }
    assert (nsw_ok Add 32 a 1 = true) as ->.
    { unfold nsw_ok, in_srange. change (signed 32 1) with 1. apply andb_true_intro; lia. }
    reflexivity.
  Qed.
  Lemma d_not50_den : forall a, r "u" = Some (VBv 32 a) -> is_iN 32 a -> den d_not50 = Some (VBv 1 (b2z (negb (a =? 50)))).
  Proof.
    intros a Hr Ha. pose proof (d_bits r "u" 32 a eq_refl Hr Ha) as Hb. unfold exact_den, typed_den, operand_exact, d_not50.
    cbn [proj1_sig operand_events operand_consts inst_events inst_consts value_events value_den inst_den]. unfold ev2. cbn [value_den]. rewrite Hb. reflexivity.
  Qed.
End Operands.
(** No execution of it leaves what the encoding describes. *)
Lemma d_clean : forall all call s0 (m : mem), lstart (code d_main) [] m = Some s0 ->
  clean (exact_den all dG) (exact_op d_layout call) no_invoke bv_true bv_eq (code d_main) (fun e => e = Undefined) s0.
Proof.
  intros all call s0 m H. cbn in H. injection H as <-.
  eapply clean_prim; [reflexivity|]. intros t v m' H.
  inversion H as [? ? ? ? ? ? Hx Ht|? ? ? ? ? Ht]; subst; [|destruct Ht; exact I].
  inversion Hx as [| |? x ? Ha| | | |]; subst. split; [constructor|]. cbn [updo]. change (width I32) with 32 in *. clear H Hx Ht.
  eapply clean_assign; [apply d_small_den with (a := x); [reflexivity|exact Ha]|].
  eapply clean_assign; [eapply d_zext_den; reflexivity|].
  eapply clean_prim; [unfold evals; cbn [map]; rewrite (d_reg_den all _ "z" eq_refl (b2z (signed 32 x <? 100)) eq_refl) by (destruct (signed 32 x <? 100); unfold is_iN; cbn; lia); reflexivity|].
  intros t v m1 H. inversion H as [? ? ? ? ? ? Hx Ht|? ? ? ? ? Ht]; subst; [|destruct Ht; reflexivity].
  inversion Hx as [| | |z ? ? Hz| | |]; subst. split; [constructor|]. cbn [updo]. clear H Hx Ht.
  assert (signed 32 x < 100) as Hs by (destruct (Z.ltb_spec (signed 32 x) 100); [assumption|now destruct Hz]).
  eapply clean_assign; [eapply d_inc_den; [reflexivity|exact Ha|exact Hs]|].
  assert (is_iN 32 ((x + 1) mod 2 ^ 32)) as Hy by (apply Z.mod_pos_bound; lia).
  eapply clean_prim; [unfold evals; cbn [map]; rewrite d_address_den, (d_reg_den all _ "y" eq_refl _ eq_refl Hy); reflexivity|].
  intros t v1 m2 H. inversion H as [? ? ? ? ? ? Hx Ht|? ? ? ? ? Ht]; subst; [|destruct Ht; repeat split].
  inversion Hx; subst. split; [constructor|]. cbn [updo]. clear H Hx Ht.
  eapply clean_prim; [reflexivity|].
  intros t v2 m3 H. inversion H as [? ? ? ? ? ? Hx Ht|? ? ? ? ? Ht]; subst; [|destruct Ht; repeat split].
  inversion Hx as [? ? ? u| | | | | |]; subst. split; [constructor|]. cbn [updo]. clear H Hx Ht.
  assert (is_iN 32 (pat 32 u)) as Hu by (apply Z.mod_pos_bound; lia). change (width I32) with 32.
  eapply clean_assign; [apply d_not50_den with (a := pat 32 u); [reflexivity|exact Hu]|].
  eapply clean_assign; [eapply d_zext_den; reflexivity|].
  eapply clean_prim; [unfold evals; cbn [map]; rewrite (d_reg_den all _ "w" eq_refl (b2z (negb (pat 32 u =? 50))) eq_refl) by (destruct (pat 32 u =? 50); unfold is_iN; cbn; lia); reflexivity|].
  intros t v3 m4 H. inversion H as [? ? ? ? ? ? Hx Ht|? ? ? ? ? Ht]; subst; [|destruct Ht; reflexivity].
  assert (clean (exact_den all dG) (exact_op d_layout call) no_invoke bv_true bv_eq (code d_main) (fun e => e = Undefined)
    (LRun (Blk 0) [] (updo (upd (upd (upd (upd (upd (upd (upd (fun _ => None) "x" (VBv 32 x)) "c" (VBv 1 (b2z (signed 32 x <? 100)))) "z" (VBv 32 (b2z (signed 32 x <? 100)))) "y" (VBv 32 ((x + 1) mod 2 ^ 32))) "u" (VBv 32 (pat 32 u)))
      "d" (VBv 1 (b2z (negb (pat 32 u =? 50))))) "w" (VBv 32 (b2z (negb (pat 32 u =? 50))))) None v3) m4)) as Hr.
  { eapply clean_ret; [reflexivity|reflexivity|]. cbn [updo]. rewrite (d_reg_den all _ "u" eq_refl (pat 32 u) eq_refl Hu). discriminate. }
  split; [|exact Hr]. clear - Hx. inversion Hx; subst; [apply Forall_nil|]. apply Forall_cons; [discriminate|apply Forall_nil].
Qed.
Lemma clean_inexact : forall all ly f F (args : list val) (m : mem), List.length args = List.length (params (code F)) ->
  (forall call s0, lstart (code F) args m = Some s0 ->
     clean (exact_den all (reg_widths F)) (exact_op ly call) no_invoke bv_true bv_eq (code F) (fun e => e = Undefined) s0) ->
  ~ can_be_inexact all ly [(f, F)] f args m.
Proof.
  intros all ly f F args m Hl Hc ([|n] & t & v & m' & H & _); [destruct H|]. destruct H as (F' & Hf & _ & H). cbn in Hf. rewrite String.eqb_refl in Hf. injection Hf as <-.
  assert (forall l, ~ Forall (fun e => e <> Undefined) (l ++ [Undefined])) as Hno.
  { intros l Hl2. apply Forall_app in Hl2. destruct Hl2 as [_ Hl2]. inversion Hl2. congruence. }
  destruct H as [(r & (s0 & s & H1 & H2 & _) & _)|[[(s0 & s & H1 & H2 & _) _]|(t0 & E & (s0 & s & H1 & H2 & H3))]].
  - exact (Hno _ (proj1 (Hc _ _ H1 _ _ H2))).
  - exact (Hno _ (proj1 (Hc _ _ H1 _ _ H2))).
  - exact (proj2 (Hc _ _ H1 _ _ H2) H3).
Qed.
Lemma d_exact : forall all m, ~ can_be_inexact all d_layout d_program "main" [] m.
Proof. intros all m. apply clean_inexact; [reflexivity|]. intros call s0 H. now apply d_clean with m. Qed.
Lemma mem50_bytes : byte_memory (fun q => if q =? 1000 then 50 else 0).
Proof. intros a. destruct (a =? 1000); lia. Qed.
Definition mem50 : mem := exist _ _ mem50_bytes.
(** With input 49 the assertion fails. *)
Lemma d_fails : can_fail d_program "main" [] zero_mem.
Proof.
  exists 1%nat, [], (VBv 1 0), zero_mem. split; [|split; intros []].
  exists d_main. split; [reflexivity|]. split; [reflexivity|]. right. left. split; [|left; now left].
  eexists _, _. split; [reflexivity|]. split.
  - eapply (lsteps_cons _ _ _ _ _ _ _ []); [eapply L_prim; [reflexivity|apply (X_input _ I32 49); unfold is_iN; cbn; lia]|].
    do 2 (eapply (lsteps_cons _ _ _ _ _ _ _ []); [eapply L_assign; reflexivity|]).
    eapply (lsteps_cons _ _ _ _ _ _ _ []); [eapply L_prim; [reflexivity|apply (X_assume _ 1 zero_mem (VBv 1 0)); lia]|].
    eapply (lsteps_cons _ _ _ _ _ _ _ []); [eapply L_assign; reflexivity|].
    eapply (lsteps_cons _ _ _ _ _ _ _ []); [eapply L_prim; [reflexivity|]|].
    { apply (X_store _ I32 1000 50 zero_mem mem50 (VBv 1 0)); [unfold is_iN; cbn; lia|unfold is_iN; cbn; lia|]. split.
      - intros i Hi. change (bytes_needed (width I32)) with 4 in Hi.
        assert (i = 0 \/ i = 1 \/ i = 2 \/ i = 3) as [->|[->|[->| ->]]] by lia; reflexivity.
      - intros q Hq. cbn. destruct (Z.eqb_spec q 1000) as [->|]; [|reflexivity].
        exfalso. apply (Hq 0); [cbn; lia|reflexivity]. }
    eapply (lsteps_cons _ _ _ _ _ _ _ []); [eapply L_prim; [reflexivity|apply (X_load _ I32 1000 mem50 50); [unfold is_iN; cbn; lia|]]|].
    { split; [cbn; lia|]. intros i Hi. change (bytes_needed (width I32)) with 4 in Hi.
      assert (i = 0 \/ i = 1 \/ i = 2 \/ i = 3) as [->|[->|[->| ->]]] by lia; reflexivity. }
    do 2 (eapply (lsteps_cons _ _ _ _ _ _ _ []); [eapply L_assign; reflexivity|]).
    eapply (lsteps_cons _ _ _ _ _ _ _ [Failed] _ []); [eapply L_prim; [reflexivity|apply (X_assert_fails _ mem50 (VBv 1 0))]|].
    constructor.
  - reflexivity.
Qed.
Example C65_nonvacuous : well_formed d_program /\ well_typed d_program /\ layout_ok d_layout /\
  (forall all m, ~ can_be_inexact all d_layout d_program "main" [] m) /\
  can_fail d_program "main" [] zero_mem /\
  forall I ndebug M, meets_axioms default_flags I -> same_memory d_layout zero_mem M -> default_can_fail I d_program ndebug "main" [] M.
Proof.
  split; [exact d_well_formed|]. split; [exact d_well_typed|]. split; [exact d_layout_ok|]. split; [exact d_exact|]. split; [exact d_fails|].
  intros I ndebug M HI HM.
  apply (C65_same_verdict d_program d_layout ndebug "main" [] zero_mem M d_well_formed d_well_typed d_layout_ok (Forall_nil _) HM (d_exact false zero_mem) I HI).
  exact d_fails.
Qed.

(** A program that is verified: [x = input(); assume(x); assert(x); return x]. *)
Lemma safe_exact : forall all ly m, ~ can_be_inexact all ly safe_program "safe" [] m.
Proof.
  intros all ly m. apply clean_inexact; [reflexivity|]. intros call s0 H. cbn in H. injection H as <-.
  eapply clean_prim; [reflexivity|]. intros t v m' H.
  inversion H as [? ? ? ? ? ? Hx Ht|? ? ? ? ? Ht]; subst; [|destruct Ht; exact I].
  inversion Hx as [| |? x ? Ha| | | |]; subst. split; [constructor|]. cbn [updo]. change (width I32) with 32 in *. clear H Hx Ht.
  assert (exact_den all eG (upd (fun _ => None) "x" (VBv 32 x)) (e_reg32 "x" eq_refl) = Some (VBv 32 x)) as Hden by exact (e_x_den x Ha).
  eapply clean_prim; [unfold evals; cbn [map]; setoid_rewrite Hden; reflexivity|]. intros t v m1 H.
  inversion H as [? ? ? ? ? ? Hx Ht|? ? ? ? ? Ht]; subst; [|destruct Ht; reflexivity].
  inversion Hx as [| | |z ? ? Hz| | |]; subst. split; [constructor|]. cbn [updo]. clear H Hx Ht.
  eapply clean_prim; [unfold evals; cbn [map]; setoid_rewrite Hden; reflexivity|]. intros t v1 m2 H.
  inversion H as [? ? ? ? ? ? Hx Ht|? ? ? ? ? Ht]; subst; [|destruct Ht; reflexivity].
  inversion Hx; subst; [|congruence]. split; [constructor|]. cbn [updo].
  eapply clean_ret; [reflexivity|reflexivity|]. intros E. discriminate (eq_trans (eq_sym Hden) E).
Qed.
Lemma safe_well_typed : well_typed safe_program.
Proof.
  eapply straight_typed; [|reflexivity|eexists; reflexivity].
  intros x n. cbn [reg_widths safe_fn]. unfold eG. destruct (existsb _ _); [intros [= <-]; lia|]. destruct (existsb _ _); [intros [= <-]; lia|discriminate].
Qed.
Example C65_verified : forall I ndebug ly m M, meets_axioms default_flags I -> layout_ok ly -> same_memory ly m M ->
  well_formed safe_program /\ well_typed safe_program /\ ~ can_be_inexact false ly safe_program "safe" [] m /\
  ~ default_can_fail I safe_program ndebug "safe" [] M.
Proof.
  intros I ndebug ly m M HI Hly HM. split; [exact safe_well_formed|]. split; [exact safe_well_typed|]. split; [apply safe_exact|]. intros H.
  apply (C65_no_false_alarms safe_program ly ndebug "safe" [] m M safe_well_formed safe_well_typed Hly (Forall_nil _) HM (safe_exact _ _ _) I HI) in H.
  destruct H as (n & t & v & m' & H & _). apply safe_calls in H. destruct t; discriminate.
Qed.

(** ** Outside of what the encoding describes *)
Definition o_inc : typed dG width_ok.
Proof. exists (Instr (IBin Add false 32 (VReg 32 "n") (VConst 32 1))). abstract ewt. Defined.
Definition o_greater : typed dG width_ok.
Proof. exists (Instr (IIcmp UGT 32 (VReg 32 "y") (VReg 32 "n"))). abstract ewt. Defined.
Definition o_fn : fn := Fn dG (Func ["n"] (Blk 0)
  [ (Blk 0, Block [] [SAssign "y" o_inc; SAssign "c" o_greater; SAssign "z" (d_zext "c" eq_refl); SPrim None Assert [d_reg "z" eq_refl]] (TRet None)) ]) [].
Definition o_program : program := [("next", o_fn)].
Lemma o_well_formed : well_formed o_program.
Proof. split; intros f F [E|[]]; wfprog E. Qed.
Lemma o_well_typed : well_typed o_program.
Proof. eapply straight_typed; [exact dG_widths|reflexivity|eexists; reflexivity]. Qed.
Ltac one_assign Hs :=
  inversion Hs as [? ? vs ? ? ? ? ? ? ? Hv| | | | | | | | |]; subst; inversion Hv as [|? v ? vs' Hv1 Hv2]; subst; inversion Hv2; subst;
  clear Hv Hv2; rename Hv1 into Hv.
(** Overflow is not seen: [unsigned y = n + 1; assert(y > n)] fails for the largest
    [n]; the verifier finds no failure. *)
Theorem C65_overflow_refuted : exists p f args, well_formed p /\ well_typed p /\ Forall machine_int args /\
  forall ly m M, layout_ok ly -> same_memory ly m M -> can_fail p f args m /\
    forall I ndebug, ~ default_can_fail I p ndebug f (map as_int args) M.
Proof.
  exists o_program, "next", [VBv 32 (2 ^ 32 - 1)]. split; [exact o_well_formed|]. split; [exact o_well_typed|].
  split; [constructor; [|constructor]; eexists _, _; split; [reflexivity|]; unfold is_iN; lia|].
  intros ly m M _ _. split.
  - exists 1%nat, [], (VBv 1 0), m. split; [|split; intros []].
    exists o_fn. split; [reflexivity|]. split; [reflexivity|]. right. left. split; [|left; now left].
    eexists _, _. split; [reflexivity|]. split.
    + do 3 (eapply (lsteps_cons _ _ _ _ _ _ _ []); [eapply L_assign; reflexivity|]).
      eapply (lsteps_cons _ _ _ _ _ _ _ [Failed] _ []); [eapply L_prim; [reflexivity|apply (X_assert_fails _ m (VBv 1 0))]|]. constructor.
    + reflexivity.
  - intros I ndebug.
    assert (forall call r0 exn s0 t s, bstart (trans_default ndebug) (runOnFunction (code o_fn) (loops o_fn)) [VInt (-1)] r0 exn M = Some s0 ->
      bsteps (trans_default ndebug) (eval_default I) (iexec_op I call) no_iinvoke int_true int_eq (runOnFunction (code o_fn) (loops o_fn)) s0 t s ->
      t = []) as Hs.
    { intros call r0 exn s0 t s H1 H2. cbn in H1. injection H1 as <-.
      apply bsteps_head in H2. destruct H2 as [[_ ->]|(t1 & s1 & t2 & Hs & H2 & ->)]; [reflexivity|].
      one_assign Hs. vm_compute in Hv. subst v. clear Hs.
      apply bsteps_head in H2. destruct H2 as [[_ ->]|(t1 & s1 & t3 & Hs & H2 & ->)]; [reflexivity|].
      one_assign Hs. vm_compute in Hv. subst v. clear Hs.
      apply bsteps_head in H2. destruct H2 as [[_ ->]|(t1 & s1 & t4 & Hs & H2 & ->)]; [reflexivity|].
      one_assign Hs. vm_compute in Hv. subst v. clear Hs.
      apply bsteps_head in H2. destruct H2 as [[_ ->]|(t1 & s1 & t5 & Hs & H2 & ->)]; [reflexivity|].
      inversion Hs as [|? ? ? vs ? ? ? ? ? ? ? ? ? Hv Hp| | | | | | | |]; subst. inversion Hv as [|? w ? vs' Hv1 Hv2]; subst. inversion Hv2; subst.
      vm_compute in Hv1. subst w. clear Hs Hv Hv2.
      inversion Hp as [| | | |? ? ? Hc|? ? ? Hc|]; subst; [|apply check_int_value in Hc; discriminate]. cbn [bupdo] in *. clear Hp Hc.
      apply bsteps_head in H2. destruct H2 as [[_ ->]|(t1 & s1 & t6 & Hs & H2 & ->)]; [reflexivity|]. inversion Hs; subst. clear Hs.
      apply bsteps_head in H2. destruct H2 as [[_ ->]|(t1 & s1 & t7 & Hs & H2 & ->)]; [reflexivity|]. inversion Hs; subst. clear Hs.
      apply bsteps_head in H2. destruct H2 as [[_ ->]|(t1 & s1 & t8 & Hs & H2 & ->)]; [reflexivity|]. inversion Hs. }
    intros ([|n] & t & v & m' & H & Hf); [destruct H|]. destruct H as (F & r0 & exn & Hfind & _ & H). cbn in Hfind. injection Hfind as <-.
    destruct H as [(r & (s0 & s & H1 & H2 & _) & _)|[(s0 & s & H1 & H2 & _) _]]; apply (Hs _ _ _ _ _ _ H1) in H2; subst t; destruct Hf.
Qed.
Print Assumptions C65_overflow_refuted.

Definition a_greater : typed dG width_ok.
Proof. exists (Instr (IIcmp UGT 32 (VReg 32 "n") (VConst 32 5))). abstract ewt. Defined.
Definition a_fn : fn := Fn dG (Func ["n"] (Blk 0)
  [ (Blk 0, Block [] [SAssign "c" a_greater; SAssign "z" (d_zext "c" eq_refl); SPrim None Assert [d_reg "z" eq_refl]] (TRet None)) ]) [].
Definition a_program : program := [("big", a_fn)].
Lemma a_well_formed : well_formed a_program.
Proof. split; intros f F [E|[]]; wfprog E. Qed.
Lemma a_well_typed : well_typed a_program.
Proof. eapply straight_typed; [exact dG_widths|reflexivity|eexists; reflexivity]. Qed.
(** Unsigned comparisons are those of the signed values: [assert(n > 5)] with a
    large unsigned [n] holds; the verifier reports a failure. *)
Theorem C65_unsigned_refuted : exists p f args, well_formed p /\ well_typed p /\ Forall machine_int args /\
  forall ly m M, layout_ok ly -> same_memory ly m M -> ~ can_fail p f args m /\
    forall I ndebug, default_can_fail I p ndebug f (map as_int args) M.
Proof.
  exists a_program, "big", [VBv 32 (2 ^ 32 - 1)]. split; [exact a_well_formed|]. split; [exact a_well_typed|].
  split; [constructor; [|constructor]; eexists _, _; split; [reflexivity|]; unfold is_iN; lia|].
  intros ly m M _ _. split.
  - assert (forall call s0, lstart (code a_fn) [VBv 32 (2 ^ 32 - 1)] m = Some s0 ->
      clean (typed_den dG width_ok) (exec_op call) no_invoke bv_true bv_eq (code a_fn) (fun _ => True) s0) as Hc.
    { intros call s0 H. cbn in H. injection H as <-. do 2 (eapply clean_assign; [reflexivity|]).
      eapply clean_prim; [reflexivity|]. intros t v m' H. inversion H; subst.
      split; [constructor|]. eapply clean_ret; [reflexivity|reflexivity|exact Logic.I]. }
    intros ([|n] & t & v & m' & H & _); [destruct H|]. destruct H as (F & Hf & _ & H). cbn in Hf. injection Hf as <-.
    assert (~ Forall (fun _ => ~ True) (t ++ [Failed])) as Hno.
    { intros Hl. apply Forall_app in Hl. destruct Hl as [_ Hl]. inversion Hl. tauto. }
    destruct H as [(r & (s0 & s & H1 & H2 & _) & _)|[[(s0 & s & H1 & H2 & _) _]|(t0 & E & (s0 & s & H1 & H2 & H3))]].
    + exact (Hno (proj1 (Hc _ _ H1 _ _ H2))).
    + exact (Hno (proj1 (Hc _ _ H1 _ _ H2))).
    + exact (proj2 (Hc _ _ H1 _ _ H2) H3).
  - intros I ndebug. exists 1%nat, [Failed], int_true, M. split; [|now left].
    exists a_fn, (fun _ => int_true), false. split; [reflexivity|]. split; [reflexivity|]. right. split; [|now left].
    eexists _, _. split; [reflexivity|]. split.
    + eapply (bsteps_cons _ _ _ _ _ _ _ _ []).
      { eapply B_assign with (vs := [VInt 0]); [constructor; [intros []|constructor]|]. constructor; [vm_compute; reflexivity|constructor]. }
      eapply (bsteps_cons _ _ _ _ _ _ _ _ []).
      { eapply B_assign with (vs := [VInt 0]); [constructor; [intros []|constructor]|]. constructor; [vm_compute; reflexivity|constructor]. }
      eapply (bsteps_cons _ _ _ _ _ _ _ _ [Failed] _ []); [|constructor].
      eapply B_prim with (vs := [VInt 0]); [constructor; [vm_compute; reflexivity|constructor]|].
      apply Z_assert_fails with (m := M) (u := int_true). now apply check_int_value.
    + reflexivity.
Qed.
Print Assumptions C65_unsigned_refuted.
