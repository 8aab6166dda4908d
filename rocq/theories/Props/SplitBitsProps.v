(** C68: with bit-vectors (--integer-encoding=bit-vector --pointer-encoding=bit-vector
    or --bit-precise --bit-precise-pointers) and memory split into regions, what the
    verifier is given fails exactly if the program does, as long as the points-to
    graph is right about the accesses the program makes.

    Vocabulary: Spec/Program.v (programs, [can_fail]), Spec/SplitMemory.v (programs
    with what is known about pointers), Spec/SplitBits.v ([graph_right],
    [can_leave_graph]), Spec/PointsTo.v ([points_to_sound]); the emitted Boogie
    program, with a variable for each region that lib/smack/Regions.cpp computes,
    and what the verifier looks for is [split_bits_can_fail] of Model/SplitBits.v. *)
From Coq Require Import ZArith List String Bool Lia.
From Verif.Spec Require Import LLVMInt IR CFG BitVectorIR ByteMemory Encodings Pointers Aliasing FlatMemory PointsTo Program DefaultMode SplitMemory SplitBits.
From Verif.Model Require Import Boogie Regions RegionVars PreludeInt SmackRepInt PreludeMem BitVectorCode ControlFlow NormalizeLoops WholeProgram SplitMemory SplitBits.
From Verif.Proofs Require Import CFGBase SSACheck ControlExamples CleanRuns FlatSim ProgramSim DefaultExpr BitRegionSim.
From Verif.Props Require Import RegionProps EndToEndProps DefaultModeProps FlatProps SplitMemoryProps.
Import ListNotations.
Open Scope string_scope.
Open Scope list_scope.
Open Scope Z_scope.

Section C68.
  (** [dsa], [ptrs]: the points-to graph and all pointers of the program; [ok]: the
      accesses they describe; [I]: any interpretation of the functions the prelude
      leaves open; [ndebug]: how LLVM was built; [m] and [Ms]: the memory of the
      program and the memory variables of the Boogie program. *)
  Context (q : aprogram) (dsa : nat -> node_info) (ptrs : list Regions.access) (ok : expected).
  Context (I : interp) (ndebug : bool) (f : string) (args : list val) (m : mem) (Ms : variables).

  (** No failure is missed: if the verifier proves that no assertion of the Boogie
      program can be violated, no execution of the program gets to a failing
      assertion – unless some execution makes an access that the points-to graph
      does not describe. *)
  Theorem C68_no_missed_failures : awell_formed q -> graph_right dsa ptrs ok -> same_bits dsa ptrs ok m Ms ->
    ~ can_leave_graph false ok q f args m ->
    ~ split_bits_can_fail I dsa ptrs q ndebug f args Ms -> ~ can_fail (plain q) f args m.
  Proof.
    intros Hwf Hd HM Hx H Hf.
    destruct (bits_found q Hwf dsa ptrs ok Hd I ndebug false f args m Ms HM Hf) as [H1|H1]; [exact (H H1)|exact (Hx H1)].
  Qed.
  (** No false alarms: a failure of the Boogie program is one of the program,
      unless its behaviour is undefined or an access is not described. *)
  Theorem C68_no_false_alarms : awell_formed q -> graph_right dsa ptrs ok -> same_bits dsa ptrs ok m Ms ->
    ~ can_leave_graph true ok q f args m ->
    split_bits_can_fail I dsa ptrs q ndebug f args Ms -> can_fail (plain q) f args m.
  Proof.
    intros Hwf Hd HM Hx H.
    destruct (bits_real q Hwf dsa ptrs ok Hd I ndebug f args m Ms HM H) as [H1|H1]; [exact H1|destruct (Hx H1)].
  Qed.
  Theorem C68_same_verdict : awell_formed q -> graph_right dsa ptrs ok -> same_bits dsa ptrs ok m Ms ->
    ~ can_leave_graph true ok q f args m ->
    (split_bits_can_fail I dsa ptrs q ndebug f args Ms <-> can_fail (plain q) f args m).
  Proof.
    intros Hwf Hd HM Hx. split; [now apply C68_no_false_alarms|]. intros H.
    destruct (bits_found q Hwf dsa ptrs ok Hd I ndebug true f args m Ms HM H) as [H1|H1]; [exact H1|destruct (Hx H1)].
  Qed.
  (** Splitting memory does not change the verdict: it is that of the Boogie
      program with one memory of bytes (C64). *)
  Theorem C68_splitting : awell_formed q -> graph_right dsa ptrs ok -> same_bits dsa ptrs ok m Ms ->
    ~ can_leave_graph true ok q f args m -> well_formed (plain q) -> ~ can_be_undefined (plain q) f args m ->
    (split_bits_can_fail I dsa ptrs q ndebug f args Ms <-> boogie_can_fail I (plain q) ndebug f args m).
  Proof.
    intros Hwf Hd HM Hx Hwf' Hu.
    rewrite (C68_same_verdict Hwf Hd HM Hx). symmetry. exact (C64_same_verdict I ndebug (plain q) Hwf' f args m Hu).
  Qed.
End C68.
Print Assumptions C68_no_missed_failures.
Print Assumptions C68_no_false_alarms.
Print Assumptions C68_same_verdict.
Print Assumptions C68_splitting.

(** ** Every memory of the program is held by some values of the variables *)
Definition bits_at (m : mem) (a : Z) (w : Program.access) : Z :=
  pat (Program.width w) (le_value (bytes_at a) (proj1_sig m) (Z.to_nat (bytes_needed (Program.width w)))).
Lemma bits_at_reads : forall (m : mem) a w, exists v, reads_as (bytes_at a) (bytes_needed (Program.width w)) (proj1_sig m) v /\ bits_at m a w = pat (Program.width w) v.
Proof.
  intros m a w. eexists. split; [|reflexivity]. assert (0 <= bytes_needed (Program.width w)) as Hk by (destruct w; cbn; lia).
  pose proof (le_reads (bytes_at a) (proj1_sig m) (Z.to_nat (bytes_needed (Program.width w))) (fun i _ => proj2_sig m (bytes_at a i))) as Hr.
  rewrite Z2Nat.id in Hr by exact Hk. exact Hr.
Qed.

Theorem C68_memory_described : forall dsa ptrs ok m, graph_right dsa ptrs ok -> exists Ms, same_bits dsa ptrs ok m Ms.
Proof.
  intros dsa ptrs ok m Hd. set (R := bit_region dsa ptrs).
  set (used := fun x a => find (fun wA => ok a (fst wA) (snd wA) && String.eqb (PreludeMem.reg (R (snd wA))) x) (list_prod access_types ptrs)).
  set (big := Z.to_nat (2 ^ 64)).
  assert (Z.of_nat big = 2 ^ 64) as Hbig by (apply Z2Nat.id; lia). clearbody big.
  exists (fun x =>
    match search big (fun a => match used x a with Some _ => true | None => false end) with
    | None => VBool true
    | Some a0 => match used x a0 with
      | None => VBool true
      | Some (w, A) => if singleton (R A) then VBv (Program.width w) (bits_at m a0 w)
                       else if bytewise (R A) then bmap (proj1_sig m)
                       else memory_map true 64 (Some (Program.width w)) (fun a => bits_at m a w)
      end
    end).
  intros a w A Hok. fold (R A). set (x := PreludeMem.reg (R A)).
  assert (In A ptrs) as Hin.
  { exact (pt_seen _ _ _ _ (gr_sound _ _ _ Hd [Dyn A (AInt (Program.width w)) a None] ltac:(intros y [<-|[]]; now exists w)) _ (or_introl eq_refl)). }
  pose proof (gr_address _ _ _ Hd a w A Hok) as Ha.
  destruct (search big (fun a0 => match used x a0 with Some _ => true | None => false end)) as [a0|] eqn:E.
  2:{ exfalso. apply search_none with (a := a) in E; [|lia]. destruct (used x a) as [|] eqn:Eu; [discriminate|]. unfold used in Eu.
      apply find_none with (x := (w, A)) in Eu; [|apply in_prod; [apply access_types_all|exact Hin]].
      cbn in Eu. rewrite Hok in Eu. unfold x in Eu. rewrite String.eqb_refl in Eu. discriminate. }
  apply search_some in E. destruct (used x a0) as [[w0 A0]|] eqn:Eu; [|discriminate]. unfold used in Eu. apply find_some in Eu as [_ Eu].
  apply andb_prop in Eu as [E1 E2]. cbn in E1, E2. apply String.eqb_eq in E2.
  pose proof (places_separated dsa ptrs ok Hd a0 w0 A0 a w A E1 Hok) as Hsep.
  pose proof (sep_name _ _ _ _ Hsep _ _ (or_introl eq_refl) (or_intror (or_introl eq_refl)) E2) as ER. cbn [place a_reg] in ER. change (R A0 = R A) in ER.
  rewrite ER. unfold holds_bits. destruct (bits_at_reads m a w) as (v & Hv & Eb). destruct (singleton (R A)) eqn:Es.
  - destruct (sep_singleton _ _ _ _ Hsep _ _ (or_introl eq_refl) (or_intror (or_introl eq_refl)) ER) as [Ea Et]; [cbn [place a_reg]; change (singleton (R A0) = true); now rewrite ER|].
    cbn in Ea, Et. injection Et as Et. subst a0. exists v. split; [exact Hv|]. unfold bits_at. rewrite Et. now rewrite <- Eb.
  - destruct (bytewise (R A)) eqn:Eby.
    + exists (proj1_sig m). split; [reflexivity|]. split; [exact (proj2_sig m)|reflexivity].
    + destruct (sep_typed _ _ _ _ Hsep _ _ (or_introl eq_refl) (or_intror (or_introl eq_refl)) ER) as [Ec _];
        [cbn [place a_reg]; change (singleton (R A0) = false); now rewrite ER|cbn [place a_reg]; change (bytewise (R A0) = false); now rewrite ER|].
      cbn in Ec. injection Ec as Ec. unfold bits_at. rewrite Ec. eexists. split; [reflexivity|]. exists v. split; [exact Hv|exact Eb].
Qed.
Print Assumptions C68_memory_described.

(** ** A program for which the hypotheses hold
    [x = input(); *word = x; byte of word at offset 1 = 1; heap->field = x; global = x;
    u = *word; assert(u != 256); return u]: the word is in a map of bytes, the field
    in a map of 32-bit values, the global in a variable. *)
Definition b_const (n v : Z) (H : wt_operand dG width_ok (Op (VConst n v))) : typed dG width_ok := exist _ (Op (VConst n v)) H.
Definition b_word : typed dG width_ok := b_const 64 4000 ltac:(ewt).
Definition b_byte : typed dG width_ok := b_const 64 4001 ltac:(ewt).
Definition b_one : typed dG width_ok := b_const 8 1 ltac:(ewt).
Definition b_not256 : typed dG width_ok.
Proof. exists (Instr (IIcmp NE 32 (VReg 32 "u") (VConst 32 256))). abstract ewt. Defined.
Definition b_main : afn := AFn dG (Func [] (Blk 0)
  [ (Blk 0, Block [] [SPrim (Some "x") (at_global (Input I32)) [];
                      SPrim None (Pop (Store I32) u32_at0) [d_reg "x" eq_refl; b_word];
                      SPrim None (Pop (Store I8) u8_at1) [b_one; b_byte];
                      SPrim None (at_heap (Store I32)) [d_reg "x" eq_refl; s_heap];
                      SPrim None (at_global (Store I32)) [d_reg "x" eq_refl; d_address];
                      SPrim (Some "u") (Pop (Load I32) u32_at0) [b_word];
                      SAssign "d" b_not256; SAssign "w" (d_zext "d" eq_refl); SPrim None (at_global Assert) [d_reg "w" eq_refl]]
                  (TRet (Some (d_reg "u" eq_refl)))) ]) [].
Definition b_program : aprogram := [("main", b_main)].
Definition is_i8 (w : Program.access) : bool := match w with I8 => true | _ => false end.
Definition b_ok : expected := fun a w A =>
  is_i32 w && (a =? 4000) && is_access A u32_at0 || is_i8 w && (a =? 4001) && is_access A u8_at1 ||
  is_i32 w && (a =? 1000) && is_access A the_global || is_i32 w && (a =? 2008) && is_access A int_field.
Lemma b_ok_cases : forall a w A, b_ok a w A = true ->
  (w = I32 /\ a = 4000 /\ A = u32_at0) \/ (w = I8 /\ a = 4001 /\ A = u8_at1) \/
  (w = I32 /\ a = 1000 /\ A = the_global) \/ (w = I32 /\ a = 2008 /\ A = int_field).
Proof.
  intros a w A H. unfold b_ok in H. repeat (apply orb_prop in H as [H|H]); apply andb_prop in H as [H H2]; apply andb_prop in H as [Hw H1];
    apply is_access_true in H2; apply Z.eqb_eq in H1; destruct w; try discriminate; tauto.
Qed.
Lemma b_graph : graph_right demo_nodes demo_accesses b_ok.
Proof.
  assert (forall x, one_of b_ok x ->
    (d_ty x = AInt 32 /\ d_addr x = 4000 /\ d_static x = u32_at0) \/ (d_ty x = AInt 8 /\ d_addr x = 4001 /\ d_static x = u8_at1) \/
    (d_ty x = AInt 32 /\ d_addr x = 1000 /\ d_static x = the_global) \/ (d_ty x = AInt 32 /\ d_addr x = 2008 /\ d_static x = int_field)) as Hone.
  { intros x (w & Ht & H). apply b_ok_cases in H as [(-> & H)|[(-> & H)|[(-> & H)|(-> & H)]]]; cbn in Ht; tauto. }
  split.
  - exact demo_proper.
  - intros D HD. split.
    + intros x Hx. destruct (Hone x (HD x Hx)) as [(_ & _ & ->)|[(_ & _ & ->)|[(_ & _ & ->)|(_ & _ & ->)]]]; cbn; tauto.
    + intros x Hx. destruct (Hone x (HD x Hx)) as [(-> & _ & ->)|[(-> & _ & ->)|[(-> & _ & ->)|(-> & _ & ->)]]]; reflexivity.
    + intros x y Hx Hy. destruct (Hone x (HD x Hx)) as [(-> & _ & ->)|[(-> & _ & ->)|[(-> & _ & ->)|(-> & _ & ->)]]],
        (Hone y (HD y Hy)) as [(-> & _ & ->)|[(-> & _ & ->)|[(-> & _ & ->)|(-> & _ & ->)]]]; cbn; congruence.
    + exact demo_types.
    + exact demo_recorded.
    + intros x y Hx Hy Ht. right. right.
      destruct (Hone x (HD x Hx)) as [(Tx & Ax & Sx)|[(Tx & Ax & Sx)|[(Tx & Ax & Sx)|(Tx & Ax & Sx)]]],
        (Hone y (HD y Hy)) as [(Ty & Ay & Sy)|[(Ty & Ay & Sy)|[(Ty & Ay & Sy)|(Ty & Ay & Sy)]]];
        apply touch_near in Ht; try lia; try (rewrite ?Tx, ?Ty; reflexivity); rewrite Tx, Ty, Ax, Ay in Ht;
        change (size 64 (AInt 32)) with 4 in Ht; change (size 64 (AInt 8)) with 1 in Ht; try lia;
        eexists; rewrite Sx, Sy; (split; [reflexivity|]); (split; [reflexivity|]); right; unfold same_base; rewrite Ax, Ay, Sx, Sy; reflexivity.
    + intros x y k Hx Hy Nx Ny (O1 & _).
      destruct (Hone x (HD x Hx)) as [(_ & Ax & Sx)|[(_ & Ax & Sx)|[(_ & Ax & Sx)|(_ & Ax & Sx)]]],
        (Hone y (HD y Hy)) as [(_ & Ay & Sy)|[(_ & Ay & Sy)|[(_ & Ay & Sy)|(_ & Ay & Sy)]]];
        unfold same_base; rewrite Sx in *; rewrite Sy in *; cbn in Nx, Ny; try (rewrite Ax, Ay; reflexivity); congruence.
  - intros a w A H. apply b_ok_cases in H as [(_ & -> & _)|[(_ & -> & _)|[(_ & -> & _)|(_ & -> & _)]]]; lia.
Qed.
Lemma b_well_formed : awell_formed b_program.
Proof.
  split; try (intros f F [E|[]]; wfprog E).
  - intros f F l b e l1 l2 [E|[]] Hl Ht. injection E as <- <-. unfold block_of in Hl. cbn in Hl. destruct (label_eqb l (Blk 0)); [|discriminate]. injection Hl as <-. discriminate.
  - intros f F x n [E|[]] Hx. injection E as <- <-. exact (dG_widths _ _ Hx).
Qed.
Notation bden := (typed_den dG width_ok).
Lemma b_reg_den : forall r x H a, r x = Some (VBv 32 a) -> is_iN 32 a -> bden r (d_reg x H) = Some (VBv 32 a).
Proof. intros r x H a Hr Ha. eapply exact_plain. exact (d_reg_den true r x H a Hr Ha). Qed.
Lemma b_not256_den : forall r a, r "u" = Some (VBv 32 a) -> is_iN 32 a -> bden r b_not256 = Some (VBv 1 (b2z (negb (a =? 256)))).
Proof.
  intros r a Hr Ha. pose proof (d_bits r "u" 32 a eq_refl Hr Ha) as Hb. unfold typed_den, b_not256.
  cbn [proj1_sig value_den inst_den]. unfold ev2. cbn [value_den]. rewrite Hb. reflexivity.
Qed.
Lemma b_zext_den : forall r x H a, r x = Some (VBv 1 (b2z a)) -> bden r (d_zext x H) = Some (VBv 32 (b2z a)).
Proof. intros r x H a Hr. eapply exact_plain. exact (d_zext_den true r x H a Hr). Qed.
Lemma b_clean : forall call s0 (m : mem), lstart (acode b_main) [] m = Some s0 ->
  clean bden (described_op b_ok call) no_ainvoke bv_true bv_eq (acode b_main) (fun e => e = Undefined) s0.
Proof.
  intros call s0 m H. cbn in H. injection H as <-.
  eapply clean_prim; [reflexivity|]. intros t v m' H.
  inversion H as [? ? ? ? ? ? Hx Ht|? ? ? ? ? Ht]; subst; [|destruct Ht; exact I].
  inversion Hx as [| |? x ? Ha| | | |]; subst. split; [constructor|]. cbn [updo]. change (Program.width I32) with 32 in *. clear H Hx Ht.
  eapply clean_prim; [unfold evals; cbn [map]; rewrite (b_reg_den _ "x" eq_refl _ eq_refl Ha); reflexivity|].
  intros t v1 m2 H. inversion H as [? ? ? ? ? ? Hx Ht|? ? ? ? ? Ht]; subst; [|destruct Ht; repeat split].
  inversion Hx; subst. split; [constructor|]. cbn [updo]. clear H Hx Ht.
  eapply clean_prim; [reflexivity|].
  intros t v3 m3 H. inversion H as [? ? ? ? ? ? Hx Ht|? ? ? ? ? Ht]; subst; [|destruct Ht; repeat split].
  inversion Hx; subst. split; [constructor|]. cbn [updo]. clear H Hx Ht.
  eapply clean_prim; [unfold evals; cbn [map]; rewrite (b_reg_den _ "x" eq_refl _ eq_refl Ha); reflexivity|].
  intros t v4 m4 H. inversion H as [? ? ? ? ? ? Hx Ht|? ? ? ? ? Ht]; subst; [|destruct Ht; repeat split].
  inversion Hx; subst. split; [constructor|]. cbn [updo]. clear H Hx Ht.
  eapply clean_prim; [unfold evals; cbn [map]; rewrite (b_reg_den _ "x" eq_refl _ eq_refl Ha); reflexivity|].
  intros t v5 m5 H. inversion H as [? ? ? ? ? ? Hx Ht|? ? ? ? ? Ht]; subst; [|destruct Ht; repeat split].
  inversion Hx; subst. split; [constructor|]. cbn [updo]. clear H Hx Ht.
  eapply clean_prim; [reflexivity|].
  intros t v6 m6 H. inversion H as [? ? ? ? ? ? Hx Ht|? ? ? ? ? Ht]; subst; [|destruct Ht; repeat split].
  inversion Hx as [? ? ? u| | | | | |]; subst. split; [constructor|]. cbn [updo]. clear H Hx Ht.
  assert (is_iN 32 (pat 32 u)) as Hu by (apply Z.mod_pos_bound; lia). change (Program.width I32) with 32.
  eapply clean_assign; [apply b_not256_den with (a := pat 32 u); [reflexivity|exact Hu]|].
  eapply clean_assign; [eapply b_zext_den; reflexivity|].
  eapply clean_prim; [unfold evals; cbn [map]; rewrite (b_reg_den _ "w" eq_refl (b2z (negb (pat 32 u =? 256))) eq_refl) by (destruct (pat 32 u =? 256); unfold is_iN; cbn; lia); reflexivity|].
  intros t v7 m7 H. inversion H as [? ? ? ? ? ? Hx Ht|? ? ? ? ? Ht]; subst; [|destruct Ht; reflexivity].
  split.
  - clear - Hx. inversion Hx; subst; [apply Forall_nil|]. apply Forall_cons; [discriminate|apply Forall_nil].
  - eapply clean_ret; [reflexivity|reflexivity|]. cbn [updo]. rewrite (b_reg_den _ "u" eq_refl (pat 32 u) eq_refl Hu). discriminate.
Qed.
Lemma b_inside : forall ub m, ~ can_leave_graph ub b_ok b_program "main" [] m.
Proof.
  intros ub m ([|n] & t & v & m' & H & _); [destruct H|]. destruct H as (F' & Hf & _ & H). cbn in Hf. injection Hf as <-.
  assert (forall l, ~ Forall (fun e => e <> Undefined) (l ++ [Undefined])) as Hno.
  { intros l Hl2. apply Forall_app in Hl2. destruct Hl2 as [_ Hl2]. inversion Hl2. congruence. }
  destruct H as [(r & (s0 & s & H1 & H2 & _) & _)|[[(s0 & s & H1 & H2 & _) _]|(_ & t0 & E & (s0 & s & H1 & H2 & H3))]].
  - exact (Hno _ (proj1 (b_clean _ _ _ H1 _ _ H2))).
  - exact (Hno _ (proj1 (b_clean _ _ _ H1 _ _ H2))).
  - exact (proj2 (b_clean _ _ _ H1 _ _ H2) H3).
Qed.
Lemma mem256_bytes : byte_memory (fun q => if q =? 4001 then 1 else 0).
Proof. intros a. destruct (a =? 4001); lia. Qed.
Definition mem256 : mem := exist _ _ mem256_bytes.
Lemma zero_written : forall (m : mem) a w, (forall i, 0 <= i < bytes_needed (Program.width w) -> proj1_sig m (bytes_at a i) = 0) ->
  written (bytes_at a) (bytes_needed (Program.width w)) 0 (proj1_sig m) (proj1_sig m).
Proof. intros m a w H. split; [|reflexivity]. intros i Hi. rewrite (H i Hi). unfold byte_of. now rewrite Z.div_0_l by (apply Z.pow_nonzero; lia). Qed.
Lemma b_fails : can_fail (plain b_program) "main" [] zero_mem.
Proof.
  exists 1%nat, [], (VBv 1 0), mem256. split; [|split; intros []].
  exists (plain_fn b_main). split; [reflexivity|]. split; [reflexivity|]. right. left. split; [|left; now left].
  eexists _, _. split; [reflexivity|]. split.
  - eapply (lsteps_cons _ _ _ _ _ _ _ []); [eapply L_prim; [reflexivity|apply (X_input _ I32 0); unfold is_iN; cbn; lia]|].
    eapply (lsteps_cons _ _ _ _ _ _ _ []); [eapply L_prim; [reflexivity|]|].
    { apply (X_store _ I32 4000 0 zero_mem zero_mem (VBv 1 0)); [unfold is_iN; cbn; lia|unfold is_iN; cbn; lia|].
      apply zero_written. reflexivity. }
    eapply (lsteps_cons _ _ _ _ _ _ _ []); [eapply L_prim; [reflexivity|]|].
    { apply (X_store _ I8 4001 1 zero_mem mem256 (VBv 1 0)); [unfold is_iN; cbn; lia|unfold is_iN; cbn; lia|]. split.
      - intros i Hi. change (bytes_needed (Program.width I8)) with 1 in Hi. assert (i = 0) as -> by lia. reflexivity.
      - intros q Hq. cbn. destruct (Z.eqb_spec q 4001) as [->|]; [|reflexivity].
        exfalso. apply (Hq 0); [cbn; lia|reflexivity]. }
    eapply (lsteps_cons _ _ _ _ _ _ _ []); [eapply L_prim; [reflexivity|]|].
    { apply (X_store _ I32 2008 0 mem256 mem256 (VBv 1 0)); [unfold is_iN; cbn; lia|unfold is_iN; cbn; lia|].
      apply zero_written. intros i Hi. four_bytes i Hi. }
    eapply (lsteps_cons _ _ _ _ _ _ _ []); [eapply L_prim; [reflexivity|]|].
    { apply (X_store _ I32 1000 0 mem256 mem256 (VBv 1 0)); [unfold is_iN; cbn; lia|unfold is_iN; cbn; lia|].
      apply zero_written. intros i Hi. four_bytes i Hi. }
    eapply (lsteps_cons _ _ _ _ _ _ _ []); [eapply L_prim; [reflexivity|apply (X_load _ I32 4000 mem256 256); [unfold is_iN; cbn; lia|]]|].
    { split; [cbn; lia|]. intros i Hi. four_bytes i Hi. }
    do 2 (eapply (lsteps_cons _ _ _ _ _ _ _ []); [eapply L_assign; reflexivity|]).
    eapply (lsteps_cons _ _ _ _ _ _ _ [Failed] _ []); [eapply L_prim; [reflexivity|apply (X_assert_fails _ mem256 (VBv 1 0))]|].
    constructor.
  - reflexivity.
Qed.
Example C68_nonvacuous : awell_formed b_program /\ graph_right demo_nodes demo_accesses b_ok /\
  (forall ub m, ~ can_leave_graph ub b_ok b_program "main" [] m) /\
  (bit_region demo_nodes demo_accesses u32_at0 = Region true false "$M.0" /\ bit_region demo_nodes demo_accesses u8_at1 = Region true false "$M.0" /\
   bit_region demo_nodes demo_accesses int_field = Region false false "$M.2" /\ bit_region demo_nodes demo_accesses the_global = Region false true "$M.3") /\
  can_fail (plain b_program) "main" [] zero_mem /\ (exists Ms, same_bits demo_nodes demo_accesses b_ok zero_mem Ms) /\
  forall I ndebug Ms, same_bits demo_nodes demo_accesses b_ok zero_mem Ms ->
    split_bits_can_fail I demo_nodes demo_accesses b_program ndebug "main" [] Ms.
Proof.
  split; [exact b_well_formed|]. split; [exact b_graph|]. split; [exact b_inside|]. split; [repeat split; reflexivity|]. split; [exact b_fails|].
  split; [exact (C68_memory_described _ _ _ _ b_graph)|]. intros I ndebug Ms HM.
  apply (C68_same_verdict b_program demo_nodes demo_accesses b_ok I ndebug "main" [] zero_mem Ms b_well_formed b_graph HM (b_inside true zero_mem)).
  exact b_fails.
Qed.

(** ** Outside of what the points-to graph describes *)
(** The graph says that two pointers are to different objects, and both are to the
    address 1000: [*p = 1; *q = 0; assert( *p)] fails; the verifier finds no failure. *)
Theorem C68_mixing_refuted : exists q dsa ptrs f, awell_formed q /\ Forall proper ptrs /\
  forall m, can_fail (plain q) f [] m /\ forall I ndebug Ms, ~ split_bits_can_fail I dsa ptrs q ndebug f [] Ms.
Proof.
  exists m_program, demo_nodes, demo_accesses, "mix". split; [exact m_well_formed|]. split; [exact demo_proper|]. intros m. split; [apply m_fails|].
  intros I ndebug Ms.
  assert (forall call r0 exn s0 t s, bstart (trans_typed true ndebug) (runOnFunction (acode m_fn) (aloops m_fn)) [] r0 exn Ms = Some s0 ->
    bsteps (trans_typed true ndebug) (eval_emitted true I) (vexec_op I demo_nodes demo_accesses call) no_rinvoke bv_true bv_eq (runOnFunction (acode m_fn) (aloops m_fn)) s0 t s ->
    t = []) as Hs.
  { intros call r0 exn s0 t s H1 H2. cbn in H1. injection H1 as <-.
    apply bsteps_head in H2. destruct H2 as [[_ ->]|(t1 & s1 & t2 & Hs & H2 & ->)]; [reflexivity|].
    inversion Hs as [|? ? ? vs ? ? ? ? ? ? ? ? ? Hv Hp| | | | | | | |]; subst. inversion Hv as [|? w1 ? ? Hv1 Hv2]; subst. inversion Hv2 as [|? w2 ? ? Hv3 Hv4]; subst. inversion Hv4; subst.
    vm_compute in Hv1. vm_compute in Hv3. subst w1 w2. clear Hs Hv Hv2 Hv4.
    inversion Hp as [|? ? ? ? ? V ? _ _ Hc| | | | |]; subst. assert (V = VBv 32 1) as -> by (eapply bits_det; [exact Hc|exists 5%nat; reflexivity]). clear Hp Hc. cbn [bupdo] in *.
    apply bsteps_head in H2. destruct H2 as [[_ ->]|(t1 & s1 & t3 & Hs & H2 & ->)]; [reflexivity|].
    inversion Hs as [|? ? ? vs ? ? ? ? ? ? ? ? ? Hv Hp| | | | | | | |]; subst. inversion Hv as [|? w1 ? ? Hv1 Hv2]; subst. inversion Hv2 as [|? w2 ? ? Hv3 Hv4]; subst. inversion Hv4; subst.
    vm_compute in Hv1. vm_compute in Hv3. subst w1 w2. clear Hs Hv Hv2 Hv4.
    inversion Hp as [|? ? ? ? ? V ? _ _ Hc| | | | |]; subst. clear Hp Hc. cbn [bupdo] in *.
    apply bsteps_head in H2. destruct H2 as [[_ ->]|(t1 & s1 & t4 & Hs & H2 & ->)]; [reflexivity|].
    inversion Hs as [|? ? ? vs ? ? ? ? ? ? ? ? ? Hv Hp| | | | | | | |]; subst. inversion Hv as [|? w1 ? ? Hv1 Hv2]; subst. inversion Hv2; subst.
    vm_compute in Hv1. subst w1. clear Hs Hv Hv2.
    inversion Hp as [? ? ? ? ? _ Hc| | | | | |]; subst. match type of Hc with has_bits _ _ _ ?v0 => assert (v0 = VBv 32 1) as -> by (eapply bits_det; [exact Hc|exists 5%nat; vm_compute; reflexivity]) end. clear Hp Hc. cbn [bupdo] in *.
    apply bsteps_head in H2. destruct H2 as [[_ ->]|(t1 & s1 & t5 & Hs & H2 & ->)]; [reflexivity|].
    inversion Hs as [|? ? ? vs ? ? ? ? ? ? ? ? ? Hv Hp| | | | | | | |]; subst. inversion Hv as [|? w1 ? ? Hv1 Hv2]; subst. inversion Hv2; subst.
    vm_compute in Hv1. subst w1. clear Hs Hv Hv2.
    inversion Hp as [| | | |? ? ? ? Hc|? ? ? ? Hc|]; subst; [|apply check_value in Hc; discriminate]. cbn [bupdo] in *. clear Hp Hc.
    apply bsteps_head in H2. destruct H2 as [[_ ->]|(t1 & s1 & t6 & Hs & H2 & ->)]; [reflexivity|]. inversion Hs; subst. clear Hs.
    apply bsteps_head in H2. destruct H2 as [[_ ->]|(t1 & s1 & t7 & Hs & H2 & ->)]; [reflexivity|]. inversion Hs; subst. clear Hs.
    apply bsteps_head in H2. destruct H2 as [[_ ->]|(t1 & s1 & t8 & Hs & H2 & ->)]; [reflexivity|]. inversion Hs. }
  intros ([|n] & t & v & m' & H & Hf); [destruct H|]. destruct H as (F & r0 & exn & Hfind & _ & H). cbn in Hfind. injection Hfind as <-.
  destruct H as [(r & (s0 & s & H1 & H2 & _) & _)|[(s0 & s & H1 & H2 & _) _]]; apply (Hs _ _ _ _ _ _ H1) in H2; subst t; destruct Hf.
Qed.
Print Assumptions C68_mixing_refuted.
