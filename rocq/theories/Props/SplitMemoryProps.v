(** C67: with the default flags and memory split into regions, what the verifier is
    given fails exactly if the program does, as long as the program stays within
    what the unbounded-integer encoding and the points-to graph describe.

    Vocabulary: Spec/Program.v (programs, [can_fail]), Spec/SplitMemory.v (programs
    with what is known about pointers, [describes], [can_be_undescribed]),
    Spec/PointsTo.v ([points_to_sound]); the emitted Boogie program, with a variable
    for each region that lib/smack/Regions.cpp computes, and what the verifier looks
    for is [split_can_fail] of Model/SplitMemory.v. *)
From Coq Require Import ZArith List String Bool Lia.
From Verif.Spec Require Import LLVMInt IR CFG BitVectorIR ByteMemory Encodings Aliasing FlatMemory PointsTo Program DefaultMode SplitMemory.
From Verif.Model Require Import Boogie Regions RegionVars PreludeInt SmackRepInt PreludeMem BitVectorCode ControlFlow NormalizeLoops WholeProgram DefaultMode SplitMemory.
From Verif.Proofs Require Import CFGBase SSACheck ControlExamples CleanRuns IntMain FlatSim DefaultExpr DefaultSim RegionSim.
From Verif.Props Require Import RegionProps EndToEndProps DefaultModeProps FlatProps.
Import ListNotations.
Open Scope string_scope.
Open Scope list_scope.
Open Scope Z_scope.

Section C67.
  (** [dsa], [ptrs]: the points-to graph and all pointers of the program; [ok]: the
      accesses they describe; [ndebug]: how LLVM was built; [m] and [Ms]: the memory
      of the program and the memory variables of the Boogie program. *)
  Context (q : aprogram) (dsa : nat -> node_info) (ptrs : list Regions.access) (ok : expected).
  Context (ndebug : bool) (f : string) (args : list val) (m : mem) (Ms : variables).

  (** No failure is missed: if the verifier proves that no assertion of the Boogie
      program can be violated, whatever the functions the prelude leaves open
      mean, then no execution of the program gets to a failing assertion – unless
      some execution leaves what the encoding and the points-to graph describe. *)
  Theorem C67_no_missed_failures : awell_formed q -> describes dsa ptrs ok -> Forall machine_int args -> same_regions dsa ptrs ok m Ms ->
    ~ can_be_undescribed true ok q f args m ->
    (forall I, meets_axioms default_flags I -> ~ split_can_fail I dsa ptrs q ndebug f (map as_int args) Ms) ->
    ~ can_fail (plain q) f args m.
  Proof.
    intros Hwf Hd Ha HM Hx H Hf.
    destruct (split_found q Hwf true dsa ptrs ok Hd (machine_interp UnboundedInteger) ndebug (or_intror (conj eq_refl eq_refl)) args Ha f m Ms HM Hf) as [H1|H1];
      [|exact (Hx H1)].
    exact (H _ (machine_meets_axioms UnboundedInteger false) H1).
  Qed.
  (** No false alarms, whatever the verifier assumes about the functions the
      prelude leaves open (bitwise operations other than and, or, xor on i1: they
      count as inexact here). *)
  Theorem C67_no_false_alarms : awell_formed q -> describes dsa ptrs ok -> Forall machine_int args -> same_regions dsa ptrs ok m Ms ->
    ~ can_be_undescribed false ok q f args m ->
    forall I, meets_axioms default_flags I -> split_can_fail I dsa ptrs q ndebug f (map as_int args) Ms -> can_fail (plain q) f args m.
  Proof.
    intros Hwf Hd Ha HM Hx I HI H.
    destruct (split_real q Hwf false dsa ptrs ok Hd I ndebug (or_introl (conj eq_refl HI)) args Ha f m Ms HM H) as [H1|H1]; [exact H1|destruct (Hx H1)].
  Qed.
  Theorem C67_same_verdict : awell_formed q -> describes dsa ptrs ok -> Forall machine_int args -> same_regions dsa ptrs ok m Ms ->
    ~ can_be_undescribed false ok q f args m ->
    forall I, meets_axioms default_flags I -> (split_can_fail I dsa ptrs q ndebug f (map as_int args) Ms <-> can_fail (plain q) f args m).
  Proof.
    intros Hwf Hd Ha HM Hx I HI. split; [now apply C67_no_false_alarms|]. intros H.
    destruct (split_found q Hwf false dsa ptrs ok Hd I ndebug (or_introl (conj eq_refl HI)) args Ha f m Ms HM H) as [H1|H1]; [exact H1|destruct (Hx H1)].
  Qed.
  (** Splitting memory does not change the verdict: it is that of the Boogie
      program with one memory (C65). *)
  Theorem C67_splitting : awell_formed q -> describes dsa ptrs ok -> Forall machine_int args -> same_regions dsa ptrs ok m Ms ->
    ~ can_be_undescribed false ok q f args m ->
    forall ly M, well_formed (plain q) -> well_typed (plain q) -> layout_ok ly -> same_memory ly m M -> ~ can_be_inexact false ly (plain q) f args m ->
    forall I, meets_axioms default_flags I ->
      (split_can_fail I dsa ptrs q ndebug f (map as_int args) Ms <-> default_can_fail I (plain q) ndebug f (map as_int args) M).
  Proof.
    intros Hwf Hd Ha HM Hx ly M Hwf' Hwt Hly HM' Hx' I HI.
    rewrite (C67_same_verdict Hwf Hd Ha HM Hx I HI).
    now rewrite (C65_same_verdict (plain q) ly ndebug f args m M Hwf' Hwt Hly Ha HM' Hx' I HI).
  Qed.
End C67.
Print Assumptions C67_no_missed_failures.
Print Assumptions C67_no_false_alarms.
Print Assumptions C67_same_verdict.
Print Assumptions C67_splitting.

(** ** Every memory of the program is held by some values of the variables *)
Fixpoint search (n : nat) (P : Z -> bool) : option Z :=
  match n with O => None | S k => if P (Z.of_nat k) then Some (Z.of_nat k) else search k P end.
Lemma search_some : forall n P a, search n P = Some a -> P a = true.
Proof. induction n as [|n IH]; intros P a H; cbn [search] in H; [discriminate|]. destruct (P (Z.of_nat n)) eqn:E; [congruence|auto]. Qed.
Lemma search_none : forall n P a, search n P = None -> 0 <= a < Z.of_nat n -> P a = false.
Proof.
  induction n as [|n IH]; intros P a H Ha; cbn [search] in H; [lia|]. destruct (P (Z.of_nat n)) eqn:E; [discriminate|].
  destruct (Z.eq_dec a (Z.of_nat n)) as [->|]; [exact E|]. apply IH; [exact H|lia].
Qed.
Definition access_types : list Program.access := [I1; I8; I16; I24; I32; I40; I48; I56; I64].
Lemma access_types_all : forall w, In w access_types.
Proof. intros []; cbn; tauto. Qed.
Definition value_at (m : mem) (a : Z) (w : Program.access) : Z :=
  int_value (Program.width w) (pat (Program.width w) (le_value (bytes_at a) (proj1_sig m) (Z.to_nat (bytes_needed (Program.width w))))).
Lemma value_at_reads : forall (m : mem) a w v, reads_as (bytes_at a) (bytes_needed (Program.width w)) (proj1_sig m) v ->
  value_at m a w = int_value (Program.width w) (pat (Program.width w) v).
Proof.
  intros m a w v Hv. unfold value_at. do 2 f_equal. assert (0 <= bytes_needed (Program.width w)) as Hk by (destruct w; cbn; lia).
  apply (ByteMem.reads_as_unique (bytes_at a) (bytes_needed (Program.width w)) (proj1_sig m)); [exact Hk| |exact Hv].
  pose proof (le_reads (bytes_at a) (proj1_sig m) (Z.to_nat (bytes_needed (Program.width w))) (fun i _ => proj2_sig m (bytes_at a i))) as Hr.
  rewrite Z2Nat.id in Hr by exact Hk. exact Hr.
Qed.

Theorem C67_memory_described : forall dsa ptrs ok m, describes dsa ptrs ok -> exists Ms, same_regions dsa ptrs ok m Ms.
Proof.
  intros dsa ptrs ok m Hd. set (R := region_at dsa ptrs).
  set (used := fun x a => find (fun wA => ok a (fst wA) (snd wA) && String.eqb (PreludeMem.reg (R (snd wA))) x) (list_prod access_types ptrs)).
  set (cell := fun x a => match used x a with Some wA => value_at m a (fst wA) | None => 0 end).
  set (big := Z.to_nat (2 ^ 64)).
  assert (Z.of_nat big = 2 ^ 64) as Hbig by (apply Z2Nat.id; lia). clearbody big.
  exists (fun x =>
    if existsb (fun A => singleton (R A) && String.eqb (PreludeMem.reg (R A)) x) ptrs
    then VInt (match search big (fun a => match used x a with Some _ => true | None => false end) with Some a => cell x a | None => 0 end)
    else imap (fun z => cell x (z mod 2 ^ 64))).
  intros a w A v Hok Hv. fold (R A). set (x := PreludeMem.reg (R A)).
  assert (forall a w A, ok a w A = true -> In A ptrs) as Hin.
  { intros a0 w0 A0 H0. exact (pt_seen _ _ _ _ (ds_sound _ _ _ Hd [Dyn A0 (AInt (Program.width w0)) a0 None] ltac:(intros y [<-|[]]; now exists w0)) _ (or_introl eq_refl)). }
  assert (exists A', used x a = Some (w, A')) as (A' & Hu).
  { destruct (used x a) as [[w' A']|] eqn:E; unfold used in E.
    - apply find_some in E as [_ E]. apply andb_prop in E as [E _]. cbn in E. exists A'. now rewrite (place_type dsa ptrs ok Hd a w A w' A' Hok E).
    - exfalso. apply find_none with (x := (w, A)) in E; [|apply in_prod; [apply access_types_all|eauto]].
      cbn in E. rewrite Hok in E. unfold x in E. rewrite String.eqb_refl in E. discriminate. }
  assert (cell x a = int_value (Program.width w) (pat (Program.width w) v)) as Hc by (unfold cell; rewrite Hu; now apply value_at_reads).
  pose proof (ds_address _ _ _ Hd a w A Hok) as Ha. unfold SplitMemory.holds. destruct (singleton (R A)) eqn:Es.
  - replace (existsb (fun A => singleton (R A) && String.eqb (PreludeMem.reg (R A)) x) ptrs) with true.
    2:{ symmetry. apply existsb_exists. exists A. split; [eauto|]. rewrite Es. apply String.eqb_refl. }
    f_equal. destruct (search big (fun a0 => match used x a0 with Some _ => true | None => false end)) as [a0|] eqn:E.
    + assert (a = a0) as <-; [|exact Hc]. apply search_some in E. destruct (used x a0) as [[w0 A0]|] eqn:Eu; [|discriminate]. unfold used in Eu. apply find_some in Eu as [_ Eu].
      apply andb_prop in Eu as [E1 E2]. cbn in E1, E2. apply String.eqb_eq in E2.
      exact (place_single dsa ptrs ok Hd a w A a0 w0 A0 Hok E1 (place_name dsa ptrs ok Hd a w A a0 w0 A0 Hok E1 (eq_sym E2)) Es).
    + apply search_none with (a := a) in E; [|lia]. rewrite Hu in E. discriminate.
  - replace (existsb (fun A => singleton (R A) && String.eqb (PreludeMem.reg (R A)) x) ptrs) with false.
    2:{ symmetry. apply not_true_is_false. intros E. apply existsb_exists in E as (B & HB & E). apply andb_prop in E as [E1 E2]. apply String.eqb_eq in E2.
        pose proof (region_same dsa ptrs (ds_pointers _ _ _ Hd) A B ltac:(eauto) HB (eq_sym E2)) as Q. change (R A = R B) in Q. rewrite Q in Es. congruence. }
    eexists. split; [reflexivity|]. rewrite <- Hc. f_equal.
    unfold int_value, signed. change (64 =? 1) with false. cbn iota.
    destruct (a <? 2 ^ (64 - 1)) eqn:El; [apply Z.mod_small; lia|]. symmetry. apply (Z.mod_unique _ _ (-1)); [left; lia|]. lia.
Qed.
Print Assumptions C67_memory_described.

(** ** A program for which the hypotheses hold
    [x = input(); assume(x < 100); y = x + 1; global = y; heap->field = x; u = global;
    assert(u != 50); return u]: the global is one variable, the heap a map. *)
Definition s_heap : typed dG width_ok.
Proof. exists (Op (VConst 64 2008)). abstract ewt. Defined.
Definition at_global (o : op) : pop := Pop o the_global.
Definition at_heap (o : op) : pop := Pop o int_field.
Definition s_main : afn := AFn dG (Func [] (Blk 0)
  [ (Blk 0, Block [] [SPrim (Some "x") (at_global (Input I32)) []; SAssign "c" d_small; SAssign "z" (d_zext "c" eq_refl);
                      SPrim None (at_global Assume) [d_reg "z" eq_refl]; SAssign "y" (d_inc "x" eq_refl);
                      SPrim None (at_global (Store I32)) [d_reg "y" eq_refl; d_address];
                      SPrim None (at_heap (Store I32)) [d_reg "x" eq_refl; s_heap];
                      SPrim (Some "u") (at_global (Load I32)) [d_address];
                      SAssign "d" d_not50; SAssign "w" (d_zext "d" eq_refl); SPrim None (at_global Assert) [d_reg "w" eq_refl]]
                  (TRet (Some (d_reg "u" eq_refl)))) ]) [].
Definition s_program : aprogram := [("main", s_main)].
Lemma access_dec : forall A B : Regions.access, {A = B} + {A <> B}.
Proof. repeat decide equality. Defined.
Definition is_access (A B : Regions.access) : bool := if access_dec A B then true else false.
Lemma is_access_true : forall A B, is_access A B = true -> A = B.
Proof. intros A B. unfold is_access. now destruct (access_dec A B). Qed.
Definition is_i32 (w : Program.access) : bool := match w with I32 => true | _ => false end.
Definition s_ok : expected := fun a w A => is_i32 w && ((a =? 1000) && is_access A the_global || (a =? 2008) && is_access A int_field).
Lemma s_ok_cases : forall a w A, s_ok a w A = true -> w = I32 /\ (a = 1000 /\ A = the_global \/ a = 2008 /\ A = int_field).
Proof.
  intros a w A H. unfold s_ok in H. apply andb_prop in H as [Hw H]. split; [now destruct w|].
  apply orb_prop in H as [H|H]; apply andb_prop in H as [H1 H2]; apply is_access_true in H2; apply Z.eqb_eq in H1; auto.
Qed.
Lemma s_one : forall x, one_of s_ok x -> d_ty x = AInt 32 /\ (d_addr x = 1000 /\ d_static x = the_global \/ d_addr x = 2008 /\ d_static x = int_field).
Proof. intros x (w & Ht & H). apply s_ok_cases in H as [-> H]. now split. Qed.
Lemma s_describes : describes demo_nodes demo_accesses s_ok.
Proof.
  split.
  - exact demo_proper.
  - intros D HD. split.
    + intros x Hx. destruct (s_one x (HD x Hx)) as (_ & [[_ ->]|[_ ->]]); cbn; tauto.
    + intros x Hx. destruct (s_one x (HD x Hx)) as (-> & [[_ ->]|[_ ->]]); reflexivity.
    + intros x y Hx Hy. destruct (s_one x (HD x Hx)) as (-> & _), (s_one y (HD y Hy)) as (-> & _). reflexivity.
    + exact demo_types.
    + exact demo_recorded.
    + intros x y Hx Hy Ht. destruct (s_one x (HD x Hx)) as (Tx & Cx), (s_one y (HD y Hy)) as (Ty & Cy).
      apply touch_near in Ht; [|lia|lia|rewrite Tx; reflexivity|rewrite Ty; reflexivity].
      rewrite Tx, Ty in Ht. change (size 64 (AInt 32)) with 4 in Ht. right. right.
      destruct Cx as [[Ax Sx]|[Ax Sx]], Cy as [[Ay Sy]|[Ay Sy]]; try lia;
        eexists; rewrite Sx, Sy; (split; [reflexivity|]); (split; [reflexivity|]); right; unfold same_base; rewrite Ax, Ay, Sx, Sy; reflexivity.
    + intros x y k Hx Hy Nx Ny (O1 & _). destruct (s_one x (HD x Hx)) as (_ & [[Ax Sx]|[Ax Sx]]), (s_one y (HD y Hy)) as (_ & [[Ay Sy]|[Ay Sy]]);
        unfold same_base; rewrite Sx in *; rewrite Sy in *; cbn in Nx, Ny; try (rewrite Ax, Ay; reflexivity); congruence.
  - intros a w A H. apply s_ok_cases in H as [_ H]. lia.
  - intros a w A a' w' A' i j H H' Hi Hj E. apply s_ok_cases in H as [-> H], H' as [-> H']. change (bytes_needed (Program.width I32)) with 4 in *.
    split; [|reflexivity]. unfold Program.bytes_at in E. change (2 ^ 64) with 18446744073709551616 in E.
    rewrite !Z.mod_small in E by lia. lia.
Qed.
Lemma s_well_formed : awell_formed s_program.
Proof.
  split; try (intros f F [E|[]]; wfprog E).
  - intros f F l b e l1 l2 [E|[]] Hl Ht. injection E as <- <-. unfold block_of in Hl. cbn in Hl. destruct (label_eqb l (Blk 0)); [|discriminate]. injection Hl as <-. discriminate.
  - intros f F x n [E|[]] Hx. injection E as <- <-. exact (dG_widths _ _ Hx).
Qed.
Lemma s_heap_den : forall all r, exact_den all dG r s_heap = Some (VBv 64 2008).
Proof. reflexivity. Qed.
Lemma s_clean : forall all call s0 (m : mem), lstart (acode s_main) [] m = Some s0 ->
  clean (exact_den all dG) (described_op s_ok call) no_ainvoke bv_true bv_eq (acode s_main) (fun e => e = Undefined) s0.
Proof.
  intros all call s0 m H. cbn in H. injection H as <-.
  eapply clean_prim; [reflexivity|]. intros t v m' H.
  inversion H as [? ? ? ? ? ? Hx Ht|? ? ? ? ? Ht]; subst; [|destruct Ht; exact I].
  inversion Hx as [| |? x ? Ha| | | |]; subst. split; [constructor|]. cbn [updo]. change (Program.width I32) with 32 in *. clear H Hx Ht.
  eapply clean_assign; [apply d_small_den with (a := x); [reflexivity|exact Ha]|].
  eapply clean_assign; [eapply d_zext_den; reflexivity|].
  eapply clean_prim; [unfold evals; cbn [map]; rewrite (d_reg_den all _ "z" eq_refl (b2z (signed 32 x <? 100)) eq_refl) by (destruct (signed 32 x <? 100); unfold is_iN; cbn; lia); reflexivity|].
  intros t v m1 H. inversion H as [? ? ? ? ? ? Hx Ht|? ? ? ? ? Ht]; subst; [|destruct Ht; reflexivity].
  inversion Hx as [| | |z ? ? Hz| | |]; subst. split; [constructor|]. cbn [updo]. clear H Hx Ht.
  assert (signed 32 x < 100) as Hs by (destruct (Z.ltb_spec (signed 32 x) 100); [assumption|now destruct Hz]).
  eapply clean_assign; [eapply d_inc_den; [reflexivity|exact Ha|exact Hs]|].
  assert (is_iN 32 ((x + 1) mod 2 ^ 32)) as Hy by (apply Z.mod_pos_bound; lia).
  eapply clean_prim; [unfold evals; cbn [map]; rewrite d_address_den, (d_reg_den all _ "y" eq_refl _ eq_refl Hy); reflexivity|].
  intros t v1 m2 H. inversion H as [? ? ? ? ? ? Hx Ht|? ? ? ? ? Ht]; subst; [|destruct Ht; repeat split].
  inversion Hx; subst. split; [constructor|]. cbn [updo]. clear H Hx Ht.
  eapply clean_prim; [unfold evals; cbn [map]; rewrite s_heap_den, (d_reg_den all _ "x" eq_refl _ eq_refl Ha); reflexivity|].
  intros t v5 m5 H. inversion H as [? ? ? ? ? ? Hx Ht|? ? ? ? ? Ht]; subst; [|destruct Ht; repeat split].
  inversion Hx; subst. split; [constructor|]. cbn [updo]. clear H Hx Ht.
  eapply clean_prim; [reflexivity|].
  intros t v2 m3 H. inversion H as [? ? ? ? ? ? Hx Ht|? ? ? ? ? Ht]; subst; [|destruct Ht; repeat split].
  inversion Hx as [? ? ? u| | | | | |]; subst. split; [constructor|]. cbn [updo]. clear H Hx Ht.
  assert (is_iN 32 (pat 32 u)) as Hu by (apply Z.mod_pos_bound; lia). change (Program.width I32) with 32.
  eapply clean_assign; [apply d_not50_den with (a := pat 32 u); [reflexivity|exact Hu]|].
  eapply clean_assign; [eapply d_zext_den; reflexivity|].
  eapply clean_prim; [unfold evals; cbn [map]; rewrite (d_reg_den all _ "w" eq_refl (b2z (negb (pat 32 u =? 50))) eq_refl) by (destruct (pat 32 u =? 50); unfold is_iN; cbn; lia); reflexivity|].
  intros t v3 m4 H. inversion H as [? ? ? ? ? ? Hx Ht|? ? ? ? ? Ht]; subst; [|destruct Ht; reflexivity].
  assert (clean (exact_den all dG) (described_op s_ok call) no_ainvoke bv_true bv_eq (acode s_main) (fun e => e = Undefined)
    (LRun (Blk 0) [] (updo (upd (upd (upd (upd (upd (upd (upd (fun _ => None) "x" (VBv 32 x)) "c" (VBv 1 (b2z (signed 32 x <? 100)))) "z" (VBv 32 (b2z (signed 32 x <? 100)))) "y" (VBv 32 ((x + 1) mod 2 ^ 32))) "u" (VBv 32 (pat 32 u)))
      "d" (VBv 1 (b2z (negb (pat 32 u =? 50))))) "w" (VBv 32 (b2z (negb (pat 32 u =? 50))))) None v3) m4)) as Hr.
  { eapply clean_ret; [reflexivity|reflexivity|]. cbn [updo]. rewrite (d_reg_den all _ "u" eq_refl (pat 32 u) eq_refl Hu). discriminate. }
  split; [|exact Hr]. clear - Hx. inversion Hx; subst; [apply Forall_nil|]. apply Forall_cons; [discriminate|apply Forall_nil].
Qed.
Lemma s_exact : forall all m, ~ can_be_undescribed all s_ok s_program "main" [] m.
Proof.
  intros all m ([|n] & t & v & m' & H & _); [destruct H|]. destruct H as (F' & Hf & _ & H). cbn in Hf. injection Hf as <-.
  assert (forall l, ~ Forall (fun e => e <> Undefined) (l ++ [Undefined])) as Hno.
  { intros l Hl2. apply Forall_app in Hl2. destruct Hl2 as [_ Hl2]. inversion Hl2. congruence. }
  destruct H as [(r & (s0 & s & H1 & H2 & _) & _)|[[(s0 & s & H1 & H2 & _) _]|(t0 & E & (s0 & s & H1 & H2 & H3))]].
  - exact (Hno _ (proj1 (s_clean _ _ _ _ H1 _ _ H2))).
  - exact (Hno _ (proj1 (s_clean _ _ _ _ H1 _ _ H2))).
  - exact (proj2 (s_clean _ _ _ _ H1 _ _ H2) H3).
Qed.
Lemma mem49_bytes : byte_memory (fun q => if q =? 2008 then 49 else proj1_sig mem50 q).
Proof. intros a. destruct (a =? 2008); [lia|apply (proj2_sig mem50)]. Qed.
Definition mem49 : mem := exist _ _ mem49_bytes.
Ltac four_bytes i Hi := change (bytes_needed (Program.width I32)) with 4 in Hi;
  assert (i = 0 \/ i = 1 \/ i = 2 \/ i = 3) as [->|[->|[->| ->]]] by lia; reflexivity.
Lemma s_fails : can_fail (plain s_program) "main" [] zero_mem.
Proof.
  exists 1%nat, [], (VBv 1 0), mem49. split; [|split; intros []].
  exists (plain_fn s_main). split; [reflexivity|]. split; [reflexivity|]. right. left. split; [|left; now left].
  eexists _, _. split; [reflexivity|]. split.
  - eapply (lsteps_cons _ _ _ _ _ _ _ []); [eapply L_prim; [reflexivity|apply (X_input _ I32 49); unfold is_iN; cbn; lia]|].
    do 2 (eapply (lsteps_cons _ _ _ _ _ _ _ []); [eapply L_assign; reflexivity|]).
    eapply (lsteps_cons _ _ _ _ _ _ _ []); [eapply L_prim; [reflexivity|apply (X_assume _ 1 zero_mem (VBv 1 0)); lia]|].
    eapply (lsteps_cons _ _ _ _ _ _ _ []); [eapply L_assign; reflexivity|].
    eapply (lsteps_cons _ _ _ _ _ _ _ []); [eapply L_prim; [reflexivity|]|].
    { apply (X_store _ I32 1000 50 zero_mem mem50 (VBv 1 0)); [unfold is_iN; cbn; lia|unfold is_iN; cbn; lia|]. split.
      - intros i Hi. four_bytes i Hi.
      - intros q Hq. cbn. destruct (Z.eqb_spec q 1000) as [->|]; [|reflexivity].
        exfalso. apply (Hq 0); [cbn; lia|reflexivity]. }
    eapply (lsteps_cons _ _ _ _ _ _ _ []); [eapply L_prim; [reflexivity|]|].
    { apply (X_store _ I32 2008 49 mem50 mem49 (VBv 1 0)); [unfold is_iN; cbn; lia|unfold is_iN; cbn; lia|]. split.
      - intros i Hi. four_bytes i Hi.
      - intros q Hq. cbn. destruct (Z.eqb_spec q 2008) as [->|]; [|reflexivity].
        exfalso. apply (Hq 0); [cbn; lia|reflexivity]. }
    eapply (lsteps_cons _ _ _ _ _ _ _ []); [eapply L_prim; [reflexivity|apply (X_load _ I32 1000 mem49 50); [unfold is_iN; cbn; lia|]]|].
    { split; [cbn; lia|]. intros i Hi. four_bytes i Hi. }
    do 2 (eapply (lsteps_cons _ _ _ _ _ _ _ []); [eapply L_assign; reflexivity|]).
    eapply (lsteps_cons _ _ _ _ _ _ _ [Failed] _ []); [eapply L_prim; [reflexivity|apply (X_assert_fails _ mem49 (VBv 1 0))]|].
    constructor.
  - reflexivity.
Qed.
Example C67_nonvacuous : awell_formed s_program /\ describes demo_nodes demo_accesses s_ok /\
  (forall all m, ~ can_be_undescribed all s_ok s_program "main" [] m) /\
  (region_at demo_nodes demo_accesses the_global = Region false true "$M.3" /\ region_at demo_nodes demo_accesses int_field = Region false false "$M.2") /\
  can_fail (plain s_program) "main" [] zero_mem /\ (exists Ms, same_regions demo_nodes demo_accesses s_ok zero_mem Ms) /\
  forall I ndebug Ms, meets_axioms default_flags I -> same_regions demo_nodes demo_accesses s_ok zero_mem Ms ->
    split_can_fail I demo_nodes demo_accesses s_program ndebug "main" [] Ms.
Proof.
  split; [exact s_well_formed|]. split; [exact s_describes|]. split; [exact s_exact|]. split; [split; reflexivity|]. split; [exact s_fails|].
  split; [exact (C67_memory_described _ _ _ _ s_describes)|]. intros I ndebug Ms HI HM.
  apply (C67_same_verdict s_program demo_nodes demo_accesses s_ok ndebug "main" [] zero_mem Ms s_well_formed s_describes (Forall_nil _) HM (s_exact false zero_mem) I HI).
  exact s_fails.
Qed.

(** ** Outside of what the points-to graph describes *)
Definition m_one : typed dG width_ok.
Proof. exists (Op (VConst 32 1)). abstract ewt. Defined.
Definition m_zero : typed dG width_ok.
Proof. exists (Op (VConst 32 0)). abstract ewt. Defined.
Definition m_fn : afn := AFn dG (Func [] (Blk 0)
  [ (Blk 0, Block [] [SPrim None (at_global (Store I32)) [m_one; d_address]; SPrim None (at_heap (Store I32)) [m_zero; d_address];
                      SPrim (Some "u") (at_global (Load I32)) [d_address]; SPrim None (at_global Assert) [d_reg "u" eq_refl]] (TRet None)) ]) [].
Definition m_program : aprogram := [("mix", m_fn)].
Lemma m_well_formed : awell_formed m_program.
Proof.
  split; try (intros f F [E|[]]; wfprog E).
  - intros f F l b e l1 l2 [E|[]] Hl Ht. injection E as <- <-. unfold block_of in Hl. cbn in Hl. destruct (label_eqb l (Blk 0)); [|discriminate]. injection Hl as <-. discriminate.
  - intros f F x n [E|[]] Hx. injection E as <- <-. exact (dG_widths _ _ Hx).
Qed.
Definition word_set (m : mem) (b : Z) (Hb : 0 <= b < 256) : mem.
Proof.
  exists (fun q => if q =? 1000 then b else if (1001 <=? q) && (q <=? 1003) then 0 else proj1_sig m q).
  abstract (intros a; destruct (a =? 1000); [lia|]; destruct ((1001 <=? a) && (a <=? 1003)); [lia|apply (proj2_sig m)]).
Defined.
Lemma word_stored : forall m b Hb, written (bytes_at 1000) (bytes_needed (Program.width I32)) b (proj1_sig m) (proj1_sig (word_set m b Hb)).
Proof.
  intros m b Hb. split.
  - intros i Hi. change (bytes_needed (Program.width I32)) with 4 in Hi.
    assert (forall k, 256 <= 2 ^ (8 * k) -> 0 = byte_of b k) as Hz by (intros k Hk; unfold byte_of; rewrite Z.div_small by lia; reflexivity).
    assert (i = 0 \/ i = 1 \/ i = 2 \/ i = 3) as [->|[->|[->| ->]]] by lia; [|apply (Hz 1); lia|apply (Hz 2); lia|apply (Hz 3); lia].
    change (b = byte_of b 0). unfold byte_of. change (2 ^ (8 * 0)) with 1. rewrite Z.div_1_r, Z.mod_small; lia.
  - intros q Hq. cbn. destruct (Z.eqb_spec q 1000) as [->|]; [exfalso; apply (Hq 0); [cbn; lia|reflexivity]|].
    destruct ((1001 <=? q) && (q <=? 1003)) eqn:E; [|reflexivity]. exfalso. apply (Hq (q - 1000)); [cbn; lia|]. unfold Program.bytes_at. rewrite Z.mod_small; lia.
Qed.
Lemma m_fails : forall m, can_fail (plain m_program) "mix" [] m.
Proof.
  intros m.
  set (m1 := word_set m 1 ltac:(lia)). set (m2 := word_set m1 0 ltac:(lia)).
  exists 1%nat, [], (VBv 1 0), m2. split; [|split; intros []].
  exists (plain_fn m_fn). split; [reflexivity|]. split; [reflexivity|]. right. left. split; [|left; now left].
  eexists _, _. split; [reflexivity|]. split.
  - eapply (lsteps_cons _ _ _ _ _ _ _ []); [eapply L_prim; [reflexivity|]|].
    { apply (X_store _ I32 1000 1 m m1 (VBv 1 0)); [unfold is_iN; cbn; lia|unfold is_iN; cbn; lia|apply word_stored]. }
    eapply (lsteps_cons _ _ _ _ _ _ _ []); [eapply L_prim; [reflexivity|]|].
    { apply (X_store _ I32 1000 0 m1 m2 (VBv 1 0)); [unfold is_iN; cbn; lia|unfold is_iN; cbn; lia|apply word_stored]. }
    eapply (lsteps_cons _ _ _ _ _ _ _ []); [eapply L_prim; [reflexivity|apply (X_load _ I32 1000 m2 0); [unfold is_iN; cbn; lia|]]|].
    { split; [cbn; lia|]. intros i Hi. four_bytes i Hi. }
    eapply (lsteps_cons _ _ _ _ _ _ _ [Failed] _ []); [eapply L_prim; [reflexivity|apply (X_assert_fails _ m2 (VBv 1 0))]|]. constructor.
  - reflexivity.
Qed.
(** The graph says that two pointers are to different objects, and both are to the
    address 1000: [*p = 1; *q = 0; assert( *p)] fails; the verifier finds no failure. *)
Theorem C67_mixing_refuted : exists q dsa ptrs f, awell_formed q /\ Forall proper ptrs /\
  forall m, can_fail (plain q) f [] m /\ forall I ndebug Ms, ~ split_can_fail I dsa ptrs q ndebug f [] Ms.
Proof.
  exists m_program, demo_nodes, demo_accesses, "mix". split; [exact m_well_formed|]. split; [exact demo_proper|]. intros m. split.
  - apply m_fails.
  - intros I ndebug Ms.
    assert (forall call r0 exn s0 t s, bstart (trans_default ndebug) (runOnFunction (acode m_fn) (aloops m_fn)) [] r0 exn Ms = Some s0 ->
      bsteps (trans_default ndebug) (eval_default I) (rexec_op I demo_nodes demo_accesses call) no_rinvoke int_true int_eq (runOnFunction (acode m_fn) (aloops m_fn)) s0 t s ->
      t = []) as Hs.
    { intros call r0 exn s0 t s H1 H2. cbn in H1. injection H1 as <-.
      apply bsteps_head in H2. destruct H2 as [[_ ->]|(t1 & s1 & t2 & Hs & H2 & ->)]; [reflexivity|].
      inversion Hs as [|? ? ? vs ? ? ? ? ? ? ? ? ? Hv Hp| | | | | | | |]; subst. inversion Hv as [|? w1 ? ? Hv1 Hv2]; subst. inversion Hv2 as [|? w2 ? ? Hv3 Hv4]; subst. inversion Hv4; subst.
      vm_compute in Hv1. vm_compute in Hv3. subst w1 w2. clear Hs Hv Hv2 Hv4.
      inversion Hp as [|? ? ? ? ? V ? ? Hc| | | | |]; subst. vm_compute in Hc. destruct Hc as [_ [= <-]]. clear Hp. cbn [bupdo] in *.
      apply bsteps_head in H2. destruct H2 as [[_ ->]|(t1 & s1 & t3 & Hs & H2 & ->)]; [reflexivity|].
      inversion Hs as [|? ? ? vs ? ? ? ? ? ? ? ? ? Hv Hp| | | | | | | |]; subst. inversion Hv as [|? w1 ? ? Hv1 Hv2]; subst. inversion Hv2 as [|? w2 ? ? Hv3 Hv4]; subst. inversion Hv4; subst.
      vm_compute in Hv1. vm_compute in Hv3. subst w1 w2. clear Hs Hv Hv2 Hv4.
      inversion Hp as [|? ? ? ? ? V ? ? Hc| | | | |]; subst. clear Hp Hc. cbn [bupdo] in *.
      apply bsteps_head in H2. destruct H2 as [[_ ->]|(t1 & s1 & t4 & Hs & H2 & ->)]; [reflexivity|].
      inversion Hs as [|? ? ? vs ? ? ? ? ? ? ? ? ? Hv Hp| | | | | | | |]; subst. inversion Hv as [|? w1 ? ? Hv1 Hv2]; subst. inversion Hv2; subst.
      vm_compute in Hv1. subst w1. clear Hs Hv Hv2.
      inversion Hp as [? ? ? ? ? ? Hc| | | | | |]; subst. vm_compute in Hc. destruct Hc as [_ [= <-]]. clear Hp. cbn [bupdo] in *.
      apply bsteps_head in H2. destruct H2 as [[_ ->]|(t1 & s1 & t5 & Hs & H2 & ->)]; [reflexivity|].
      inversion Hs as [|? ? ? vs ? ? ? ? ? ? ? ? ? Hv Hp| | | | | | | |]; subst. inversion Hv as [|? w1 ? ? Hv1 Hv2]; subst. inversion Hv2; subst.
      vm_compute in Hv1. subst w1. clear Hs Hv Hv2.
      inversion Hp as [| | | |? ? ? ? Hc|? ? ? ? Hc|]; subst; [|apply check_int_value in Hc; discriminate]. cbn [bupdo] in *. clear Hp Hc.
      apply bsteps_head in H2. destruct H2 as [[_ ->]|(t1 & s1 & t6 & Hs & H2 & ->)]; [reflexivity|]. inversion Hs; subst. clear Hs.
      apply bsteps_head in H2. destruct H2 as [[_ ->]|(t1 & s1 & t7 & Hs & H2 & ->)]; [reflexivity|]. inversion Hs; subst. clear Hs.
      apply bsteps_head in H2. destruct H2 as [[_ ->]|(t1 & s1 & t8 & Hs & H2 & ->)]; [reflexivity|]. inversion Hs. }
    intros ([|n] & t & v & m' & H & Hf); [destruct H|]. destruct H as (F & r0 & exn & Hfind & _ & H). cbn in Hfind. injection Hfind as <-.
    destruct H as [(r & (s0 & s & H1 & H2 & _) & _)|[(s0 & s & H1 & H2 & _) _]]; apply (Hs _ _ _ _ _ _ H1) in H2; subst t; destruct Hf.
Qed.
Print Assumptions C67_mixing_refuted.
