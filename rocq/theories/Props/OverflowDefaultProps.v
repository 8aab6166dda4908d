(** C71: C70 with the default flags – unbounded integers and memory as cells of
    one type each – as long as the program stays within what this encoding
    describes.  A signed operation that overflows where this is reported does.

    Vocabulary: Spec/OverflowProgram.v (programs, [can_get_to], [ocan_return],
    [owell_formed]), Spec/OverflowDefault.v ([ocan_be_inexact], [owell_typed]),
    Spec/DefaultMode.v ([layout_ok], [same_memory]); [overflow_pass] of
    Model/OverflowProgram.v is the pass; [default_can_fail] of
    Model/DefaultMode.v is what the verifier looks for. *)
From Coq Require Import ZArith List String Bool Lia.
From Verif.Spec Require Import LLVMInt IR CFG BitVectorIR ByteMemory Encodings Program DefaultMode OverflowProgram OverflowDefault.
From Verif.Spec Require Overflow.
From Verif.Model Require Import Boogie PreludeInt SmackRepInt ControlFlow NormalizeLoops WholeProgram DefaultMode OverflowProgram.
From Verif.Proofs Require Import CFGBase SSACheck ControlExamples IntMain DefaultExpr DefaultSim OverflowPass OverflowSim OverflowWhole OverflowDefaultExpr OverflowDefaultSim OverflowDefaultWhole.
From Verif.Props Require Import OverflowProgramProps DefaultModeProps.
Import ListNotations.
Open Scope string_scope.
Open Scope list_scope.
Open Scope Z_scope.

Section C71.
  (** [ly]: the type of what is at each address; [reported]: the functions named
      by --checked-functions; [ndebug]: how LLVM was built *)
  Context (p : oprogram) (ly : layout) (reported : string -> bool) (ndebug : bool) (f : string) (args : list val) (m : mem) (M : Z -> Z).
  Notation checked := (overflow_pass reported p).

  (** No overflow is missed: if the verifier proves that the Boogie program cannot
      fail, then no execution of the program overflows in a reported function, or
      gets to a failing assertion. *)
  Theorem C71_no_missed_overflows : owell_formed source_name p -> owell_typed p -> layout_ok ly -> Forall machine_int args -> same_memory ly m M ->
    ~ ocan_be_inexact true ly reported p f args m ->
    (forall I, meets_axioms default_flags I -> ~ default_can_fail I checked ndebug f (map as_int args) M) ->
    ~ can_get_to reported p Overflow f args m /\ ~ can_get_to reported p OFailed f args m.
  Proof.
    intros Hwf Hwt Hly Ha HM Hx H.
    assert (forall e, e <> OUndefined -> ~ can_get_to reported p e f args m) as Hno.
    { intros e He Hg. destruct (overflow_found true ly Hly reported p Hwf Hwt (machine_interp UnboundedInteger) ndebug (or_intror (conj eq_refl eq_refl)) args Ha e f m M He HM Hg) as [H1|H1];
        [|exact (Hx H1)].
      exact (H _ (machine_meets_axioms UnboundedInteger false) H1). }
    split; apply Hno; discriminate.
  Qed.
  (** No false alarms, whatever the verifier assumes about the functions the
      prelude leaves open (bitwise operations other than and, or, xor on i1: they
      count as inexact here). *)
  Theorem C71_no_false_alarms : owell_formed source_name p -> owell_typed p -> layout_ok ly -> Forall machine_int args -> same_memory ly m M ->
    ~ ocan_be_inexact false ly reported p f args m ->
    forall I, meets_axioms default_flags I -> default_can_fail I checked ndebug f (map as_int args) M ->
    can_get_to reported p Overflow f args m \/ can_get_to reported p OFailed f args m.
  Proof.
    intros Hwf Hwt Hly Ha HM Hx I HI H.
    destruct (overflow_real false ly Hly reported p Hwf Hwt I ndebug (or_introl (conj eq_refl HI)) args Ha f m M HM H) as [H1|[H1|H1]]; [auto|auto|destruct (Hx H1)].
  Qed.
  Theorem C71_same_verdict : owell_formed source_name p -> owell_typed p -> layout_ok ly -> Forall machine_int args -> same_memory ly m M ->
    ~ ocan_be_inexact false ly reported p f args m ->
    forall I, meets_axioms default_flags I ->
    (default_can_fail I checked ndebug f (map as_int args) M <-> can_get_to reported p Overflow f args m \/ can_get_to reported p OFailed f args m).
  Proof.
    intros Hwf Hwt Hly Ha HM Hx I HI. split; [now apply C71_no_false_alarms|].
    assert (forall e, e <> OUndefined -> can_get_to reported p e f args m -> default_can_fail I checked ndebug f (map as_int args) M) as Hyes.
    { intros e He Hg. destruct (overflow_found false ly Hly reported p Hwf Hwt I ndebug (or_introl (conj eq_refl HI)) args Ha e f m M He HM Hg) as [H1|H1]; [exact H1|destruct (Hx H1)]. }
    intros [H|H]; [apply (Hyes Overflow)|apply (Hyes OFailed)]; (discriminate || exact H).
  Qed.
  (** The results are the same as well: the value as a signed number, and the
      memory. *)
  Theorem C71_same_results : owell_formed source_name p -> owell_typed p -> layout_ok ly -> Forall machine_int args -> same_memory ly m M ->
    ~ ocan_be_inexact false ly reported p f args m -> forall I, meets_axioms default_flags I ->
    (forall v m', ocan_return reported p f args m v m' ->
       exists n w M', icalls I checked ndebug n f (map as_int args) M [] w M' /\ (machine_int v -> w = as_int v) /\ same_memory ly m' M') /\
    (forall n w M', icalls I checked ndebug n f (map as_int args) M [] w M' ->
       exists v m', ocan_return reported p f args m v m' /\ (machine_int v -> w = as_int v) /\ same_memory ly m' M').
  Proof.
    intros Hwf Hwt Hly Ha HM Hx I HI. pose proof (args_related args Ha) as Har.
    pose proof (icalls_match false ly Hly reported p Hwf Hwt I ndebug (or_introl (conj eq_refl HI))) as Hm. split.
    - intros v m' (n & H). destruct (oplain_exact false ly reported p Hwf n f args m [] v m' (fun E => E) H) as [H1|(u & v1 & m1 & (a & b & E & ->) & H1)].
      + destruct (proj1 (proj1 (Hm n) _ _ _ _ _ _ _ _ H1 Har HM) eq_refl) as (w & M' & H2 & H3 & H4). exists n, w, M'. auto.
      + destruct a; [|discriminate]. destruct Hx. exists n, v1, m1. exact H1.
    - intros n w M' H. destruct (proj1 (proj2 (Hm n) _ _ _ _ _ _ _ _ H Har HM) eq_refl) as [(v & m' & H1 & H2 & H3)|(v & m' & H1)].
      + exists v, m'. split; [|auto]. exists n. apply (oexact_calls_plain false ly reported p Hwf); [intros []|exact H1].
      + destruct Hx. exists n, v, m'. exact H1.
  Qed.
End C71.
Print Assumptions C71_no_missed_overflows.
Print Assumptions C71_no_false_alarms.
Print Assumptions C71_same_verdict.
Print Assumptions C71_same_results.

(** ** The example of C70: [inc(x)] adds one, checked. *)
Lemma oW_widths : forall x n, oW x = Some n -> 1 <= n.
Proof.
  intros x n H. unfold oW in H. cbn [existsb] in H.
  repeat match type of H with context [String.eqb x ?y] => destruct (String.eqb x y) end; cbn in H; try discriminate; injection H as <-; lia.
Qed.
Lemma inc_well_typed : owell_typed inc_program.
Proof.
  split.
  - intros f F l b e l1 l2 [E|[]] Hb Ht. injection E as <- <-. apply lookup_in in Hb. destruct Hb as [Hb|[Hb|[Hb|[]]]]; injection Hb as <- <-; cbn in Ht; try discriminate.
    injection Ht as <- _ _. reflexivity.
  - intros f F x n [E|[]]. injection E as <- <-. apply oW_widths.
Qed.
Ltac enext H Hs := apply lsteps_head in H; destruct H as [[<- ->]|(? & ? & ? & Hs & H & ->)];
  [left; split; [reflexivity|]; let Hw := fresh "Hw" in intros Hw; cbn in Hw;
   try (let E := fresh "E" in destruct Hw as (? & E & Hw); injection E as <-; cbn in Hw); discriminate|].
(** Neither with 5 nor with the largest number is anything inexact. *)
Lemma inc_exact_steps : forall ly call x s0 m t s, In x [5; 2 ^ 31 - 1] -> lstart (ocode inc_fn) [VBv 32 x] m = Some s0 ->
  lsteps (oexact_den false oW) (exact_oop ly true call) no_oinvoke bv_true bv_eq (ocode inc_fn) s0 t s ->
  (t = [] /\ ~ goes_wrong (oexact_den false oW) no_oinvoke bv_true bv_eq (ocode inc_fn) s) \/ exists t0, t = Overflow :: t0.
Proof.
  intros ly call x s0 m t s Hx H1 H. destruct Hx as [<-|[<-|[]]]; cbn in H1; injection H1 as <-.
  - enext H Hs. inversion Hs as [|? ? ? ? ? ? ? ? ? ? ? He Hp| | | | | | |]; subst. cbn in He. injection He as <-.
    inversion Hp as [? ? ? ? ? ? Hp'|? ? ? ? ? Hn]; subst; [|destruct Hn; left; reflexivity].
    inversion Hp' as [| |? ? ? a b ? Ra Rb Ho|? ? ? a b ? u Ra Rb Ho|]; subst; [|cbn in Ho; discriminate]. clear Hs Hp Hp' Ra Rb Ho. cbn [updo] in H.
    enext H Hs. inversion Hs as [? ? ? ? ? ? ? Hv| | | | | | | |]; subst. cbn in Hv. injection Hv as <-. clear Hs.
    enext H Hs. inversion Hs as [? ? ? ? ? ? ? Hv| | | | | | | |]; subst. cbn in Hv. injection Hv as <-. clear Hs.
    enext H Hs. inversion Hs as [| |? ? ? b Hb Ht|? ? ? b ? ? Hb Ht|? ? ? b ? ? Hb Ht|? ? ? b ? ? ? Hb Ht|? ? ? b ? ? ? ? ? ? Hb Ht Hv Hn|? ? ? b ? ? ? ? ? ? Hb Ht|? ? ? b ? ? ? ? ? ? ? ? ? ? ? ? Hb Ht]; subst;
      cbn in Hb; injection Hb as <-; cbn in Ht; try discriminate. injection Ht as <- <- <-. cbn in Hv. injection Hv as <-. cbn in Hn. injection Hn as <- <-. clear Hs.
    enext H Hs. inversion Hs as [| |? ? ? b Hb Ht|? ? ? b ? ? Hb Ht|? ? ? b ? ? Hb Ht|? ? ? b ? ? ? Hb Ht|? ? ? b ? ? ? ? ? ? Hb Ht Hv Hn|? ? ? b ? ? ? ? ? ? Hb Ht|? ? ? b ? ? ? ? ? ? ? ? ? ? ? ? Hb Ht]; subst;
      cbn in Hb; injection Hb as <-; cbn in Ht; try discriminate. clear Hs.
    apply lsteps_head in H. destruct H as [[<- ->]|(? & ? & ? & Hs & _ & _)]; [left; split; [reflexivity|intros []]|inversion Hs].
  - enext H Hs. inversion Hs as [|? ? ? ? ? ? ? ? ? ? ? He Hp| | | | | | |]; subst. cbn in He. injection He as <-.
    inversion Hp as [? ? ? ? ? ? Hp'|? ? ? ? ? Hn]; subst; [|destruct Hn; left; reflexivity].
    inversion Hp' as [| |? ? ? a b ? Ra Rb Ho|? ? ? a b ? u Ra Rb Ho|]; subst; [cbn in Ho; discriminate|]. right. cbn. eauto.
Qed.
Lemma inc_exact : forall ly x m, In x [5; 2 ^ 31 - 1] -> ~ ocan_be_inexact false ly all_functions inc_program "inc" [VBv 32 x] m.
Proof.
  intros ly x m Hx ([|n] & v & m' & H); [destruct H|]. destruct H as (F & Hf & _ & H). cbn in Hf. injection Hf as <-.
  destruct H as [(r & (s0 & s & H1 & H2 & _) & _)|[[(s0 & s & H1 & H2 & _) _]|(t0 & E & (s0 & s & H1 & H2 & H3))]];
    destruct (inc_exact_steps _ _ _ _ _ _ _ Hx H1 H2) as [[H4 H5]|(t1 & H4)]; try discriminate.
  - destruct (H5 H3).
  - subst t0. destruct t1; discriminate.
Qed.
Definition empty_layout : layout := fun _ => None.
Lemma empty_layout_ok : layout_ok empty_layout.
Proof. split; [intros a w E; discriminate|intros; discriminate]. Qed.
Example C71_nonvacuous : owell_formed source_name inc_program /\ owell_typed inc_program /\ layout_ok empty_layout /\
  forall m M, same_memory empty_layout m M /\
    (forall x, In x [5; 2 ^ 31 - 1] -> Forall machine_int [VBv 32 x] /\ ~ ocan_be_inexact false empty_layout all_functions inc_program "inc" [VBv 32 x] m) /\
    forall I ndebug, meets_axioms default_flags I ->
      default_can_fail I (overflow_pass all_functions inc_program) ndebug "inc" [VInt (2 ^ 31 - 1)] M /\
      ~ default_can_fail I (overflow_pass all_functions inc_program) ndebug "inc" [VInt 5] M.
Proof.
  split; [exact inc_well_formed|]. split; [exact inc_well_typed|]. split; [exact empty_layout_ok|]. intros m M.
  assert (same_memory empty_layout m M) as HM by (intros a w v E; discriminate).
  assert (forall x, In x [5; 2 ^ 31 - 1] -> Forall machine_int [VBv 32 x]) as Ha.
  { intros x Hx. constructor; [|constructor]. exists 32, x. split; [reflexivity|]. destruct Hx as [<-|[<-|[]]]; unfold is_iN; lia. }
  split; [exact HM|]. split; [intros x Hx; split; [now apply Ha|now apply inc_exact]|]. intros I ndebug HI. split.
  - apply (C71_same_verdict inc_program empty_layout all_functions ndebug "inc" [VBv 32 (2 ^ 31 - 1)] m M inc_well_formed inc_well_typed empty_layout_ok
             (Ha _ (or_intror (or_introl eq_refl))) HM (inc_exact _ _ _ (or_intror (or_introl eq_refl))) I HI). left. apply inc_overflows.
  - intros H. destruct (C71_no_false_alarms inc_program empty_layout all_functions ndebug "inc" [VBv 32 5] m M inc_well_formed inc_well_typed empty_layout_ok
             (Ha _ (or_introl eq_refl)) HM (inc_exact _ _ _ (or_introl eq_refl)) I HI H) as [(n & v & m' & H1)|(n & v & m' & H1)]; apply inc_calls in H1; discriminate.
Qed.

(** ** Unsigned operations: [add(x): d = uadd.with.overflow.i32(x, 1)] *)
Definition uadd_fn : ofn := OFn oW oP (Func ["x"] (Blk 0)
  [ (Blk 0, Block [] [SPrim (Some "d") (With false Overflow.OAdd 32) [o_reg 32 "x"; o_const 1]] (TRet None)) ]) [].
Definition uadd_program : oprogram := [("add", uadd_fn)].
Lemma uadd_well_formed : owell_formed source_name uadd_program.
Proof.
  split; intros f F [E|[]]; injection E as <- <-; [owf|owf|owf|owf|]. split; [exact o_regs|exact o_pairs|intros x [<-|[]]; okay|].
  intros l b [E|[]]; injection E as <- <-; unfold block_ok; cbn [phis body bterm term_ok]; okay.
  cbn [stmt_ok]. exists "d", (VReg 32 "x"), (VConst 32 1). cbn [wt_value]. okay.
Qed.
Lemma uadd_well_typed : owell_typed uadd_program.
Proof.
  split.
  - intros f F l b e l1 l2 [E|[]] Hb Ht. injection E as <- <-. apply lookup_in in Hb. destruct Hb as [Hb|[]]; injection Hb as <- <-; cbn in Ht; discriminate.
  - intros f F x n [E|[]]. injection E as <- <-. apply oW_widths.
Qed.
Lemma uadd_overflows : forall m, can_get_to all_functions uadd_program Overflow "add" [VBv 32 (2 ^ 32 - 1)] m.
Proof.
  intros m. exists 1%nat, (VBv 1 0), m. exists uadd_fn. split; [reflexivity|]. split; [reflexivity|]. right. left. split; [|discriminate].
  eexists _, _. split; [reflexivity|]. split.
  - eapply (lsteps_cons _ _ _ _ _ _ _ [Overflow] _ []); [|constructor].
    eapply L_prim; [reflexivity|]. apply (O_overflow _ _ false Overflow.OAdd 32 (2 ^ 32 - 1) 1 m (VBv 1 0)); [small|small|reflexivity].
  - reflexivity.
Qed.
Lemma uadd_fits : forall e m, ~ can_get_to all_functions uadd_program e "add" [VBv 32 (2 ^ 31)] m.
Proof.
  intros e m ([|n] & v & m' & H); [destruct H|]. destruct H as (F & Hf & _ & H). cbn in Hf. injection Hf as <-.
  assert (forall call s0 t s, lstart (ocode uadd_fn) [VBv 32 (2 ^ 31)] m = Some s0 ->
    lsteps (oexp_den oW) (exec_oop true call) no_oinvoke bv_true bv_eq (ocode uadd_fn) s0 t s ->
    t = [] /\ ~ goes_wrong (oexp_den oW) no_oinvoke bv_true bv_eq (ocode uadd_fn) s) as Hs.
  { intros call s0 t s H1 H2. cbn in H1. injection H1 as <-.
    apply lsteps_head in H2. destruct H2 as [[<- ->]|(? & ? & ? & Hs & H2 & ->)].
    - split; [reflexivity|]. intros Hw. cbn in Hw. discriminate.
    - inversion Hs as [|? ? ? ? ? ? ? ? ? ? ? He Hp| | | | | | |]; subst. cbn in He. injection He as <-.
      inversion Hp as [| |? ? ? a b ? Ra Rb Ho|? ? ? a b ? u Ra Rb Ho|]; subst; [|cbn in Ho; discriminate]. clear Hs Hp Ra Rb Ho. cbn [updo] in H2.
      apply lsteps_head in H2. destruct H2 as [[<- ->]|(? & ? & ? & Hs & H2 & ->)].
      + split; [reflexivity|]. intros Hw. destruct Hw as (? & E & Hw). injection E as <-. exact Hw.
      + inversion Hs as [| |? ? ? b Hb Ht|? ? ? b ? ? Hb Ht|? ? ? b ? ? Hb Ht|? ? ? b ? ? ? Hb Ht|? ? ? b ? ? ? ? ? ? Hb Ht Hv Hn|? ? ? b ? ? ? ? ? ? Hb Ht|? ? ? b ? ? ? ? ? ? ? ? ? ? ? ? Hb Ht]; subst;
          cbn in Hb; injection Hb as <-; cbn in Ht; try discriminate. clear Hs.
        apply lsteps_head in H2. destruct H2 as [[<- ->]|(? & ? & ? & Hs & _ & _)]; [split; [reflexivity|intros []]|inversion Hs]. }
  destruct H as [(r & (s0 & s & H1 & H2 & _) & _)|[[(s0 & s & H1 & H2 & _) _]|(t0 & E & (s0 & s & H1 & H2 & H3))]];
    destruct (Hs _ _ _ _ H1 H2) as [H4 H5]; try discriminate. exact (H5 H3).
Qed.
Lemma or_i1 : forall I x y z, meets_axioms default_flags I -> is_iN 1 x -> is_iN 1 y -> llvm_binop Or 1 x y = Some z ->
  I (indexedName "$or" [NInt 1]) [VInt x; VInt y] = Some (VInt z).
Proof. intros I x y z HI Hx Hy H. exact (axioms_i1 UnboundedInteger false I Or x y z ltac:(discriminate) HI (or_intror (or_introl eq_refl)) Hx Hy H). Qed.

Ltac bnext H Hs := apply bsteps_head in H; destruct H as [[_ ->]|(? & ? & ? & Hs & H & ->)]; [reflexivity|].
(** An unsigned operation that overflows can be missed: [x + 1] with the largest
    [x] does not fit, but the verifier finds nothing, as it takes [x] for -1. *)
Theorem C71_unsigned_refuted : exists p f args, owell_formed source_name p /\ owell_typed p /\ Forall machine_int args /\
  forall ly m M, layout_ok ly -> same_memory ly m M -> can_get_to all_functions p Overflow f args m /\
    forall I ndebug, meets_axioms default_flags I -> ~ default_can_fail I (overflow_pass all_functions p) ndebug f (map as_int args) M.
Proof.
  exists uadd_program, "add", [VBv 32 (2 ^ 32 - 1)]. split; [exact uadd_well_formed|]. split; [exact uadd_well_typed|].
  split; [constructor; [|constructor]; eexists _, _; split; [reflexivity|]; unfold is_iN; lia|].
  intros ly m M _ _. split; [apply uadd_overflows|]. intros I ndebug HI.
  pose proof (or_i1 I 0 0 0 HI ltac:(small) ltac:(small) eq_refl) as Hor.
  set (F := overflow_fn true uadd_fn).
  assert (forall call r0 exn s0 t s, bstart (trans_default ndebug) (runOnFunction (code F) (loops F)) [VInt (-1)] r0 exn M = Some s0 ->
    bsteps (trans_default ndebug) (eval_default I) (iexec_op I call) no_iinvoke int_true int_eq (runOnFunction (code F) (loops F)) s0 t s ->
    t = []) as Hs.
  { intros call r0 exn s0 t s H1 H2. cbn in H1. injection H1 as <-.
    vm_compute in Hor.
    do 6 (bnext H2 Hs; one_assign Hs; vm_compute in Hv; subst v; clear Hs H).
    bnext H2 Hs. one_assign Hs. vm_compute in Hv. rewrite Hor in Hv. subst v. clear Hs H.
    do 3 (bnext H2 Hs; one_assign Hs; vm_compute in Hv; subst v; clear Hs H).
    bnext H2 Hs. inversion Hs as [|? ? ? vs ? ? ? ? ? ? ? ? ? Hv Hp| | | | | | | |]; subst. inversion Hv as [|? w ? vs' Hv1 Hv2]; subst. inversion Hv2; subst.
    vm_compute in Hv1. subst w. clear Hs Hv Hv2.
    inversion Hp as [| | | |? ? ? Hc|? ? ? Hc|]; subst; [|apply check_int_value in Hc; discriminate]. cbn [bupdo] in *. clear Hp Hc.
    do 2 (bnext H2 Hs; inversion Hs; subst; clear Hs). bnext H2 Hs. inversion Hs. }
  intros ([|n] & t & v & m' & H & Hf); [destruct H|]. destruct H as (F' & r0 & exn & Hfind & _ & H). injection Hfind as <-.
  destruct H as [(r & (s0 & s & H1 & H2 & _) & _)|[(s0 & s & H1 & H2 & _) _]]; apply (Hs _ _ _ _ _ _ H1) in H2; subst t; destruct Hf.
Qed.
Print Assumptions C71_unsigned_refuted.

Ltac bgo w := eapply (bsteps_cons _ _ _ _ _ _ _ _ []);
  [eapply B_assign with (vs := [VInt w]); [constructor; [intros []|constructor]|constructor; [vm_compute; try reflexivity|constructor]]|].
(** An unsigned operation that does not overflow can be reported: [x + 1] with
    [x = 2^31] fits, but [x] is taken for a negative number. *)
Theorem C71_unsigned_alarm_refuted : exists p f args, owell_formed source_name p /\ owell_typed p /\ Forall machine_int args /\
  forall ly m M, layout_ok ly -> same_memory ly m M -> (forall e, ~ can_get_to all_functions p e f args m) /\
    forall I ndebug, meets_axioms default_flags I -> default_can_fail I (overflow_pass all_functions p) ndebug f (map as_int args) M.
Proof.
  exists uadd_program, "add", [VBv 32 (2 ^ 31)]. split; [exact uadd_well_formed|]. split; [exact uadd_well_typed|].
  split; [constructor; [|constructor]; eexists _, _; split; [reflexivity|]; unfold is_iN; lia|].
  intros ly m M _ _. split; [intros e; apply uadd_fits|]. intros I ndebug HI.
  pose proof (or_i1 I 0 1 1 HI ltac:(small) ltac:(small) eq_refl) as Hor. vm_compute in Hor.
  exists 1%nat, [Failed], int_true, M. split; [|now left].
  exists (overflow_fn true uadd_fn), (fun _ => int_true), false. split; [reflexivity|]. split; [reflexivity|]. right. split; [|now left].
  eexists _, _. split; [reflexivity|]. split.
  - bgo (- 2 ^ 31). bgo 1. bgo (1 - 2 ^ 31). bgo (1 - 2 ^ 31). bgo 0. bgo 1. bgo 1. { rewrite Hor. reflexivity. } bgo 1. bgo 0. bgo 0.
    eapply (bsteps_cons _ _ _ _ _ _ _ _ [Failed] _ []); [|constructor].
    eapply B_prim with (vs := [VInt 0]); [constructor; [vm_compute; reflexivity|constructor]|].
    apply Z_assert_fails with (m := M) (u := int_true). now apply check_int_value.
  - reflexivity.
Qed.
Print Assumptions C71_unsigned_alarm_refuted.
