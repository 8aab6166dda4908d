(** C69: with memory safety checks, what the verifier is given goes wrong exactly
    if the program does something invalid with memory.

    Vocabulary: Spec/SafeProgram.v (programs with malloc, alloca and free, and what
    is invalid), Spec/Blocks.v (the blocks of a program, from the history of its
    allocations); the emitted Boogie program and what the verifier looks for is
    [boogie_can_go_wrong] of Model/SafeProgram.v. *)
From Coq Require Import ZArith List String Bool Lia.
From Verif.Spec Require Import LLVMInt IR CFG BitVectorIR ByteMemory Program SafeProgram.
From Verif.Spec Require Blocks.
From Verif.Model Require Import Boogie PreludeInt BitVectorCode ControlFlow NormalizeLoops WholeProgram SafeProgram.
From Verif.Model Require Allocator.
From Verif.Proofs Require Import CFGBase SSACheck ControlExamples SafeAlloc SafeSim SafeWhole.
From Verif.Props Require AllocProps EndToEndProps.
Import ListNotations.
Open Scope string_scope.
Open Scope list_scope.
Open Scope Z_scope.

Section C69.
  (** [I]: any interpretation of the functions the prelude leaves open; [ndebug]:
      how LLVM was built; [G]: addresses and sizes of the global variables;
      [entries]: --entry-points. *)
  Context (I : interp) (ndebug : bool) (G : list (Z * Z)) (entries : list string) (p : sprogram).

  (** Nothing is missed: if the verifier finds no violated assertion in the Boogie
      program, no execution of the program accesses memory outside a live block,
      frees something that is not the start of a live block, gets to a failing
      assertion, or returns from an entry function with a heap block not freed. *)
  Theorem C69_no_missed_violations : Blocks.good_globals true 64 G -> swell_formed p -> forall f args m,
    ~ boogie_can_go_wrong I G entries p ndebug f args m -> ~ can_go_wrong G entries p f args m.
  Proof. intros HG Hwf f args m H Hw. exact (H (safe_forward I ndebug G HG entries p Hwf f args m Hw)). Qed.
  (** No false alarms, unless the behaviour is undefined in another way. *)
  Theorem C69_no_false_alarms : Blocks.good_globals true 64 G -> swell_formed p -> forall f args m,
    ~ can_be_outside G entries p f args m -> boogie_can_go_wrong I G entries p ndebug f args m ->
    can_go_wrong G entries p f args m.
  Proof.
    intros HG Hwf f args m Hu H. destruct (safe_backward I ndebug G HG entries p Hwf f args m H) as [Hw|Hw]; [exact Hw|destruct (Hu Hw)].
  Qed.
  Theorem C69_same_verdict : Blocks.good_globals true 64 G -> swell_formed p -> forall f args m,
    ~ can_be_outside G entries p f args m ->
    (boogie_can_go_wrong I G entries p ndebug f args m <-> can_go_wrong G entries p f args m).
  Proof.
    intros HG Hwf f args m Hu. split; [now apply C69_no_false_alarms|]. exact (safe_forward I ndebug G HG entries p Hwf f args m).
  Qed.
End C69.
Print Assumptions C69_no_missed_violations.
Print Assumptions C69_no_false_alarms.
Print Assumptions C69_same_verdict.

(** In the executions this speaks about, blocks never overlap, not even with ones
    that have been freed, so that an address in bounds belongs to one block. *)
Theorem C69_blocks_disjoint : forall G entries p n f args m t v m' h, Blocks.good_globals true 64 G ->
  scalls G entries p n f args (m, []) t v (m', h) -> quiet t ->
  ForallOrdPairs Blocks.disjoint (Blocks.blocks G h) /\
  forall b, In b (Blocks.blocks G h) -> Blocks.bk b = Blocks.Global /\ Blocks.start b + Blocks.size b < 0 \/
    1024 <= Blocks.start b /\ 0 < Blocks.size b /\ Blocks.start b + Blocks.size b < 2 ^ 63 - 1.
Proof.
  intros G entries p n f args m t v m' h HG H Hq.
  destruct (proj1 (whole_facts G entries p n _ _ _ _ _ _ _ _ H Logic.I) Hq) as [_ Hp].
  destruct (possible_run G h HG Hp) as (R & s & Hr).
  destruct (AllocProps.C24_no_reuse true 64 Allocator.Impls true R G h s H64 ltac:(discriminate) HG Hr) as [H1 H2].
  split; [exact H1|]. intros b Hb. rewrite <- top64. exact (H2 b Hb).
Qed.
Print Assumptions C69_blocks_disjoint.

(** ** Examples
<<
    uaf():   p = malloc(4); *p = 7; free(p); x = *p;
    leak():  p = malloc(4); *p = 7;
    safe():  p = malloc(4); *p = 7; x = *p; assert(p == 1024); free(p);
    local(): q = alloca(4); return q;
    main():  p = local(); *p = 7;
>> *)
Definition fG (x : string) : option Z :=
  if String.eqb x "p" then Some 64 else if String.eqb x "x" then Some 32 else if String.eqb x "c" then Some 1
  else if String.eqb x "z" then Some 32 else None.
Ltac fwt := unfold wt_operand, width_ok, is_iN; cbn; repeat split; try reflexivity; try lia; tauto.
Definition f_p : typed fG width_ok.
Proof. exists (Op (VReg 64 "p")). abstract fwt. Defined.
Definition f_z : typed fG width_ok.
Proof. exists (Op (VReg 32 "z")). abstract fwt. Defined.
Definition f_size : typed fG width_ok.
Proof. exists (Op (VConst 64 4)). abstract fwt. Defined.
Definition f_seven : typed fG width_ok.
Proof. exists (Op (VConst 32 7)). abstract fwt. Defined.
Definition f_is1024 : typed fG width_ok.
Proof. exists (Instr (IIcmp EQ 64 (VReg 64 "p") (VConst 64 1024))). abstract fwt. Defined.
Definition f_zext : typed fG width_ok.
Proof. exists (Instr (ICast ZExt 1 32 (VReg 1 "c"))). abstract fwt. Defined.
Definition get : stmt (typed fG width_ok) sop := SPrim (Some "p") Malloc [f_size].
Definition put : stmt (typed fG width_ok) sop := SPrim None (Base (Store I32)) [f_seven; f_p].
Definition read : stmt (typed fG width_ok) sop := SPrim (Some "x") (Base (Load I32)) [f_p].
Definition drop : stmt (typed fG width_ok) sop := SPrim None Free [f_p].
Definition straight (k : list (stmt (typed fG width_ok) sop)) (e : option (typed fG width_ok)) : sfn :=
  SFn fG (Func [] (Blk 0) [ (Blk 0, Block [] k (TRet e)) ]) [].
Definition uaf_fn : sfn := straight [get; put; drop; read] None.
Definition leak_fn : sfn := straight [get; put] None.
Definition safe_fn : sfn := straight [get; put; read; SAssign "c" f_is1024; SAssign "z" f_zext; SPrim None (Base Assert) [f_z]; drop] None.
Definition local_fn : sfn := straight [SPrim (Some "p") Alloca [f_size]] (Some f_p).
Definition main_fn : sfn := straight [SPrim (Some "p") (Base (Call "local")) []; put] None.
Definition the_program : sprogram := [("uaf", uaf_fn); ("leak", leak_fn); ("safe", safe_fn); ("local", local_fn); ("main", main_fn)].
Definition the_entries : list string := ["uaf"; "leak"; "safe"; "main"].
Definition one_block (l : label) : list label := match l with Blk 0 => [Blk 0] | _ => [] end.
Lemma the_well_formed : swell_formed the_program.
Proof.
  split; intros f F HF; repeat (destruct HF as [E|HF]; [injection E as <- <-|]); try destruct HF;
    solve [apply (ssa_check_ok _ one_block); reflexivity | apply lowered_check_ok; reflexivity
          | apply original_check_ok; reflexivity | apply (forest_check_ok _ one_block); reflexivity].
Qed.
(** two globals *)
Definition the_globals : list (Z * Z) := [(-16, 4); (-64, 32)].
Lemma the_globals_good : Blocks.good_globals true 64 the_globals.
Proof.
  split.
  - intros b n [E|[E|[]]]; injection E as <- <-; repeat split; try lia; intros _; cbn; lia.
  - constructor; [constructor; [cbn; lia|constructor]|constructor; [constructor|constructor]].
Qed.

(** *** What the instructions of these programs do *)
Notation A1 := (Allocator.Malloc 4 1024).
Lemma at_1024 : forall q, is_iN 64 q -> signed 64 q = 1024 -> q = 1024.
Proof. unfold is_iN, signed. intros q Hq H. change (2 ^ (64 - 1)) with 9223372036854775808 in H. change (2 ^ 64) with 18446744073709551616 in *.
  destruct (q <? 9223372036854775808) eqn:E; lia. Qed.
Section Instructions.
  Context (call : string -> seffect).
  Notation ex := (exec_sop the_globals call).
  Lemma do_get : forall vs m t v st', vs = [VBv 64 4] -> ex Malloc vs (m, []) t v st' -> t = [Memory A1] /\ v = VBv 64 1024 /\ st' = (m, [A1]).
  Proof.
    intros vs m t v st' -> H. inversion H as [| | | | |n q m1 h1 Hn Hq Hpl e E1 E2 E3 E4 E5 E6| | | |].  subst.
    change (signed 64 4) with 4 in *. destruct Hpl as [E|(_ & _ & E & _)]; [discriminate|]. specialize (E eq_refl).
    apply at_1024 in E; [subst q|exact Hq]. auto.
  Qed.
  Lemma do_alloca : forall vs m t v st', vs = [VBv 64 4] -> ex Alloca vs (m, []) t v st' ->
    t = [Memory (Allocator.Alloca 4 1024)] /\ v = VBv 64 1024 /\ st' = (m, [Allocator.Alloca 4 1024]).
  Proof.
    intros vs m t v st' -> H. inversion H as [| | | | | |n q m1 h1 Hn Hq Hpl e E1 E2 E3 E4 E5 E6| | |].  subst.
    change (signed 64 4) with 4 in *. destruct Hpl as [E|(_ & _ & E & _)]; [discriminate|]. specialize (E eq_refl).
    apply at_1024 in E; [subst q|exact Hq]. auto.
  Qed.
  Lemma do_access : forall o vs a n m h t v st', accesses o vs a n -> Blocks.in_bounds the_globals h a n ->
    ex (Base o) vs (m, h) t v st' -> t = [] /\ exists m', st' = (m', h).
  Proof.
    intros o vs a n m h t v st' Ha Hin H.
    assert (forall a' n', accesses o vs a' n' -> a' = a /\ n' = n) as Hu.
    { intros a' n' Ha'. destruct Ha; inversion Ha'; auto. }
    inversion H; subst.
    - match goal with X : forall _ _, ~ accesses _ _ _ _ |- _ => destruct (X _ _ Ha) end.
    - match goal with X : exec_op _ _ _ _ _ _ _ |- _ => rewrite (access_quiet _ _ _ _ _ _ _ _ Ha X) end. eauto.
    - match goal with X : accesses _ _ _ _ |- _ => destruct (Hu _ _ X) as [-> ->] end. contradiction.
    - match goal with X : accesses _ _ _ _ |- _ => destruct (Hu _ _ X) as [-> ->] end. contradiction.
    - inversion Ha.
  Qed.
  Lemma do_free : forall vs m t v st', vs = [VBv 64 1024] -> ex Free vs (m, [A1]) t v st' ->
    t = [Memory (Allocator.Free 1024)] /\ st' = (m, [Allocator.Free 1024; A1]).
  Proof.
    intros vs m t v st' -> H.
    assert (Blocks.starts_live the_globals [A1] Blocks.Heap 1024) as Hl.
    { exists (Blocks.Block Blocks.Heap 1024 4). split; [now left|auto]. }
    assert (~ Blocks.starts_live the_globals [A1] Blocks.Stack 1024) as Hs.
    { intros (b & Hb & E & _). cbn in Hb. destruct Hb as [<-|[<-|[<-|[]]]]; discriminate. }
    inversion H; subst; change (signed 64 1024) with 1024 in *; auto; contradiction.
  Qed.
  Lemma do_assert : forall vs st t v st', vs = [VBv 32 1] -> ex (Base Assert) vs st t v st' -> t = [] /\ st' = st.
  Proof.
    intros vs st t v st' -> H. inversion H; subst.
    - match goal with X : exec_op _ _ _ _ _ _ _ |- _ => inversion X; subst end. auto.
    - match goal with X : accesses _ _ _ _ |- _ => inversion X end.
    - match goal with X : accesses _ _ _ _ |- _ => inversion X end.
    - match goal with X : accesses _ _ _ _ |- _ => inversion X end.
  Qed.
End Instructions.
Lemma in_first : forall e, e = A1 \/ e = Allocator.Alloca 4 1024 -> Blocks.in_bounds the_globals [e] 1024 4.
Proof.
  intros e [-> | ->]; [exists (Blocks.Block Blocks.Heap 1024 4)|exists (Blocks.Block Blocks.Stack 1024 4)];
    (split; [now left|]; unfold Blocks.inside; cbn; lia).
Qed.

(** *** Executions that go wrong *)
Lemma seven_bytes : forall m : mem, byte_memory (fun q => if q =? 1024 then 7 else if (1024 <? q) && (q <? 1028) then 0 else proj1_sig m q).
Proof. intros [m Hm] q. cbn. specialize (Hm q). destruct (q =? 1024); [lia|]. destruct ((1024 <? q) && (q <? 1028)); lia. Qed.
Definition with_seven (m : mem) : mem := exist _ _ (seven_bytes m).
Lemma seven_written : forall m, written (bytes_at 1024) (bytes_needed (width I32)) 7 (proj1_sig m) (proj1_sig (with_seven m)).
Proof.
  intros m. split.
  - intros i Hi. change (bytes_needed (width I32)) with 4 in Hi. assert (i = 0 \/ i = 1 \/ i = 2 \/ i = 3) as [->|[->|[->| ->]]] by lia; reflexivity.
  - intros q Hq. change (bytes_needed (width I32)) with 4 in Hq.
    assert (forall k, 0 <= k < 4 -> q <> 1024 + k) as Hne.
    { intros k Hk ->. apply (Hq k Hk). assert (k = 0 \/ k = 1 \/ k = 2 \/ k = 3) as [->|[->|[->| ->]]] by lia; reflexivity. }
    cbn. pose proof (Hne 0 ltac:(lia)). pose proof (Hne 1 ltac:(lia)). pose proof (Hne 2 ltac:(lia)). pose proof (Hne 3 ltac:(lia)).
    destruct (Z.eqb_spec q 1024); [lia|]. destruct (Z.ltb_spec 1024 q); destruct (Z.ltb_spec q 1028); cbn; try reflexivity; lia.
Qed.
Ltac is64 := unfold is_iN; cbn; lia.
Lemma get_steps : forall call m, exec_sop the_globals call Malloc [VBv 64 4] (m, []) [Memory A1] (VBv 64 1024) (m, [A1]).
Proof. intros call m. apply (Z_malloc the_globals call 4 1024 m []); [is64|is64|]. right. cbn. repeat split; lia. Qed.
Lemma put_steps : forall call m e, e = A1 \/ e = Allocator.Alloca 4 1024 ->
  exec_sop the_globals call (Base (Store I32)) [VBv 32 7; VBv 64 1024] (m, [e]) [] (VBv 1 0) (with_seven m, [e]).
Proof.
  intros call m e He. apply (Z_access the_globals call (Store I32) [VBv 32 7; VBv 64 1024] m [e] [] (VBv 1 0) (with_seven m) 1024 4).
  - apply (A_store I32 (VBv 32 7) 1024). is64.
  - now apply in_first.
  - apply X_store; [is64|is64|apply seven_written].
Qed.
Lemma drop_steps : forall call m, exec_sop the_globals call Free [VBv 64 1024] (m, [A1]) [Memory (Allocator.Free 1024)] (VBv 1 0) (m, [Allocator.Free 1024; A1]).
Proof.
  intros call m. apply (Z_free the_globals call 1024 m [A1] (VBv 1 0)); [is64|]. right.
  exists (Blocks.Block Blocks.Heap 1024 4). split; [now left|]. split; reflexivity.
Qed.
Lemma not_after_free : ~ Blocks.in_bounds the_globals [Allocator.Free 1024; A1] 1024 4.
Proof. intros (b & Hb & H & _). cbn in Hb. unfold Blocks.inside in H. destruct Hb as [<-|[<-|[]]]; cbn in H; lia. Qed.
Lemma uaf_goes_wrong : forall m, can_go_wrong the_globals the_entries the_program "uaf" [] m.
Proof.
  intros m. exists 1%nat, [Memory A1; Memory (Allocator.Free 1024)], (BadAccess 1024 4), (VBv 1 0), (m, []). split.
  2:{ intros e [<-|[<-|[]]]; eauto. }
  exists uaf_fn. split; [reflexivity|]. split; [reflexivity|]. right. right. left.
  split; [|apply (last_not_quiet [_; _] (Bad (BadAccess 1024 4)) Logic.I)].
  eexists _, _. split; [reflexivity|]. split.
  - eapply (lsteps_cons _ _ _ _ _ _ _ [Memory A1]); [eapply L_prim; [reflexivity|apply get_steps]|].
    eapply (lsteps_cons _ _ _ _ _ _ _ []); [eapply L_prim; [reflexivity|apply put_steps; auto]|].
    eapply (lsteps_cons _ _ _ _ _ _ _ [Memory (Allocator.Free 1024)]); [eapply L_prim; [reflexivity|apply drop_steps]|].
    eapply (lsteps_cons _ _ _ _ _ _ _ [Bad (BadAccess 1024 4)] _ []); [eapply L_prim; [reflexivity|]|constructor].
    apply (Z_invalid the_globals _ (Load I32) _ _ _ (VBv 32 0) 1024 4); [apply (A_load I32 1024); is64|exact not_after_free|cbn; lia].
  - reflexivity.
Qed.
Lemma leak_goes_wrong : forall m, can_go_wrong the_globals the_entries the_program "leak" [] m.
Proof.
  intros m. exists 1%nat, [Memory A1], Leak, (VBv 1 0), (m, []). split; [|apply quiet_one].
  exists leak_fn. split; [reflexivity|]. split; [reflexivity|]. right. left. exists None, [Memory A1], (with_seven m, [A1]).
  split; [reflexivity|]. split; [|split].
  - eexists _, _. split; [reflexivity|]. split.
    + eapply (lsteps_cons _ _ _ _ _ _ _ [Memory A1]); [eapply L_prim; [reflexivity|apply get_steps]|].
      eapply (lsteps_cons _ _ _ _ _ _ _ []); [eapply L_prim; [reflexivity|apply put_steps; auto]|].
      eapply (lsteps_cons _ _ _ _ _ _ _ [] _ []); [eapply L_ret; reflexivity|constructor].
    + reflexivity.
  - cbn. auto.
  - exists (Blocks.Block Blocks.Heap 1024 4). split; [now left|reflexivity].
Qed.
Example C69_nonvacuous : Blocks.good_globals true 64 the_globals /\ swell_formed the_program /\
  forall m, can_go_wrong the_globals the_entries the_program "uaf" [] m /\
    can_go_wrong the_globals the_entries the_program "leak" [] m /\
    forall I ndebug, boogie_can_go_wrong I the_globals the_entries the_program ndebug "uaf" [] m /\
      boogie_can_go_wrong I the_globals the_entries the_program ndebug "leak" [] m.
Proof.
  split; [exact the_globals_good|]. split; [exact the_well_formed|]. intros m.
  split; [apply uaf_goes_wrong|]. split; [apply leak_goes_wrong|]. intros I ndebug.
  split; apply (safe_forward I ndebug the_globals the_globals_good the_entries the_program the_well_formed);
    [apply uaf_goes_wrong|apply leak_goes_wrong].
Qed.

(** *** Executions that do not *)
Notation steps_of call F := (lsteps (typed_den fG width_ok) (exec_sop the_globals call) no_invokes bv_true bv_eq (scode F)).
Notation wrong_in F := (goes_wrong (typed_den fG width_ok) (@no_invokes sop Verif.Spec.SafeProgram.smem sevent) bv_true bv_eq (scode F)).
Ltac next H := apply lsteps_head in H; destruct H as [[<- ->]|(?t & ?s & ?u & ?Hs & H & ->)].
Ltac prim Hs := inversion Hs as [|? ? ? ? ? ? ? ? ? ? ? He Hp| | | | | | |]; subst; clear Hs; cbn in He; injection He as <-.
Ltac no_wrong := split; [apply quiet_nil|split; [cbn; discriminate|exact Logic.I]].
Definition calm_end (F : sfn) (wrong : Prop) (t : list sevent) (o : option (outcome val * Verif.Spec.SafeProgram.smem)) : Prop :=
  quiet t /\ ~ wrong /\ match o with Some (_, st) => ~ leaks the_globals (snd st) | None => True end.
Lemma calm_cons : forall F w t u o, quiet t -> calm_end F w u o -> calm_end F w (t ++ u) o.
Proof. intros F w t u o Ht (Hu & H). split; [now apply quiet_app|exact H]. Qed.
Lemma safe_steps : forall call m t s s0, lstart (scode safe_fn) [] (m, []) = Some s0 ->
  steps_of call safe_fn s0 t s -> calm_end safe_fn (wrong_in safe_fn s) t (result s).
Proof.
  intros call m t s s0 H0 H. cbn in H0. injection H0 as <-.
  next H; [no_wrong|]. prim Hs. apply do_get in Hp as (-> & -> & ->); [|reflexivity]. apply calm_cons; [apply quiet_one|]. cbn [updo] in H.
  next H; [no_wrong|]. prim Hs.
  eapply do_access in Hp as (-> & m1 & ->); [|apply (A_store I32 (VBv 32 7) 1024); is64|apply in_first; auto]. apply calm_cons; [apply quiet_nil|]. cbn [updo] in H.
  next H; [no_wrong|]. prim Hs.
  eapply do_access in Hp as (-> & m2 & ->); [|apply (A_load I32 1024); is64|apply in_first; auto]. apply calm_cons; [apply quiet_nil|]. cbn [updo] in H.
  next H; [no_wrong|]. inversion Hs; subst; clear Hs. match goal with X : typed_den _ _ _ _ = Some _ |- _ => cbn in X; injection X as <- end. apply calm_cons; [apply quiet_nil|].
  next H; [no_wrong|]. inversion Hs; subst; clear Hs. match goal with X : typed_den _ _ _ _ = Some _ |- _ => cbn in X; injection X as <- end. apply calm_cons; [apply quiet_nil|].
  next H; [no_wrong|]. prim Hs. apply do_assert in Hp as (-> & ->); [|reflexivity]. apply calm_cons; [apply quiet_nil|]. cbn [updo] in H.
  next H; [no_wrong|]. prim Hs. apply do_free in Hp as (-> & ->); [|reflexivity]. apply calm_cons; [apply quiet_one|]. cbn [updo] in H.
  next H.
  { split; [apply quiet_nil|]. split; [|exact Logic.I]. intros (b & Hb & Hw). cbn in Hb. injection Hb as <-. exact Hw. }
  inversion Hs; subst; clear Hs; match goal with X : block_of _ _ = Some _ |- _ => cbn in X; injection X as <- end;
    match goal with X : bterm _ = _ |- _ => cbn in X; try discriminate X end.
  next H; [|inversion Hs]. split; [apply quiet_nil|]. split; [intros []|]. cbn [result snd].
  intros (b & Hb & E). cbn in Hb. destruct Hb as [<-|[<-|[]]]; discriminate.
Qed.
Lemma calm_calls : forall n f F m t v st', find_sfn the_program f = Some F ->
  (forall call t s s0, call = scalls the_globals the_entries the_program (pred n) -> lstart (scode F) [] (m, []) = Some s0 ->
     lsteps (typed_den (sreg_widths F) width_ok) (exec_sop the_globals call) no_invokes bv_true bv_eq (scode F) s0 t s ->
     calm_end F (goes_wrong (typed_den (sreg_widths F) width_ok) (@no_invokes sop Verif.Spec.SafeProgram.smem sevent) bv_true bv_eq (scode F) s) t (result s)) ->
  scalls the_globals the_entries the_program n f [] (m, []) t v st' -> quiet t.
Proof.
  intros [|n] f F m t v st' HF Hc H; [destruct H|]. destruct H as (F' & HF' & _ & H). rewrite HF in HF'. injection HF' as <-. cbn [pred] in Hc.
  destruct H as [(r & (s0 & s & H0 & H1 & H2) & _)|[(r & t0 & st1 & -> & (s0 & s & H0 & H1 & H2) & _ & Hl)|[[(s0 & s & H0 & H1 & H2) Hnq]|(t0 & -> & s0 & s & H0 & H1 & H2)]]];
    destruct (Hc _ _ _ _ eq_refl H0 H1) as (C1 & C2 & C3).
  - exact C1.
  - rewrite H2 in C3. destruct (C3 Hl).
  - exact C1.
  - destruct (C2 H2).
Qed.
Lemma calm_verdict : forall f m, (forall n t v st', scalls the_globals the_entries the_program n f [] (m, []) t v st' -> quiet t) ->
  ~ can_be_outside the_globals the_entries the_program f [] m /\
  forall I ndebug, ~ boogie_can_go_wrong I the_globals the_entries the_program ndebug f [] m.
Proof.
  intros f m H.
  assert (~ can_be_outside the_globals the_entries the_program f [] m) as Ho.
  { intros (n & t & v & st' & H1 & _). exact (last_not_quiet t Outside Logic.I (H _ _ _ _ H1)). }
  split; [exact Ho|]. intros I ndebug Hb.
  apply (C69_no_false_alarms I ndebug _ _ _ the_globals_good the_well_formed _ _ _ Ho) in Hb.
  destruct Hb as (n & t & r & v & st' & H1 & _). exact (last_not_quiet t (Bad r) Logic.I (H _ _ _ _ H1)).
Qed.
(** [safe] is verified. *)
Example C69_verified : forall I ndebug m,
  ~ can_be_outside the_globals the_entries the_program "safe" [] m /\
  ~ boogie_can_go_wrong I the_globals the_entries the_program ndebug "safe" [] m.
Proof.
  intros I ndebug m. destruct (calm_verdict "safe" m) as [H1 H2]; [|auto].
  intros n t v st' H. apply (calm_calls n "safe" safe_fn m t v st' eq_refl); [|exact H].
  intros call t1 s s0 _ H0 H1. exact (safe_steps call m t1 s s0 H0 H1).
Qed.

(** [safe] asserts that the first block malloc returns is at address 1024.  In C
    nothing is known about it; the assertion is verified, because the allocator of
    the model puts it there.  So the executions of [can_go_wrong] are those with
    blocks laid out by this allocator. *)
Theorem C69_other_addresses_refuted : forall I ndebug m,
  find_sfn the_program "safe" = Some (straight [get; put; read; SAssign "c" f_is1024; SAssign "z" f_zext; SPrim None (Base Assert) [f_z]; drop] None) /\
  typed_den fG width_ok (fun x => if String.eqb x "p" then Some (VBv 64 4096) else None) f_is1024 = Some (VBv 1 0) /\
  ~ boogie_can_go_wrong I the_globals the_entries the_program ndebug "safe" [] m.
Proof. intros I ndebug m. split; [reflexivity|]. split; [reflexivity|]. apply C69_verified. Qed.
Print Assumptions C69_other_addresses_refuted.

Lemma local_steps : forall call m t s s0, lstart (scode local_fn) [] (m, []) = Some s0 -> steps_of call local_fn s0 t s ->
  quiet t /\ ~ wrong_in local_fn s /\
  (forall r st, result s = Some (Returned r, st) -> t = [Memory (Allocator.Alloca 4 1024)] /\ r = Some (VBv 64 1024) /\ st = (m, [Allocator.Alloca 4 1024])).
Proof.
  intros call m t s s0 H0 H. cbn in H0. injection H0 as <-.
  next H; [split; [apply quiet_nil|split; [cbn; discriminate|discriminate]]|]. prim Hs. apply do_alloca in Hp as (-> & -> & ->); [|reflexivity]. cbn [updo] in H.
  next H.
  { split; [apply quiet_one|]. split; [|discriminate]. intros (b & Hb & Hw). cbn in Hb. injection Hb as <-. discriminate Hw. }
  inversion Hs; subst; clear Hs; match goal with X : block_of _ _ = Some _ |- _ => cbn in X; injection X as <- end;
    match goal with X : bterm _ = _ |- _ => cbn in X; inversion X; subst; clear X end.
  match goal with X : typed_den _ _ _ _ = Some _ |- _ => cbn in X; injection X as <- end.
  next H; [|inversion Hs]. split; [apply quiet_one|]. split; [intros []|]. intros r st E. cbn in E. injection E as <- <-. auto.
Qed.
Lemma local_calls : forall n m t v st', scalls the_globals the_entries the_program n "local" [] (m, []) t v st' ->
  t = [Memory (Allocator.Alloca 4 1024)] /\ v = VBv 64 1024 /\ st' = (m, [Allocator.Alloca 4 1024]).
Proof.
  intros [|n] m t v st' H; [destruct H|]. destruct H as (F & HF & _ & H). cbn in HF. injection HF as <-.
  destruct H as [(r & (s0 & s & H0 & H1 & H2) & Hv & _)|[(r & t0 & st1 & -> & (s0 & s & H0 & H1 & H2) & Hin & _)|[[(s0 & s & H0 & H1 & H2) Hnq]|(t0 & -> & s0 & s & H0 & H1 & H2)]]];
    destruct (local_steps _ _ _ _ _ H0 H1) as (C1 & C2 & C3).
  - destruct (C3 _ _ H2) as (-> & -> & ->). cbn in Hv. auto.
  - exfalso. cbn in Hin. repeat (destruct Hin as [Hin|Hin]; [discriminate|]). destruct Hin.
  - destruct (Hnq C1).
  - destruct (C2 H2).
Qed.
Lemma main_steps : forall n m t s s0, lstart (scode main_fn) [] (m, []) = Some s0 ->
  steps_of (scalls the_globals the_entries the_program n) main_fn s0 t s -> calm_end main_fn (wrong_in main_fn s) t (result s).
Proof.
  intros n m t s s0 H0 H. cbn in H0. injection H0 as <-.
  next H; [no_wrong|]. prim Hs. inversion Hp; subst; clear Hp;
    try (match goal with X : accesses _ _ _ _ |- _ => inversion X end);
    try (match goal with X : exec_op _ _ _ _ _ _ _ |- _ => inversion X; contradiction end).
  match goal with X : scalls _ _ _ _ _ _ _ _ _ _ |- _ => apply local_calls in X as (-> & -> & ->) end.
  apply calm_cons; [apply quiet_one|]. cbn [updo] in H.
  next H; [no_wrong|]. prim Hs.
  eapply do_access in Hp as (-> & m1 & ->); [|apply (A_store I32 (VBv 32 7) 1024); is64|apply in_first; auto]. apply calm_cons; [apply quiet_nil|]. cbn [updo] in H.
  next H.
  { split; [apply quiet_nil|]. split; [|exact Logic.I]. intros (b & Hb & Hw). cbn in Hb. injection Hb as <-. exact Hw. }
  inversion Hs; subst; clear Hs; match goal with X : block_of _ _ = Some _ |- _ => cbn in X; injection X as <- end;
    match goal with X : bterm _ = _ |- _ => cbn in X; try discriminate X end.
  next H; [|inversion Hs]. split; [apply quiet_nil|]. split; [intros []|]. cbn [result snd].
  intros (b & Hb & E). cbn in Hb. destruct Hb as [<-|[<-|[<-|[]]]]; discriminate.
Qed.
(** Uses of a stack variable after its function has returned are not found: [main]
    stores to the variable of [local] after the call, and is verified.  The
    blocks of stack variables stay live in the executions of [can_go_wrong]. *)
Theorem C69_dangling_stack_refuted : forall I ndebug m,
  (forall n t v st', scalls the_globals the_entries the_program n "local" [] (m, []) t v st' ->
     t = [Memory (Allocator.Alloca 4 1024)] /\ v = VBv 64 1024) /\
  (exists n st', scalls the_globals the_entries the_program n "local" [] (m, []) [Memory (Allocator.Alloca 4 1024)] (VBv 64 1024) st') /\
  find_sfn the_program "main" = Some (straight [SPrim (Some "p") (Base (Call "local")) []; SPrim None (Base (Store I32)) [f_seven; f_p]] None) /\
  (exists n t v st', scalls the_globals the_entries the_program n "main" [] (m, []) t v st' /\ fst st' = with_seven m) /\
  ~ boogie_can_go_wrong I the_globals the_entries the_program ndebug "main" [] m.
Proof.
  intros I ndebug m.
  assert (scalls the_globals the_entries the_program 1 "local" [] (m, []) [Memory (Allocator.Alloca 4 1024)] (VBv 64 1024) (m, [Allocator.Alloca 4 1024])) as Hlocal.
  { exists local_fn. split; [reflexivity|]. split; [reflexivity|]. left. exists (Some (VBv 64 1024)). split; [|split; [reflexivity|]].
    - eexists _, _. split; [reflexivity|]. split.
      + eapply (lsteps_cons _ _ _ _ _ _ _ [Memory (Allocator.Alloca 4 1024)]); [eapply L_prim; [reflexivity|]|].
        * apply (Z_alloca the_globals _ 4 1024 m []); [is64|is64|]. right. cbn. repeat split; lia.
        * eapply (lsteps_cons _ _ _ _ _ _ _ [] _ []); [eapply L_retv; reflexivity|constructor].
      + reflexivity.
    - intros Hin. exfalso. cbn in Hin. repeat (destruct Hin as [Hin|Hin]; [discriminate|]). destruct Hin. }
  split; [intros n t v st' H; apply local_calls in H; tauto|]. split; [exists 1%nat; eauto|]. split; [reflexivity|]. split.
  - exists 2%nat, [Memory (Allocator.Alloca 4 1024)], (VBv 1 0), (with_seven m, [Allocator.Alloca 4 1024]). split; [|reflexivity].
    exists main_fn. split; [reflexivity|]. split; [reflexivity|]. left. exists None. split; [|split; [exact Logic.I|]].
    + eexists _, _. split; [reflexivity|]. split.
      * eapply (lsteps_cons _ _ _ _ _ _ _ [Memory (Allocator.Alloca 4 1024)]); [eapply L_prim; [reflexivity|apply Z_call; exact Hlocal]|].
        eapply (lsteps_cons _ _ _ _ _ _ _ []); [eapply L_prim; [reflexivity|apply put_steps; auto]|].
        eapply (lsteps_cons _ _ _ _ _ _ _ [] _ []); [eapply L_ret; reflexivity|constructor].
      * reflexivity.
    + intros _ (b & Hb & E). cbn in Hb. destruct Hb as [<-|[<-|[<-|[]]]]; discriminate.
  - destruct (calm_verdict "main" m) as [_ H2]; [|apply H2].
    intros n t v st' H. apply (calm_calls n "main" main_fn m t v st' eq_refl); [|exact H].
    intros call t1 s s0 -> H0 H1. exact (main_steps _ m t1 s s0 H0 H1).
Qed.
Print Assumptions C69_dangling_stack_refuted.
