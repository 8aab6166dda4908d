(** Executions of whole programs with memory safety checks, and of the Boogie
    programs for them: one function. *)
From Coq Require Import ZArith List String Bool Lia.
From Verif.Spec Require Import LLVMInt IR CFG BitVectorIR ByteMemory Program SafeProgram.
From Verif.Spec Require Blocks.
From Verif.Model Require Import Boogie PreludeInt BitVectorCode ControlFlow NormalizeLoops WholeProgram SafeProgram.
From Verif.Model Require Allocator MemorySafetyChecker.
From Verif.Proofs Require Import CFGBase ProgramSim SafeAlloc SafePass.
Import ListNotations.
Open Scope list_scope.
Open Scope Z_scope.

(** ** Events *)
Fixpoint hist (t : list sevent) (h : list Allocator.event) : list Allocator.event :=
  match t with
  | [] => h
  | Memory e :: t' => hist t' (e :: h)
  | _ :: t' => hist t' h
  end.
Lemma hist_app : forall a b h, hist (a ++ b) h = hist b (hist a h).
Proof. induction a as [|[e|r|] a IH]; intros b h; cbn; auto. Qed.
Lemma hist_suffix : forall t h, suffix h (hist t h).
Proof.
  induction t as [|[e|r|] t IH]; intros h; cbn; auto; [apply suffix_refl|]. apply (suffix_tail e). apply IH.
Qed.
Lemma quiet_app : forall a b, quiet (a ++ b) <-> quiet a /\ quiet b.
Proof.
  intros a b. unfold quiet. split.
  - intros H. split; intros e He; apply H, in_app_iff; auto.
  - intros [H1 H2] e He. apply in_app_iff in He as [He|He]; auto.
Qed.
Lemma quiet_nil : quiet [].
Proof. intros e []. Qed.
Lemma quiet_one : forall e, quiet [Memory e].
Proof. intros e x [<-|[]]. eauto. Qed.
Definition stop (e : sevent) : Prop := match e with Memory _ => False | _ => True end.
Lemma stop_not_quiet : forall t e, stop e -> In e t -> ~ quiet t.
Proof. intros t e Hs Hi Hq. destruct (Hq e Hi) as (a & ->). destruct Hs. Qed.
Lemma last_not_quiet : forall t e, stop e -> ~ quiet (t ++ [e]).
Proof. intros t e Hs. apply (stop_not_quiet _ e Hs). apply in_app_iff. right. now left. Qed.
Lemma not_quiet_stop : forall t, ~ quiet t -> exists a e b, t = a ++ e :: b /\ quiet a /\ stop e.
Proof.
  induction t as [|x t IH]; intros H; [destruct (H quiet_nil)|]. destruct x as [e|r|].
  - destruct IH as (a & e' & b & -> & Ha & Hs).
    { intros Hq. apply H. intros y [<-|Hy]; eauto. }
    exists (Memory e :: a), e', b. split; [reflexivity|]. split; [|exact Hs]. intros y [<-|Hy]; eauto.
  - exists [], (Bad r), t. split; [reflexivity|]. split; [apply quiet_nil|exact Logic.I].
  - exists [], Outside, t. split; [reflexivity|]. split; [apply quiet_nil|exact Logic.I].
Qed.
Lemma quiet_dec : forall t, quiet t \/ ~ quiet t.
Proof.
  induction t as [|[e|r|] t [IH|IH]]; try (left; apply quiet_nil).
  - left. intros y [<-|Hy]; eauto.
  - right. intros H. apply IH. intros y Hy. apply H. now right.
  - right. apply (stop_not_quiet _ (Bad r)); [exact Logic.I|now left].
  - right. apply (stop_not_quiet _ (Bad r)); [exact Logic.I|now left].
  - right. apply (stop_not_quiet _ Outside); [exact Logic.I|now left].
  - right. apply (stop_not_quiet _ Outside); [exact Logic.I|now left].
Qed.

Lemma trace_split : forall {X} (a b c d : list X) x, a ++ b = c ++ x :: d ->
  (exists e, a = c ++ x :: e) \/ exists e, b = e ++ x :: d /\ c = a ++ e.
Proof.
  induction a as [|y a IH]; intros b c d x H.
  - right. exists c. split; [exact H|reflexivity].
  - destruct c as [|z c]; cbn in H.
    + injection H as -> <-. left. now exists a.
    + injection H as <- H. destruct (IH _ _ _ _ H) as [(e & ->)|(e & -> & ->)]; [left; now exists e|right; now exists e].
Qed.

(** ** What is known of histories *)
Section Facts.
  Context (G : list (Z * Z)).
  Definition violated (h : list Allocator.event) (r : reason) : Prop :=
    match r with
    | BadAccess a n => ref64 a /\ 0 < n /\ a + n < 2 ^ 63 /\ ~ Blocks.in_bounds G h a n
    | BadFree q => ref64 q /\ q <> 0 /\ ~ Blocks.starts_live G h Blocks.Heap q /\ ~ Blocks.starts_live G h Blocks.Stack q
    | BadAssert => True
    | Leak => leaks G h
    end.
  Definition facts (h : list Allocator.event) (t : list sevent) (h' : list Allocator.event) : Prop :=
    (quiet t -> h' = hist t h /\ possible G h') /\
    forall t0 r t1, t = t0 ++ Bad r :: t1 -> quiet t0 -> possible G (hist t0 h) /\ violated (hist t0 h) r.
  Lemma facts_app : forall h t1 h1 t2 h2, facts h t1 h1 -> (quiet t1 -> possible G h1 -> facts h1 t2 h2) -> facts h (t1 ++ t2) h2.
  Proof.
    intros h t1 h1 t2 h2 [F1 F2] F. split.
    - intros Hq. apply quiet_app in Hq as [Q1 Q2]. destruct (F1 Q1) as [E P]. destruct (proj1 (F Q1 P) Q2) as [E2 P2].
      rewrite hist_app, <- E. auto.
    - intros t0 r t3 E Q. destruct (trace_split _ _ _ _ _ E) as [(e & ->)|(e & -> & ->)].
      + apply (F2 t0 r e eq_refl Q).
      + apply quiet_app in Q as [Q1 Q2]. destruct (F1 Q1) as [E1 P]. rewrite hist_app, <- E1. apply (proj2 (F Q1 P) e r t3 eq_refl Q2).
  Qed.
  Lemma facts_nil : forall h, possible G h -> facts h [] h.
  Proof. intros h H. split; [auto|]. intros [|] r t1 E; discriminate. Qed.
  Lemma facts_memory : forall h e, possible G (e :: h) -> facts h [Memory e] (e :: h).
  Proof. intros h e H. split; [cbn; auto|]. intros [|x [|y t0]] r t1 E; discriminate. Qed.
  Lemma facts_stop : forall h e h', possible G h -> stop e -> (forall r, e = Bad r -> violated h r) -> facts h [e] h'.
  Proof.
    intros h e h' H Hs Hv. split.
    - intros Hq. destruct (last_not_quiet [] e Hs Hq).
    - intros [|x t0] r t1 E Hq; cbn in E.
      + injection E as E _. cbn. split; [exact H|now apply Hv].
      + injection E as _ E. destruct t0; discriminate.
  Qed.

  Definition call_facts (call : string -> seffect) : Prop :=
    forall f vs m h t v m' h', call f vs (m, h) t v (m', h') -> possible G h -> facts h t h'.
  Lemma base_events : forall o vs m t v m', exec_op no_call o vs m t v m' -> t = [] \/ t = [Failed].
  Proof. intros o vs m t v m' H. destruct H; auto. destruct H. Qed.
  Lemma accesses_facts : forall o vs a n, accesses o vs a n -> ref64 a /\ 0 < n.
  Proof. intros o vs a n [w x Hx|w x y Hx]; (split; [now apply signed_range|destruct w; reflexivity]). Qed.
  Lemma op_facts : forall call, call_facts call ->
    forall o vs m h t v m' h', exec_sop G call o vs (m, h) t v (m', h') -> possible G h -> facts h t h'.
  Proof.
    intros call Hc o vs m h t v m' h' H Hp.
    assert (forall t, t = [] \/ t = [Failed] -> facts h (map lift t) h) as Hb.
    { intros t1 [-> | ->]; [now apply facts_nil|]. apply facts_stop; [exact Hp|exact Logic.I|]. intros r E. injection E as <-. exact Logic.I. }
    inversion H; subst.
    - apply Hb. eapply base_events; eassumption.
    - apply Hb. eapply base_events; eassumption.
    - apply facts_stop; [exact Hp|exact Logic.I|]. intros r E. injection E as <-.
      match goal with A : accesses _ _ _ _ |- _ => destruct (accesses_facts _ _ _ _ A) end. cbn. auto.
    - apply facts_stop; [exact Hp|exact Logic.I|]. discriminate.
    - eapply Hc; eassumption.
    - apply facts_memory. cbn. split; [now apply signed_range|]. split; [now apply signed_range|]. auto.
    - apply facts_memory. cbn. split; [now apply signed_range|]. split; [now apply signed_range|]. auto.
    - apply facts_memory. cbn. split; [now apply signed_range|]. auto.
    - apply facts_stop; [exact Hp|exact Logic.I|]. discriminate.
    - apply facts_stop; [exact Hp|exact Logic.I|]. intros r E. injection E as <-. cbn. split; [now apply signed_range|]. auto.
  Qed.
End Facts.

Lemma no_invs : forall {O M X} p vs (m : M) t v w m', ~ @no_invokes O M X p vs m t v w m'.
Proof. intros O M X p vs m t v w m' []. Qed.

Definition mem_of {E P M} (s : lstate val E M P) : M := match s with LRun _ _ _ m => m | LDone _ m => m end.

Section Function.
  Context {W : string -> option Z} (f : func val (typed W width_ok) sop) (ep : bool).
  Context (G : list (Z * Z)) (HG : Blocks.good_globals true 64 G) (I : interp) (R : Allocator.rigid).
  Context (callA : string -> seffect) (callB : string -> bseffect) (HcA : call_facts G callA).
  Notation ev := (typed_den W width_ok).
  Notation f' := (instrument ep f).
  Notation stepA := (lstep ev (exec_sop G callA) no_invokes bv_true bv_eq f).
  Notation stepsA := (lsteps ev (exec_sop G callA) no_invokes bv_true bv_eq f).
  Notation stepB := (lstep ev (bexec_sop I R callB) no_invokes bv_true bv_eq f').
  Notation stepsB := (lsteps ev (bexec_sop I R callB) no_invokes bv_true bv_eq f').
  Notation wrongA := (goes_wrong ev (@no_invokes sop smem sevent) bv_true bv_eq f).
  Notation wrongB := (goes_wrong ev (@no_invokes mop bsmem sevent) bv_true bv_eq f').
  Notation stateA := (lstate val (typed W width_ok) smem sop).
  Notation stateB := (lstate val (typed W width_ok) bsmem mop).
  Definition hist_of (s : stateA) : list Allocator.event := snd (mem_of s).

  Lemma steps_facts : forall s t s', stepsA s t s' -> possible G (hist_of s) -> facts G (hist_of s) t (hist_of s').
  Proof.
    intros s t s' H Hp. induction H as [s|s1 t1 s2 t2 s3 H IH Hs]; [now apply facts_nil|].
    apply (facts_app G _ _ (hist_of s2)); [auto|]. intros _ Hp2.
    apply (lstep_inv ev _ _ _ _ no_invs) in Hs. destruct Hs as [[-> Hs]|(l & x & q & es & k & r & [m h] & vs & v & [m' h'] & -> & -> & He & Hpr)].
    - specialize (Hs (fun _ _ _ _ _ _ => False)). assert (hist_of s3 = hist_of s2) as ->; [|now apply facts_nil].
      inversion Hs; subst; try reflexivity; contradiction.
    - unfold hist_of in *. cbn in *. eapply op_facts; eassumption.
  Qed.

  (** ** The code *)
  Definition inst (l : label) (k : list (stmt (typed W width_ok) sop)) : list (stmt (typed W width_ok) mop) :=
    flat_map visit_stmt k ++ match block_of f l with Some b => leak_check_before ep (bterm b) | None => [] end.
  Lemma inst_cons : forall l s k, inst l (s :: k) = visit_stmt s ++ inst l k.
  Proof. intros l s k. unfold inst. cbn [flat_map]. now rewrite app_assoc. Qed.
  Lemma enter_visit : forall p l r, enter ev f' p l r = match enter ev f p l r with Some (k, r') => Some (inst l k, r') | None => None end.
  Proof.
    intros p l r. unfold enter. rewrite block_visit. destruct (block_of f l) as [b|] eqn:Eb; [|reflexivity]. cbn [option_map phis visit_block].
    destruct (phi_values _ _ _ _); [|reflexivity]. unfold inst. rewrite Eb. reflexivity.
  Qed.
  Definition is_access (o : op) (es : list (typed W width_ok)) : option (typed W width_ok * access) :=
    match o, es with Load w, [e] => Some (e, w) | Store w, [x; e] => Some (e, w) | _, _ => None end.
  Lemma visit_prim : forall x o es, visit_stmt (SPrim x o es) =
    match o with
    | Base o' => match is_access o' es with
                 | Some (e, w) => [SPrim None Check [e; access_size w]; SPrim x (Src (Base o')) es]
                 | None => [SPrim x (Src (Base o')) es]
                 end
    | _ => [SPrim x (Src o) es]
    end.
  Proof. intros x [[w|w|w| | |g]| | |] es; try reflexivity; destruct es as [|? [|? [|? ?]]]; reflexivity. Qed.
  Lemma size_value : forall w r, ev r (access_size w) = Some (VBv 64 (bytes_needed (width w))).
  Proof. intros w r. reflexivity. Qed.
  Lemma size_signed : forall w, signed 64 (bytes_needed (width w)) = bytes_needed (width w).
  Proof. intros []; reflexivity. Qed.
  Lemma size_is : forall w, is_iN 64 (bytes_needed (width w)).
  Proof. intros []; unfold is_iN; cbn; lia. Qed.
  (** an instruction that accesses memory is instrumented, with its address *)
  Lemma access_arg : forall o es r vs a n, evals ev r es = Some vs -> accesses o vs a n ->
    exists e w z, is_access o es = Some (e, w) /\ is_iN 64 z /\ a = signed 64 z /\ n = bytes_needed (width w) /\
      evals ev r [e; access_size w] = Some [VBv 64 z; VBv 64 (bytes_needed (width w))].
  Proof.
    intros o es r vs a n He Ha. destruct Ha as [w z Hz|w x z Hz]; unfold evals in *.
    - destruct es as [|e [|e2 es]]; cbn [map all_some] in He; try discriminate.
      + destruct (ev r e) as [y|] eqn:Ey; [|discriminate]. injection He as ->. exists e, w, z. cbn [map all_some]. rewrite Ey, size_value. auto.
      + exfalso. destruct (ev r e); [|discriminate]. destruct (ev r e2); [|discriminate]. destruct (all_some (map (ev r) es)); discriminate.
    - destruct es as [|e [|e2 [|e3 es]]]; cbn [map all_some] in He; try discriminate.
      + destruct (ev r e); discriminate.
      + destruct (ev r e) as [y0|] eqn:Ey0; [|discriminate]. destruct (ev r e2) as [y|] eqn:Ey; [|discriminate]. injection He as -> ->.
        exists e2, w, z. cbn [map all_some]. rewrite Ey, size_value. auto.
      + exfalso. destruct (ev r e); [|discriminate]. destruct (ev r e2); [|discriminate]. destruct (ev r e3); [|discriminate].
        destruct (all_some (map (ev r) es)); discriminate.
  Qed.
  Lemma not_access : forall o es r vs m t v m', evals ev r es = Some vs -> exec_op no_call o vs m t v m' ->
    (forall a n, ~ accesses o vs a n) -> is_access o es = None.
  Proof.
    intros o es r vs m t v m' He Hx Hn. destruct Hx; try reflexivity; exfalso.
    - apply (Hn (signed 64 a) (bytes_needed (width w))). now constructor.
    - apply (Hn (signed 64 a) (bytes_needed (width w))). now constructor.
  Qed.
  Lemma access_quiet : forall o vs a n m t v m', accesses o vs a n -> exec_op no_call o vs m t v m' -> t = [].
  Proof. intros o vs a n m t v m' Ha Hx. destruct Ha; inversion Hx; reflexivity. Qed.

  Lemma stepsB_one : forall s t s', stepB s t s' -> stepsB s t s'.
  Proof. intros s t s' H. rewrite <- (app_nil_l t). econstructor; [constructor|exact H]. Qed.
  Lemma stepsB_trans : forall s t s1 t' s', stepsB s t s1 -> stepsB s1 t' s' -> stepsB s (t ++ t') s'.
  Proof.
    intros s t s1 t' s' H1 H2. induction H2 as [s1|s1 t1 s2 t2 s3 H IH Hs]; [now rewrite app_nil_r|].
    rewrite app_assoc. econstructor; [apply IH; exact H1|exact Hs].
  Qed.

  (** ** From the program to Boogie *)
  Section Forward.
    Context (hf : list Allocator.event) (tau : nat -> Allocator.state) (Htau : timeline R G hf tau) (Hpf : possible G hf).
    Notation at_ h := (tau (List.length h)).
    Definition tr (s : stateA) : stateB :=
      match s with
      | LRun l k r (m, h) => LRun l (inst l k) r (m, at_ h)
      | LDone o (m, h) => LDone o (m, at_ h)
      end.
    Definition fails (h : list Allocator.event) (r : reason) : Prop :=
      match r with
      | BadAccess a n => ~ check64 R (at_ h) a n
      | BadFree q => ~ Allocator.free_check R (at_ h) q
      | BadAssert => True
      | Leak => ~ Allocator.leak_check (at_ h)
      end.
    Definition forward_quiet : Prop := forall g vs m h t v m' h', callA g vs (m, h) t v (m', h') -> quiet t -> possible G h ->
      suffix h' hf -> callB g vs (m, at_ h) t v (m', at_ h').
    Definition forward_bad : Prop := forall g vs m h t r v st', callA g vs (m, h) (t ++ [Bad r]) v st' -> quiet t -> possible G h ->
      hist t h = hf -> fails hf r -> exists v1 st1, callB g vs (m, at_ h) (t ++ [Bad r]) v1 st1.

    Lemma prim_quiet : forward_quiet -> forall l x o es k r m h vs t v m' h', evals ev r es = Some vs ->
      exec_sop G callA o vs (m, h) t v (m', h') -> quiet t -> possible G h -> suffix h' hf ->
      stepsB (LRun l (inst l (SPrim x o es :: k)) r (m, at_ h)) t (LRun l (inst l k) (updo r x v) (m', at_ h')).
    Proof.
      intros Hcall l x o es k r m h vs t v m' h' He H Hq Hp Hsuf. rewrite inst_cons, visit_prim.
      assert (forall e s', (e = Memory s' -> suffix (s' :: h) hf -> step64 R (at_ h) s' (at_ (s' :: h)))) as Hstep.
      { intros e s' _ Hs. exact (proj2 (Htau _ Hs) s' h eq_refl). }
      inversion H; subst;
        try (match goal with X : exec_op _ _ _ _ _ _ _ |- _ => rename X into Hex end);
        try (match goal with X : accesses _ _ _ _ |- _ => rename X into Hac end);
        try (match goal with X : Blocks.in_bounds _ _ _ _ |- _ => rename X into Hin end);
        try (match goal with X : forall _ _, ~ accesses _ _ _ _ |- _ => rename X into Hna end);
        try (match goal with X : callA _ _ _ _ _ _ |- _ => rename X into Hca end).
      - rewrite (not_access _ _ _ _ _ _ _ _ He Hex Hna). apply stepsB_one. econstructor; [exact He|]. apply V_base.
        apply (op_forward I (fun _ => True) no_call no_call); auto.
      - destruct (access_arg _ _ _ _ _ _ He Hac) as (e & w & z & -> & Hz & -> & -> & Hev).
        pose proof (access_quiet _ _ _ _ _ _ _ _ Hac Hex); subst.
        cbn [map app]. change (@nil sevent) with (@nil sevent ++ []).
        apply stepsB_trans with (LRun l (SPrim x (Src (Base o0)) es :: inst l k) (updo r None (VBv 64 0)) (m, at_ h')).
        + apply stepsB_one. econstructor; [exact Hev|]. apply V_check; [exact Hz|apply size_is|]. rewrite size_signed.
          destruct (Htau h' Hsuf) as [Hr _]. apply (check_ok G HG R h'); auto.
          * now apply signed_range.
          * apply (in_bounds_top G HG R h' _ _ _ Hr Hin).
          * now destruct w.
        + apply stepsB_one. change (@nil sevent) with (map lift []). econstructor; [exact He|]. apply V_base.
          apply (op_forward I (fun _ => True) no_call no_call); auto.
      - destruct (last_not_quiet [] (Bad (BadAccess a n)) Logic.I Hq).
      - destruct (last_not_quiet [] Outside Logic.I Hq).
      - cbn [is_access]. apply stepsB_one. econstructor; [exact He|]. apply V_call. apply Hcall; auto.
      - apply stepsB_one. econstructor; [exact He|]. apply V_malloc; auto. now apply (Hstep (Memory e)).
      - apply stepsB_one. econstructor; [exact He|]. apply V_alloca; auto. now apply (Hstep (Memory e)).
      - apply stepsB_one. econstructor; [exact He|]. apply V_free; auto. now apply (Hstep (Memory e)).
      - destruct (last_not_quiet [] Outside Logic.I Hq).
      - destruct (last_not_quiet [] (Bad (BadFree (signed 64 p))) Logic.I Hq).
    Qed.
    Lemma prim_bad : forward_bad -> forall l x o es k r m h vs t q v st', evals ev r es = Some vs ->
      exec_sop G callA o vs (m, h) (t ++ [Bad q]) v st' -> quiet t -> possible G h -> hist t h = hf -> fails hf q ->
      exists s', stepsB (LRun l (inst l (SPrim x o es :: k)) r (m, at_ h)) (t ++ [Bad q]) s' /\ result s' = None.
    Proof.
      intros Hcall l x o es k r m h vs t q v st' He H Hq Hp Hh Hf. rewrite inst_cons, visit_prim.
      assert (forall e, [e] = t ++ [Bad q] -> t = [] /\ e = Bad q) as Hone.
      { intros e E. destruct t as [|y t]; [injection E; auto|]. injection E as _ E. destruct t; discriminate. }
      inversion H; subst;
        try (match goal with X : exec_op _ _ _ _ _ _ _ |- _ => rename X into Hex end);
        try (match goal with X : accesses _ _ _ _ |- _ => rename X into Hac end);
        try (match goal with X : Blocks.in_bounds _ _ _ _ |- _ => rename X into Hin end);
        try (match goal with X : forall _ _, ~ accesses _ _ _ _ |- _ => rename X into Hna end);
        try (match goal with X : callA _ _ _ _ _ _ |- _ => rename X into Hca end);
        try (match goal with E : [_] = _ ++ _ |- _ => apply Hone in E; destruct E as [-> Heq]; try discriminate Heq end).
      - destruct (base_events _ _ _ _ _ _ Hex) as [-> | ->]; [destruct t; discriminate|].
        rewrite (not_access _ _ _ _ _ _ _ _ He Hex Hna). match goal with E : map _ _ = _ |- _ => cbn in E; apply Hone in E; destruct E as [-> Heq]; injection Heq as <- end. eexists.
        split; [apply stepsB_one; econstructor; [exact He|]; apply (V_base I R callB _ _ _ _ [Failed]); apply (op_forward I (fun _ => True) no_call no_call); auto; exact Hex|reflexivity].
      - rewrite (access_quiet _ _ _ _ _ _ _ _ Hac Hex) in *. destruct t; discriminate.
      - injection Heq as <-. destruct (access_arg _ _ _ _ _ _ He Hac) as (e & w & z & -> & Hz & -> & -> & Hev). cbn [hist] in Hh. rewrite <- Hh in Hf. cbn [fails] in Hf.
        assert (bexec_sop I R callB Check [VBv 64 z; VBv 64 (bytes_needed (width w))] (m, at_ h)
                  [Bad (BadAccess (signed 64 z) (bytes_needed (width w)))] (VBv 64 0) (m, at_ h)) as Hb.
        { rewrite <- (size_signed w) at 2. apply V_check_fails; [exact Hz|apply size_is|]. rewrite size_signed. exact Hf. }
        eexists. split; [apply stepsB_one; cbn [app]; econstructor; [exact Hev|exact Hb]|reflexivity].
      - cbn [is_access]. destruct (Hcall _ _ _ _ _ _ _ _ Hca Hq Hp Hh Hf) as (v1 & st1 & H1).
        eexists. split; [apply stepsB_one; econstructor; [exact He|]; apply V_call; exact H1|reflexivity].
      - injection Heq as <-. cbn [hist] in Hh. rewrite <- Hh in Hf. cbn [fails] in Hf. eexists. split; [apply stepsB_one; econstructor; [exact He|]; apply (V_free_fails I R callB _ m _ (VBv 64 0)); auto|reflexivity].
    Qed.

    Lemma leak_pass : forall l r m h out, stepsB (LRun l [] r (m, at_ h)) [] (LDone out (m, at_ h)) -> suffix h hf -> possible G h ->
      (ep = true -> ~ leaks G h) ->
      stepsB (LRun l (if ep then [SPrim None LeakCheck []] else []) r (m, at_ h)) [] (LDone out (m, at_ h)).
    Proof.
      intros l r m h out Hlast Hsuf Hp Hleak. assert (ep = true \/ ep = false) as [E|E] by (destruct ep; auto).
      - replace (if ep then [SPrim None LeakCheck []] else []) with [@SPrim (typed W width_ok) mop None LeakCheck []] by (rewrite E; reflexivity).
        change (@nil sevent) with (@nil sevent ++ []). apply stepsB_trans with (LRun l [] r (m, at_ h)); [|exact Hlast].
        apply stepsB_one. eapply (L_prim _ _ _ _ _ _ _ None); [reflexivity|]. apply (V_leak _ _ _ _ _ (VBv 64 0)).
        apply (leak_ok G HG R h); [apply (Htau h Hsuf)|exact Hp|exact (Hleak E)].
      - replace (if ep then [SPrim None LeakCheck []] else []) with (@nil (stmt (typed W width_ok) mop)) by (rewrite E; reflexivity). exact Hlast.
    Qed.
    (** steps of control *)
    Lemma quiet_step : forward_quiet -> forall s t s', stepA s t s' -> quiet t -> possible G (hist_of s) -> suffix (hist_of s') hf ->
      (ep = true -> forall v, match s' with LDone (Returned w) _ => w = v | _ => False end -> ~ leaks G (hist_of s')) ->
      stepsB (tr s) t (tr s').
    Proof.
      intros Hcall s t s' H Hq Hp Hsuf Hleak. destruct H; unfold hist_of in *; cbn [mem_of] in *.
      - destruct m as [m h]. cbn [tr]. rewrite inst_cons. apply stepsB_one. now constructor.
      - destruct m as [m h], m' as [m' h']. cbn [tr snd] in *. eapply prim_quiet; eassumption.
      - destruct m as [m h]. cbn [tr snd] in *. unfold inst. rewrite H. cbn [flat_map app]. rewrite H0. cbn [leak_check_before].
        assert (stepsB (LRun l [] r (m, at_ h)) [] (LDone (Returned None) (m, at_ h))) as Hlast.
        { apply stepsB_one. apply L_ret with (visit_block ep b); [now rewrite block_visit, H|cbn; now rewrite H0]. }
        apply leak_pass; auto. intros Eep. exact (Hleak Eep None eq_refl).
      - destruct m as [m h]. cbn [tr snd] in *. unfold inst. rewrite H. cbn [flat_map app]. rewrite H0. cbn [leak_check_before].
        assert (stepsB (LRun l [] r (m, at_ h)) [] (LDone (Returned (Some v)) (m, at_ h))) as Hlast.
        { apply stepsB_one. apply L_retv with (visit_block ep b) e; [now rewrite block_visit, H|cbn; now rewrite H0|exact H1]. }
        apply leak_pass; auto. intros Eep. exact (Hleak Eep (Some v) eq_refl).
      - destruct m as [m h]. cbn [tr]. unfold inst. rewrite H. cbn [flat_map app]. rewrite H0. cbn [leak_check_before].
        apply stepsB_one. apply L_resume with (visit_block ep b) e; [now rewrite block_visit, H|cbn; now rewrite H0|exact H1].
      - destruct m as [m h]. cbn [tr]. unfold inst at 1. rewrite H. cbn [flat_map app]. rewrite H0. cbn [leak_check_before].
        apply stepsB_one. apply L_br with (visit_block ep b); [now rewrite block_visit, H|cbn; now rewrite H0|]. now rewrite enter_visit, H1.
      - destruct m as [m h]. cbn [tr]. unfold inst at 1. rewrite H. cbn [flat_map app]. rewrite H0. cbn [leak_check_before].
        apply stepsB_one. eapply L_cond; [rewrite block_visit, H; reflexivity|cbn; rewrite H0; reflexivity|exact H1|]. now rewrite enter_visit, H2.
      - destruct m as [m h]. cbn [tr]. unfold inst at 1. rewrite H. cbn [flat_map app]. rewrite H0. cbn [leak_check_before].
        apply stepsB_one. eapply L_switch; [rewrite block_visit, H; reflexivity|cbn; rewrite H0; reflexivity|exact H1|]. now rewrite enter_visit, H2.
      - destruct H2.
    Qed.
    Lemma done_last : forall s t s', stepA s t s' -> match s with LDone _ _ => False | _ => True end.
    Proof. intros s t s' H. now destruct H. Qed.
    Lemma quiet_steps : forward_quiet -> forall s t s', stepsA s t s' -> quiet t -> possible G (hist_of s) -> suffix (hist_of s') hf ->
      (ep = true -> forall v, match s' with LDone (Returned w) _ => w = v | _ => False end -> ~ leaks G (hist_of s')) ->
      stepsB (tr s) t (tr s').
    Proof.
      intros Hcall s t s' H. induction H as [s|s1 t1 s2 t2 s3 H IH Hs]; intros Hq Hp Hsuf Hleak; [constructor|].
      apply quiet_app in Hq as [Q1 Q2].
      destruct (proj1 (steps_facts _ _ _ H Hp) Q1) as [E2 P2].
      destruct (proj1 (steps_facts _ _ _ (LS_step _ _ _ _ _ _ _ _ _ _ _ (LS_refl _ _ _ _ _ _ _) Hs) P2) Q2) as [E3 P3]. cbn [app] in E3.
      apply stepsB_trans with (tr s2).
      - apply IH; auto.
        + apply (suffix_trans _ (hist_of s3)); [rewrite E3; apply hist_suffix|exact Hsuf].
        + apply done_last in Hs. intros _ v Hv. destruct s2; [destruct Hv|destruct Hs].
      - apply (quiet_step Hcall _ _ _ Hs Q2 P2 Hsuf Hleak).
    Qed.
    (** up to the first event that stops *)
    Lemma bad_steps : forward_quiet -> forward_bad -> forall s t s', stepsA s t s' -> forall t0 q t1, t = t0 ++ Bad q :: t1 -> quiet t0 ->
      possible G (hist_of s) -> hist t0 (hist_of s) = hf -> fails hf q ->
      (forall o vs m h a b v m', exec_sop G callA o vs (m, h) (a ++ Bad q :: b) v m' -> exists v1 m1, exec_sop G callA o vs (m, h) (a ++ [Bad q]) v1 m1) ->
      exists s1, stepsB (tr s) (t0 ++ [Bad q]) s1 /\ result s1 = None.
    Proof.
      intros Hcall Hbad s t s' H. induction H as [s|s1 t1 s2 t2 s3 H IH Hs]; intros t0 q t3 E Hq Hp Hh Hf Hcut; [destruct t0; discriminate|].
      destruct (trace_split _ _ _ _ _ E) as [(e & ->)|(e & -> & ->)]; [eapply IH; eauto|].
      apply quiet_app in Hq as [Q1 Q2].
      destruct (proj1 (steps_facts _ _ _ H Hp) Q1) as [E2 P2]. rewrite hist_app, <- E2 in Hh.
      assert (suffix (hist_of s2) hf) as Hsuf by (rewrite <- Hh; apply hist_suffix).
      pose proof (done_last _ _ _ Hs) as Hnd.
      assert (stepsB (tr s1) t1 (tr s2)) as HB.
      { apply (quiet_steps Hcall); auto. intros _ v Hv. destruct s2; [destruct Hv|destruct Hnd]. }
      apply (lstep_inv ev _ _ _ _ no_invs) in Hs. destruct Hs as [[En _]|(l & x & o & es & k & r & [m h] & vs & v & m' & -> & -> & He & Hpr)].
      { destruct e; discriminate. }
      destruct (Hcut _ _ _ _ _ _ _ _ Hpr) as (v1 & m1 & Hpr1).
      destruct (prim_bad Hbad l x o es k r m h vs e q v1 m1 He Hpr1 Q2 P2 Hh Hf) as (s4 & H4 & H5).
      exists s4. split; [|exact H5]. rewrite <- app_assoc. eapply stepsB_trans; [exact HB|exact H4].
    Qed.
    (** a leak is found before the return *)
    Lemma leak_bad : forward_quiet -> forall l0 k0 r0 m0 t v m h, stepsA (LRun l0 k0 r0 m0) t (LDone (Returned v) (m, h)) -> quiet t ->
      possible G (snd m0) -> h = hf -> ep = true -> fails hf Leak ->
      exists s1, stepsB (tr (LRun l0 k0 r0 m0)) (t ++ [Bad Leak]) s1 /\ result s1 = None.
    Proof.
      intros Hcall l0 k0 r0 m0 t v m h H Hq Hp -> Eep Hf. inversion H as [|s1 t1 s2 t2 s3 H1 Hs E1 E2 E3]; subst.
      assert (exists l r b e, s2 = LRun l [] r (m, hf) /\ t2 = [] /\ block_of f l = Some b /\ bterm b = TRet e) as (l & r & b & e & -> & -> & Hb & Ht).
      { inversion Hs; subst; eexists _, _, _, _; eauto. }
      rewrite app_nil_r in *.
      assert (stepsB (tr (LRun l0 k0 r0 m0)) t1 (tr (LRun l [] r (m, hf)))) as HB.
      { apply (quiet_steps Hcall); [exact H1|exact Hq|exact Hp|apply suffix_refl|]. intros _ w []. }
      eexists. split; [eapply stepsB_trans; [exact HB|]|].
      - cbn [tr]. unfold inst. rewrite Hb, Ht. cbn [flat_map app leak_check_before]. replace (if ep then [SPrim None LeakCheck []] else []) with [@SPrim (typed W width_ok) mop None LeakCheck []] by (rewrite Eep; reflexivity).
        apply stepsB_one. eapply (L_prim _ _ _ _ _ _ _ None); [reflexivity|]. apply (V_leak_fails _ _ _ _ _ (VBv 64 0)). exact Hf.
      - reflexivity.
    Qed.
  End Forward.

  (** ** From Boogie to the program *)
  Section Backward.
    Definition backward : Prop := forall g vs m s h t v m' s', callB g vs (m, s) t v (m', s') -> run64 R G h s -> possible G h ->
      (quiet t /\ callA g vs (m, h) t v (m', hist t h) /\ run64 R G (hist t h) s') \/
      exists t1 e v1 st1, callA g vs (m, h) (t1 ++ [e]) v1 st1 /\ quiet t1 /\ stop e.
    Inductive rel : stateA -> stateB -> Prop :=
    | rel_at : forall l k r m h s, run64 R G h s -> possible G h -> rel (LRun l k r (m, h)) (LRun l (inst l k) r (m, s))
    | rel_mid : forall l k r m h s x o es vs a n, run64 R G h s -> possible G h -> evals ev r es = Some vs -> accesses o vs a n ->
        Blocks.in_bounds G h a n ->
        rel (LRun l (SPrim x (Base o) es :: k) r (m, h)) (LRun l (SPrim x (Src (Base o)) es :: inst l k) r (m, s))
    | rel_ret : forall l r m h s b e, run64 R G h s -> possible G h -> block_of f l = Some b -> bterm b = TRet e -> ~ leaks G h ->
        rel (LRun l [] r (m, h)) (LRun l [] r (m, s))
    | rel_done : forall o m h s, run64 R G h s -> possible G h -> (ep = true -> match o with Returned _ => ~ leaks G h | _ => True end) ->
        rel (LDone o (m, h)) (LDone o (m, s)).
    Definition stopsA (s0 : stateA) : Prop :=
      (exists t e s, stepsA s0 (t ++ [e]) s /\ quiet t /\ stop e /\ result s = None) \/
      (exists t s, stepsA s0 t s /\ quiet t /\ wrongA s) \/
      (exists t v m h, stepsA s0 t (LDone (Returned v) (m, h)) /\ quiet t /\ ep = true /\ leaks G h).

    Lemma stepsA_snoc : forall s t s1 t' s', stepsA s t s1 -> stepA s1 t' s' -> stepsA s (t ++ t') s'.
    Proof. intros. econstructor; eassumption. Qed.

    (** one step of Boogie: one or no step of the program, or it stops *)
    Definition next (sA : stateA) (t : list sevent) (sB : stateB) : Prop :=
      (quiet t /\ exists sA', (stepA sA t sA' \/ (t = [] /\ sA' = sA)) /\ rel sA' sB) \/
      (exists t1 e s, stepA sA (t1 ++ [e]) s /\ quiet t1 /\ stop e /\ result s = None) \/
      wrongA sA \/
      (exists v m h, stepA sA [] (LDone (Returned v) (m, h)) /\ ep = true /\ leaks G h).

    Lemma next_prim : backward -> forall l x o es k r m h s vs t v m' s', run64 R G h s -> possible G h ->
      (forall o', o = Base o' -> forall a n, accesses o' vs a n -> Blocks.in_bounds G h a n) ->
      evals ev r es = Some vs -> bexec_sop I R callB (Src o) vs (m, s) t v (m', s') ->
      next (LRun l (SPrim x o es :: k) r (m, h)) t (LRun l (inst l k) (updo r x v) (m', s')).
    Proof.
      intros Hcall l x o es k r m h s vs t v m' s' Hr Hp Hok He H.
      assert (forall e, step64 R s e s' -> exec_sop G callA o vs (m, h) [Memory e] v (m', e :: h) ->
                next (LRun l (SPrim x o es :: k) r (m, h)) [Memory e] (LRun l (inst l k) (updo r x v) (m', s'))) as Hmem.
      { intros e Hs Hx. left. split; [apply quiet_one|]. exists (LRun l k (updo r x v) (m', e :: h)). split; [left; econstructor; eassumption|].
        destruct (proj1 (op_facts G callA HcA _ _ _ _ _ _ _ _ Hx Hp) (quiet_one e)) as [_ P'].
        apply rel_at; [now apply Allocator.run_step with s|exact P']. }
      inversion H; subst.
      - match goal with X : bexec_op _ _ _ _ _ _ _ _ |- _ => destruct (op_backward I no_call no_call ltac:(intros ? ? ? ? ? ? []) _ _ _ _ _ _ X) as [Hx|(u1 & u2 & v1 & m1 & _ & Hx)] end.
        2:{ exfalso. destruct (base_events _ _ _ _ _ _ Hx) as [E|E]; destruct u1 as [|y [|z u1]]; discriminate. }
        assert (exec_sop G callA (Base o0) vs (m, h) (map lift t0) v (m', h)) as Hx'.
        { assert ((exists a n, accesses o0 vs a n) \/ forall a n, ~ accesses o0 vs a n) as [(a & n & Ha)|Ha].
          { destruct Hx; try (right; intros ? ? A; inversion A; fail); left; eexists _, _; constructor; assumption. }
          - apply (Z_access G callA o0 vs m h t0 v m' a n Ha); [exact (Hok o0 eq_refl a n Ha)|exact Hx].
          - now apply Z_plain. }
        destruct (base_events _ _ _ _ _ _ Hx) as [-> | ->].
        + left. split; [apply quiet_nil|]. exists (LRun l k (updo r x v) (m', h)). split; [left; econstructor; eassumption|]. now apply rel_at.
        + right. left. exists [], (Bad BadAssert), (LRun l k (updo r x v) (m', h)). cbn [app]. split; [econstructor; eassumption|].
          split; [apply quiet_nil|]. split; [exact Logic.I|reflexivity].
      - match goal with X : callB _ _ _ _ _ _ |- _ => rename X into Hcb end. destruct (Hcall _ _ _ _ _ _ _ _ _ Hcb Hr Hp) as [(Q & Hc & Hr')|(t1 & e & v1 & st1 & Hc & Q & Hs)].
        + left. split; [exact Q|]. exists (LRun l k (updo r x v) (m', hist t h)). split; [left; econstructor; [exact He|now constructor]|].
          apply rel_at; [exact Hr'|]. apply (proj1 (HcA _ _ _ _ _ _ _ _ Hc Hp) Q).
        + right. left. exists t1, e, (LRun l k (updo r x v1) st1). split; [econstructor; [exact He|now constructor]|]. auto.
      - apply Hmem; [assumption|]. apply Z_malloc; auto. match goal with X : step64 _ _ _ _ |- _ => destruct X as (Hn & _ & Ha & _) end.
        eapply alloc_placed; eassumption.
      - apply Hmem; [assumption|]. apply Z_alloca; auto. match goal with X : step64 _ _ _ _ |- _ => destruct X as (Hn & _ & Ha & _) end.
        eapply alloc_placed; eassumption.
      - destruct (Z.eq_dec (signed 64 q) 0) as [E0|E0]; [apply Hmem; [assumption|]; apply Z_free; auto|].
        destruct (starts_live_dec G h Blocks.Heap (signed 64 q)) as [Hl|Hl]; [apply Hmem; [assumption|]; apply Z_free; auto|].
        destruct (starts_live_dec G h Blocks.Stack (signed 64 q)) as [Hl2|Hl2]; right; left.
        + exists [], Outside, (LRun l k (updo r x v) (m', h)). split; [econstructor; [exact He|now apply Z_free_stack]|].
          split; [apply quiet_nil|]. split; [exact Logic.I|reflexivity].
        + eexists [], _, (LRun l k (updo r x v) (m', h)). split; [econstructor; [exact He|now apply Z_free_invalid]|].
          split; [apply quiet_nil|]. split; [exact Logic.I|reflexivity].
      - assert (~ (signed 64 q = 0 \/ Blocks.starts_live G h Blocks.Heap (signed 64 q) \/ Blocks.starts_live G h Blocks.Stack (signed 64 q))) as Hno.
        { intros Hl. match goal with X : ~ Allocator.free_check _ _ _ |- _ => apply X end. exact (free_ok G HG R h _ _ Hr Hl). }
        right. left. eexists [], _, (LRun l k (updo r x v) (m', h)). split; [econstructor; [exact He|apply Z_free_invalid; tauto]|].
        split; [apply quiet_nil|]. split; [exact Logic.I|reflexivity].
    Qed.
    Lemma next_access : forall l x o es k r m h s e w vs t v st', run64 R G h s -> possible G h -> is_access o es = Some (e, w) ->
      evals ev r [e; access_size w] = Some vs -> bexec_sop I R callB Check vs (m, s) t v st' ->
      next (LRun l (SPrim x (Base o) es :: k) r (m, h)) t (LRun l (SPrim x (Src (Base o)) es :: inst l k) r st').
    Proof.
      intros l x o es k r m h s e w vs t v st' Hr Hp Ha He H.
      destruct (evals ev r es) as [vs0|] eqn:E0.
      2:{ right. right. left. exact E0. }
      assert (exists z n, vs = [VBv 64 z; VBv 64 n] /\ is_iN 64 z /\ st' = (m, s) /\
                (check64 R s (signed 64 z) (signed 64 n) /\ t = [] \/ ~ check64 R s (signed 64 z) (signed 64 n))) as (z & n & -> & Hz & -> & Hchk).
      { inversion H; subst; (eexists _, _; split; [reflexivity|auto]). }
      clear H. unfold evals in He. cbn [map all_some] in He. rewrite size_value in He.
      destruct (ev r e) as [ve|] eqn:Ee; [|discriminate]. injection He as -> <-. rewrite size_signed in Hchk.
      assert (accesses o vs0 (signed 64 z) (bytes_needed (width w))) as Hacc.
      { destruct o as [w'|w'| | | |]; try discriminate; cbn [is_access] in Ha.
        - destruct es as [|e1 [|e2 es]]; try discriminate. injection Ha as -> ->. unfold evals in E0. cbn [map all_some] in E0. rewrite Ee in E0.
          injection E0 as <-. now constructor.
        - destruct es as [|e1 [|e2 [|e3 es]]]; try discriminate. injection Ha as -> ->. unfold evals in E0. cbn [map all_some] in E0. rewrite Ee in E0.
          destruct (ev r e1); [|discriminate]. injection E0 as <-. now constructor. }
      destruct (in_bounds_dec G h (signed 64 z) (bytes_needed (width w))) as [Hin|Hout].
      - destruct Hchk as [[_ ->]|Hchk].
        + left. split; [apply quiet_nil|]. eexists. split; [right; split; reflexivity|]. eapply rel_mid; eassumption.
        + destruct Hchk. apply (check_ok G HG R h); auto.
          * now apply signed_range.
          * apply (in_bounds_top G HG R h s _ _ Hr Hin).
          * now destruct w.
      - right. left. destruct (Z_lt_dec (signed 64 z + bytes_needed (width w)) (2 ^ 63)) as [Hlt|Hge].
        + eexists [], _, (LRun l k (updo r x (VBv 64 0)) (m, h)). split; [econstructor; [exact E0|eapply Z_invalid; eassumption]|].
          split; [apply quiet_nil|]. split; [exact Logic.I|reflexivity].
        + eexists [], _, (LRun l k (updo r x (VBv 64 0)) (m, h)). split; [econstructor; [exact E0|eapply Z_beyond; [eassumption|assumption|lia]]|].
          split; [apply quiet_nil|]. split; [exact Logic.I|reflexivity].
    Qed.
    Lemma access_fun : forall o vs a n a' n', accesses o vs a n -> accesses o vs a' n' -> a = a' /\ n = n'.
    Proof. intros o vs a n a' n' H1 H2. destruct H1; inversion H2; auto. Qed.
    Lemma ret_step : forall l r m h b e, block_of f l = Some b -> bterm b = TRet e ->
      (exists v, stepA (LRun l [] r (m, h)) [] (LDone (Returned v) (m, h))) \/ wrongA (LRun l [] r (m, h)).
    Proof.
      intros l r m h b [e|] Hb Ht; [|left; exists None; econstructor; eassumption].
      destruct (ev r e) as [v|] eqn:E; [left; exists (Some v); econstructor; eassumption|].
      right. exists b. rewrite Ht. auto.
    Qed.
    Lemma next_step : backward -> forall sA sB t sB', rel sA sB -> stepB sB t sB' -> next sA t sB'.
    Proof.
      intros Hcall sA sB t sB' Hrel. destruct Hrel as [l k r m h s Hr Hp|l k r m h s x o es vs a n Hr Hp He Ha Hin|l r m h s b e Hr Hp Hb Ht Hnl|o m h s Hr Hp Hd].
      - assert (forall sA', stepA (LRun l k r (m, h)) [] sA' -> rel sA' sB' -> next (LRun l k r (m, h)) [] sB') as Hsame.
        { intros sA' H1 H2. left. split; [apply quiet_nil|]. exists sA'. auto. }
        destruct k as [|[x e|x o es] k].
        + unfold inst. cbn [flat_map app]. destruct (block_of f l) as [b|] eqn:Eb.
          2:{ intros H. inversion H; subst;
              match goal with X : block_of f' _ = Some _ |- _ => rewrite block_visit, Eb in X; discriminate X end. }
          assert (leak_check_before ep (bterm b) = [] \/ ep = true /\ leak_check_before ep (bterm b) = [SPrim None LeakCheck []] /\ exists e, bterm b = TRet e)
            as [E|(E1 & E2 & e & Ee)].
          { destruct (bterm b); auto. cbn. destruct ep; eauto. }
          * rewrite E. intros H.
            inversion H; subst;
              match goal with X : block_of f' _ = Some _ |- _ => rewrite block_visit, Eb in X; cbn in X; injection X as <- end;
              match goal with X : bterm (visit_block _ _) = _ |- _ => cbn in X; destruct (bterm b) eqn:Et; cbn in X; try discriminate X; inversion X; subst; clear X end;
              try (match goal with X : no_invokes _ _ _ _ _ _ _ |- _ => destruct X end);
              try (match goal with X : enter ev f' _ _ _ = Some (?K, ?Q) |- _ => rewrite enter_visit in X;
                     match type of X with match ?y with _ => _ end = _ => destruct y as [[kk rr]|] eqn:Een; [injection X as <- <-|discriminate X] end end);
              (eapply Hsame; [econstructor; eassumption|]);
              try (apply rel_at; assumption);
              (apply rel_done; [assumption|assumption|]); intros Eep; try exact Logic.I; exfalso; cbn in E; rewrite Eep in E; discriminate E.
          * rewrite E2. intros H. inversion H; subst.
            match goal with X : bexec_sop _ _ _ _ _ _ _ _ _ |- _ => inversion X; subst end.
            -- left. split; [apply quiet_nil|]. exists (LRun l [] r (m, h)). split; [right; auto|]. eapply rel_ret; eauto.
               apply (leak_ok G HG R h s); assumption.
            -- assert (leaks G h) as Hl.
               { destruct (leaks_dec G h) as [Hl|Hl]; [exact Hl|]. exfalso.
                 match goal with X : ~ Allocator.leak_check _ |- _ => apply X end. now apply (leak_ok G HG R h s). }
               right. right. destruct (ret_step l r m h b e Eb Ee) as [(w & Hw)|Hw]; [right|left; exact Hw]. exists w, m, h. auto.
        + rewrite inst_cons. cbn [visit_stmt app]. intros H. inversion H; subst. eapply Hsame; [econstructor; eassumption|]. now apply rel_at.
        + rewrite inst_cons, visit_prim.
          assert ((exists o' e w, o = Base o' /\ is_access o' es = Some (e, w)) \/
                  (forall o' e w, o = Base o' -> is_access o' es <> Some (e, w)) /\
                  match o with Base o' => match is_access o' es with
                    | Some (e, w) => [SPrim None Check [e; access_size w]; SPrim x (Src (Base o')) es]
                    | None => [SPrim x (Src (Base o')) es] end | _ => [SPrim x (Src o) es] end = [SPrim x (Src o) es]) as [(o' & e & w & -> & Eac)|[Hno ->]].
          { destruct o as [o'| | |]; [|right; split; [discriminate|reflexivity]..].
            destruct (is_access o' es) as [[e w]|] eqn:Eac; [left; exists o', e, w; auto|right; split; [|reflexivity]].
            intros o1 e1 w1 E1. injection E1 as <-. rewrite Eac. discriminate. }
          * rewrite Eac. cbn [app]. intros H. inversion H; subst. cbn [updo]. eapply next_access; eassumption.
          * cbn [app]. intros H. inversion H; subst.
            match goal with X : bexec_sop _ _ _ _ _ _ _ _ ?mm |- _ => destruct mm as [m' s'] end.
            eapply next_prim; try eassumption. intros o' Eo a n Ha. exfalso.
            match goal with X : evals _ _ _ = Some _ |- _ => destruct (access_arg _ _ _ _ _ _ X Ha) as (e1 & w1 & _ & E1 & _) end.
            exact (Hno o' e1 w1 Eo E1).
      - intros H. inversion H; subst.
        match goal with X : bexec_sop _ _ _ _ _ _ _ _ ?mm |- _ => destruct mm as [m' s'] end.
        match goal with X : evals _ _ _ = Some _, Y : evals _ _ _ = Some ?vv |- context [next] => idtac end.
        eapply next_prim; try eassumption. intros o' Eo a' n' Ha'. injection Eo as <-.
        match goal with X : evals _ _ _ = Some ?v1, Y : evals _ _ _ = Some ?v2 |- _ => assert (v1 = v2) as Evs by congruence end.
        subst. destruct (access_fun _ _ _ _ _ _ Ha Ha') as [<- <-]. exact Hin.
      - intros H.
        inversion H; subst;
          match goal with X : block_of f' _ = Some _ |- _ => rewrite block_visit, Hb in X; cbn in X; injection X as <- end;
          match goal with X : bterm (visit_block _ _) = _ |- _ => cbn in X; rewrite Ht in X; cbn in X; try discriminate X; inversion X; subst; clear X end;
          (left; split; [apply quiet_nil|]; eexists; split; [left; econstructor; eassumption|]; apply rel_done; auto).
      - intros H. inversion H.
    Qed.
    Lemma wrong_back : forall sA sB, rel sA sB -> wrongB sB -> wrongA sA.
    Proof.
      intros sA sB Hrel. destruct Hrel as [l k r m h s Hr Hp|l k r m h s x o es vs a n Hr Hp He Ha Hin|l r m h s b e Hr Hp Hb Ht Hnl|o m h s Hr Hp Hd].
      - destruct k as [|[x e|x o es] k].
        + unfold inst. cbn [flat_map app]. destruct (block_of f l) as [b|] eqn:Eb.
          2:{ intros (b & Hb & _). rewrite block_visit, Eb in Hb. discriminate. }
          assert (wrongB (LRun l [] r (m, s)) -> wrongA (LRun l [] r (m, h))) as Hgo.
          { intros (b' & Hb & H). rewrite block_visit, Eb in Hb. cbn in Hb. injection Hb as <-. exists b. split; [exact Eb|].
            cbn [visit_block bterm] in H. destruct (bterm b) as [[e|]|l'|e l1 l2|e d c|x o es n u|e|]; cbn [visit_term] in H; auto.
            - rewrite enter_visit in H. destruct (enter ev f l l' r) as [[? ?]|]; [discriminate|reflexivity].
            - destruct (ev r e); [|auto]. rewrite enter_visit in H. destruct (enter ev f l _ r) as [[? ?]|]; [discriminate|reflexivity].
            - destruct (ev r e); [|auto]. rewrite enter_visit in H. destruct (enter ev f l _ r) as [[? ?]|]; [discriminate|reflexivity].
            - destruct (evals ev r es); [|auto]. destruct H as (? & ? & ? & ? & [] & _). }
          destruct (bterm b); cbn [leak_check_before]; try exact Hgo. destruct ep; [|exact Hgo]. intros H. discriminate H.
        + rewrite inst_cons. exact (fun H => H).
        + rewrite inst_cons, visit_prim. destruct o as [o'| | |]; try exact (fun H => H).
          destruct (is_access o' es) as [[e w]|] eqn:Eac; [|exact (fun H => H)].
          cbn [app]. intros H. unfold goes_wrong, evals in *. cbn [map all_some] in H. rewrite size_value in H.
          destruct (ev r e) eqn:Ee; [discriminate|].
          destruct o' as [w'|w'| | | |]; try discriminate; cbn [is_access] in Eac.
          * destruct es as [|e1 [|e2 es]]; try discriminate. injection Eac as -> ->. cbn [map all_some]. now rewrite Ee.
          * destruct es as [|e1 [|e2 [|e3 es]]]; try discriminate. injection Eac as -> ->. cbn [map all_some]. rewrite Ee. now destruct (ev r e1).
      - intros H. cbn [goes_wrong] in H. rewrite He in H. discriminate.
      - intros (b' & Hb' & H). rewrite block_visit, Hb in Hb'. cbn in Hb'. injection Hb' as <-. exists b. split; [exact Hb|].
        cbn [visit_block bterm] in H. rewrite Ht in *. exact H.
      - exact (fun H => H).
    Qed.
    Lemma next_steps : backward -> forall s0 sB0 t sB, stepsB sB0 t sB -> rel s0 sB0 ->
      (quiet t /\ exists sA, stepsA s0 t sA /\ rel sA sB) \/ stopsA s0.
    Proof.
      intros Hcall s0 sB0 t sB H Hrel. induction H as [sB|s1 t1 s2 t2 s3 H IH Hs].
      - left. split; [apply quiet_nil|]. exists s0. split; [constructor|exact Hrel].
      - destruct (IH Hrel) as [(Q & sA & HA & Hr2)|Hst]; [|now right].
        destruct (next_step Hcall _ _ _ _ Hr2 Hs) as [(Q2 & sA' & [Hs'|[-> ->]] & Hr3)|[(u & e & s & Hs' & Qu & He & Hn)|[Hw|(v & m & h & Hs' & Eep & Hl)]]].
        + left. split; [now apply quiet_app|]. exists sA'. split; [now apply stepsA_snoc with sA|exact Hr3].
        + left. rewrite app_nil_r. split; [exact Q|]. exists sA. auto.
        + right. left. exists (t1 ++ u), e, s. rewrite <- app_assoc. split; [now apply stepsA_snoc with sA|]. split; [now apply quiet_app|]. auto.
        + right. right. left. exists t1, sA. auto.
        + right. right. right. exists t1, v, m, h. split; [|auto]. rewrite <- (app_nil_r t1). now apply stepsA_snoc with sA.
    Qed.
  End Backward.

  Lemma start_inst : forall args (m : mem) (s : Allocator.state) (h : list Allocator.event), @lstart val _ bsmem mop f' args (m, s) =
    match @lstart val _ smem sop f args (m, h) with Some (LRun l k r _) => Some (LRun l (inst l k) r (m, s) : stateB) | _ => None end.
  Proof.
    intros args m s h. unfold lstart. change (entry f') with (entry f). rewrite block_visit. destruct (block_of f (entry f)) as [b|] eqn:Eb; [|reflexivity].
    cbn [option_map]. unfold inst. rewrite Eb. reflexivity.
  Qed.
End Function.
