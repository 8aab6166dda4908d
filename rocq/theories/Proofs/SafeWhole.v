(** Executions of whole programs with memory safety checks, and of the Boogie
    programs for them. *)
From Coq Require Import ZArith List String Bool Lia.
From Verif.Spec Require Import LLVMInt IR CFG BitVectorIR ByteMemory Program SafeProgram.
From Verif.Spec Require Blocks.
From Verif.Model Require Import Boogie PreludeInt BitVectorCode ControlFlow NormalizeLoops WholeProgram SafeProgram.
From Verif.Model Require Allocator MemorySafetyChecker.
From Verif.Proofs Require Import CFGBase CFGProofs ControlMain BitVectorCFG ProgramSim SafeAlloc SafePass SafeSim.
Import ListNotations.
Open Scope list_scope.
Open Scope Z_scope.

Lemma find_sin : forall p f F, find_sfn p f = Some F -> In (f, F) p.
Proof.
  induction p as [|[g G] p IH]; intros f F H; cbn in H; [discriminate|].
  destruct (String.eqb_spec f g) as [->|]; [injection H as ->; now left|right; auto].
Qed.
Lemma entry_iff : forall entries f, MemorySafetyChecker.isEntryPoint entries f = true <-> In f entries.
Proof.
  intros entries f. unfold MemorySafetyChecker.isEntryPoint. rewrite existsb_exists. split.
  - intros (g & Hg & E). apply String.eqb_eq in E as ->. exact Hg.
  - intros H. exists f. split; [exact H|apply String.eqb_refl].
Qed.
Lemma start_run : forall {E P M} (f : func val E P) args (m : M) s0, lstart f args m = Some s0 -> exists l k r, s0 = LRun l k r m.
Proof. intros E P M f args m s0 H. unfold lstart in H. destruct (block_of f (entry f)); [|discriminate]. injection H as <-. eauto. Qed.
Lemma last_eq : forall {X} (a b : list X) x y, a ++ [x] = b ++ [y] -> a = b /\ x = y.
Proof. intros X a b x y H. now apply app_inj_tail in H. Qed.

Section Whole.
  Context (I : interp) (ndebug : bool) (G : list (Z * Z)) (HG : Blocks.good_globals true 64 G) (entries : list string)
          (p : sprogram) (Hwf : swell_formed p).
  Notation A n := (scalls G entries p n).
  Notation den F := (typed_den (sreg_widths F) width_ok).
  Notation stepsA n F := (lsteps (den F) (exec_sop G (A n)) no_invokes bv_true bv_eq (scode F)).

  Lemma whole_facts : forall n, call_facts G (A n).
  Proof.
    induction n as [|n IH]; intros f args m h t v m' h' H Hp; [destruct H|].
    destruct H as (F & Hf & Hlen & H).
    assert (forall s0 t1 s, lstart (scode F) args (m, h) = Some s0 -> stepsA n F s0 t1 s -> facts G h t1 (hist_of s)) as Hgo.
    { intros s0 t1 s H0 H1. destruct (start_run _ _ _ _ H0) as (l & k & r & ->).
      apply (steps_facts (scode F) G (A n) IH _ _ _ H1 Hp). }
    destruct H as [(r & (s0 & s & H0 & H1 & H2) & _)|[(r & t0 & [m1 h1] & -> & (s0 & s & H0 & H1 & H2) & _ & Hl)|[[(s0 & s & H0 & H1 & H2) Hnq]|(t0 & -> & s0 & s & H0 & H1 & H2)]]].
    - pose proof (Hgo _ _ _ H0 H1) as Hx. destruct s; [discriminate|]. injection H2 as -> ->. exact Hx.
    - pose proof (Hgo _ _ _ H0 H1) as Hx. destruct s; [discriminate|]. injection H2 as -> ->. apply (facts_app G _ _ h1 _ _ Hx).
      intros _ Hp1. apply facts_stop; [exact Hp1|exact Logic.I|]. intros q E. injection E as <-. exact Hl.
    - destruct (Hgo _ _ _ H0 H1) as [_ Hx]. split; [tauto|exact Hx].
    - apply (facts_app G _ _ _ _ _ (Hgo _ _ _ H0 H1)). intros _ Hp1. apply facts_stop; [exact Hp1|exact Logic.I|discriminate].
  Qed.

  (** executions up to an error *)
  Lemma op_cut : forall (call : string -> seffect) q, (forall f args st a b v st', call f args st (a ++ Bad q :: b) v st' -> exists v1 st1, call f args st (a ++ [Bad q]) v1 st1) ->
    forall o vs st a b v st', exec_sop G call o vs st (a ++ Bad q :: b) v st' -> exists v1 st1, exec_sop G call o vs st (a ++ [Bad q]) v1 st1.
  Proof.
    intros call q Hc o vs st a b v st' H.
    assert ((exists f, o = Base (Call f) /\ call f vs st (a ++ Bad q :: b) v st') \/ b = []) as [(f & -> & Hx)|Eb].
    2:{ destruct (Hc _ _ _ _ _ _ _ Hx) as (v1 & st1 & H1). exists v1, st1. now constructor. }
    2:{ subst b. eauto. }
    assert (forall t, t = [] \/ (exists e, t = [e]) -> t = a ++ Bad q :: b -> b = []) as Hone.
    { intros t [-> |(e & ->)] E; destruct a as [|x a]; try discriminate E; injection E; [auto|]. intros E1. destruct a; discriminate E1. }
    assert (forall o vs m t v m', exec_op no_call o vs m t v m' -> map lift t = [] \/ exists e, map lift t = [e]) as Hb.
    { intros o1 vs1 m1 t1 v1 m1' Hx. destruct (base_events _ _ _ _ _ _ Hx) as [-> | ->]; cbn; eauto. }
    inversion H; subst;
      try (left; eexists; split; [reflexivity|assumption]);
      right; (match goal with X : _ = a ++ _ |- _ => refine (Hone _ _ X); try (right; eexists; reflexivity) end);
      (eapply Hb; eassumption).
  Qed.
  Lemma whole_cut : forall n q f args st a b v st', A n f args st (a ++ Bad q :: b) v st' -> exists v1 st1, A n f args st (a ++ [Bad q]) v1 st1.
  Proof.
    induction n as [|n IH]; intros q f args st a b v st' H; [destruct H|].
    destruct H as (F & Hf & Hlen & H). exists v, st', F. split; [exact Hf|]. split; [exact Hlen|].
    assert (forall s0 s c, lstart (scode F) args st = Some s0 -> stepsA n F s0 (a ++ Bad q :: c) s -> sruns G (A n) F args st (a ++ [Bad q]) None) as Hgo.
    { intros s0 s c H0 H1.
      destruct (steps_cut (den F) (exec_sop G (A n)) no_invokes bv_true bv_eq (scode F) no_invs (Bad q) (op_cut (A n) q (IH q)) _ _ _ H1 a c eq_refl) as (s1 & H2 & H3).
      exists s0, s1. auto. }
    assert (sruns G (A n) F args st (a ++ [Bad q]) None -> (exists r, sruns G (A n) F args st (a ++ [Bad q]) (Some (Returned r, st')) /\ returns r v /\ (In f entries -> ~ leaks G (snd st'))) \/
         (exists r t0 st1, a ++ [Bad q] = t0 ++ [Bad Leak] /\ sruns G (A n) F args st t0 (Some (Returned r, st1)) /\ In f entries /\ leaks G (snd st1)) \/
         (sruns G (A n) F args st (a ++ [Bad q]) None /\ ~ quiet (a ++ [Bad q])) \/
         (exists t0, a ++ [Bad q] = t0 ++ [Outside] /\ sruns_undefined G (A n) F args st t0)) as Hput.
    { intros Hx. right. right. left. split; [exact Hx|]. now apply last_not_quiet. }
    destruct H as [(r & (s0 & s & H0 & H1 & H2) & _)|[(r & t0 & st1 & E & (s0 & s & H0 & H1 & H2) & Hin & Hl)|[[(s0 & s & H0 & H1 & H2) Hnq]|(t0 & E & s0 & s & H0 & H1 & H2)]]].
    - apply Hput. eapply Hgo; eassumption.
    - symmetry in E. destruct (trace_split _ _ _ _ _ E) as [(e & ->)|(e & E1 & ->)]; [apply Hput; eapply Hgo; eassumption|].
      destruct e as [|x e]; [|destruct e; discriminate]. injection E1 as <- <-. rewrite app_nil_r in *.
      right. left. exists r, t0, st1. split; [reflexivity|]. split; [exists s0, s; auto|]. auto.
    - apply Hput. eapply Hgo; eassumption.
    - symmetry in E. destruct (trace_split _ _ _ _ _ E) as [(e & ->)|(e & E1 & ->)]; [apply Hput; eapply Hgo; eassumption|].
      destruct e as [|x e]; [discriminate|destruct e; discriminate].
  Qed.

  (** ** The passes, for a function of the program *)
  Section Passes.
    Context (R : Allocator.rigid) (f : string) (F : sfn) (Hin : In (f, F) p).
    Notation body := (runOnFunction (scode F) (sloops F)).
    Notation ep := (MemorySafetyChecker.isEntryPoint entries f).
    Lemma pass_ok : ssa_form (typed_regs (sreg_widths F) width_ok) (checked entries f F) /\ lowered (checked entries f F) /\ normalized (checked entries f F).
    Proof.
      destruct (run_ok (typed_regs (sreg_widths F) width_ok) (scode F) (sloops F) (sw_original p Hwf f F Hin) (sw_loops p Hwf f F Hin) (sw_ssa p Hwf f F Hin)) as (H1 & H2 & H3).
      split; [now apply ssa_visit|]. split; [apply lowered_visit, H2, (sw_lowered p Hwf f F Hin)|now apply normalized_visit].
    Qed.
    Lemma pass_params : params (checked entries f F) = params (scode F).
    Proof.
      change (params body = params (scode F)).
      exact (run_params (typed_regs (sreg_widths F) width_ok) (scode F) (sloops F) (sw_original p Hwf f F Hin) (sw_loops p Hwf f F Hin) (sw_ssa p Hwf f F Hin)).
    Qed.
    Lemma emit : forall call args r0 exn st t o, List.length args = List.length (params (scode F)) ->
      behaves (den F) (bexec_sop I R call) no_invokes bv_true bv_eq (checked entries f F) args st t o ->
      bsruns I entries R ndebug call f F args r0 exn st t o.
    Proof.
      intros call args r0 exn st t o Hlen H. destruct pass_ok as (P1 & P2 & P3). rewrite <- pass_params in Hlen.
      unfold bsruns. eapply cfg_forward; eauto. apply (typed_sim true ndebug I (sreg_widths F)).
    Qed.
    Lemma unemit : forall call args r0 exn st t o, List.length args = List.length (params (scode F)) ->
      bsruns I entries R ndebug call f F args r0 exn st t o ->
      behaves (den F) (bexec_sop I R call) no_invokes bv_true bv_eq (checked entries f F) args st t o \/
      exists t1 t2, t = t1 ++ t2 /\ undefined_after (den F) (bexec_sop I R call) no_invokes bv_true bv_eq (checked entries f F) args st t1.
    Proof.
      intros call args r0 exn st t o Hlen H. destruct pass_ok as (P1 & P2 & P3). rewrite <- pass_params in Hlen.
      exact (cfg_backward (den F) (typed_regs (sreg_widths F) width_ok) (bexec_sop I R call) no_invokes bv_true bv_eq
               (trans_typed true ndebug) (eval_emitted true I) (typed_sim true ndebug I (sreg_widths F)) _ P1 P2 P3 args r0 exn st t o Hlen H).
    Qed.
    Lemma loop_forward : forall n args st t o, sruns G (A n) F args st t o ->
      behaves (den F) (exec_sop G (A n)) no_invokes bv_true bv_eq body args st t o.
    Proof.
      intros n. exact (run_forward (den F) (typed_regs (sreg_widths F) width_ok) (exec_sop G (A n)) no_invokes bv_true bv_eq (scode F) (sloops F)
                         (sw_original p Hwf f F Hin) (sw_loops p Hwf f F Hin) (sw_ssa p Hwf f F Hin)).
    Qed.
    Lemma loop_backward : forall n args st t o, behaves (den F) (exec_sop G (A n)) no_invokes bv_true bv_eq body args st t o ->
      sruns G (A n) F args st t o \/ exists t1 t2, t = t1 ++ t2 /\ sruns_undefined G (A n) F args st t1.
    Proof.
      intros n. exact (run_backward (den F) (typed_regs (sreg_widths F) width_ok) (exec_sop G (A n)) no_invokes bv_true bv_eq (scode F) (sloops F)
                         (sw_original p Hwf f F Hin) (sw_loops p Hwf f F Hin) (sw_ssa p Hwf f F Hin)).
    Qed.
    Lemma loop_undefined : forall n args st t, undefined_after (den F) (exec_sop G (A n)) no_invokes bv_true bv_eq body args st t ->
      exists t1 t2, t = t1 ++ t2 /\ sruns_undefined G (A n) F args st t1.
    Proof.
      intros n. exact (run_ub_backward (den F) (typed_regs (sreg_widths F) width_ok) (exec_sop G (A n)) no_invokes bv_true bv_eq (scode F) (sloops F)
                         (sw_original p Hwf f F Hin) (sw_loops p Hwf f F Hin) (sw_ssa p Hwf f F Hin)).
    Qed.
  End Passes.

  (** ** Errors of the program are errors of the Boogie program *)
  Section Forward.
    Context (R : Allocator.rigid) (hf : list Allocator.event) (tau : nat -> Allocator.state) (Htau : timeline R G hf tau).
    Notation B n := (bscalls I entries p R ndebug n).
    Lemma whole_forward : forall n, forward_quiet G (A n) (B n) hf tau /\ forward_bad G R (A n) (B n) hf tau.
    Proof.
      induction n as [|n [IH1 IH2]]; [split; [intros ? ? ? ? ? ? ? ? []|intros ? ? ? ? ? ? ? ? []]|].
      assert (forall f F args m h t o, In (f, F) p -> sruns G (A n) F args (m, h) t o ->
                exists l k r s, lstart (checked entries f F) args (m, tau (List.length h)) = Some (tr (runOnFunction (scode F) (sloops F)) (MemorySafetyChecker.isEntryPoint entries f) tau (LRun l k r (m, h))) /\
                  lsteps (den F) (exec_sop G (A n)) no_invokes bv_true bv_eq (runOnFunction (scode F) (sloops F)) (LRun l k r (m, h)) t s /\ result s = o) as Hstart.
      { intros f F args m h t o Hin H. apply (loop_forward f F Hin) in H as (s0 & s & H0 & H1 & H2).
        destruct (start_run _ _ _ _ H0) as (l & k & r & ->). exists l, k, r, s. split; [|auto].
        unfold checked. rewrite (start_inst _ _ args m _ h), H0. reflexivity. }
      split.
      - intros f args m h t v m' h' H Hq Hp Hsuf. destruct H as (F & Hf & Hlen & H). pose proof (find_sin _ _ _ Hf) as Hin.
        destruct H as [(r & Hr & Hv & Hnl)|[(r & t0 & st1 & -> & _)|[[_ Hnq]|(t0 & -> & _)]]].
        + exists F, (fun _ => bv_true), false. split; [exact Hf|]. split; [exact Hlen|]. left. exists r. split; [|exact Hv].
          apply emit; [exact Hin|exact Hlen|]. destruct (Hstart _ _ _ _ _ _ _ Hin Hr) as (l & k & r1 & s & H0 & H1 & H2).
          destruct s as [|o [m1 h1]]; [discriminate|]. injection H2 as -> -> ->.
          eexists _, (tr _ _ tau (LDone (Returned r) (m', h'))). split; [exact H0|]. split; [|reflexivity].
          apply (quiet_steps _ _ G HG I R (A n) (B n) (whole_facts n) hf tau Htau IH1 _ _ _ H1 Hq Hp Hsuf).
          intros Eep _ _. apply Hnl. now apply entry_iff.
        + destruct (last_not_quiet _ (Bad Leak) Logic.I Hq).
        + destruct (Hnq Hq).
        + destruct (last_not_quiet _ Outside Logic.I Hq).
      - intros f args m h t q v st' H Hq Hp Hh Hfail. destruct H as (F & Hf & Hlen & H). pose proof (find_sin _ _ _ Hf) as Hin.
        assert (forall o, sruns G (A n) F args (m, h) (t ++ [Bad q]) o ->
                  exists v1 st1, B (S n) f args (m, tau (List.length h)) (t ++ [Bad q]) v1 st1) as Hgo.
        { intros o Ho. destruct (Hstart _ _ _ _ _ _ _ Hin Ho) as (l & k & r1 & s & H0 & H1 & H2).
          destruct (bad_steps _ (MemorySafetyChecker.isEntryPoint entries f) G HG I R (A n) (B n) (whole_facts n) hf tau Htau IH1 IH2 _ _ _ H1 t q [] eq_refl Hq Hp Hh Hfail) as (s1 & H3 & H4).
          { intros o1 vs m1 h1 a b v1 m1'. apply op_cut. apply whole_cut. }
          exists v, (m, tau O), F, (fun _ => bv_true), false. split; [exact Hf|]. split; [exact Hlen|]. right.
          split; [|now apply last_not_quiet]. apply emit; [exact Hin|exact Hlen|]. eexists _, s1. split; [exact H0|]. auto. }
        destruct H as [(r & Hr & _)|[(r & t0 & [m1 h1] & E & Hr & Hen & Hl)|[[Hr _]|(t0 & E & _)]]].
        + exact (Hgo _ Hr).
        + apply last_eq in E as [<- E]. injection E as ->. destruct (Hstart _ _ _ _ _ _ _ Hin Hr) as (l & k & r1 & s & H0 & H1 & H2).
          destruct s; [discriminate|]. injection H2 as -> ->.
          destruct (proj1 (steps_facts _ G (A n) (whole_facts n) _ _ _ H1 Hp) Hq) as [E1 _]. cbn in E1.
          destruct (leak_bad _ (MemorySafetyChecker.isEntryPoint entries f) G HG I R (A n) (B n) (whole_facts n) hf tau Htau IH1 _ _ _ _ _ _ _ _ H1 Hq Hp) as (s1 & H3 & H4).
          * rewrite E1. exact Hh.
          * now apply entry_iff.
          * exact Hfail.
          * exists v, (m, tau O), F, (fun _ => bv_true), false. split; [exact Hf|]. split; [exact Hlen|]. right.
            split; [|now apply last_not_quiet]. apply emit; [exact Hin|exact Hlen|]. eexists _, s1. split; [exact H0|]. auto.
        + exact (Hgo _ Hr).
        + apply last_eq in E as [_ E]. discriminate.
    Qed.
  End Forward.

  (** ** Errors of the Boogie program *)
  Lemma whole_backward : forall R n, backward G R (A n) (bscalls I entries p R ndebug n).
  Proof.
    intros R. induction n as [|n IH]; [intros ? ? ? ? ? ? ? ? ? []|].
    intros f args m s h t v m' s' H Hr Hp. destruct H as (F & r0 & exn & Hf & Hlen & H). pose proof (find_sin _ _ _ Hf) as Hin.
    set (ep := MemorySafetyChecker.isEntryPoint entries f).
    assert (forall t1, quiet t1 -> sruns_undefined G (A n) F args (m, h) t1 ->
              exists t1 e v1 st1, A (S n) f args (m, h) (t1 ++ [e]) v1 st1 /\ quiet t1 /\ stop e) as Hund.
    { intros t1 Q1 H1. exists t1, Outside, v, (m, h). split; [|split; [exact Q1|exact Logic.I]].
      exists F. split; [exact Hf|]. split; [exact Hlen|]. right. right. right. exists t1. auto. }
    assert (forall l k r, lstart (runOnFunction (scode F) (sloops F)) args (m, h) = Some (LRun l k r (m, h)) ->
              stopsA (runOnFunction (scode F) (sloops F)) ep G (A n) (LRun l k r (m, h)) ->
              exists t1 e v1 st1, A (S n) f args (m, h) (t1 ++ [e]) v1 st1 /\ quiet t1 /\ stop e) as Hstop.
    { intros l k r H0 [(t1 & e & s1 & H1 & Q1 & He & Hn)|[(t1 & s1 & H1 & Q1 & Hw)|(t1 & v1 & m1 & h1 & H1 & Q1 & Eep & Hl)]].
      - destruct (loop_backward f F Hin n args (m, h) (t1 ++ [e]) None) as [H2|(u1 & u2 & E & H2)].
        { exists (LRun l k r (m, h)), s1. auto. }
        + exists t1, e, v, (m, h). split; [|auto]. exists F. split; [exact Hf|]. split; [exact Hlen|]. right. right. left.
          split; [exact H2|]. now apply last_not_quiet.
        + destruct u2 as [|x u2].
          * rewrite app_nil_r in E. subst u1. destruct H2 as (s2 & s3 & H2 & H3 & H4).
            exists t1, e, v, (m, h). split; [|auto]. exists F. split; [exact Hf|]. split; [exact Hlen|]. right. right. left.
            split; [|now apply last_not_quiet]. exists s2, s3. split; [exact H2|]. split; [exact H3|]. destruct s3; [reflexivity|destruct H4].
          * apply (Hund u1); [|exact H2]. destruct (trace_split _ _ _ _ _ E) as [(e1 & ->)|(e1 & E1 & ->)]; [now apply quiet_app in Q1|].
            destruct e1 as [|y e1]; [now rewrite app_nil_r|destruct e1; discriminate].
      - destruct (loop_undefined f F Hin n args (m, h) t1) as (u1 & u2 & -> & H2).
        { exists (LRun l k r (m, h)), s1. auto. }
        apply quiet_app in Q1. now apply (Hund u1).
      - destruct (loop_backward f F Hin n args (m, h) t1 (Some (Returned v1, (m1, h1)))) as [H2|(u1 & u2 & -> & H2)].
        { exists (LRun l k r (m, h)), (LDone (Returned v1) (m1, h1)). auto. }
        + exists t1, (Bad Leak), v, (m, h). split; [|split; [exact Q1|exact Logic.I]]. exists F. split; [exact Hf|]. split; [exact Hlen|].
          right. left. exists v1, t1, (m1, h1). split; [reflexivity|]. split; [exact H2|]. split; [|exact Hl]. now apply entry_iff.
        + apply quiet_app in Q1. now apply (Hund u1). }
    assert (forall s0 t1 sB, lstart (checked entries f F) args (m, s) = Some s0 ->
              lsteps (den F) (bexec_sop I R (bscalls I entries p R ndebug n)) no_invokes bv_true bv_eq (checked entries f F) s0 t1 sB ->
              (quiet t1 /\ exists l k r sA, lstart (runOnFunction (scode F) (sloops F)) args (m, h) = Some (LRun l k r (m, h)) /\
                 lsteps (den F) (exec_sop G (A n)) no_invokes bv_true bv_eq (runOnFunction (scode F) (sloops F)) (LRun l k r (m, h)) t1 sA /\
                 rel (runOnFunction (scode F) (sloops F)) ep G R sA sB) \/
              exists t1 e v1 st1, A (S n) f args (m, h) (t1 ++ [e]) v1 st1 /\ quiet t1 /\ stop e) as Hgo.
    { intros s0 t1 sB H0 H1. unfold checked in H0. rewrite (start_inst _ _ args m _ h) in H0.
      destruct (@lstart val _ smem sop (runOnFunction (scode F) (sloops F)) args (m, h)) as [[l k r mm|]|] eqn:E0; try discriminate H0.
      destruct (start_run _ _ _ _ E0) as (l1 & k1 & r1 & E1). injection E1 as <- <- <- ->. injection H0 as <-.
      destruct (next_steps _ ep G HG I R (A n) _ (whole_facts n) IH _ _ _ _ H1 (rel_at _ _ _ _ l k r m h s Hr Hp)) as [(Q & sA & H2 & H3)|Hst].
      - left. split; [exact Q|]. exists l, k, r, sA. auto.
      - right. exact (Hstop l k r E0 Hst). }
    assert (forall o, bsruns I entries R ndebug (bscalls I entries p R ndebug n) f F args r0 exn (m, s) t o ->
              (exists t1 e v1 st1, A (S n) f args (m, h) (t1 ++ [e]) v1 st1 /\ quiet t1 /\ stop e) \/
              (quiet t /\ (o <> None -> exists out m1 s1 sA l k r, o = Some (out, (m1, s1)) /\ lstart (runOnFunction (scode F) (sloops F)) args (m, h) = Some (LRun l k r (m, h)) /\
                 lsteps (den F) (exec_sop G (A n)) no_invokes bv_true bv_eq (runOnFunction (scode F) (sloops F)) (LRun l k r (m, h)) t sA /\
                 rel (runOnFunction (scode F) (sloops F)) ep G R sA (LDone out (m1, s1))))) as Hrun.
    { intros o Ho. apply unemit in Ho as [(s0 & sB & H0 & H1 & H2)|(t1 & t2 & -> & s0 & sB & H0 & H1 & H2)]; [| |exact Hin|exact Hlen].
      - destruct (Hgo _ _ _ H0 H1) as [(Q & l & k & r & sA & H3 & H4 & H5)|Hst]; [right|now left].
        split; [exact Q|]. intros Hn. destruct sB as [|out [m1 s1]]; [cbn in H2; congruence|]. exists out, m1, s1, sA, l, k, r. auto.
      - left. destruct (Hgo _ _ _ H0 H1) as [(Q & l & k & r & sA & H3 & H4 & H5)|Hst]; [|exact Hst].
        apply (Hstop l k r H3). right. left. exists t1, sA. split; [exact H4|]. split; [exact Q|]. exact (wrong_back _ _ _ _ _ _ H5 H2). }
    destruct H as [(r & Hb & Hv)|[Hb Hnq]].
    - destruct (Hrun _ Hb) as [Hst|[Q Hx]]; [now right|].
      destruct Hx as (out & m1 & s1 & sA & l & k & r1 & E & H0 & H1 & H2); [discriminate|]. injection E as <- <- <-.
      inversion H2 as [| | |o1 m1 h1 s1 Hr1 Hp1 Hd E1 E2]; subst.
      destruct (proj1 (steps_facts _ G (A n) (whole_facts n) _ _ _ H1 Hp) Q) as [Eh _]. cbn in Eh. subst h1.
      destruct (loop_backward f F Hin n args (m, h) t (Some (Returned r, (m', hist t h)))) as [H3|(u1 & u2 & -> & H3)].
      { exists (LRun l k r1 (m, h)), (LDone (Returned r) (m', hist t h)). auto. }
      + left. split; [exact Q|]. split; [|exact Hr1]. exists F. split; [exact Hf|]. split; [exact Hlen|]. left. exists r.
        split; [exact H3|]. split; [exact Hv|]. intros Hen. apply Hd. now apply entry_iff.
      + right. apply quiet_app in Q. now apply (Hund u1).
    - destruct (Hrun _ Hb) as [Hst|[Q _]]; [now right|]. destruct (Hnq Q).
  Qed.

  (** ** Verdicts *)
  Theorem safe_forward : forall f args m, can_go_wrong G entries p f args m -> boogie_can_go_wrong I G entries p ndebug f args m.
  Proof.
    intros f args m (n & t & r & v & [m' h'] & H & Hq).
    destruct (proj2 (whole_facts n _ _ _ _ _ _ _ _ H Logic.I) t r [] eq_refl Hq) as [Hp Hv].
    assert (exists R s, run64 R G (hist t []) s /\ fails R (fun _ => s) (hist t []) r) as (R & s & Hrun & Hfail).
    { destruct r as [a k|q| |]; cbn [violated fails] in *.
      - destruct Hv as (V1 & V2 & V3 & V4). exact (check_bad G HG _ a k Hp V1 V3 V2 V4).
      - destruct Hv as (V1 & V2 & V3 & V4). exact (free_bad G HG _ q Hp V1 V2 V3 V4).
      - destruct (possible_run G _ HG Hp) as (R & s & Hr). exists R, s. auto.
      - destruct (possible_run G _ HG Hp) as (R & s & Hr). exists R, s. split; [exact Hr|].
        intros Hc. apply (leak_ok G HG R _ s Hr Hp) in Hc. exact (Hc Hv). }
    destruct (run_timeline _ _ _ _ Hrun) as (tau & Htau & Es).
    destruct (whole_forward R (hist t []) tau Htau n) as [_ Hbad].
    destruct (Hbad f args m [] t r v (m', h') H Hq Logic.I eq_refl) as (v1 & st1 & HB).
    { destruct r; cbn [fails] in *; rewrite ?Es; exact Hfail. }
    exists R, (tau O), n, (t ++ [Bad r]), v1, st1. split; [|split; [exact HB|]].
    - destruct (Htau [] (ex_intro _ (hist t []) (eq_sym (app_nil_r _)))) as [H0 _]. inversion H0. assumption.
    - exists r. apply in_app_iff. right. now left.
  Qed.
  Theorem safe_backward : forall f args m, boogie_can_go_wrong I G entries p ndebug f args m ->
    can_go_wrong G entries p f args m \/ can_be_outside G entries p f args m.
  Proof.
    intros f args m (R & s & n & t & v & [m' s'] & Hs & HB & r & Hr).
    destruct (whole_backward R n _ _ _ _ _ _ _ _ _ HB (Allocator.run_start _ _ _ _ _ _ _ Hs) Logic.I) as [(Q & _)|(t1 & e & v1 & st1 & H1 & Q & He)].
    - destruct (stop_not_quiet t (Bad r) Logic.I Hr Q).
    - destruct e as [e|q|]; [destruct He| |].
      + left. exists n, t1, q, v1, st1. auto.
      + right. exists n, t1, v1, st1. auto.
  Qed.
End Whole.
