(** A function and the same function after the overflow pass. *)
From Coq Require Import ZArith List String Ascii Bool Lia ZifyBool.
From Verif.Spec Require Import LLVMInt IR CFG BitVectorIR Program OverflowProgram.
From Verif.Spec Require Overflow.
From Verif.Model Require Import Boogie PreludeInt OverflowProgram.
From Verif.Model Require OverflowChecker.
From Verif.Proofs Require Import CFGBase SafePass ControlExamples OverflowPass.
From Verif.Proofs Require OverflowProofs BitVectorCFG PreludeCalls.
Import ListNotations.
Open Scope list_scope.
Open Scope Z_scope.

(** ** Executions, counted *)
Section Steps.
  Context {E M P Ev : Type} (evS : (string -> option val) -> E -> option val) (prim : P -> list val -> M -> list Ev -> val -> M -> Prop)
    (inv : P -> list val -> M -> list Ev -> val -> bool -> M -> Prop) (f : func val E P).
  Notation step := (lstep evS prim inv bv_true bv_eq f).
  Notation steps := (lsteps evS prim inv bv_true bv_eq f).
  Notation st := (lstate val E M P).
  Fixpoint nsteps (n : nat) (s : st) (t : list Ev) (s' : st) : Prop :=
    match n with
    | O => t = [] /\ s = s'
    | S n => exists t1 s1 t2, step s t1 s1 /\ nsteps n s1 t2 s' /\ t = t1 ++ t2
    end.
  Lemma nsteps_snoc : forall n s t1 s1 t2 s2, nsteps n s t1 s1 -> step s1 t2 s2 -> nsteps (S n) s (t1 ++ t2) s2.
  Proof.
    induction n as [|n IH]; intros s t1 s1 t2 s2 H Hs.
    - destruct H as [-> ->]. exists t2, s2, []. rewrite app_nil_r. cbn. auto.
    - destruct H as (u & a & w & H1 & H2 & ->). exists u, a, (w ++ t2). split; [exact H1|]. split; [exact (IH _ _ _ _ _ H2 Hs)|now rewrite app_assoc].
  Qed.
  Lemma steps_count : forall s t s', steps s t s' -> exists n, nsteps n s t s'.
  Proof.
    intros s t s' H. induction H as [s|s1 t1 s2 t2 s3 H [n IH] Hs]; [exists O; cbn; auto|]. exists (S n). exact (nsteps_snoc _ _ _ _ _ _ IH Hs).
  Qed.
  Lemma steps_app : forall s1 t1 s2 t2 s3, steps s1 t1 s2 -> steps s2 t2 s3 -> steps s1 (t1 ++ t2) s3.
  Proof.
    intros s1 t1 s2 t2 s3 H1 H2. revert H1. induction H2 as [s|a u b w c H IH Hs]; intros H1; [now rewrite app_nil_r|].
    rewrite app_assoc. eapply LS_step; [exact (IH H1)|exact Hs].
  Qed.
  Lemma steps_one : forall s t s', step s t s' -> steps s t s'.
  Proof. intros s t s' H. change t with ([] ++ t). eapply LS_step; [constructor|exact H]. Qed.
  Lemma first_event : forall s e t s', steps s (e :: t) s' -> exists s1 s2 t2, steps s [] s1 /\ step s1 (e :: t2) s2.
  Proof.
    intros s e t s' H. remember (e :: t) as u eqn:Eu. revert t Eu. induction H as [s|s1 t1 s2 t2 s3 H IH Hs]; intros t Eu; [discriminate|].
    destruct t1 as [|e1 t1]; cbn in Eu.
    - subst t2. eauto 6.
    - injection Eu as -> Eu. exact (IH t1 eq_refl).
  Qed.

  (** Assignments only. *)
  Fixpoint asteps (n : nat) (s s' : st) : Prop :=
    match n with
    | O => s = s'
    | S n => match s with
             | LRun l (SAssign x e :: k) r m => exists v, evS r e = Some v /\ asteps n (LRun l k (upd r x v) m) s'
             | _ => False
             end
    end.
  Lemma asteps_steps : forall n s s', asteps n s s' -> steps s [] s'.
  Proof.
    induction n as [|n IH]; intros s s' H; [cbn in H; subst; constructor|].
    destruct s as [l [|[x e|x p es] k] r m|]; try destruct H. destruct H as [Hv H].
    apply (lsteps_cons _ _ _ _ _ _ _ []  (LRun l k (upd r x x0) m) []); [now constructor|now apply IH].
  Qed.
  Lemma asteps_trans : forall n a b k c, asteps n a b -> asteps k b c -> asteps (n + k) a c.
  Proof.
    induction n as [|n IH]; intros a b k c H1 H2; [cbn in H1; subst; exact H2|].
    destruct a as [l [|[x e|x p es] q] r m|]; try destruct H1. destruct H as [Hv H]. cbn. exists x0. split; [exact Hv|]. exact (IH _ _ _ _ H H2).
  Qed.
  Definition busy (s : st) : Prop := exists l x e k r m v, s = LRun l (SAssign x e :: k) r m /\ evS r e = Some v.
  Lemma asteps_det : forall k a b, asteps k a b -> forall n t c, nsteps n a t c ->
    ((k <= n)%nat /\ nsteps (n - k) b t c) \/ (t = [] /\ busy c).
  Proof.
    induction k as [|k IH]; intros a b H n t c Hn; [cbn in H; subst; left; rewrite Nat.sub_0_r; split; [lia|exact Hn]|].
    destruct a as [l [|[x e|x p es] q] r m|]; try destruct H. destruct H as [Hv H].
    destruct n as [|n].
    - destruct Hn as [-> <-]. right. split; [reflexivity|]. exists l, x, e, q, r, m, x0. auto.
    - destruct Hn as (t1 & s1 & t2 & Hs & Hn & ->). inversion Hs; subst.
      assert (v = x0) as -> by congruence. destruct (IH _ _ H _ _ _ Hn) as [[H1 H2]|[H1 H2]].
      + left. split; [lia|exact H2].
      + right. subst t2. auto.
  Qed.
  Lemma busy_result : forall s, busy s -> result s = None.
  Proof. intros s (l & x & e & k & r & m & v & -> & _). reflexivity. Qed.
  Lemma busy_fine : forall s, busy s -> ~ goes_wrong evS inv bv_true bv_eq f s.
  Proof. intros s (l & x & e & k & r & m & v & -> & Hv) H. cbn in H. congruence. Qed.
End Steps.

(** ** Registers *)
Lemma run_code_ext : forall c r s rr, (forall x, r x = s x) -> run_code r c = Some rr ->
  exists ss, run_code s c = Some ss /\ forall x, rr x = ss x.
Proof.
  induction c as [|[x i] c IH]; intros r s rr H Hr; cbn in *.
  - injection Hr as <-. eauto.
  - rewrite <- (BitVectorCFG.inst_den_ext i r s) by auto. destruct (inst_den r i) as [v|]; [|discriminate].
    apply (IH (set_reg r x v) (set_reg s x v)); [|exact Hr]. intros y. unfold set_reg. destruct (String.eqb x y); auto.
Qed.
Lemma bits_range : forall G r x n a, G x = Some n -> bits G r x = Some a -> is_iN n a.
Proof.
  intros G r x n a Hx H. unfold bits in H. rewrite Hx in H. destruct (r x) as [[|m b| |]|]; try discriminate.
  destruct ((m =? n) && (0 <=? b) && (b <? 2 ^ n)) eqn:E; [|discriminate]. injection H as <-. unfold is_iN. lia.
Qed.
Lemma bits_upd : forall G r x n v y, G x = Some n -> is_iN n v -> bits G (upd r x (VBv n v)) y = set_reg (bits G r) x v y.
Proof.
  intros G r x n v y Hx Hv. unfold bits, upd, set_reg. destruct (String.eqb_spec x y) as [<-|Hne]; [|reflexivity].
  rewrite Hx, Z.eqb_refl. unfold is_iN in Hv. replace (0 <=? v) with true by lia. replace (v <? 2 ^ n) with true by lia. reflexivity.
Qed.
Lemma pos_mono : forall G v, wt_value G width_ok v -> wt_value G Overflow.positive v.
Proof.
  intros G. assert (forall n, width_ok n -> Overflow.positive n) as Hp by (intros n [H _]; exact (PreludeCalls.size_pos n H)).
  induction v; cbn; intuition.
Qed.
Lemma pos_mono_inst : forall G i, wt_inst G width_ok i -> wt_inst G Overflow.positive i.
Proof. intros G [op ? n a b|p n a b|c n1 n2 a|n c a b]; cbn [wt_inst]; apply pos_mono. Qed.
Lemma inst_in_range : forall G r i v, wt_inst G width_ok i -> inst_den (bits G r) i = Some v -> is_iN (iwidth i) v.
Proof.
  intros G r i v Hw Hv. apply (OverflowProofs.inst_range_pos G (bits G r)); [intros; now apply (bits_range G r x)|now apply pos_mono_inst|exact Hv].
Qed.
Lemma value_in_range : forall G r a v, wt_value G width_ok a -> value_den (bits G r) a = Some v -> is_iN (vwidth a) v.
Proof.
  intros G r i v Hw Hv. apply (OverflowProofs.value_range_pos G (bits G r)); [intros; now apply (bits_range G r x)|now apply pos_mono|exact Hv].
Qed.
Lemma typed_den_as : forall G r o, wt_operand G width_ok o -> typed_den G width_ok r (as_typed G o) = operand_den G r o.
Proof. intros G r o H. unfold typed_den. now rewrite as_typed_eq. Qed.

Definition emap (e : oevent) : event := match e with OUndefined => Undefined | _ => Failed end.

Section Sim.
  Context (W P : string -> option Z) (ck : bool) (f : func val oexp oop) (Hok : fn_ok source_name W P f).
  Context (ocall : string -> oeffect) (call : string -> effect).
  Notation G := (widths_after W P).
  Notation den' := (typed_den G width_ok).
  Notation visit := (visit_stmt W P ck).
  Notation f' := (visit_func W P ck f).
  Notation sstep := (lstep (oexp_den W) (exec_oop ck ocall) no_oinvoke bv_true bv_eq f).
  Notation ssteps := (lsteps (oexp_den W) (exec_oop ck ocall) no_oinvoke bv_true bv_eq f).
  Notation swrong := (goes_wrong (oexp_den W) no_oinvoke bv_true bv_eq f).
  Notation tstep := (lstep den' (exec_op call) no_invoke bv_true bv_eq f').
  Notation tsteps := (lsteps den' (exec_op call) no_invoke bv_true bv_eq f').
  Notation twrong := (goes_wrong den' no_invoke bv_true bv_eq f').
  Notation tasteps := (@asteps _ mem op den').
  Notation tnsteps := (nsteps den' (exec_op call) no_invoke f').

  Lemma assign_run : forall c l rest (r' : string -> option val) (m : mem) rr,
    Forall (fun xi => wt_inst G width_ok (snd xi) /\ G (fst xi) = Some (iwidth (snd xi))) c ->
    run_code (bits G r') c = Some rr ->
    exists r'', tasteps (List.length c) (LRun l (map (fun xi => assign W P (fst xi) (snd xi)) c ++ rest) r' m) (LRun l rest r'' m) /\
      (forall x, ~ In x (map fst c) -> r'' x = r' x) /\ (forall x, bits G r'' x = rr x).
  Proof.
    induction c as [|[x i] c IH]; intros l rest r' m rr Hc Hr; cbn [run_code] in Hr.
    - injection Hr as <-. exists r'. cbn. auto.
    - inversion Hc as [|? ? [H1 H2] Hc']; subst. cbn [fst snd] in *.
      destruct (inst_den (bits G r') i) as [v|] eqn:Ev; [|discriminate].
      assert (forall y, set_reg (bits G r') x v y = bits G (upd r' x (VBv (iwidth i) v)) y) as Hset.
      { intros y. symmetry. apply bits_upd; [exact H2|exact (inst_in_range _ _ _ _ H1 Ev)]. }
      destruct (run_code_ext c _ _ rr Hset Hr) as (ss & Hss & Es).
      destruct (IH l rest _ m _ Hc' Hss) as (r'' & HA & HB & HC). exists r''. split; [|split].
      + cbn [List.length map app fst snd]. unfold assign at 1. cbn [asteps]. exists (VBv (iwidth i) v). split; [|exact HA].
        rewrite (typed_den_as G r' (Instr i) H1). cbn. now rewrite Ev.
      + intros y Hy. rewrite HB by (intro; apply Hy; now right). unfold upd. destruct (String.eqb_spec x y); [|reflexivity]. subst. destruct Hy. now left.
      + intros y. now rewrite HC, Es.
  Qed.

  (** ** Related registers *)
  Definition INV (r r' : string -> option val) : Prop :=
    (forall x, plain_reg source_name P x -> r' x = r x) /\
    (forall d n, P d = Some n -> r' (RES d) = part r d n false /\ r' (FLAG d) = part r d n true).
  Lemma plain_fresh : forall x k d, plain_reg source_name P x -> (1 <= k <= 12)%nat -> x <> fresh k d.
  Proof. intros x k d [H _] Hk. now apply H. Qed.
  Lemma INV_upd : forall r r' x v, INV r r' -> plain_reg source_name P x -> INV (upd r x v) (upd r' x v).
  Proof.
    intros r r' x v [H1 H2] Hx. split.
    - intros y Hy. unfold upd. destruct (String.eqb x y); auto.
    - intros d n Hd. destruct (H2 d n Hd) as [E1 E2]. unfold part, upd at 1 3.
      destruct (String.eqb_spec x (RES d)) as [E|_]; [destruct (plain_fresh x 4 d Hx ltac:(lia) E)|].
      destruct (String.eqb_spec x (FLAG d)) as [E|_]; [destruct (plain_fresh x 7 d Hx ltac:(lia) E)|].
      unfold upd. destruct (String.eqb_spec x d) as [->|_]; [destruct Hx as [_ Hx]; congruence|]. auto.
  Qed.
  Lemma INV_updo : forall r r' x v, INV r r' -> (forall y, x = Some y -> plain_reg source_name P y) -> INV (updo r x v) (updo r' x v).
  Proof. intros r r' [x|] v H Hx; cbn; [apply INV_upd; auto|exact H]. Qed.
  Lemma INV_upds : forall l r r', INV r r' -> (forall x v, In (x, v) l -> plain_reg source_name P x) -> INV (upds r l) (upds r' l).
  Proof.
    induction l as [|[x v] l IH]; intros r r' H Hl; cbn; [exact H|]. apply IH; [apply INV_upd; [exact H|apply (Hl x v); now left]|]. intros y w Hy. apply (Hl y w). now right.
  Qed.
  Lemma bits_same : forall r r' x n, INV r r' -> W x = Some n -> bits G r' x = bits W r x.
  Proof.
    intros r r' x n [H _] Hx. unfold bits. rewrite (G_keep W P x n Hx), Hx, H; [reflexivity|]. exact (fn_regs _ _ _ _ Hok x n Hx).
  Qed.
  Lemma value_same : forall r r' v, INV r r' -> wt_value W width_ok v -> value_den (bits G r') v = value_den (bits W r) v.
  Proof.
    intros r r' v Hi Hv. apply BitVectorCFG.value_den_ext. intros x Hx. destruct (value_regs_wt W width_ok v x Hv Hx) as [n Hn]. exact (bits_same r r' x n Hi Hn).
  Qed.
  Lemma operand_same : forall r r' o, INV r r' -> wt_operand W width_ok o -> operand_den G r' o = operand_den W r o.
  Proof.
    intros r r' [v|i] Hi Hw; cbn [operand_den].
    - now rewrite (value_same r r' v Hi Hw).
    - rewrite (BitVectorCFG.inst_den_ext i (bits G r') (bits W r)); [reflexivity|]. intros x Hx.
      destruct (operand_regs_wt W width_ok (Instr i) x Hw Hx) as [n Hn]. exact (bits_same r r' x n Hi Hn).
  Qed.
  Lemma exp_same : forall r r' e, INV r r' -> oexp_ok W P e -> den' r' (visit_exp W P e) = oexp_den W r e.
  Proof.
    intros r r' e Hi He. destruct (exp_wt W P f Hok e He) as (o & Hw & Eo & Ee).
    assert (den' r' (visit_exp W P e) = operand_den G r' o) as -> by (unfold typed_den; now rewrite Eo).
    destruct e as [o'|d n fl].
    - rewrite Ee in *. cbn [oexp_den]. now apply operand_same.
    - cbn [oexp_ok] in He. rewrite Ee. cbn [operand_den value_den vwidth oexp_den]. destruct (proj2 Hi d n He) as [E1 E2].
      destruct (fn_widths _ _ _ _ Hok d n He) as [_ [Hn _]]. apply PreludeCalls.size_pos in Hn. unfold bits. destruct fl; cbv iota.
      + rewrite (w_flag W P f Hok), E2. unfold part. destruct (r d) as [[|m a| |]|]; try reflexivity.
        destruct ((m =? n + 1) && (0 <=? a) && (a <? 2 ^ (n + 1))) eqn:E; [|reflexivity]. rewrite Z.eqb_refl.
        assert (0 <= a / 2 ^ n < 2) as Hb.
        { split; [apply Z.div_pos; [lia|apply Z.pow_pos_nonneg; lia]|]. apply Z.div_lt_upper_bound; [apply Z.pow_pos_nonneg; lia|].
          replace (2 ^ n * 2) with (2 ^ (n + 1)) by (rewrite Z.pow_add_r by lia; lia). lia. }
        replace (0 <=? a / 2 ^ n) with true by lia. replace (a / 2 ^ n <? 2 ^ 1) with true by lia. reflexivity.
      + rewrite (w_res W P f Hok), He, E1. unfold part. destruct (r d) as [[|m a| |]|]; try reflexivity.
        destruct ((m =? n + 1) && (0 <=? a) && (a <? 2 ^ (n + 1))) eqn:E; [|reflexivity]. rewrite Z.eqb_refl.
        pose proof (Z.mod_pos_bound a (2 ^ n) ltac:(apply Z.pow_pos_nonneg; lia)) as Hb.
        replace (0 <=? a mod 2 ^ n) with true by lia. replace (a mod 2 ^ n <? 2 ^ n) with true by lia. reflexivity.
  Qed.
  Lemma exps_same : forall r r' es, INV r r' -> Forall (oexp_ok W P) es -> evals den' r' (map (visit_exp W P) es) = evals (oexp_den W) r es.
  Proof.
    intros r r' es Hi He. unfold evals. rewrite map_map. f_equal. apply map_ext_in. intros e Hin. rewrite Forall_forall in He. apply exp_same; auto.
  Qed.

  (** ** The code for a checked operation *)
  Definition chk (d : string) : list (stmt (typed G width_ok) op) := if ck then [SPrim None Assert [as_typed G (Op (VReg 32 (COND d)))]] else [].
  Lemma chk_true : forall d, ck = true -> chk d = [SPrim None Assert [as_typed G (Op (VReg 32 (COND d)))]].
  Proof. intros d E. unfold chk. now rewrite E. Qed.
  Lemma chk_false : forall d, ck = false -> chk d = [].
  Proof. intros d E. unfold chk. now rewrite E. Qed.
  Lemma cond_value : forall r'' d c, is_iN 32 c -> bits G r'' (COND d) = Some c -> den' r'' (as_typed G (Op (VReg 32 (COND d)))) = Some (VBv 32 c).
  Proof.
    intros r'' d c Hc H. rewrite typed_den_as.
    - cbn. now rewrite H.
    - apply (check_wt W P f Hok d (VConst 1 1)); [split; [unfold is_iN; lia|exact w1]|reflexivity].
  Qed.
  Lemma pair_parts : forall r d n v fl, 1 <= n -> is_iN n v -> 0 <= fl < 2 ->
    part (upd r d (pair_of n v fl)) d n false = Some (VBv n v) /\ part (upd r d (pair_of n v fl)) d n true = Some (VBv 1 fl).
  Proof.
    intros r d n v fl Hn Hv Hf. unfold part, upd, pair_of, is_iN in *. rewrite String.eqb_refl, Z.eqb_refl.
    assert (0 < 2 ^ n) by (apply Z.pow_pos_nonneg; lia).
    assert (2 ^ (n + 1) = 2 * 2 ^ n) as E by (rewrite Z.pow_add_r by lia; lia).
    replace (0 <=? fl * 2 ^ n + v) with true by nia. replace (fl * 2 ^ n + v <? 2 ^ (n + 1)) with true by nia. cbn [andb].
    split; f_equal; f_equal.
    - rewrite Z.add_comm, Z.mod_add by lia. apply Z.mod_small. lia.
    - rewrite Z.div_add_l by lia. rewrite Z.div_small by lia. lia.
  Qed.
  Lemma check_run : forall d flag fl l rest r' (m : mem), wt_value G width_ok flag -> vwidth flag = 1 -> value_den (bits G r') flag = Some fl -> 0 <= fl < 2 ->
    exists r'', tasteps 3 (LRun l (add_check W P d flag ++ rest) r' m) (LRun l ([SPrim None Assert [as_typed G (Op (VReg 32 (COND d)))]] ++ rest) r'' m) /\
      (forall x, ~ In x [ARG d; ISZ d; COND d] -> r'' x = r' x) /\
      den' r'' (as_typed G (Op (VReg 32 (COND d)))) = Some (VBv 32 (1 - fl)).
  Proof.
    intros d flag fl l rest r' m Hf Ef Hv Hr. destruct (check_wt W P f Hok d flag Hf Ef) as [Hw _].
    destruct (assign_run _ l ([SPrim None Assert [as_typed G (Op (VReg 32 (COND d)))]] ++ rest) r' m
      (set_reg (set_reg (set_reg (bits G r') (ARG d) fl) (ISZ d) (1 - fl)) (COND d) (1 - fl)) Hw) as (r'' & HA & HB & HC).
    { cbn [run_code]. cbn [inst_den value_den]. rewrite Hv. cbn [llvm_cast run_code inst_den value_den]. rewrite OverflowProofs.set_same. cbn [opt2 llvm_icmp].
      cbn [run_code inst_den value_den]. rewrite OverflowProofs.set_same. cbn [llvm_cast].
      assert (fl = 0 \/ fl = 1) as [-> | ->] by lia; reflexivity. }
    exists r''. split; [exact HA|]. split; [exact HB|]. apply cond_value; [unfold is_iN; lia|]. rewrite HC. apply OverflowProofs.set_same.
  Qed.
  Lemma with_run : forall l rest r r' (m : mem) d sg op n a b x y, INV r r' ->
    stmt_ok source_name W P (SPrim (Some d) (With sg op n) [Plain (Op a); Plain (Op b)]) ->
    value_den (bits W r) a = Some x -> value_den (bits W r) b = Some y ->
    exists j r'', (1 <= j)%nat /\ tasteps j (LRun l (visit (SPrim (Some d) (With sg op n) [Plain (Op a); Plain (Op b)]) ++ rest) r' m) (LRun l (chk d ++ rest) r'' m) /\
      INV (upd r d (pair_of n (Overflow.ovf_value sg op n x y) (Overflow.ovf_flag sg op n x y))) r'' /\
      (ck = true -> den' r'' (as_typed G (Op (VReg 32 (COND d)))) = Some (VBv 32 (1 - Overflow.ovf_flag sg op n x y))) /\
      is_iN n x /\ is_iN n y.
  Proof.
    intros l rest r r' m d sg op n a b x y Hi Hs Hx Hy. cbn [stmt_ok] in Hs.
    destruct Hs as (d0 & a0 & b0 & E0 & Hd & HP & Hn & Hn2 & E1 & Ha & Ea & Hb & Eb). injection E0 as <-. injection E1 as <- <-.
    assert (1 <= n) as Hpos by (apply PreludeCalls.size_pos; apply Hn).
    pose proof (value_in_range _ _ _ _ Ha Hx) as Rx. pose proof (value_in_range _ _ _ _ Hb Hy) as Ry. rewrite Ea in Rx. rewrite Eb in Ry.
    pose proof (arith_wt W P f Hok d sg op n a b HP Hn Hn2 Ha Ea Hb Eb) as Hw.
    assert (0 <= Overflow.ovf_flag sg op n x y < 2) as Hfl by (unfold Overflow.ovf_flag, b2z; destruct (Overflow.overflows sg op n x y); lia).
    assert (is_iN n (Overflow.ovf_value sg op n x y)) as Hvl.
    { unfold Overflow.ovf_value, is_iN, pat. apply Z.mod_pos_bound. apply Z.pow_pos_nonneg; lia. }
    destruct (OverflowProofs.checked_arith_run d sg op n a b (bits G r') x y Hpos) as (rr & Hr & H1 & H2 & H3); auto.
    { rewrite (value_same r r' a Hi Ha). exact Hx. }
    { rewrite (value_same r r' b Hi Hb). exact Hy. }
    { rewrite (BitVectorCFG.value_den_ext b _ (bits G r')); [rewrite (value_same r r' b Hi Hb); exact Hy|].
      intros z Hz. apply OverflowProofs.set_other. intros E. destruct (value_regs_wt W width_ok b z Hb Hz) as [k Hk].
      destruct (fn_regs _ _ _ _ Hok z k Hk) as [Hnz _]. apply (Hnz 1%nat d ltac:(lia)). symmetry. exact E. }
    cbn [visit_stmt]. rewrite <- app_assoc.
    destruct (assign_run _ l ((if ck then add_check W P d (VReg 1 (FLAG d)) else []) ++ rest) r' m rr Hw Hr) as (r1 & HA & HB & HC).
    assert (INV (upd r d (pair_of n (Overflow.ovf_value sg op n x y) (Overflow.ovf_flag sg op n x y))) r1) as HI.
    { split.
      - intros z Hz. rewrite HB.
        + unfold upd. destruct (String.eqb_spec d z) as [<-|_]; [destruct Hz as [_ Hz]; congruence|]. apply Hi. exact Hz.
        + cbn. intros Hin. repeat (destruct Hin as [Hin|Hin]; [symmetry in Hin; revert Hin; apply (plain_fresh z _ d Hz); lia|]). exact Hin.
      - intros e k He. destruct (string_dec d e) as [<-|Hne].
        + assert (k = n) as -> by congruence. destruct (pair_parts r d n _ _ Hpos Hvl Hfl) as [-> ->].
          pose proof (HC (RES d)) as E1. change (RES d) with (OverflowChecker.RES d) in E1 at 2. rewrite H1 in E1.
          pose proof (HC (FLAG d)) as E2. change (FLAG d) with (OverflowChecker.FLAG d) in E2 at 2. rewrite H2 in E2.
          unfold bits in E1, E2. rewrite (w_res W P f Hok), HP in E1. rewrite (w_flag W P f Hok) in E2. split.
          * destruct (r1 (RES d)) as [[|k c| |]|]; try discriminate. destruct ((k =? n) && (0 <=? c) && (c <? 2 ^ n)) eqn:E; [|discriminate].
            injection E1 as ->. assert (k = n) as -> by lia. reflexivity.
          * destruct (r1 (FLAG d)) as [[|k c| |]|]; try discriminate. destruct ((k =? 1) && (0 <=? c) && (c <? 2 ^ 1)) eqn:E; [|discriminate].
            injection E2 as ->. assert (k = 1) as -> by lia. reflexivity.
        + unfold part, upd. destruct (String.eqb_spec d e) as [E|_]; [contradiction|].
          assert (forall q, (1 <= q <= 12)%nat -> r1 (fresh q e) = r' (fresh q e)) as Hq.
          { intros q Hq. apply HB. cbn. intros Hin.
            repeat (destruct Hin as [Hin|Hin]; [apply fresh_inj in Hin; [destruct Hin as [_ Hin]; exact (Hne Hin)|lia|lia]|]). exact Hin. }
          change (RES e) with (fresh 4 e). change (FLAG e) with (fresh 7 e). rewrite !Hq by lia. exact (proj2 Hi e k He). }
    unfold chk. destruct (bool_dec ck true) as [Eck|Eck].
    - replace ck with true in *. 
      assert (value_den (bits G r1) (VReg 1 (FLAG d)) = Some (Overflow.ovf_flag sg op n x y)) as Hflag.
      { cbn [value_den]. rewrite HC. exact H2. }
      destruct (check_run d (VReg 1 (FLAG d)) _ l rest r1 m ltac:(split; [apply (w_flag W P f Hok)|exact w1]) eq_refl Hflag Hfl) as (r2 & HA2 & HB2 & HC2).
      eexists _, r2. split; [|split; [exact (asteps_trans _ _ _ _ _ _ HA HA2)|split; [|split; [intros _; exact HC2|auto]]]].
      { cbn. lia. }
      destruct HI as [I1 I2].
      assert (forall q e, (1 <= q <= 7)%nat -> r2 (fresh q e) = r1 (fresh q e)) as Hq.
      { intros q e Hq. apply HB2. cbn. intros Hin. repeat (destruct Hin as [Hin|Hin]; [apply fresh_inj in Hin; [destruct Hin as [Hin _]; lia|lia|lia]|]). exact Hin. }
      split.
      + intros z Hz. rewrite HB2; [auto|]. cbn. intros Hin. repeat (destruct Hin as [Hin|Hin]; [symmetry in Hin; revert Hin; apply (plain_fresh z _ d Hz); lia|]). exact Hin.
      + intros e k He. change (RES e) with (fresh 4 e). change (FLAG e) with (fresh 7 e). rewrite !Hq by lia. exact (I2 e k He).
    - replace ck with false in * by (destruct ck; congruence). cbn [app] in *. eexists _, r1. split; [|split; [exact HA|split; [exact HI|split; [discriminate|auto]]]]. cbn. lia.
  Qed.

  (** ** Blocks *)
  Inductive matches : lstate val oexp mem oop -> lstate val (typed G width_ok) mem op -> Prop :=
  | M_run : forall l k r r' m, Forall (stmt_ok source_name W P) k -> INV r r' -> matches (LRun l k r m) (LRun l (flat_map visit k) r' m)
  | M_done : forall o m, matches (LDone o m) (LDone o m).
  Lemma phis_same : forall r r' l ps, INV r r' -> Forall (phi_ok source_name W P) ps ->
    phi_values den' r' l (map (visit_phi W P) ps) = phi_values (oexp_den W) r l ps.
  Proof.
    intros r r' l ps Hi Hp. unfold phi_values. rewrite map_map. f_equal. apply map_ext_in. intros [x inc] Hin. rewrite Forall_forall in Hp.
    destruct (Hp _ Hin) as [_ He]. cbn [fst snd visit_phi] in *. rewrite (lookup_map (visit_exp W P) l inc).
    destruct (CFG.lookup l inc) as [e|] eqn:El; cbn [option_map]; [|reflexivity].
    rewrite (exp_same r r' e Hi); [reflexivity|]. apply (He l). exact (lookup_in _ _ _ _ El).
  Qed.
  Lemma phi_values_names : forall {E} (ev : (string -> option val) -> E -> option val) r l ps vs x v, phi_values ev r l ps = Some vs -> In (x, v) vs -> In x (map fst ps).
  Proof.
    intros E ev r l. induction ps as [|[y inc] ps IH]; intros vs x v H Hin; cbn in H.
    - injection H as <-. destruct Hin.
    - destruct (CFG.lookup l inc) as [e|]; [|discriminate]. destruct (ev r e) as [w|]; [|discriminate].
      unfold phi_values in IH. destruct (all_some _) as [ws|] eqn:Ew; [|discriminate]. injection H as <-.
      destruct Hin as [E1|Hin]; [injection E1 as -> _; now left|]. right. exact (IH ws x v eq_refl Hin).
  Qed.
  Lemma enter_same : forall r r' l l', INV r r' ->
    match enter (oexp_den W) f l l' r with
    | Some (k, r1) => Forall (stmt_ok source_name W P) k /\ exists r1', enter den' f' l l' r' = Some (flat_map visit k, r1') /\ INV r1 r1'
    | None => enter den' f' l l' r' = None
    end.
  Proof.
    intros r r' l l' Hi. unfold enter. rewrite (oblock_visit W P ck f). destruct (block_of f l') as [b|] eqn:Eb; cbn [option_map]; [|reflexivity].
    destruct (block_good W P f Hok l' b Eb) as (Hp & Hb & _). cbn [visit_block phis body].
    rewrite (phis_same r r' l (phis b) Hi Hp). destruct (phi_values (oexp_den W) r l (phis b)) as [vs|] eqn:Ev; [|reflexivity].
    split; [exact Hb|]. eexists. split; [reflexivity|]. apply INV_upds; [exact Hi|]. intros x v Hin.
    pose proof (phi_values_names _ _ _ _ _ _ _ Ev Hin) as Hx. apply in_map_iff in Hx as ([y inc] & <- & Hy). rewrite Forall_forall in Hp. exact (proj1 (Hp _ Hy)).
  Qed.
  Lemma enter_fwd : forall r r' l l' k r1, INV r r' -> enter (oexp_den W) f l l' r = Some (k, r1) ->
    exists r1', enter den' f' l l' r' = Some (flat_map visit k, r1') /\ forall m, matches (LRun l' k r1 m) (LRun l' (flat_map visit k) r1' m).
  Proof.
    intros r r' l l' k r1 Hi He. pose proof (enter_same r r' l l' Hi) as H. rewrite He in H. destruct H as (Hk & r1' & H1 & H2).
    exists r1'. split; [exact H1|]. intros m. now constructor.
  Qed.
  Lemma enter_bwd : forall r r' l l' k' r1', INV r r' -> enter den' f' l l' r' = Some (k', r1') ->
    exists k r1, enter (oexp_den W) f l l' r = Some (k, r1) /\ forall m, matches (LRun l' k r1 m) (LRun l' k' r1' m).
  Proof.
    intros r r' l l' k' r1' Hi He. pose proof (enter_same r r' l l' Hi) as H. destruct (enter (oexp_den W) f l l' r) as [[k r1]|]; [|congruence].
    destruct H as (Hk & r2 & H1 & H2). rewrite H1 in He. injection He as <- <-. exists k, r1. split; [reflexivity|]. intros m. now constructor.
  Qed.
  Lemma enter_none : forall r r' l l', INV r r' -> (enter (oexp_den W) f l l' r = None <-> enter den' f' l l' r' = None).
  Proof.
    intros r r' l l' Hi. pose proof (enter_same r r' l l' Hi) as H. destruct (enter (oexp_den W) f l l' r) as [[k r1]|]; [|tauto].
    destruct H as (_ & r2 & H1 & _). split; congruence.
  Qed.
  Lemma term_good : forall l b, block_of f l = Some b -> term_ok source_name W P (bterm b).
  Proof. intros l b H. apply (block_good W P f Hok l b H). Qed.
  Lemma term_fwd : forall l r r' m t s1, INV r r' -> sstep (LRun l [] r m) t s1 -> t = [] /\ exists s1', tstep (LRun l [] r' m) [] s1' /\ matches s1 s1'.
  Proof.
    intros l r r' m t s1 Hi H. inversion H; subst.
    all: match goal with Hb : block_of f ?l = Some ?b, Ht : bterm ?b = _ |- _ =>
      pose proof (term_good l b Hb) as Hg; rewrite Ht in Hg; cbn [term_ok] in Hg;
      assert (block_of f' l = Some (visit_block W P ck b)) as Hb' by (rewrite (oblock_visit W P ck f), Hb; reflexivity);
      assert (bterm (visit_block W P ck b) = visit_term W P (bterm b)) as Ht' by reflexivity; rewrite Ht in Ht'; cbn [visit_term option_map] in Ht' end.
    all: try match goal with Hi : INV ?r ?r', Hv : oexp_den W ?r ?e = Some ?v |- _ => rewrite <- (exp_same r r' e Hi Hg) in Hv end.
    all: try match goal with He : enter _ _ _ _ _ = Some _ |- _ => destruct (enter_fwd _ _ _ _ _ _ Hi He) as (r1' & He' & Hm) end.
    - split; [reflexivity|]. eexists. split; [eapply L_ret; eassumption|constructor].
    - split; [reflexivity|]. eexists. split; [eapply L_retv; eassumption|constructor].
    - split; [reflexivity|]. eexists. split; [eapply L_resume; eassumption|constructor].
    - split; [reflexivity|]. eexists. split; [eapply L_br; eassumption|apply Hm].
    - split; [reflexivity|]. eexists. split; [eapply L_cond; eassumption|apply Hm].
    - split; [reflexivity|]. eexists. split; [eapply L_switch; eassumption|apply Hm].
    - match goal with Hn : no_oinvoke _ _ _ _ _ _ _ |- _ => destruct Hn end.
  Qed.
  Lemma term_bwd : forall l r r' m t s1', INV r r' -> tstep (LRun l [] r' m) t s1' -> t = [] /\ exists s1, sstep (LRun l [] r m) [] s1 /\ matches s1 s1'.
  Proof.
    intros l r r' m t s1' Hi H. inversion H; subst.
    all: match goal with Hb : block_of f' ?l = Some ?b', Ht : bterm ?b' = _ |- _ =>
      destruct (oblock_some W P ck f l b' Hb) as (b0 & Hb0 & ->); pose proof (term_good l b0 Hb0) as Hg;
      cbn [visit_block bterm] in Ht; destruct (bterm b0) as [[e0|]| | | | | |] eqn:Et0; cbn [visit_term option_map term_ok] in Ht, Hg; try discriminate end.
    all: try match goal with Ht : TRet _ = TRet _ |- _ => injection Ht as Ht; try subst end.
    all: try match goal with Ht : TResume _ = TResume _ |- _ => injection Ht as Ht; subst end.
    all: try match goal with Ht : TBr _ = TBr _ |- _ => injection Ht as Ht; subst end.
    all: try match goal with Ht : TCond _ _ _ = TCond _ _ _ |- _ => injection Ht as ? ? ?; subst end.
    all: try match goal with Ht : TSwitch _ _ _ = TSwitch _ _ _ |- _ => injection Ht as ? ? ?; subst end.
    all: try match goal with Hi : INV ?r ?r', Hv : den' ?r' (visit_exp W P ?e) = Some ?v |- _ => rewrite (exp_same r r' e Hi Hg) in Hv end.
    all: try match goal with He : enter _ _ _ _ _ = Some _ |- _ => destruct (enter_bwd _ _ _ _ _ _ Hi He) as (k1 & r1 & He' & Hm) end.
    - split; [reflexivity|]. eexists. split; [eapply L_ret; eassumption|constructor].
    - split; [reflexivity|]. eexists. split; [eapply L_retv; eassumption|constructor].
    - split; [reflexivity|]. eexists. split; [eapply L_resume; eassumption|constructor].
    - split; [reflexivity|]. eexists. split; [eapply L_br; eassumption|apply Hm].
    - split; [reflexivity|]. eexists. split; [eapply L_cond; eassumption|apply Hm].
    - split; [reflexivity|]. eexists. split; [eapply L_switch; eassumption|apply Hm].
    - match goal with Hn : no_invoke _ _ _ _ _ _ _ |- _ => destruct Hn end.
  Qed.
  Lemma term_wrong : forall l r r' m, INV r r' -> (swrong (LRun l [] r m) <-> twrong (LRun l [] r' m)).
  Proof.
    intros l r r' m Hi. cbn [goes_wrong]. rewrite (oblock_visit W P ck f). destruct (block_of f l) as [b|] eqn:Eb; cbn [option_map].
    2: split; intros (b & E & _); discriminate.
    pose proof (term_good l b Eb) as Hg.
    enough (match bterm b with
        | TRet None => False
        | TRet (Some e) | TResume e => oexp_den W r e = None
        | TUnreachable => True
        | TBr l' => enter (oexp_den W) f l l' r = None
        | TCond e l1 l2 => match oexp_den W r e with Some v => enter (oexp_den W) f l (if bv_eq v bv_true then l1 else l2) r = None | None => True end
        | TSwitch e d cases => match oexp_den W r e with Some v => enter (oexp_den W) f l (select_case bv_eq v d cases) r = None | None => True end
        | TInvoke x p es n u => match evals (oexp_den W) r es with
            | Some vs => exists evs v (w : bool) m', no_oinvoke p vs m evs v w m' /\ enter (oexp_den W) f l (if w then u else n) (updo r x v) = None
            | None => True end
        end <-> match visit_term W P (bterm b) with
        | TRet None => False
        | TRet (Some e) | TResume e => den' r' e = None
        | TUnreachable => True
        | TBr l' => enter den' f' l l' r' = None
        | TCond e l1 l2 => match den' r' e with Some v => enter den' f' l (if bv_eq v bv_true then l1 else l2) r' = None | None => True end
        | TSwitch e d cases => match den' r' e with Some v => enter den' f' l (select_case bv_eq v d cases) r' = None | None => True end
        | TInvoke x p es n u => match evals den' r' es with
            | Some vs => exists evs v (w : bool) m', no_invoke p vs m evs v w m' /\ enter den' f' l (if w then u else n) (updo r' x v) = None
            | None => True end
        end) as Hiff.
    { split; intros (b1 & E1 & H1); injection E1 as <-; eexists; (split; [reflexivity|]); apply Hiff; exact H1. }
    destruct (bterm b) as [[e|]|l'|e l1 l2|e d c|x p es n u|e|] eqn:Et; cbn [visit_term option_map term_ok] in *; try tauto.
    - now rewrite (exp_same r r' e Hi Hg).
    - now apply enter_none.
    - rewrite (exp_same r r' e Hi Hg). destruct (oexp_den W r e); [now apply enter_none|tauto].
    - rewrite (exp_same r r' e Hi Hg). destruct (oexp_den W r e); [now apply enter_none|tauto].
    - destruct Hg as [_ Hg]. rewrite (exps_same r r' es Hi Hg). destruct (evals (oexp_den W) r es); [|tauto]. split; intros (? & ? & ? & ? & [] & _).
    - now rewrite (exp_same r r' e Hi Hg).
  Qed.

  (** ** Instructions *)
  Lemma base_op : forall o vs m t v m', exec_op call o vs m t v m' -> (exists g, o = Call g /\ call g vs m t v m') \/ exec_op no_callee o vs m t v m'.
  Proof. intros o vs m t v m' H. destruct H; try (right; constructor; assumption). left. eauto. Qed.
  Lemma no_callee_op : forall o vs m t v m', exec_op no_callee o vs m t v m' -> exec_op call o vs m t v m' /\ (t = [] \/ t = [Failed]).
  Proof.
    intros o vs m t v m' H. split; [destruct H; try (constructor; assumption); destruct H|].
    destruct H; auto. destruct H.
  Qed.
  Lemma evals_one : forall {E} (ev : (string -> option val) -> E -> option val) r e v, ev r e = Some v -> evals ev r [e] = Some [v].
  Proof. intros E ev r e v H. unfold evals. cbn. now rewrite H. Qed.
  Lemma with_args : forall r a b n vs, vwidth a = n -> vwidth b = n -> evals (oexp_den W) r [Plain (Op a); Plain (Op b)] = Some vs ->
    exists x y, value_den (bits W r) a = Some x /\ value_den (bits W r) b = Some y /\ vs = [VBv n x; VBv n y].
  Proof.
    intros r a b n vs Ea Eb H. unfold evals in H. cbn in H. rewrite Ea, Eb in H. destruct (value_den (bits W r) a) as [x|]; [|discriminate].
    destruct (value_den (bits W r) b) as [y|]; [|discriminate]. injection H as <-. eauto.
  Qed.
  Lemma flag_cases : forall sg op n x y, (Overflow.overflows sg op n x y = true /\ Overflow.ovf_flag sg op n x y = 1) \/
    (Overflow.overflows sg op n x y = false /\ Overflow.ovf_flag sg op n x y = 0).
  Proof. intros. unfold Overflow.ovf_flag. destruct (Overflow.overflows sg op n x y); auto. Qed.
  Lemma assert_step : forall l (rest : list (stmt (typed G width_ok) op)) r'' (m : mem) e c, c <> 0 -> den' r'' e = Some (VBv 32 c) ->
    tstep (LRun l ([SPrim None Assert [e]] ++ rest) r'' m) [] (LRun l rest r'' m).
  Proof. intros l rest r'' m e c Hc H. cbn. apply (L_prim _ _ _ _ _ _ l None Assert [e] rest r'' m [VBv 32 c] [] (VBv 32 c) m); [now apply evals_one|now constructor]. Qed.
  Lemma assert_fail : forall l (rest : list (stmt (typed G width_ok) op)) r'' (m : mem) e, den' r'' e = Some (VBv 32 0) ->
    tstep (LRun l ([SPrim None Assert [e]] ++ rest) r'' m) [Failed] (LRun l rest r'' m).
  Proof. intros l rest r'' m e H. cbn. apply (L_prim _ _ _ _ _ _ l None Assert [e] rest r'' m [VBv 32 0] [Failed] (VBv 32 0) m); [now apply evals_one|constructor]. Qed.
  Lemma handler_run : forall l rest r' (m : mem) u, ck = true ->
    exists r'' rest', tasteps 3 (LRun l (visit (SPrim (Some u) Handler []) ++ rest) r' m) (LRun l ([SPrim None Assert [as_typed G (Op (VReg 32 (COND u)))]] ++ rest') r'' m) /\
      den' r'' (as_typed G (Op (VReg 32 (COND u)))) = Some (VBv 32 0).
  Proof.
    intros l rest r' m u Eck. cbn [visit_stmt]. replace ck with true. rewrite <- app_assoc.
    destruct (check_run u (VConst 1 1) 1 l (add_blocking_assume W P u (VConst 1 1) ++ rest) r' m (one_wt W P) eq_refl eq_refl ltac:(lia)) as (r'' & HA & _ & HC).
    eexists r'', _. split; [exact HA|exact HC].
  Qed.
  Lemma handler_blocked : forall l rest r' (m : mem) u, ck = false ->
    exists r'' rest', tasteps 2 (LRun l (visit (SPrim (Some u) Handler []) ++ rest) r' m) (LRun l (SPrim None Assume [as_typed G (Op (VReg 32 (ARG2 u)))] :: rest') r'' m) /\
      den' r'' (as_typed G (Op (VReg 32 (ARG2 u)))) = Some (VBv 32 0).
  Proof.
    intros l rest r' m u Eck. cbn [visit_stmt]. replace ck with false. cbn [app].
    destruct (block_wt W P f Hok u (VConst 1 1) (one_wt W P) eq_refl) as [Hw Ho].
    destruct (assign_run _ l (SPrim None Assume [as_typed G (Op (VReg 32 (ARG2 u)))] :: rest) r' m (set_reg (set_reg (bits G r') (NOTF u) 0) (ARG2 u) 0) Hw) as (r'' & HA & HB & HC).
    { cbn [run_code inst_den value_den]. cbn [opt2 andb llvm_binop]. cbn [run_code inst_den value_den]. change (pat 1 (Z.lxor 1 1)) with 0. rewrite OverflowProofs.set_same. reflexivity. }
    eexists r'', _. split; [exact HA|]. rewrite (typed_den_as G r'' _ Ho). cbn [operand_den value_den]. rewrite HC, OverflowProofs.set_same. reflexivity.
  Qed.

  (** *** From the program to the program after the pass *)
  Context (HF : forall g vs m t v m', ocall g vs m t v m' ->
    (t = [] -> call g vs m [] v m') /\ (forall e t0, t = e :: t0 -> forall v m', call g vs m [emap e] v m')).
  Context (HB : forall g vs m t v m', call g vs m t v m' ->
    (t = [] -> ocall g vs m [] v m' \/ forall v m', ocall g vs m [OUndefined] v m') /\
    (forall e' t0, t = e' :: t0 -> exists e, (emap e = e' \/ e = OUndefined) /\ forall v m', ocall g vs m [e] v m')).

  Lemma step_fwd : forall s s' t s1, matches s s' -> sstep s t s1 ->
    (t = [] -> exists s1', tsteps s' [] s1' /\ matches s1 s1') /\
    (forall e t0, t = e :: t0 -> exists s1', tsteps s' [emap e] s1' /\ result s1' = None).
  Proof.
    intros s s' t s1 Hm Hs. destruct Hm as [l k r r' m Hk Hi|o m]; [|inversion Hs].
    destruct k as [|st k].
    { destruct (term_fwd l r r' m t s1 Hi Hs) as (-> & s1' & H1 & H2). split; [|intros; discriminate]. intros _. exists s1'. split; [now apply steps_one|exact H2]. }
    inversion Hk as [|? ? Hst Hk']; subst. cbn [flat_map]. destruct st as [x e|x o es].
    - (* assignment *)
      inversion Hs; subst. cbn [stmt_ok] in Hst. destruct Hst as [Hx He]. split; [|intros; discriminate]. intros _. eexists. split.
      + apply steps_one. cbn [visit_stmt app]. apply L_assign. rewrite (exp_same r r' e Hi He). eassumption.
      + constructor; [exact Hk'|now apply INV_upd].
    - inversion Hs; subst. destruct o as [o|sg op n|]; cbn [stmt_ok] in Hst.
      + (* other instructions *)
        destruct Hst as [Hx He]. assert (evals den' r' (map (visit_exp W P) es) = Some vs) as Hv by (now rewrite (exps_same r r' es Hi He)).
        assert (visit (SPrim x (OBase o) es) = [SPrim x o (map (visit_exp W P) es)]) as Hvis by (destruct x; reflexivity). rewrite Hvis. cbn [app].
        match goal with H : exec_oop _ _ _ _ _ _ _ _ |- _ => inversion H; subst end.
        * match goal with H : exec_op no_callee _ _ _ _ _ _ |- _ => destruct (no_callee_op _ _ _ _ _ _ H) as [H1 [-> | ->]] end.
          -- split; [|intros; discriminate]. intros _. eexists. split; [apply steps_one; eapply L_prim; eassumption|]. constructor; [exact Hk'|now apply INV_updo].
          -- split; [discriminate|]. intros e t0 E. injection E as <- _. eexists. split; [apply steps_one; eapply L_prim; eassumption|reflexivity].
        * match goal with H : ocall _ _ _ _ _ _ |- _ => destruct (HF _ _ _ _ _ _ H) as [H1 H2] end. split.
          -- intros ->. eexists. split; [apply steps_one; eapply L_prim; [eassumption|apply X_call; now apply H1]|]. constructor; [exact Hk'|now apply INV_updo].
          -- intros e t0 E. eexists. split; [apply steps_one; eapply L_prim; [eassumption|apply X_call; eapply (H2 e t0 E v m')]|reflexivity].
      + (* checked arithmetic *)
        assert (stmt_ok source_name W P (SPrim x (With sg op n) es)) as Hst' by exact Hst.
        destruct Hst as (d & a & b & -> & Hd & HP & Hn & Hn2 & -> & Ha & Ea & Hb & Eb).
        match goal with H : evals _ _ _ = Some vs |- _ => destruct (with_args _ _ _ _ _ Ea Eb H) as (x & y & Hx & Hy & ->) end.
        destruct (with_run l (flat_map visit k) r r' m d sg op n a b x y Hi Hst' Hx Hy) as (j & r'' & _ & HA & HI & HC & Rx & Ry).
        match goal with H : exec_oop _ _ _ _ _ _ _ _ |- _ => inversion H; subst end.
        * split; [|intros; discriminate]. intros _. exists (LRun l (flat_map visit k) r'' m'). split; [|constructor; [exact Hk'|exact HI]].
          apply (steps_app _ _ _ _ _ [] _ [] _ (asteps_steps _ _ _ _ _ _ _ HA)).
          destruct (bool_dec ck true) as [Eck|Eck]; [|rewrite chk_false by (destruct ck; congruence); constructor].
          specialize (HC Eck). rewrite (chk_true d Eck). apply steps_one. eapply assert_step; [|exact HC].
          destruct (flag_cases sg op (vwidth a) x y) as [[E1 E2]|[E1 ->]]; [|lia]. rewrite E1, Eck in *. discriminate.
        * split; [discriminate|]. intros e t0 E. injection E as <- _. cbn [emap].
          match goal with H : ck && _ = true |- _ => apply andb_true_iff in H as [Eck Eo] end. specialize (HC Eck).
          exists (LRun l (flat_map visit k) r'' m'). split; [|reflexivity].
          apply (steps_app _ _ _ _ _ [] _ [Failed] _ (asteps_steps _ _ _ _ _ _ _ HA)). rewrite (chk_true d Eck). apply steps_one.
          apply assert_fail. rewrite HC. destruct (flag_cases sg op (vwidth a) x y) as [[E1 ->]|[E1 ->]]; [reflexivity|congruence].
      + (* handler *)
        destruct Hst as (u & -> & Hu & _ & _ & ->).
        match goal with H : exec_oop _ _ _ _ _ _ _ _ |- _ => inversion H; subst end.
        split; [discriminate|]. intros e t0 E. injection E as <- _. cbn [emap].
        destruct (handler_run l (flat_map visit k) r' m' u) as (r'' & rest' & HA & HC); [assumption|].
        eexists. split; [apply (steps_app _ _ _ _ _ [] _ [Failed] _ (asteps_steps _ _ _ _ _ _ _ HA)); apply steps_one; apply assert_fail; exact HC|reflexivity].
  Qed.
  Lemma steps_fwd_ : forall s t s1, ssteps s t s1 -> t = [] -> forall s', matches s s' -> exists s1', tsteps s' [] s1' /\ matches s1 s1'.
  Proof.
    intros s t s1 H. induction H as [s|s1 t1 s2 t2 s3 H IH Hs]; intros Et s' Hm; [exists s'; split; [constructor|exact Hm]|].
    apply app_eq_nil in Et as [-> ->]. destruct (IH eq_refl s' Hm) as (s2' & H1 & Hm2). destruct (proj1 (step_fwd _ _ _ _ Hm2 Hs) eq_refl) as (s3' & H3 & Hm3).
    exists s3'. split; [exact (steps_app _ _ _ _ _ [] _ [] _ H1 H3)|exact Hm3].
  Qed.
  Lemma steps_fwd : forall s s1, ssteps s [] s1 -> forall s', matches s s' -> exists s1', tsteps s' [] s1' /\ matches s1 s1'.
  Proof. intros s s1 H. exact (steps_fwd_ s [] s1 H eq_refl). Qed.
  Lemma event_fwd : forall s e t s1 s', ssteps s (e :: t) s1 -> matches s s' -> exists s1', tsteps s' [emap e] s1' /\ result s1' = None.
  Proof.
    intros s e t s1 s' H Hm. destruct (first_event _ _ _ _ _ _ _ _ H) as (a & b & t2 & H1 & H2).
    destruct (steps_fwd _ _ H1 s' Hm) as (a' & Ha & Hm2). destruct (proj2 (step_fwd _ _ _ _ Hm2 H2) e t2 eq_refl) as (b' & Hb & Hr).
    exists b'. split; [exact (steps_app _ _ _ _ _ [] _ _ _ Ha Hb)|exact Hr].
  Qed.
  Lemma wrong_fwd : forall s s', matches s s' -> swrong s -> exists s1', tsteps s' [] s1' /\ twrong s1'.
  Proof.
    intros s s' Hm Hw. destruct Hm as [l k r r' m Hk Hi|o m]; [|destruct Hw].
    destruct k as [|st k].
    { eexists. split; [constructor|]. apply (term_wrong l r r' m Hi). exact Hw. }
    inversion Hk as [|? ? Hst Hk']; subst. cbn [flat_map]. destruct st as [x e|x o es]; cbn [goes_wrong] in Hw.
    - eexists. split; [constructor|]. cbn. rewrite (exp_same r r' e Hi (proj2 Hst)). exact Hw.
    - destruct o as [o|sg op n|]; cbn [stmt_ok] in Hst.
      + eexists. split; [constructor|]. destruct Hst as [_ He]. assert (visit (SPrim x (OBase o) es) = [SPrim x o (map (visit_exp W P) es)]) as Hvis by (destruct x; reflexivity).
        rewrite Hvis. cbn. now rewrite (exps_same r r' es Hi He).
      + destruct Hst as (d & a & b & -> & Hd & HP & Hn & Hn2 & -> & Ha & Ea & Hb & Eb).
        pose proof (arith_wt W P f Hok d sg op n a b HP Hn Hn2 Ha Ea Hb Eb) as Hwt.
        unfold OverflowChecker.checked_arith, OverflowChecker.extendBitWidth in Hwt. cbn [app] in Hwt.
        inversion Hwt as [|? ? [W1 G1] Hwt1]; subst. inversion Hwt1 as [|? ? [W2 G2] _]; subst. clear Hwt Hwt1. cbn [fst snd] in *.
        unfold evals in Hw. cbn in Hw. cbn [visit_stmt]. unfold OverflowChecker.checked_arith, OverflowChecker.extendBitWidth. cbn [app map fst snd].
        destruct (value_den (bits W r) a) as [x|] eqn:Ex.
        * destruct (value_den (bits W r) b) as [y|] eqn:Ey; [discriminate|]. eexists. split.
          -- apply steps_one. unfold assign at 1. apply L_assign. rewrite (typed_den_as G r' (Instr _) W1). cbn [operand_den inst_den value_den]. rewrite (value_same r r' a Hi Ha), Ex. reflexivity.
          -- unfold assign at 1. cbn [goes_wrong]. rewrite (typed_den_as G _ (Instr _) W2). cbn [operand_den inst_den value_den].
             rewrite (BitVectorCFG.value_den_ext b _ (bits G r')); [now rewrite (value_same r r' b Hi Hb), Ey|].
             intros z Hz. destruct (value_regs_wt W width_ok b z Hb Hz) as [k0 Hk0]. destruct (fn_regs _ _ _ _ Hok z k0 Hk0) as [Hnz _].
             unfold bits, upd. destruct (String.eqb_spec (OverflowChecker.EO1 d) z) as [<-|_]; [|reflexivity]. destruct (Hnz 1%nat d ltac:(lia) eq_refl).
        * eexists. split; [constructor|]. unfold assign at 1. cbn [goes_wrong]. rewrite (typed_den_as G r' (Instr _) W1). cbn [operand_den inst_den value_den]. now rewrite (value_same r r' a Hi Ha), Ex.
      + destruct Hst as (u & -> & Hu & _ & _ & ->). discriminate.
  Qed.

  (** *** From the program after the pass to the program *)
  Definition undefined_from (s : lstate val oexp mem oop) : Prop :=
    (exists s1, ssteps s [] s1 /\ swrong s1) \/ exists s1, ssteps s [OUndefined] s1 /\ result s1 = None.
  Definition explained (s : lstate val oexp mem oop) (t : list event) (c : lstate val (typed G width_ok) mem op) : Prop :=
    undefined_from s \/
    match t with
    | [] => (forall o m, c = LDone o m -> ssteps s [] (LDone o m)) /\ ~ twrong c
    | e' :: _ => exists e s1, emap e = e' /\ ssteps s [e] s1 /\ result s1 = None
    end.
  Lemma explained_before : forall s s1 t c, ssteps s [] s1 -> explained s1 t c -> explained s t c.
  Proof.
    intros s s1 t c Hs [[(s2 & H1 & H2)|(s2 & H1 & H2)]|H].
    - left. left. exists s2. split; [exact (steps_app _ _ _ _ _ [] _ [] _ Hs H1)|exact H2].
    - left. right. exists s2. split; [exact (steps_app _ _ _ _ _ [] _ _ _ Hs H1)|exact H2].
    - right. destruct t as [|e' t].
      + destruct H as [H1 H2]. split; [|exact H2]. intros o m E. exact (steps_app _ _ _ _ _ [] _ [] _ Hs (H1 o m E)).
      + destruct H as (e & s2 & E & H1 & H2). exists e, s2. split; [exact E|]. split; [exact (steps_app _ _ _ _ _ [] _ _ _ Hs H1)|exact H2].
  Qed.
  Lemma explained_busy : forall s c, busy den' c -> explained s [] c.
  Proof.
    intros s c H. right. split; [|now apply busy_fine]. intros o m ->. destruct H as (? & ? & ? & ? & ? & ? & ? & E & _). discriminate.
  Qed.
  Lemma wrong_bwd : forall s s', matches s s' -> twrong s' -> swrong s.
  Proof.
    intros s s' Hm Hw. destruct Hm as [l k r r' m Hk Hi|o m]; [|destruct Hw].
    destruct k as [|st k]; [apply (term_wrong l r r' m Hi); exact Hw|].
    inversion Hk as [|? ? Hst Hk']; subst. cbn [flat_map] in Hw. destruct st as [x e|x o es]; cbn [goes_wrong].
    - cbn in Hw. now rewrite (exp_same r r' e Hi (proj2 Hst)) in Hw.
    - destruct o as [o|sg op n|]; cbn [stmt_ok] in Hst.
      + destruct Hst as [_ He]. assert (visit (SPrim x (OBase o) es) = [SPrim x o (map (visit_exp W P) es)]) as Hvis by (destruct x; reflexivity).
        rewrite Hvis in Hw. cbn in Hw. now rewrite (exps_same r r' es Hi He) in Hw.
      + assert (stmt_ok source_name W P (SPrim x (With sg op n) es)) as Hst' by exact Hst.
        destruct Hst as (d & a & b & -> & Hd & HP & Hn & Hn2 & -> & Ha & Ea & Hb & Eb).
        destruct (evals (oexp_den W) r [Plain (Op a); Plain (Op b)]) as [vs|] eqn:Ev; [|reflexivity]. exfalso.
        destruct (with_args _ _ _ _ _ Ea Eb Ev) as (x & y & Hx & Hy & ->).
        destruct (with_run l (flat_map visit k) r r' m d sg op n a b x y Hi Hst' Hx Hy) as (j & r'' & Hj & HA & _).
        destruct j as [|j]; [lia|]. destruct (asteps_det den' (exec_op call) no_invoke f' _ _ _ HA 0 [] _ (conj eq_refl eq_refl)) as [[H _]|[_ H]]; [lia|].
        exact (busy_fine _ _ _ _ H Hw).
      + destruct Hst as (u & -> & Hu & _ & _ & ->). exfalso.
        destruct (bool_dec ck true) as [Eck|Eck].
        * destruct (handler_run l (flat_map visit k) r' m u Eck) as (r'' & rest' & HA & _).
          destruct (asteps_det den' (exec_op call) no_invoke f' _ _ _ HA 0 [] _ (conj eq_refl eq_refl)) as [[H _]|[_ H]]; [lia|]. exact (busy_fine _ _ _ _ H Hw).
        * destruct (handler_blocked l (flat_map visit k) r' m u) as (r'' & rest' & HA & _); [destruct ck; congruence|].
          destruct (asteps_det den' (exec_op call) no_invoke f' _ _ _ HA 0 [] _ (conj eq_refl eq_refl)) as [[H _]|[_ H]]; [lia|]. exact (busy_fine _ _ _ _ H Hw).
  Qed.
  Lemma wrong_dec : forall s', twrong s' \/ ~ twrong s'.
  Proof.
    intros [l [|[x e|x o es] k] r m|o m]; cbn [goes_wrong].
    - destruct (block_of f' l) as [b|]; [|right; intros (b & E & _); discriminate].
      assert (forall Q : block val (typed G width_ok) op -> Prop, (Q b \/ ~ Q b) -> (exists b0, Some b = Some b0 /\ Q b0) \/ ~ (exists b0, Some b = Some b0 /\ Q b0)) as Hq.
      { intros Q [H|H]; [left; eauto|]. right. intros (b0 & E & H0). injection E as <-. auto. }
      apply Hq. clear Hq. cbv beta. destruct (bterm b) as [[e|]|l'|e l1 l2|e d c|x p es n u|e|]; [| |..].
      + destruct (den' r e); [right; discriminate|auto].
      + right. intros [].
      + destruct (enter den' f' l l' r); [right; discriminate|auto].
      + destruct (den' r e); [|auto]. destruct (enter den' f' l _ r); [right; discriminate|auto].
      + destruct (den' r e); [|auto]. destruct (enter den' f' l _ r); [right; discriminate|auto].
      + destruct (evals den' r es); [|auto]. right. intros (? & ? & ? & ? & [] & _).
      + destruct (den' r e); [right; discriminate|auto].
      + left. exact Logic.I.
    - destruct (den' r e); [right; discriminate|auto].
    - destruct (evals den' r es); [right; discriminate|auto].
    - right. intros [].
  Qed.
  Lemma steps_bwd : forall N n, (n < N)%nat -> forall s s' t c, matches s s' -> tnsteps n s' t c -> explained s t c.
  Proof.
    induction N as [|N IH]; intros n Hn s s' t c Hm Hs; [lia|].
    destruct n as [|n].
    { destruct Hs as [-> <-]. destruct Hm as [l k r r' m Hk Hi|o m].
      - assert (swrong (LRun l k r m) \/ ~ twrong (LRun l (flat_map visit k) r' m)) as [H|H].
        { destruct (wrong_dec (LRun l (flat_map visit k) r' m)) as [H|H]; [left|right; exact H]. eapply wrong_bwd; [|exact H]. now constructor. }
        + left. left. eexists. split; [constructor|exact H].
        + right. split; [intros; discriminate|exact H].
      - right. split; [intros o1 m1 E; injection E as -> ->; constructor|]. intros []. }
    destruct Hs as (t1 & s1' & t2 & Hs & Hr & ->).
    destruct Hm as [l k r r' m Hk Hi|o m]; [|inversion Hs].
    destruct k as [|st k].
    { destruct (term_bwd l r r' m t1 s1' Hi Hs) as (-> & s1 & H1 & H2).
      apply (explained_before _ s1); [now apply steps_one|]. apply (IH n ltac:(lia) _ _ _ _ H2 Hr). }
    inversion Hk as [|? ? Hst Hk']; subst. cbn [flat_map] in Hs. destruct st as [x e|x o es].
    - cbn [visit_stmt app] in Hs. inversion Hs; subst. cbn [stmt_ok] in Hst. destruct Hst as [Hx He].
      match goal with H : den' _ _ = Some v |- _ => rewrite (exp_same _ _ e Hi He) in H end.
      eapply explained_before; [apply steps_one; apply L_assign; eassumption|]. apply (IH n ltac:(lia) _ _ _ _) with (2 := Hr). constructor; [exact Hk'|now apply INV_upd].
    - destruct o as [o|sg op n0|]; cbn [stmt_ok] in Hst.
      + destruct Hst as [Hx He]. assert (visit (SPrim x (OBase o) es) = [SPrim x o (map (visit_exp W P) es)]) as Hvis by (destruct x; reflexivity).
        rewrite Hvis in Hs. cbn [app] in Hs. inversion Hs; subst.
        match goal with H : evals den' _ _ = Some vs |- _ => rewrite (exps_same _ _ es Hi He) in H; rename H into Hv end.
        match goal with H : exec_op call _ _ _ _ _ _ |- _ => destruct (base_op _ _ _ _ _ _ H) as [(g & -> & Hc)|Hc] end.
        * destruct (HB _ _ _ _ _ _ Hc) as [B1 B2]. destruct t1 as [|e' t1].
          -- destruct (B1 eq_refl) as [H1|H1].
             ++ eapply explained_before; [apply steps_one; eapply L_prim; [exact Hv|apply O_call; exact H1]|].
                apply (IH n ltac:(lia) _ _ _ _) with (2 := Hr). constructor; [exact Hk'|now apply INV_updo].
             ++ left. right. eexists. split; [apply steps_one; eapply L_prim; [exact Hv|apply O_call; apply (H1 v m')]|reflexivity].
          -- destruct (B2 e' t1 eq_refl) as (e & [E|E] & H1).
             ++ right. cbn [app]. exists e. eexists. split; [exact E|]. split; [apply steps_one; eapply L_prim; [exact Hv|apply O_call; apply (H1 v m')]|reflexivity].
             ++ subst e. left. right. eexists. split; [apply steps_one; eapply L_prim; [exact Hv|apply O_call; apply (H1 v m')]|reflexivity].
        * destruct (no_callee_op _ _ _ _ _ _ Hc) as [_ [-> | ->]].
          -- eapply explained_before; [apply steps_one; eapply L_prim; [exact Hv|exact (O_base ck ocall _ _ _ _ _ _ Hc)]|].
             apply (IH n ltac:(lia) _ _ _ _) with (2 := Hr). constructor; [exact Hk'|now apply INV_updo].
          -- right. cbn [app]. exists OFailed. eexists. split; [reflexivity|]. split; [apply steps_one; eapply L_prim; [exact Hv|exact (O_base ck ocall _ _ _ _ _ _ Hc)]|reflexivity].
      + assert (stmt_ok source_name W P (SPrim x (With sg op n0) es)) as Hst' by exact Hst.
        destruct Hst as (d & a & b & -> & Hd & HP & Hn1 & Hn2 & -> & Ha & Ea & Hb & Eb).
        destruct (evals (oexp_den W) r [Plain (Op a); Plain (Op b)]) as [vs|] eqn:Ev.
        2: { left. left. eexists. split; [constructor|exact Ev]. }
        destruct (with_args _ _ _ _ _ Ea Eb Ev) as (x & y & Hx & Hy & ->).
        destruct (with_run l (flat_map visit k) r r' m d sg op n0 a b x y Hi Hst' Hx Hy) as (j & r'' & Hj & HA & HI & HC & Rx & Ry).
        assert (tnsteps (S n) (LRun l (visit (SPrim (Some d) (With sg op n0) [Plain (Op a); Plain (Op b)]) ++ flat_map visit k) r' m) (t1 ++ t2) c) as Hall
          by (exists t1, s1', t2; auto).
        destruct (asteps_det _ _ _ _ _ _ _ HA _ _ _ Hall) as [[Hle Hrest]|[-> Hbusy]]; [|now apply explained_busy].
        destruct (bool_dec ck true) as [Eck|Eck].
        * specialize (HC Eck). 
          assert (exists cv, cv + Overflow.ovf_flag sg op n0 x y = 1 /\ den' r'' (as_typed G (Op (VReg 32 (COND d)))) = Some (VBv 32 cv)) as (cv & Ecv & HC')
            by (eexists; split; [|exact HC]; lia). clear HC. rename HC' into HC.
          rewrite (chk_true d Eck) in Hrest. destruct (S n - j)%nat as [|q] eqn:Eq.
          -- destruct Hrest as [-> <-]. right. split; [intros; discriminate|]. cbn. unfold evals. cbn. rewrite HC. discriminate.
          -- destruct Hrest as (u1 & c1 & u2 & Hc1 & Hc2 & ->). cbn [app] in Hc1. inversion Hc1; subst.
             match goal with H : evals den' r'' _ = Some vs |- _ => rewrite (evals_one _ _ _ _ HC) in H; injection H as <- end.
             match goal with H : exec_op call Assert _ _ _ _ _ |- _ => inversion H; subst end.
             ++ destruct (flag_cases sg op (vwidth a) x y) as [[E1 E2]|[E1 E2]]; [lia|].
                eapply explained_before; [apply steps_one; eapply L_prim; [exact Ev|apply (O_with ck ocall sg op _ x y _ Rx Ry); rewrite E1; apply andb_false_r]|].
                apply (IH q ltac:(lia) _ _ _ _) with (2 := Hc2). constructor; [exact Hk'|exact HI].
             ++ destruct (flag_cases sg op (vwidth a) x y) as [[E1 E2]|[E1 E2]]; [|lia].
                right. cbn [app]. exists Overflow. eexists. split; [reflexivity|].
                split; [apply steps_one; eapply L_prim; [exact Ev|apply (O_overflow ck ocall sg op _ x y _ v Rx Ry); rewrite E1, Eck; reflexivity]|reflexivity].
        * rewrite (chk_false d) in Hrest by (destruct ck; congruence). cbn [app] in Hrest.
          eapply explained_before; [apply steps_one; eapply L_prim; [exact Ev|apply (O_with ck ocall sg op _ x y _ Rx Ry); destruct ck; [congruence|reflexivity]]|].
          apply (IH (S n - j)%nat ltac:(lia) _ _ _ _) with (2 := Hrest). constructor; [exact Hk'|exact HI].
      + destruct Hst as (u & -> & Hu & _ & _ & ->).
        assert (tnsteps (S n) (LRun l (visit (SPrim (Some u) Handler []) ++ flat_map visit k) r' m) (t1 ++ t2) c) as Hall by (exists t1, s1', t2; auto).
        destruct (bool_dec ck true) as [Eck|Eck].
        * destruct (handler_run l (flat_map visit k) r' m u Eck) as (r'' & rest' & HA & HC).
          destruct (asteps_det _ _ _ _ _ _ _ HA _ _ _ Hall) as [[Hle Hrest]|[-> Hbusy]]; [|now apply explained_busy].
          destruct (S n - 3)%nat as [|q] eqn:Eq.
          -- destruct Hrest as [-> <-]. right. split; [intros; discriminate|]. cbn. unfold evals. cbn. rewrite HC. discriminate.
          -- destruct Hrest as (u1 & c1 & u2 & Hc1 & Hc2 & ->). cbn [app] in Hc1. inversion Hc1; subst.
             match goal with H : evals den' r'' _ = Some vs |- _ => rewrite (evals_one _ _ _ _ HC) in H; injection H as <- end.
             match goal with H : exec_op call Assert _ _ _ _ _ |- _ => inversion H; subst end; [congruence|].
             right. cbn [app]. exists Overflow. eexists. split; [reflexivity|].
             split; [apply steps_one; eapply L_prim; [reflexivity|apply (O_handler ck ocall _ v Eck)]|reflexivity].
        * destruct (handler_blocked l (flat_map visit k) r' m u) as (r'' & rest' & HA & HC); [destruct ck; congruence|].
          destruct (asteps_det _ _ _ _ _ _ _ HA _ _ _ Hall) as [[Hle Hrest]|[-> Hbusy]]; [|now apply explained_busy].
          destruct (S n - 2)%nat as [|q] eqn:Eq.
          -- destruct Hrest as [-> <-]. right. split; [intros; discriminate|]. cbn. unfold evals. cbn. rewrite HC. discriminate.
          -- destruct Hrest as (u1 & c1 & u2 & Hc1 & Hc2 & ->). inversion Hc1; subst.
             match goal with H : evals den' r'' _ = Some vs |- _ => rewrite (evals_one _ _ _ _ HC) in H; injection H as <- end.
             match goal with H : exec_op call Assume _ _ _ _ _ |- _ => inversion H; subst end. congruence.
  Qed.
End Sim.
