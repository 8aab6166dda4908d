(** The code of a checked operation in the default encoding. *)
From Coq Require Import ZArith List String Ascii Bool Lia ZifyBool.
From Verif.Base Require Import ZBits.
From Verif.Spec Require Import LLVMInt IR CFG BitVectorIR Encodings Program DefaultMode OverflowProgram OverflowDefault.
From Verif.Spec Require Overflow.
From Verif.Model Require Import Boogie PreludeInt SmackRepInt DefaultMode OverflowProgram.
From Verif.Model Require OverflowChecker.
From Verif.Proofs Require Import Lookup CFGBase SafePass ControlExamples IntUnbounded IntMain DefaultExpr DefaultSim OverflowPass OverflowSim.
From Verif.Proofs Require OverflowProofs BitVectorCFG PreludeCalls ExprSim.
Import ListNotations.
Open Scope string_scope.
Open Scope list_scope.
Open Scope Z_scope.

(** ** Truncations of registers keep the integer, whatever it is. *)
Definition lax_den (all : bool) (G : string -> option Z) (r : string -> option val) (e : typed G width_ok) : option val :=
  match proj1_sig e with
  | Instr (ICast Trunc _ _ (VReg _ x)) => match r x with Some (VInt z) => Some (VInt z) | _ => None end
  | _ => int_den all G r e
  end.
Lemma lax_int : forall all G r e v, (forall x n, G x = Some n -> 1 <= n) -> int_den all G r e = Some v -> lax_den all G r e = Some v.
Proof.
  intros all G r [o Ho] v HG H. unfold lax_den. cbn [proj1_sig]. destruct o as [|[| |[] n1 n2 [k x| | | | |]|]]; try exact H.
  unfold int_den, exact_den, typed_den, operand_exact in H. cbn [proj1_sig operand_events inst_events value_events value_den inst_den app iwidth vwidth operand_consts inst_consts value_consts forallb] in H.
  cbn in Ho. destruct Ho as ([Hx _] & -> & Hn1 & Hn2 & Hlt). cbn in Hlt.
  destruct (bits G (decode G r) x) as [a|] eqn:Ea; [|discriminate]. cbn [forallb event_exact andb] in H.
  unfold bits, decode in Ea. rewrite Hx in Ea. destruct (r x) as [[z| | |]|]; try discriminate.
  destruct ((1 <=? n1) && in_rangeb n1 z) eqn:Er; [|discriminate].
  destruct ((n1 =? n1) && (0 <=? pat n1 z) && (pat n1 z <? 2 ^ n1)); [|discriminate]. injection Ea as <-.
  apply andb_true_iff in Er as [Hn Er]. apply in_rangeb_fits in Er.
  assert (int_value n1 (pat n1 z) = z) as Ez by (apply pat_sval; [lia|exact Er]).
  rewrite Ez in H. destruct (in_rangeb n2 z) eqn:E2; [|discriminate]. cbn [andb] in H. rewrite <- H. cbn [as_int llvm_cast]. do 2 f_equal.
  pose proof (PreludeCalls.size_pos n2 (proj1 Hn2)). symmetry. rewrite pat_narrow by lia. apply pat_sval; [assumption|now apply in_rangeb_fits].
Qed.

Section Agree.
  Context (I : interp) (nd all : bool).
  Hypothesis HK : bitwise_knowledge UnboundedInteger false I (bwP all).
  Lemma lax_agree : forall G r rb (e : typed G width_ok) v,
    (forall x, In x (typed_regs G width_ok e) -> r x = Some (rb x)) ->
    lax_den all G r e = Some v -> eval_default I rb (trans_default nd e) = Some v.
  Proof.
    intros G r rb e v Hu Hv. unfold lax_den in Hv. destruct e as [o Ho]. cbn [proj1_sig] in Hv.
    destruct o as [|[| |[] n1 n2 [k x| | | | |]|]]; try exact (default_agree I nd all HK G r rb _ v Hu Hv).
    cbn in Hu. rewrite (Hu x (or_introl eq_refl)) in Hv. destruct (rb x) as [z| | |] eqn:Ez; try discriminate. injection Hv as <-.
    pose proof Ho as Ho'. cbn in Ho'. destruct Ho' as (_ & _ & Hn1 & Hn2 & Hlt). cbn in Hlt.
    unfold trans_default. cbn [proj1_sig inst_expr expr_of]. unfold eval_default, eval. rewrite ExprSim.eval_fun. cbn [evals_with eval_with]. rewrite Ez.
    unfold intType. cbn [bitPrecise default_flags flags CAST_TABLE].
    pose proof (PreludeCalls.c_trunc default_flags (preludeInt default_flags) I (PreludeCalls.extends_refl _) eq_refl 2 n1 n2 z (proj1 Hn1) (proj1 Hn2) Hlt) as E.
    exact E.
  Qed.
End Agree.

(** ** Exact instruction sequences *)
Fixpoint exact_code (all : bool) (r : IR.regs) (c : IR.code) : bool :=
  match c with
  | [] => true
  | (x, i) :: c' => operand_exact all r (Instr i) && match inst_den r i with Some v => exact_code all (set_reg r x v) c' | None => false end
  end.
Lemma operand_exact_ext : forall all o r s, (forall x, In x (match o with Op v => value_regs v | Instr i => inst_regs i end) -> r x = s x) ->
  operand_exact all r o = operand_exact all s o.
Proof. intros all o r s H. unfold operand_exact. now rewrite (operand_events_ext o r s H). Qed.
Lemma exact_code_ext : forall all c r s, (forall x, r x = s x) -> exact_code all r c = exact_code all s c.
Proof.
  intros all. induction c as [|[x i] c IH]; intros r s H; [reflexivity|]. cbn [exact_code].
  rewrite (operand_exact_ext all (Instr i) r s) by auto. rewrite (BitVectorCFG.inst_den_ext i r s) by auto.
  destruct (inst_den s i) as [v|]; [|reflexivity]. f_equal. apply IH. intros y. unfold set_reg. destruct (String.eqb x y); auto.
Qed.

Section Code.
  Context (all : bool) (W P : string -> option Z) (ck : bool) (f : func val oexp oop) (Hok : fn_ok source_name W P f).
  Notation G := (widths_after W P).
  Notation sden := (oexact_den all W).
  Notation tden := (lax_den all G).
  Context (HG : forall x n, G x = Some n -> 1 <= n).
  Notation inv_ := (INV P).
  Definition REL (r ri : string -> option val) : Prop := exists rq, inv_ r rq /\ Rreg rq ri.

  Lemma exact_related : forall rq ri e v, Rreg rq ri -> exact_den all G rq e = Some v -> tden ri e = Some (as_int v) /\ Rw v (as_int v).
  Proof.
    intros rq ri e v Hr He. split.
    - apply lax_int; [exact HG|]. unfold int_den.
      rewrite (exact_den_sub all G rq (decode G ri) e v); [reflexivity|apply Rreg_bits; [exact Hr|exact HG]|exact He].
    - split; [|reflexivity]. apply exact_plain, typed_den_int in He. destruct He as (a & -> & H1 & H2). now apply machine_int_bv.
  Qed.
  Lemma exact_same : forall r rq e, inv_ r rq -> oexp_ok W P e -> exact_den all G rq (visit_exp W P e) = sden r e.
  Proof.
    intros r rq e Hi He. unfold exact_den, oexact_den. rewrite (exp_same W P f Hok r rq e Hi He).
    destruct (exp_wt W P f Hok e He) as (o & Hw & Eo & Ee). rewrite Eo. destruct e as [o'|d n fl].
    - rewrite Ee. cbn [oexp_exact oexp_ok] in *. rewrite (operand_exact_ext all o' (bits G rq) (bits W r)); [reflexivity|].
      intros x Hx. destruct (operand_regs_wt W width_ok o' x He Hx) as [n Hn]. exact (bits_same W P f Hok r rq x n Hi Hn).
    - rewrite Ee. reflexivity.
  Qed.
  Lemma eval_fwd : forall r ri e v, REL r ri -> oexp_ok W P e -> sden r e = Some v -> tden ri (visit_exp W P e) = Some (as_int v) /\ Rw v (as_int v).
  Proof.
    intros r ri e v (rq & Hi & Hr) He Hv. rewrite <- (exact_same r rq e Hi He) in Hv. exact (exact_related rq ri _ v Hr Hv).
  Qed.

  Lemma assign_both : forall {M} c l rest rq ri (m : M) rr,
    Forall (fun xi => wt_inst G width_ok (snd xi) /\ G (fst xi) = Some (iwidth (snd xi))) c ->
    run_code (bits G rq) c = Some rr -> exact_code all (bits G rq) c = true -> Rreg rq ri ->
    exists rq'' ri'', asteps tden (List.length c) (LRun l (map (fun xi => assign W P (fst xi) (snd xi)) c ++ rest) ri m) (LRun l rest ri'' m) /\
      Rreg rq'' ri'' /\ (forall x, ~ In x (map fst c) -> rq'' x = rq x) /\ (forall x, bits G rq'' x = rr x).
  Proof.
    intros M. induction c as [|[x i] c IH]; intros l rest rq ri m rr Hc Hr Hx HR; cbn [run_code exact_code] in Hr, Hx.
    - injection Hr as <-. exists rq, ri. cbn. auto.
    - inversion Hc as [|? ? [H1 H2] Hc']; subst. cbn [fst snd] in *.
      destruct (inst_den (bits G rq) i) as [v|] eqn:Ev; [|discriminate]. apply andb_true_iff in Hx as [Hx1 Hx2].
      assert (forall y, set_reg (bits G rq) x v y = bits G (upd rq x (VBv (iwidth i) v)) y) as Hset.
      { intros y. symmetry. apply bits_upd; [exact H2|exact (inst_in_range _ _ _ _ H1 Ev)]. }
      destruct (run_code_ext c _ _ rr Hset Hr) as (ss & Hss & Es). rewrite (exact_code_ext all c _ _ Hset) in Hx2.
      assert (exact_den all G rq (as_typed G (Instr i)) = Some (VBv (iwidth i) v)) as He.
      { unfold exact_den. rewrite (typed_den_as G rq (Instr i) H1), as_typed_eq, Hx1 by exact H1. cbn. now rewrite Ev. }
      destruct (exact_related rq ri _ _ HR He) as [Ht Hw].
      destruct (IH l rest _ (upd ri x (as_int (VBv (iwidth i) v))) m _ Hc' Hss Hx2 (Rreg_upd _ _ _ _ _ HR (Rw_Rv _ _ Hw))) as (rq'' & ri'' & HA & HB & HC & HD).
      exists rq'', ri''. split; [|split; [exact HB|split]].
      + cbn [List.length map app fst snd]. unfold assign at 1. cbn [asteps]. eexists. split; [exact Ht|exact HA].
      + intros y Hy. rewrite HC by (intro; apply Hy; now right). unfold upd. destruct (String.eqb_spec x y); [|reflexivity]. subst. destruct Hy. now left.
      + intros y. now rewrite HD, Es.
  Qed.

  (** *** The check *)
  Lemma cond_exact : forall rq ri d c, is_iN 32 c -> bits G rq (COND d) = Some c -> Rreg rq ri ->
    tden ri (as_typed G (Op (VReg 32 (COND d)))) = Some (VInt (int_value 32 c)).
  Proof.
    intros rq ri d c Hc H HR. destruct (check_wt W P f Hok d (VConst 1 1)) as [_ Hw]; [split; [unfold is_iN; lia|exact w1]|reflexivity|].
    change (VInt (int_value 32 c)) with (as_int (VBv 32 c)). apply (exact_related rq ri); [exact HR|]. unfold exact_den. rewrite typed_den_as, as_typed_eq by exact Hw.
    cbn. now rewrite H.
  Qed.
  Lemma check_exact : forall {M} d flag fl l rest rq ri (m : M), wt_value G width_ok flag -> vwidth flag = 1 -> value_den (bits G rq) flag = Some fl -> 0 <= fl < 2 ->
    value_events (bits G rq) flag = [] -> forallb const_exact (value_consts InCast flag) = true -> Rreg rq ri ->
    exists rq'' ri'', asteps tden 3 (LRun l (add_check W P d flag ++ rest) ri m) (LRun l ([SPrim None Assert [as_typed G (Op (VReg 32 (COND d)))]] ++ rest) ri'' m) /\
      Rreg rq'' ri'' /\ (forall x, ~ In x [ARG d; ISZ d; COND d] -> rq'' x = rq x) /\
      tden ri'' (as_typed G (Op (VReg 32 (COND d)))) = Some (VInt (1 - fl)).
  Proof.
    intros M d flag fl l rest rq ri m Hf Ef Hv Hr Hev Hco HR. destruct (check_wt W P f Hok d flag Hf Ef) as [Hw _].
    assert (fl = 0 \/ fl = 1) as Hfl by lia.
    destruct (assign_both _ l ([SPrim None Assert [as_typed G (Op (VReg 32 (COND d)))]] ++ rest) rq ri m
      (set_reg (set_reg (set_reg (bits G rq) (ARG d) fl) (ISZ d) (1 - fl)) (COND d) (1 - fl)) Hw) as (rq'' & ri'' & HA & HB & HC & HD).
    { cbn [run_code]. cbn [inst_den value_den]. rewrite Hv. cbn [llvm_cast run_code inst_den value_den]. rewrite OverflowProofs.set_same. cbn [opt2 llvm_icmp].
      cbn [run_code inst_den value_den]. rewrite OverflowProofs.set_same. cbn [llvm_cast].
      destruct Hfl as [-> | ->]; reflexivity. }
    { cbn [exact_code]. unfold operand_exact at 1. cbn [operand_events operand_consts inst_events inst_consts value_events]. rewrite Hev, Hco.
      cbn [inst_den value_den]. rewrite Hv. cbn [llvm_cast exact_code inst_den value_den app].
      unfold operand_exact at 1 2. cbn [operand_events operand_consts inst_events inst_consts value_events value_den value_consts app]. unfold ev2.
      cbn [inst_den value_den]. rewrite !OverflowProofs.set_same. cbn [opt2 llvm_icmp exact_code inst_den value_den app].
      cbn [value_events value_den app]. rewrite !OverflowProofs.set_same.
      destruct Hfl as [-> | ->]; reflexivity. }
    { exact HR. }
    exists rq'', ri''. split; [exact HA|]. split; [exact HB|]. split; [exact HC|].
    rewrite (cond_exact rq'' ri'' d (1 - fl)); [|unfold is_iN; lia|rewrite HD; apply OverflowProofs.set_same|exact HB]. destruct Hfl as [-> | ->]; reflexivity.
  Qed.
  Lemma block_exact : forall {M} u l rest rq ri (m : M), Rreg rq ri ->
    exists ri'' rest', asteps tden 2 (LRun l (add_blocking_assume W P u (VConst 1 1) ++ rest) ri m) (LRun l (SPrim None Assume [as_typed G (Op (VReg 32 (ARG2 u)))] :: rest') ri'' m) /\
      tden ri'' (as_typed G (Op (VReg 32 (ARG2 u)))) = Some (VInt 0).
  Proof.
    intros M u l rest rq ri m HR. destruct (block_wt W P f Hok u (VConst 1 1) (one_wt W P) eq_refl) as [Hw Ho].
    destruct (assign_both _ l (SPrim None Assume [as_typed G (Op (VReg 32 (ARG2 u)))] :: rest) rq ri m (set_reg (set_reg (bits G rq) (NOTF u) 0) (ARG2 u) 0) Hw) as (rq'' & ri'' & HA & HB & HC & HD).
    { cbn [run_code inst_den value_den]. cbn [opt2 andb llvm_binop]. cbn [run_code inst_den value_den]. change (pat 1 (Z.lxor 1 1)) with 0. rewrite OverflowProofs.set_same. reflexivity. }
    { cbn [exact_code inst_den value_den opt2 andb llvm_binop]. change (pat 1 (Z.lxor 1 1)) with 0. cbn [exact_code inst_den value_den].
      unfold operand_exact. cbn [operand_events operand_consts inst_events inst_consts value_events value_den value_consts app]. rewrite OverflowProofs.set_same.
      unfold known_bitwise. destruct all; reflexivity. }
    { exact HR. }
    exists ri'', rest. split; [exact HA|].
    change (VInt 0) with (as_int (VBv 32 0)). apply (exact_related rq'' ri''); [exact HB|]. unfold exact_den. rewrite typed_den_as, as_typed_eq by exact Ho.
    cbn. rewrite HD. now rewrite OverflowProofs.set_same.
  Qed.

  (** *** Checked operations *)
  Definition wide_described (sg : bool) (op : Overflow.ovf_op) (n x y : Z) : Prop :=
    sg = true \/ (sg = false /\ 0 <= signed n x /\ 0 <= signed n y /\ 0 <= Overflow.math_result false op n x y < 2 ^ (n - 1)).
  Notation ext sg n x := (llvm_cast (if sg : bool then SExt else ZExt) n (n * 2) x).
  Lemma ext_value : forall (sg : bool) n x, 2 <= n -> is_iN n x -> (sg = true \/ 0 <= signed n x) -> int_value (n * 2) (ext sg n x) = signed n x.
  Proof.
    intros sg n x Hn Hx H. unfold int_value. destruct (Z.eqb_spec (n * 2) 1); [lia|]. pose proof (signed_range n x ltac:(lia) Hx) as R.
    assert (2 ^ (n - 1) <= 2 ^ (n * 2 - 1)) as Hle by (apply pow2_le; lia).
    destruct sg; cbn [llvm_cast].
    - apply pat_signed; lia.
    - destruct H as [H|H]; [discriminate|]. pose proof (signed_nn n x Hx H) as E. rewrite E in R. rewrite E. apply signed_nonneg_id. lia.
  Qed.
  Lemma math_wide : forall (sg : bool) op n x y, 2 <= n -> is_iN n x -> is_iN n y -> wide_described sg op n x y ->
    Overflow.math_result sg op n x y = match op with Overflow.OAdd => signed n x + signed n y | Overflow.OSub => signed n x - signed n y | Overflow.OMul => signed n x * signed n y end /\
    - 2 ^ (n * 2 - 1) <= Overflow.math_result sg op n x y < 2 ^ (n * 2 - 1).
  Proof.
    intros sg op n x y Hn Hx Hy HD.
    assert (2 ^ (n - 1) <= 2 ^ (n * 2 - 1)) as Hle by (apply pow2_le; lia). pose proof (pow2_half_pos n ltac:(lia)) as Hp.
    destruct HD as [-> |(-> & H1 & H2 & H3)].
    - pose proof (OverflowProofs.wide_signed op n x y ltac:(lia) Hx Hy) as R. cbv zeta in R. unfold Overflow.math_result. split; [destruct op; reflexivity|destruct op; exact R].
    - split; [|lia]. unfold Overflow.math_result. rewrite (signed_nn n x Hx H1), (signed_nn n y Hy H2). destruct op; reflexivity.
  Qed.
  Lemma math_value : forall (sg : bool) op n x y, 2 <= n -> is_iN n x -> is_iN n y -> wide_described sg op n x y ->
    int_value (n * 2) (pat (n * 2) (Overflow.math_result sg op n x y)) = Overflow.math_result sg op n x y.
  Proof.
    intros sg op n x y Hn Hx Hy HD. destruct (math_wide sg op n x y Hn Hx Hy HD) as [_ R]. unfold int_value. destruct (Z.eqb_spec (n * 2) 1); [lia|]. apply pat_signed; lia.
  Qed.
  Lemma arith_exact : forall (sg : bool) op n x y, 2 <= n -> is_iN n x -> is_iN n y -> wide_described sg op n x y ->
    event_exact (known_bitwise all) (EvBin (OverflowChecker.OVF_TABLE op) (n * 2) (ext sg n x) (ext sg n y)) = true.
  Proof.
    intros sg op n x y Hn Hx Hy HD. destruct (math_wide sg op n x y Hn Hx Hy HD) as [E R].
    assert (int_value (n * 2) (ext sg n x) = signed n x) as E1 by (apply ext_value; auto; destruct HD as [-> |(_ & ? & _)]; auto).
    assert (int_value (n * 2) (ext sg n y) = signed n y) as E2 by (apply ext_value; auto; destruct HD as [-> |(_ & _ & ? & _)]; auto).
    rewrite E in R. destruct op; cbn [OverflowChecker.OVF_TABLE event_exact]; rewrite E1, E2; unfold in_rangeb; (destruct (Z.eqb_spec (n * 2) 1); [lia|]); lia.
  Qed.
  Lemma ext_exact : forall (sg : bool) n x, 2 <= n -> is_iN n x -> (sg = true \/ 0 <= signed n x) ->
    event_exact (known_bitwise all) (EvCast (if sg then SExt else ZExt) n (n * 2) x) = true.
  Proof.
    intros sg n x Hn Hx H. destruct sg; cbn [event_exact].
    - destruct (Z.eqb_spec n 1); [lia|reflexivity].
    - unfold int_value. destruct (Z.eqb_spec n 1); [lia|]. destruct H; [discriminate|lia].
  Qed.
  Lemma flag_exact : forall (sg : bool) op n x y, 2 <= n -> is_iN n x -> is_iN n y -> wide_described sg op n x y ->
    let N := n * 2 in let z := pat N (Overflow.math_result sg op n x y) in
    event_exact (known_bitwise all) (EvCmp (if sg then SGT else UGT) N z (pat N (OverflowChecker.getMax n sg))) = true /\
    event_exact (known_bitwise all) (EvCmp (if sg then SLT else ULT) N z (pat N (OverflowChecker.getMin n sg))) = true /\
    const_exact (InCmp (if sg then SGT else UGT), N, pat N (OverflowChecker.getMax n sg)) = true /\
    const_exact (InCmp (if sg then SLT else ULT), N, pat N (OverflowChecker.getMin n sg)) = true.
  Proof.
    intros sg op n x y Hn Hx Hy HD N z. pose proof (math_value sg op n x y Hn Hx Hy HD) as E. fold N z in E.
    destruct HD as [-> |(-> & H1 & H2 & H3)].
    - cbn [event_exact const_exact]. destruct (Z.eqb_spec N 1); [lia|]. auto.
    - cbn [event_exact const_exact OverflowChecker.getMax OverflowChecker.getMin]. rewrite E.
      assert (2 ^ (n + 1) <= 2 ^ (N - 1)) as Hle by (apply pow2_le; lia). pose proof (pow2_half_pos n ltac:(lia)). pose proof (pow2_half n ltac:(lia)).
      assert (2 ^ n < 2 ^ (n + 1)) as Hlt by (apply pow2_lt; lia). pose proof (pow2_half N ltac:(lia)).
      rewrite (pat_id N (2 ^ n - 1)) by (unfold is_iN; lia). rewrite (pat_id N 0) by (unfold is_iN; lia).
      unfold int_value. destruct (Z.eqb_spec N 1); [lia|]. rewrite !signed_nonneg_id by lia. lia.
  Qed.
  Lemma no_overflow_value : forall (sg : bool) op n x y, 2 <= n -> is_iN n x -> is_iN n y -> wide_described sg op n x y -> Overflow.overflows sg op n x y = false ->
    int_value n (Overflow.ovf_value sg op n x y) = Overflow.math_result sg op n x y.
  Proof.
    intros sg op n x y Hn Hx Hy HD Ho. unfold Overflow.ovf_value, int_value. destruct (Z.eqb_spec n 1); [lia|]. pose proof (pow2_half_pos n ltac:(lia)). apply pat_signed; [lia|].
    unfold Overflow.overflows, Overflow.representable in Ho. destruct HD as [-> |(-> & H1 & H2 & H3)]; lia.
  Qed.
  Lemma double_ok : forall n, width_ok n -> width_ok (n * 2) -> 2 <= n.
  Proof. intros n [H1 _] [H2 _]. apply PreludeCalls.size_pos in H1. destruct (Z.eq_dec n 1) as [->|]; [|lia]. cbn in H2. lia. Qed.
  Lemma plain_exact_parts : forall r v a, sden r (Plain (Op v)) = Some (VBv (vwidth v) a) ->
    value_den (bits W r) v = Some a /\ forallb (event_exact (known_bitwise all)) (value_events (bits W r) v) = true /\ forallb const_exact (value_consts InCast v) = true.
  Proof.
    intros r v a H. unfold oexact_den in H. cbn [oexp_exact oexp_den operand_den] in H. unfold operand_exact in H. cbn [operand_events operand_consts] in H.
    destruct (forallb _ _ && forallb _ _) eqn:E in H; [|discriminate]. apply andb_true_iff in E as [E1 E2].
    destruct (value_den (bits W r) v) as [b|]; [|discriminate]. injection H as ->. auto.
  Qed.
  Lemma source_fresh : forall v z k d, wt_value W width_ok v -> In z (value_regs v) -> (1 <= k <= 12)%nat -> fresh k d <> z.
  Proof.
    intros v z k d Hv Hz Hk E. destruct (value_regs_wt W width_ok v z Hv Hz) as [n Hn]. destruct (fn_regs _ _ _ _ Hok z n Hn) as [Hnz _]. apply (Hnz k d Hk). now symmetry.
  Qed.
  Lemma bits_value : forall rq x n a, G x = Some n -> bits G rq x = Some a -> rq x = Some (VBv n a) /\ is_iN n a.
  Proof.
    intros rq x n a Hx H. pose proof (bits_range G rq x n a Hx H) as R. split; [|exact R]. unfold bits in H. rewrite Hx in H. destruct (rq x) as [[|m b| |]|]; try discriminate.
    destruct ((m =? n) && (0 <=? b) && (b <? 2 ^ n)) eqn:E; [|discriminate]. injection H as <-. assert (m = n) as -> by lia. reflexivity.
  Qed.

  Lemma fresh_other : forall q e d, (q <= 12)%nat -> d <> e -> forall j, (1 <= j <= 12)%nat -> fresh q e <> fresh j d.
  Proof. intros q e d Hq Hne j Hj E. apply fresh_inj in E; [destruct E as [_ E]; symmetry in E; exact (Hne E)|lia|lia]. Qed.
  Lemma fresh_low : forall q e d, (q <= 7)%nat -> forall j, (8 <= j <= 12)%nat -> fresh q e <> fresh j d.
  Proof. intros q e d Hq j Hj E. apply fresh_inj in E; lia. Qed.
  Lemma fresh_ne : forall q j d, Nat.ltb q 256 && Nat.ltb j 256 && negb (Nat.eqb q j) = true -> fresh q d <> fresh j d.
  Proof. intros q j d H E. apply andb_true_iff in H as [H H3]. apply andb_true_iff in H as [H1 H2]. apply Nat.ltb_lt in H1, H2. apply fresh_inj in E; [|assumption|assumption]. destruct E as [-> _]. now rewrite Nat.eqb_refl in H3. Qed.
  Lemma not_fresh : forall w ks d, (forall k, In k ks -> w <> fresh k d) -> ~ In w (map (fun k => fresh k d) ks).
  Proof. intros w ks d H Hin. apply in_map_iff in Hin as (k & E & Hk). exact (H k Hk (eq_sym E)). Qed.
  Lemma in_low : forall k, In k [1;2;3;4;5;6;7]%nat -> (1 <= k <= 7)%nat.
  Proof. cbn. lia. Qed.

  Lemma with_exact : forall {M} l rest r ri (m : M) d sg op n a b x y, REL r ri ->
    stmt_ok source_name W P (SPrim (Some d) (With sg op n) [Plain (Op a); Plain (Op b)]) ->
    sden r (Plain (Op a)) = Some (VBv n x) -> sden r (Plain (Op b)) = Some (VBv n y) -> is_iN n x -> is_iN n y -> wide_described sg op n x y ->
    exists j ri'', (1 <= j)%nat /\
      asteps tden j (LRun l (visit_stmt W P ck (SPrim (Some d) (With sg op n) [Plain (Op a); Plain (Op b)]) ++ rest) ri m) (LRun l (chk W P ck d ++ rest) ri'' m) /\
      (Overflow.overflows sg op n x y = false -> REL (upd r d (pair_of n (Overflow.ovf_value sg op n x y) (Overflow.ovf_flag sg op n x y))) ri'') /\
      (ck = true -> tden ri'' (as_typed G (Op (VReg 32 (COND d)))) = Some (VInt (1 - Overflow.ovf_flag sg op n x y))).
  Proof.
    intros M l rest r ri m d sg op n a b x y (rq & Hi & HR) Hs Hx Hy Rx Ry HD. cbn [stmt_ok] in Hs.
    destruct Hs as (d0 & a0 & b0 & E0 & Hd & HP & Hn & Hn2 & E1 & Ha & Ea & Hb & Eb). injection E0 as <-. injection E1 as <- <-.
    pose proof (double_ok n Hn Hn2) as Hpos.
    pose proof (arith_wt W P f Hok d sg op n a b HP Hn Hn2 Ha Ea Hb Eb) as Hw.
    assert (0 <= Overflow.ovf_flag sg op n x y < 2) as Hfl by (unfold Overflow.ovf_flag, b2z; destruct (Overflow.overflows sg op n x y); lia).
    assert (is_iN n (Overflow.ovf_value sg op n x y)) as Hvl by (apply pat_range; lia).
    rewrite <- Ea in Hx at 1. rewrite <- Eb in Hy at 1. apply plain_exact_parts in Hx, Hy. destruct Hx as (Hx & Hxe & Hxc), Hy as (Hy & Hye & Hyc).
    assert (forall v z, wt_value W width_ok v -> In z (value_regs v) -> bits G rq z = bits W r z) as Hsame.
    { intros v z Hv Hz. destruct (value_regs_wt W width_ok v z Hv Hz) as [k Hk]. exact (bits_same W P f Hok r rq z k Hi Hk). }
    assert (value_den (bits G rq) a = Some x /\ value_events (bits G rq) a = value_events (bits W r) a) as [Hx' Hxe'].
    { split; [rewrite <- Hx; apply BitVectorCFG.value_den_ext|apply value_events_ext]; intros; now apply (Hsame a). }
    assert (forall s, value_den (set_reg (bits G rq) (OverflowChecker.EO1 d) s) b = Some y /\ value_events (set_reg (bits G rq) (OverflowChecker.EO1 d) s) b = value_events (bits W r) b) as Hy'.
    { intros s. assert (forall z, In z (value_regs b) -> set_reg (bits G rq) (OverflowChecker.EO1 d) s z = bits W r z) as Hz.
      { intros z Hz. rewrite OverflowProofs.set_other; [now apply (Hsame b)|]. exact (source_fresh b z 1 d Hb Hz ltac:(lia)). }
      split; [rewrite <- Hy; apply BitVectorCFG.value_den_ext|apply value_events_ext]; exact Hz. }
    (* the operation on the extended operands *)
    set (N := n * 2) in *. set (z := pat N (Overflow.math_result sg op n x y)).
    set (c1 := [(OverflowChecker.EO1 d, OverflowChecker.extendBitWidth a n sg); (OverflowChecker.EO2 d, OverflowChecker.extendBitWidth b n sg);
      (OverflowChecker.AI d, IBin (OverflowChecker.OVF_TABLE op) false N (VReg N (OverflowChecker.EO1 d)) (VReg N (OverflowChecker.EO2 d)))]).
    set (c2 := OverflowChecker.createFlag d n sg).
    assert (OverflowChecker.checked_arith d sg op n a b = c1 ++ (RES d, OverflowChecker.createResult d n) :: c2) as Ec by reflexivity.
    rewrite Ec in Hw. apply Forall_app in Hw as [Hw1 Hw2]. pose proof (Forall_inv Hw2) as [Hwr Gr]. pose proof (Forall_inv_tail Hw2) as Hw3. cbn [fst snd] in Hwr, Gr. clear Hw2.
    assert (G (OverflowChecker.AI d) = Some N) as GAI by exact (proj2 (Forall_inv (Forall_inv_tail (Forall_inv_tail Hw1)))).
    assert (OverflowChecker.EO2 d <> OverflowChecker.EO1 d) as N12 by (apply (fresh_ne 2 1); reflexivity).
    destruct (assign_both c1 l (map (fun xi => assign W P (fst xi) (snd xi)) ((RES d, OverflowChecker.createResult d n) :: c2) ++ (if ck then add_check W P d (VReg 1 (FLAG d)) else []) ++ rest) rq ri m
      (set_reg (set_reg (set_reg (bits G rq) (OverflowChecker.EO1 d) (ext sg n x)) (OverflowChecker.EO2 d) (ext sg n y)) (OverflowChecker.AI d) z) Hw1) as (rq1 & ri1 & HA1 & HR1 & HB1 & HC1).
    { unfold c1, OverflowChecker.extendBitWidth. fold N. cbn [run_code inst_den value_den]. rewrite Hx'. cbn [run_code inst_den value_den]. rewrite (proj1 (Hy' _)). cbn [run_code inst_den value_den].
      rewrite OverflowProofs.set_same, (OverflowProofs.set_other _ _ _ _ N12), OverflowProofs.set_same. cbn [opt2 andb].
      rewrite (OverflowProofs.pat_pat_op op N n sg x y ltac:(lia) eq_refl Rx Ry). reflexivity. }
    { unfold c1, OverflowChecker.extendBitWidth. fold N. cbn [exact_code]. unfold operand_exact.
      cbn [operand_events operand_consts inst_events inst_consts value_events inst_den value_den value_consts]. rewrite Hx', Hxe'. rewrite forallb_app, Hxe, Hxc.
      cbn [operand_events operand_consts inst_events inst_consts value_events inst_den value_den value_consts].
      rewrite (proj1 (Hy' _)), (proj2 (Hy' _)). rewrite forallb_app, Hye, Hyc.
      cbn [operand_events operand_consts inst_events inst_consts value_events inst_den value_den value_consts]. unfold ev2. cbn [value_den].
      rewrite OverflowProofs.set_same, (OverflowProofs.set_other _ _ _ _ N12), OverflowProofs.set_same. cbn [opt2 andb app forallb].
      rewrite (OverflowProofs.pat_pat_op op N n sg x y ltac:(lia) eq_refl Rx Ry). unfold N.
      rewrite !ext_exact, arith_exact; auto; destruct HD as [-> |(_ & ? & ? & _)]; auto. }
    { exact HR. }
    (* the result *)
    assert (bits G rq1 (OverflowChecker.AI d) = Some z) as Hai by (rewrite HC1; apply OverflowProofs.set_same).
    destruct (bits_value rq1 _ _ _ GAI Hai) as [Hai1 Rz].
    assert (ri1 (OverflowChecker.AI d) = Some (VInt (Overflow.math_result sg op n x y))) as Hri1.
    { destruct (HR1 _ _ Hai1) as (w & Ew & Hv). rewrite Ew, Hv by (apply machine_int_bv; [unfold N; lia|exact Rz]). cbn [as_int]. unfold z, N. now rewrite math_value. }
    assert (tden ri1 (as_typed G (Instr (OverflowChecker.createResult d n))) = Some (VInt (Overflow.math_result sg op n x y))) as Hres.
    { unfold lax_den. rewrite (as_typed_eq G (Instr _) Hwr). cbn. now rewrite Hri1. }
    set (v2 := if Overflow.overflows sg op n x y then VBool true else VBv n (Overflow.ovf_value sg op n x y)).
    assert (Rreg (upd rq1 (RES d) v2) (upd ri1 (RES d) (VInt (Overflow.math_result sg op n x y)))) as HR2.
    { apply Rreg_upd; [exact HR1|]. unfold v2. destruct (Overflow.overflows sg op n x y) eqn:Eo; [apply Rv_any|]. intros _. cbn [as_int]. now rewrite no_overflow_value. }
    set (rq2 := upd rq1 (RES d) v2) in *. set (ri2 := upd ri1 (RES d) (VInt (Overflow.math_result sg op n x y))) in *.
    assert (bits G rq2 (OverflowChecker.AI d) = Some z) as Hai2.
    { unfold bits, rq2, upd. destruct (String.eqb_spec (RES d) (OverflowChecker.AI d)) as [E|_]; [destruct (fresh_ne 4 3 d eq_refl E)|]. exact Hai. }
    (* the flag *)
    destruct (flag_exact sg op n x y Hpos Rx Ry HD) as (X1 & X2 & X3 & X4). fold N z in X1, X2, X3, X4.
    pose proof (OverflowProofs.flag_correct sg op n x y ltac:(lia) Rx Ry) as Hflag. cbv zeta in Hflag. fold N z in Hflag.
    assert (OverflowChecker.GT d <> OverflowChecker.AI d) as N53 by (apply (fresh_ne 5 3); reflexivity).
    assert (OverflowChecker.LT d <> OverflowChecker.GT d) as N65 by (apply (fresh_ne 6 5); reflexivity).
    set (g := b2z (llvm_icmp (if sg then SGT else UGT) N z (pat N (OverflowChecker.getMax n sg)))) in *.
    set (h := b2z (llvm_icmp (if sg then SLT else ULT) N z (pat N (OverflowChecker.getMin n sg)))) in *.
    destruct (assign_both c2 l ((if ck then add_check W P d (VReg 1 (FLAG d)) else []) ++ rest) rq2 ri2 m
      (set_reg (set_reg (set_reg (bits G rq2) (OverflowChecker.GT d) g) (OverflowChecker.LT d) h) (OverflowChecker.FLAG d) (Overflow.ovf_flag sg op n x y)) Hw3) as (rq3 & ri3 & HA3 & HR3 & HB3 & HC3).
    { unfold c2, OverflowChecker.createFlag. fold N. cbn [run_code inst_den value_den]. rewrite Hai2. cbn [opt2]. fold g. cbn [run_code inst_den value_den].
      rewrite (OverflowProofs.set_other _ _ _ _ N53), Hai2. cbn [opt2]. fold h. cbn [run_code inst_den value_den].
      rewrite OverflowProofs.set_same, (OverflowProofs.set_other _ _ _ _ N65), OverflowProofs.set_same. cbn [opt2 andb llvm_binop].
      rewrite Hflag. reflexivity. }
    { unfold c2, OverflowChecker.createFlag. fold N. cbn [exact_code]. unfold operand_exact.
      cbn [operand_events operand_consts inst_events inst_consts value_events inst_den value_den value_consts app]. unfold ev2. cbn [value_den]. rewrite Hai2. cbn [opt2 forallb andb]. fold g.
      rewrite X1, X3.
      cbn [operand_events operand_consts inst_events inst_consts value_events inst_den value_den value_consts app]. unfold ev2. cbn [value_den].
      rewrite (OverflowProofs.set_other _ _ _ _ N53), Hai2. cbn [opt2 forallb andb]. fold h. rewrite X2, X4.
      cbn [operand_events operand_consts inst_events inst_consts value_events inst_den value_den value_consts app]. unfold ev2. cbn [value_den].
      rewrite OverflowProofs.set_same, (OverflowProofs.set_other _ _ _ _ N65), OverflowProofs.set_same. cbn [opt2 forallb andb llvm_binop event_exact].
      unfold known_bitwise. destruct all; reflexivity. }
    { exact HR2. }
    assert (asteps tden (List.length c1 + (1 + List.length c2)) (LRun l (map (fun xi => assign W P (fst xi) (snd xi)) (OverflowChecker.checked_arith d sg op n a b) ++ (if ck then add_check W P d (VReg 1 (FLAG d)) else []) ++ rest) ri m)
      (LRun l ((if ck then add_check W P d (VReg 1 (FLAG d)) else []) ++ rest) ri3 m)) as HA.
    { rewrite Ec, map_app, <- app_assoc. eapply asteps_trans; [exact HA1|]. cbn [map app fst snd]. unfold assign at 1. cbn [Nat.add asteps]. eexists. split; [exact Hres|exact HA3]. }
    (* the registers *)
    assert (forall w, (forall k, (1 <= k <= 12)%nat -> w <> fresh k d) -> rq3 w = rq w) as Hold.
    { intros w Hw. rewrite HB3 by (apply (not_fresh w [5;6;7]%nat d); intros k Hk; apply Hw; clear - Hk; cbn in Hk; lia).
      unfold rq2, upd. destruct (String.eqb_spec (RES d) w) as [E|_]; [destruct (Hw 4%nat ltac:(clear; lia)); now symmetry|].
      apply HB1. apply (not_fresh w [1;2;3]%nat d); intros k Hk; apply Hw; clear - Hk; cbn in Hk; lia. }
    assert (rq3 (RES d) = Some v2) as HresV.
    { rewrite HB3 by (apply (not_fresh (RES d) [5;6;7]%nat d); intros k Hk; cbn in Hk; decompose [or] Hk; subst; try contradiction; apply fresh_ne; reflexivity).
      unfold rq2, upd. now rewrite String.eqb_refl. }
    assert (bits G rq3 (FLAG d) = Some (Overflow.ovf_flag sg op n x y)) as HflagB by (rewrite HC3; apply OverflowProofs.set_same).
    destruct (bits_value rq3 _ _ _ (w_flag W P f Hok d) HflagB) as [HflagV _].
    assert (forall rq4, (forall w, (forall k, (8 <= k <= 12)%nat -> w <> fresh k d) -> rq4 w = rq3 w) -> Overflow.overflows sg op n x y = false ->
      inv_ (upd r d (pair_of n (Overflow.ovf_value sg op n x y) (Overflow.ovf_flag sg op n x y))) rq4) as HI.
    { assert (1 <= n) as Hn1 by (clear - Hpos; lia).
      pose proof (pair_parts r d n _ _ Hn1 Hvl Hfl) as [Ep1 Ep2]. clear - Hi Hold HresV HflagV HP Ep1 Ep2.
      intros rq4 H4 Eo. split.
      - intros w Hw. rewrite H4 by (intros k Hk; apply (plain_fresh P w k d Hw); clear - Hk; lia). rewrite Hold by (intros k Hk; apply (plain_fresh P w k d Hw); exact Hk).
        unfold upd. destruct (String.eqb_spec d w) as [<-|_]; [destruct Hw as [_ Hw]; congruence|]. now apply Hi.
      - intros e k He. change (RES e) with (fresh 4 e). change (FLAG e) with (fresh 7 e). rewrite !H4 by (apply fresh_low; clear; lia).
        destruct (string_dec d e) as [<-|Hne].
        + assert (k = n) as -> by congruence. rewrite Ep1, Ep2.
          change (fresh 4 d) with (RES d). change (fresh 7 d) with (FLAG d). rewrite HresV, HflagV. unfold v2. rewrite Eo. auto.
        + unfold part, upd. destruct (String.eqb_spec d e) as [E|_]; [contradiction|].
          rewrite !Hold by (apply fresh_other; [clear; lia|exact Hne]). exact (proj2 Hi e k He). }
    cbn [visit_stmt]. rewrite <- app_assoc. unfold chk. destruct (bool_dec ck true) as [Eck|Eck].
    - rewrite Eck in *.
      assert (value_den (bits G rq3) (VReg 1 (FLAG d)) = Some (Overflow.ovf_flag sg op n x y)) as Hfv by exact HflagB.
      destruct (check_exact d (VReg 1 (FLAG d)) _ l rest rq3 ri3 m ltac:(split; [apply (w_flag W P f Hok)|exact w1]) eq_refl Hfv Hfl eq_refl eq_refl HR3) as (rq4 & ri4 & HA4 & HR4 & HB4 & HC4).
      eexists _, ri4. split; [|split; [exact (asteps_trans _ _ _ _ _ _ HA HA4)|split; [|intros _; exact HC4]]]; [cbn; clear; lia|].
      intros Eo. exists rq4. split; [|exact HR4]. apply HI; [|exact Eo]. intros w Hw. apply HB4. apply (not_fresh w [8;10;11]%nat d); intros k Hk; apply Hw; clear - Hk; cbn in Hk; lia.
    - apply not_true_is_false in Eck. rewrite Eck in *. cbn [app] in *. eexists _, ri3. split; [|split; [exact HA|split; [|discriminate]]]; [cbn; clear; lia|].
      intros Eo. exists rq3. split; [|exact HR3]. apply HI; [reflexivity|exact Eo].
  Qed.
End Code.
