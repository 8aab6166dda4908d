(** Lemmas behind Props/IntProps.v. *)
From Coq Require Import ZArith List String Bool Lia ZifyBool.
From Verif.Base Require Import ZBits.
From Verif.Spec Require Import LLVMInt IR Encodings.
From Verif.Model Require Import Boogie PreludeInt SmackRepInt.
From Verif.Proofs Require Import Lookup PreludeCalls ExprSim IntEncodings IntUnbounded EventGuards.
Import ListNotations.
Open Scope string_scope.
Open Scope Z_scope.

Lemma flags_w : forall p, bitPrecise (flags WrappedInteger p) = false /\ wrappedIntegerEncoding (flags WrappedInteger p) = true.
Proof. intros; split; reflexivity. Qed.

(** *** the machine interpretation meets the axioms *)
Lemma machine_meets_axioms : forall enc p, meets_axioms (flags enc p) (machine_interp enc).
Proof.
  intros enc p f args v H. unfold arithAxioms in H. destruct enc; cbn [flags bitPrecise] in H; [destruct H| |];
  cbn -[machine_interp Z.land Z.lor Z.lxor] in H;
  repeat (destruct H as [H|H]; [injection H as <- <- <-; reflexivity|]); destruct H.
Qed.

Lemma bitwise_named_ok : forall op, is_bitwise op = true -> bitwise_named (INSTRUCTION_TABLE op) = Some op.
Proof. destruct op; intros; try discriminate; reflexivity. Qed.

Lemma machine_value : forall enc op n x y c, is_bitwise op = true ->
  llvm_binop op n (pat n x) (pat n y) = Some c ->
  machine_interp enc (indexedName (INSTRUCTION_TABLE op) [NInt n]) [VInt x; VInt y] =
  Some (VInt (match enc with UnboundedInteger => sval n c | _ => c end)).
Proof.
  intros enc op n x y c Hop H. unfold machine_interp. rewrite (bitwise_named_ok op Hop), H.
  unfold sval. destruct enc; reflexivity.
Qed.

(** *** axioms at width 1 *)
Lemma axioms_i1 : forall enc p I op a b c, enc <> BitVector -> meets_axioms (flags enc p) I ->
  (op = And \/ op = Or \/ op = Xor) -> is_iN 1 a -> is_iN 1 b -> llvm_binop op 1 a b = Some c ->
  I (indexedName (INSTRUCTION_TABLE op) [NInt 1]) [VInt a; VInt b] = Some (VInt c).
Proof.
  intros enc p I op a b c He HI Hop Ha Hb Hc.
  assert (In (indexedName (INSTRUCTION_TABLE op) [NInt 1], [a; b], c) (arithAxioms (flags enc p))) as Hin.
  { unfold arithAxioms. replace (bitPrecise (flags enc p)) with false by (destruct enc; [congruence|reflexivity|reflexivity]).
    destruct (i1_cases a Ha) as [-> | ->], (i1_cases b Hb) as [-> | ->], Hop as [-> | [-> | ->]];
      cbn in Hc; injection Hc as <-; cbn; tauto. }
  exact (HI _ _ _ Hin).
Qed.

Lemma wrapped_knowledge : forall p I bw, bitwise_knowledge WrappedInteger p I bw ->
  forall op n va vb a b c, bw op n -> is_bitwise op = true ->
    supported n -> is_iN n a -> is_iN n b -> Rw n va a -> Rw n vb b -> llvm_binop op n a b = Some c ->
    exists v, I (indexedName (INSTRUCTION_TABLE op) [NInt n]) [va; vb] = Some v /\ Rw n v c.
Proof.
  intros p I bw HK op n va vb a b c Hbw Hop Hn Ha Hb (za & -> & Ea & Ea1) (zb & -> & Eb & Eb1) Hc.
  exists (VInt c). split.
  - destruct HK as [[-> HI]|[-> ->]].
    + destruct Hbw as [-> Hand]. rewrite (Ea1 eq_refl), (Eb1 eq_refl).
      eapply (axioms_i1 WrappedInteger p); eauto. discriminate.
    + rewrite <- Ea, <- Eb in Hc. exact (machine_value WrappedInteger op n za zb c Hop Hc).
  - apply Rw_id. eapply (llvm_binop_range op n a b); eauto using size_pos.
Qed.

Lemma unbounded_knowledge : forall p I bw, bitwise_knowledge UnboundedInteger p I bw ->
  forall op n a b c, bw op n -> is_bitwise op = true ->
    supported n -> is_iN n a -> is_iN n b -> llvm_binop op n a b = Some c ->
    I (indexedName (INSTRUCTION_TABLE op) [NInt n]) [VInt (sval n a); VInt (sval n b)] = Some (VInt (sval n c)).
Proof.
  intros p I bw HK op n a b c Hbw Hop Hn Ha Hb Hc. pose proof (size_pos n Hn) as Hn1.
  destruct HK as [[-> HI]|[-> ->]].
  - destruct Hbw as [-> Hand]. eapply (axioms_i1 UnboundedInteger p); eauto. discriminate.
  - rewrite <- (sval_pat n a Hn1 Ha), <- (sval_pat n b Hn1 Hb) in Hc.
    exact (machine_value UnboundedInteger op n _ _ c Hop Hc).
Qed.

(** *** Rw and represents *)
Lemma Rw_represents : forall n v x, Rw n v x -> represents WrappedInteger n v x.
Proof. intros n v x (z & -> & H & _). exists z. auto. Qed.
Lemma sc_related_w : forall G r rb, stores_correspond WrappedInteger G r rb -> related Rw G r rb.
Proof.
  intros G r rb H x n a Hx Ha. destruct (H x n a Hx Ha) as (H1 & v & H2 & (z & -> & H3) & H4).
  split; [assumption|]. exists (VInt z). split; [assumption|]. exists z. repeat split; auto.
  intros ->. specialize (H4 eq_refl). cbn in H4. injection H4 as ->.
  destruct (i1_cases a H1) as [-> | ->]; reflexivity.
Qed.
Lemma related_w_sc : forall G r rb, related Rw G r rb -> stores_correspond WrappedInteger G r rb.
Proof.
  intros G r rb H x n a Hx Ha. destruct (H x n a Hx Ha) as (H1 & v & H2 & HR).
  split; [assumption|]. exists v. split; [assumption|]. split; [apply Rw_represents, HR|].
  intros ->. destruct HR as (z & -> & _ & Hz). rewrite (Hz eq_refl). cbn.
  destruct (i1_cases a H1) as [-> | ->]; reflexivity.
Qed.
Lemma sc_related_u : forall G r rb, stores_correspond UnboundedInteger G r rb <-> related Ru G r rb.
Proof.
  intros G r rb. split; intros H x n a Hx Ha.
  - destruct (H x n a Hx Ha) as (H1 & v & H2 & H3 & _). split; [assumption|]. exists v. split; [assumption|]. exact H3.
  - destruct (H x n a Hx Ha) as (H1 & v & H2 & H3). split; [assumption|]. exists v. split; [assumption|].
    split; [exact H3|]. intros ->. rewrite H3. cbn. destruct (i1_cases a H1) as [-> | ->]; reflexivity.
Qed.
Lemma sc_related_b : forall G r rb, stores_correspond BitVector G r rb <-> related Rb G r rb.
Proof.
  intros G r rb. split; intros H x n a Hx Ha.
  - destruct (H x n a Hx Ha) as (H1 & v & H2 & H3 & _). split; [assumption|]. exists v. split; [assumption|]. exact H3.
  - destruct (H x n a Hx Ha) as (H1 & v & H2 & H3). split; [assumption|]. exists v. split; [assumption|].
    split; [exact H3|]. intros ->. rewrite H3. cbn. destruct (i1_cases a H1) as [-> | ->]; reflexivity.
Qed.

(** *** whole programs *)
Definition widths (nd : bool) (n : Z) : Prop := supported n /\ (nd = true -> n <= 64).

Lemma lit_guard_width : forall nd (bw : binop -> Z -> Prop) G c, wt_code G (widths nd) c ->
  Forall (const_ok (gw nd bw)) (code_consts c) /\ Forall (const_ok (gb nd)) (code_consts c).
Proof.
  intros nd bw G c H. pose proof (code_consts_width G _ c H) as F.
  split; (eapply Forall_impl; [|exact F]); intros [[pl n] k] [[_ Hw] _]; cbn; auto.
Qed.

Lemma code_bv : forall p I nd G c r rb r' l, wt_code G (widths nd) c ->
  stores_correspond BitVector G r rb -> run_code r c = Some r' ->
  trans_code (flags BitVector p) nd c = Some l ->
  exists fuel rb', run_assigns (preludeInt (flags BitVector p)) I fuel rb l = Some rb' /\
    stores_correspond BitVector G r' rb'.
Proof.
  intros p I nd G c r rb r' l Hw Hs Hr Ht.
  assert (gd_code (gb nd) r c) as Hg.
  { apply gd_code_events; [|apply (lit_guard_width nd all_bitwise G c Hw)].
    apply Forall_forall. intros e _. destruct e; exact Logic.I. }
  destruct (b_code_sim (flags BitVector p) nd (preludeInt (flags BitVector p)) I 0%nat (extends_refl _) eq_refl eq_refl
              G c r rb r' l) as (rb' & H1 & H2); auto.
  - apply sc_related_b, Hs.
  - eapply wt_code_mono; [|exact Hw]. intros n [H _]. exact H.
  - eexists _, rb'. split; [exact H1|]. apply sc_related_b, H2.
Qed.

Lemma code_wrapped : forall p I bw nd G c r rb r' l, bitwise_knowledge WrappedInteger p I bw ->
  wt_code G (widths nd) c ->
  stores_correspond WrappedInteger G r rb -> run_code r c = Some r' ->
  Forall (wrapped_exact bw) (code_events r c) ->
  trans_code (flags WrappedInteger p) nd c = Some l ->
  exists fuel rb', run_assigns (preludeInt (flags WrappedInteger p)) I fuel rb l = Some rb' /\
    stores_correspond WrappedInteger G r' rb'.
Proof.
  intros p I bw nd G c r rb r' l HK Hw Hs Hr He Ht.
  assert (gd_code (gw nd bw) r c) as Hg.
  { apply gd_code_events; [|apply (lit_guard_width nd bw G c Hw)].
    eapply Forall_impl; [|exact He]. intros [op n x y|q n x y|k n1 n2 x]; [destruct op|..]; exact (fun H => H). }
  destruct (w_code_sim (flags WrappedInteger p) nd (preludeInt (flags WrappedInteger p)) I 0%nat (extends_refl _) eq_refl eq_refl bw
              (wrapped_knowledge p I bw HK) G c r rb r' l) as (rb' & H1 & H2); auto.
  - apply sc_related_w, Hs.
  - eapply wt_code_mono; [|exact Hw]. intros n [H _]. exact H.
  - eexists _, rb'. split; [exact H1|]. apply related_w_sc, H2.
Qed.

Lemma code_unbounded : forall p I bw nd G c r rb r' l, bitwise_knowledge UnboundedInteger p I bw ->
  wt_code G (widths nd) c ->
  stores_correspond UnboundedInteger G r rb -> run_code r c = Some r' ->
  Forall (unbounded_exact bw) (code_events r c) -> Forall unbounded_const_exact (code_consts c) ->
  trans_code (flags UnboundedInteger p) nd c = Some l ->
  exists fuel rb', run_assigns (preludeInt (flags UnboundedInteger p)) I fuel rb l = Some rb' /\
    stores_correspond UnboundedInteger G r' rb'.
Proof.
  intros p I bw nd G c r rb r' l HK Hw Hs Hr He Hk Ht.
  assert (gd_code (gu nd bw) r c) as Hg.
  { apply gd_code_events.
    - eapply Forall_impl; [|exact He].
      intros [op n x y|q n x y|k n1 n2 x]; [destruct op|destruct q|destruct k]; exact (fun H => H).
    - pose proof (code_consts_width G _ c Hw) as F. apply Forall_forall. intros t Ht'.
      rewrite Forall_forall in F, Hk. specialize (F t Ht'). specialize (Hk t Ht').
      destruct t as [[pl n] k]. destruct F as [[_ Hnd] _]. cbn [fst snd] in Hnd. unfold const_ok. cbn.
      split; [auto|]. destruct pl as [op nsw|op|q| | |]; [destruct op|destruct op|destruct q|..];
      cbn in Hk |- *; try tauto;
      destruct nsw; cbn in *; intuition congruence. }
  destruct (u_code_sim (flags UnboundedInteger p) nd (preludeInt (flags UnboundedInteger p)) I 0%nat (extends_refl _) eq_refl eq_refl bw
              (unbounded_knowledge p I bw HK) G c r rb r' l) as (rb' & H1 & H2); auto.
  - apply sc_related_u, Hs.
  - eapply wt_code_mono; [|exact Hw]. intros n [H _]. exact H.
  - eexists _, rb'. split; [exact H1|]. apply sc_related_u, H2.
Qed.

(** *** single instructions on registers *)
Local Notation k5 := (S (S (S (S (S O))))).

Lemma repr_pat : forall n x, is_iN n x -> represents WrappedInteger n (VInt x) x.
Proof. intros n x H. exists x. split; [reflexivity|]. apply pat_id, H. Qed.

Section Single.
  Context (p nd : bool) (I : interp) (n : Z).
  Hypothesis Hn : supported n.

  Lemma bin_eval : forall enc op nsw x y rb vx vy v, rb x = Some vx -> rb y = Some vy ->
    eval_call (preludeInt (flags enc p)) I k5 (indexedName (INSTRUCTION_TABLE op) [intType (flags enc p) n]) [vx; vy] = Some v ->
    exists e, inst_expr (flags enc p) nd (IBin op nsw n (VReg n x) (VReg n y)) = Some e /\
      evaluates (preludeInt (flags enc p)) I rb e v.
  Proof.
    intros enc op nsw x y rb vx vy v Hx Hy H. eexists. split; [reflexivity|]. exists k5.
    unfold eval. cbn [eval_with]. rewrite Hx, Hy. exact H.
  Qed.

  Lemma single_arith : forall enc op nsw x y rb vx vy a b c, exact_encoding enc ->
    In op [Add; Sub; Mul] -> rb x = Some vx -> rb y = Some vy ->
    represents enc n vx a -> represents enc n vy b -> llvm_binop op n a b = Some c ->
    exists e v, inst_expr (flags enc p) nd (IBin op nsw n (VReg n x) (VReg n y)) = Some e /\
      evaluates (preludeInt (flags enc p)) I rb e v /\ represents enc n v c.
  Proof.
    intros enc op nsw x y rb vx vy a b c He Hop Hx Hy Ha Hb Hc.
    assert (exists v, eval_call (preludeInt (flags enc p)) I k5
      (indexedName (INSTRUCTION_TABLE op) [intType (flags enc p) n]) [vx; vy] = Some v /\ represents enc n v c) as (v & Hv & HR).
    { destruct He as [-> | ->]; cbn [represents] in Ha, Hb |- *.
      - subst vx vy. unfold intType. cbn [bitPrecise flags].
        destruct Hop as [<-|[<-|[<-|[]]]]; injection Hc as <-; cbn [INSTRUCTION_TABLE];
        [change "$add" with ("$" ++ "add"); rewrite (b_builtin (flags BitVector p) _ I (extends_refl _) eq_refl "add" (Some (OpInlined (intArithExpr Plus))) true)
        |change "$sub" with ("$" ++ "sub"); rewrite (b_builtin (flags BitVector p) _ I (extends_refl _) eq_refl "sub" (Some (OpInlined (intArithExpr Minus))) true)
        |change "$mul" with ("$" ++ "mul"); rewrite (b_builtin (flags BitVector p) _ I (extends_refl _) eq_refl "mul" (Some (OpInlined (intArithExpr Times))) true)];
        try assumption; try in_table; eexists; split; reflexivity.
      - destruct Ha as (za & -> & <-), Hb as (zb & -> & <-). unfold intType. cbn [bitPrecise flags].
        destruct Hop as [<-|[<-|[<-|[]]]]; injection Hc as <-; cbn [INSTRUCTION_TABLE].
        + rewrite (c_add (flags WrappedInteger p) _ I (extends_refl _) eq_refl) by exact Hn.
          eexists. split; [reflexivity|]. eexists. split; [reflexivity|]. symmetry. apply pat_add.
        + rewrite (c_sub (flags WrappedInteger p) _ I (extends_refl _) eq_refl) by exact Hn.
          eexists. split; [reflexivity|]. eexists. split; [reflexivity|]. symmetry. apply pat_sub.
        + rewrite (c_mul (flags WrappedInteger p) _ I (extends_refl _) eq_refl) by exact Hn.
          eexists. split; [reflexivity|]. eexists. split; [reflexivity|]. symmetry. apply pat_mul. }
    destruct (bin_eval enc op nsw x y rb vx vy v Hx Hy Hv) as (e & H1 & H2). eauto.
  Qed.

  (** In wrapped mode the division, comparison and conversion functions only
      depend on the operands modulo 2^n. *)
  Lemma w_call_pat : forall op za zb, In op [UDiv; SDiv; URem; SRem] ->
    eval_call (preludeInt (flags WrappedInteger p)) I k5 (indexedName (INSTRUCTION_TABLE op) [NInt n]) [VInt za; VInt zb] =
    eval_call (preludeInt (flags WrappedInteger p)) I k5 (indexedName (INSTRUCTION_TABLE op) [NInt n]) [VInt (pat n za); VInt (pat n zb)].
  Proof.
    intros op za zb Hop. pose proof (size_pos n Hn) as Hn1.
    set (O := flags WrappedInteger p). assert (bitPrecise O = false) as Hbp by reflexivity.
    assert (extends (preludeInt O) (preludeInt O)) as Hx by apply extends_refl.
    assert (forall a, wrapU O n (pat n a) = wrapU O n a) as HU.
    { intros a. unfold wrapU. cbn [O flags wrappedIntegerEncoding]. now rewrite pat_pat by lia. }
    assert (forall a, wrapS O n (pat n a) = wrapS O n a) as HS.
    { intros a. unfold wrapS. cbn [O flags wrappedIntegerEncoding]. now rewrite pat_pat by lia. }
    destruct Hop as [<-|[<-|[<-|[<-|[]]]]]; cbn [INSTRUCTION_TABLE].
    - rewrite !(c_udiv O _ I Hx Hbp) by exact Hn. now rewrite !HU.
    - rewrite !(c_sdiv O _ I Hx Hbp) by exact Hn. now rewrite !HS.
    - rewrite !(c_urem O _ I Hx Hbp) by exact Hn. now rewrite !HU.
    - rewrite !(c_srem O _ I Hx Hbp) by exact Hn. now rewrite !HS.
  Qed.

  Lemma single_div : forall enc op nsw x y rb vx vy a b c, exact_encoding enc ->
    In op [UDiv; SDiv; URem; SRem] -> is_iN n a -> is_iN n b ->
    (enc = WrappedInteger -> op = SDiv -> 0 <= signed n a \/ Z.rem (signed n a) (signed n b) = 0) ->
    rb x = Some vx -> rb y = Some vy ->
    represents enc n vx a -> represents enc n vy b -> llvm_binop op n a b = Some c ->
    exists e v, inst_expr (flags enc p) nd (IBin op nsw n (VReg n x) (VReg n y)) = Some e /\
      evaluates (preludeInt (flags enc p)) I rb e v /\ represents enc n v c.
  Proof.
    intros enc op nsw x y rb vx vy a b c He Hop HNa HNb Hg Hx Hy Ha Hb Hc.
    assert (exists v, eval_call (preludeInt (flags enc p)) I k5
      (indexedName (INSTRUCTION_TABLE op) [intType (flags enc p) n]) [vx; vy] = Some v /\ represents enc n v c) as (v & Hv & HR).
    { destruct He as [-> | ->].
      - apply (b_bin (flags BitVector p) nd _ I 0%nat (extends_refl _) eq_refl eq_refl op n vx vy a b c); auto.
        exact Logic.I.
      - destruct Ha as (za & -> & <-), Hb as (zb & -> & <-). unfold intType. cbn [bitPrecise flags].
        rewrite w_call_pat by assumption.
        destruct (w_bin (flags WrappedInteger p) nd _ I 0%nat (extends_refl _) eq_refl eq_refl (fun _ _ => False)) with
          (op := op) (n := n) (va := VInt (pat n za)) (vb := VInt (pat n zb)) (a := pat n za) (b := pat n zb) (c := c)
          as (v & Hv & HR); auto using Rw_id.
        + intros; contradiction.
        + destruct Hop as [<-|[<-|[<-|[<-|[]]]]]; cbn; auto.
        + eauto using Rw_represents. }
    destruct (bin_eval enc op nsw x y rb vx vy v Hx Hy Hv) as (e & H1 & H2). eauto.
  Qed.

  Lemma w_cmp_pat : forall q za zb,
    eval_call (preludeInt (flags WrappedInteger p)) I k5 (indexedName (CMPINST_TABLE q) [NInt n]) [VInt za; VInt zb] =
    eval_call (preludeInt (flags WrappedInteger p)) I k5 (indexedName (CMPINST_TABLE q) [NInt n]) [VInt (pat n za); VInt (pat n zb)].
  Proof.
    intros q za zb. pose proof (size_pos n Hn) as Hn1.
    set (O := flags WrappedInteger p). assert (bitPrecise O = false) as Hbp by reflexivity.
    assert (extends (preludeInt O) (preludeInt O)) as Hext by apply extends_refl.
    assert (forall a, wrapU O n (pat n a) = wrapU O n a) as HU.
    { intros a. unfold wrapU. cbn [O flags wrappedIntegerEncoding]. now rewrite pat_pat by lia. }
    assert (forall a, wrapS O n (pat n a) = wrapS O n a) as HS.
    { intros a. unfold wrapS. cbn [O flags wrappedIntegerEncoding]. now rewrite pat_pat by lia. }
    destruct q; cbn [CMPINST_TABLE];
    match goal with |- context [indexedName ?s _] =>
      match s with
      | String _ "eq" => rewrite !(c_pred O (preludeInt O) I Hext Hbp "eq" BEq false (Some (intPredExpr O BEq false)))
      | String _ "ne" => rewrite !(c_pred O (preludeInt O) I Hext Hbp "ne" BNeq false (Some (intPredExpr O BNeq false)))
      | String _ "ugt" => rewrite !(c_pred O (preludeInt O) I Hext Hbp "ugt" Gt false None)
      | String _ "uge" => rewrite !(c_pred O (preludeInt O) I Hext Hbp "uge" Gte false None)
      | String _ "ult" => rewrite !(c_pred O (preludeInt O) I Hext Hbp "ult" Lt false None)
      | String _ "ule" => rewrite !(c_pred O (preludeInt O) I Hext Hbp "ule" Lte false None)
      | String _ "sgt" => rewrite !(c_pred O (preludeInt O) I Hext Hbp "sgt" Gt true None)
      | String _ "sge" => rewrite !(c_pred O (preludeInt O) I Hext Hbp "sge" Gte true None)
      | String _ "slt" => rewrite !(c_pred O (preludeInt O) I Hext Hbp "slt" Lt true None)
      | String _ "sle" => rewrite !(c_pred O (preludeInt O) I Hext Hbp "sle" Lte true None)
      end
    end; try (reflexivity || exact Hn || in_table); rewrite ?HU, ?HS; reflexivity.
  Qed.

  Lemma single_cmp : forall enc q x y rb vx vy a b, exact_encoding enc ->
    is_iN n a -> is_iN n b -> rb x = Some vx -> rb y = Some vy ->
    represents enc n vx a -> represents enc n vy b ->
    exists e, inst_expr (flags enc p) nd (IIcmp q n (VReg n x) (VReg n y)) = Some e /\
      evaluates (preludeInt (flags enc p)) I rb e (truth enc (llvm_icmp q n a b)).
  Proof.
    intros enc q x y rb vx vy a b He HNa HNb Hx Hy Ha Hb.
    eexists. split; [reflexivity|]. exists k5. unfold eval. cbn [eval_with]. rewrite Hx, Hy.
    destruct He as [-> | ->].
    - destruct (b_icmp (flags BitVector p) nd _ I 0%nat (extends_refl _) eq_refl eq_refl q n vx vy a b)
        as (v & Hv & HR); auto; try exact Logic.I. rewrite HR in Hv. exact Hv.
    - destruct Ha as (za & -> & <-), Hb as (zb & -> & <-). unfold intType. cbn [bitPrecise flags].
      rewrite w_cmp_pat.
      destruct (w_icmp (flags WrappedInteger p) nd _ I 0%nat (extends_refl _) eq_refl eq_refl (fun _ _ => False)) with
        (p := q) (n := n) (va := VInt (pat n za)) (vb := VInt (pat n zb)) (a := pat n za) (b := pat n zb)
          as (v & Hv & z & -> & _ & Hz); auto using Rw_id; try exact Logic.I.
      rewrite (Hz eq_refl) in Hv. exact Hv.
  Qed.
End Single.

Lemma single_cast : forall p nd I n1 n2 enc c x rb vx a, supported n1 -> supported n2 -> cast_ok c n1 n2 ->
  exact_encoding enc -> is_iN n1 a -> rb x = Some vx -> represents enc n1 vx a ->
  exists e v, inst_expr (flags enc p) nd (ICast c n1 n2 (VReg n1 x)) = Some e /\
    evaluates (preludeInt (flags enc p)) I rb e v /\ represents enc n2 v (llvm_cast c n1 n2 a).
Proof.
  intros p nd I n1 n2 enc c x rb vx a Hn1 Hn2 Hc He HNa Hx Ha.
  pose proof (size_pos n1 Hn1). pose proof (size_pos n2 Hn2).
  assert (exists v, eval_call (preludeInt (flags enc p)) I k5
      (indexedName (CAST_TABLE c) [intType (flags enc p) n1; intType (flags enc p) n2]) [vx] = Some v /\
      represents enc n2 v (llvm_cast c n1 n2 a)) as (v & Hv & HR).
  { destruct He as [-> | ->].
    - apply (b_cast (flags BitVector p) nd _ I 0%nat (extends_refl _) eq_refl eq_refl c n1 n2 vx a); auto; exact Logic.I.
    - destruct Ha as (za & -> & Ea). unfold intType. cbn [bitPrecise flags].
      set (O := flags WrappedInteger p). assert (bitPrecise O = false) as Hbp by reflexivity.
      assert (extends (preludeInt O) (preludeInt O)) as Hext by apply extends_refl.
      assert (forall n a, wrapU O n a = pat n a) as HU by reflexivity.
      assert (forall n a, wrapS O n a = signed n (pat n a)) as HS by reflexivity.
      destruct c; cbn [CAST_TABLE llvm_cast cast_ok represents] in *.
      + rewrite (c_trunc O _ I Hext Hbp) by assumption. rewrite HU.
        eexists. split; [reflexivity|]. eexists. split; [reflexivity|].
        rewrite <- Ea, pat_pat by lia. symmetry. apply pat_narrow. lia.
      + rewrite (c_zext O _ I Hext Hbp) by assumption. rewrite HU, Ea.
        eexists. split; [reflexivity|]. eexists. split; [reflexivity|].
        apply pat_id, (is_iN_widen n1); [lia|assumption].
      + rewrite (c_sext O _ I Hext Hbp) by assumption. rewrite HS, Ea.
        eexists. split; [reflexivity|]. eexists. split; reflexivity. }
  eexists. exists v. split; [reflexivity|]. split; [|exact HR]. exists k5. unfold eval. cbn [eval_with]. rewrite Hx. exact Hv.
Qed.

Lemma single_lit : forall p nd I n c u ui enc rb, supported n -> is_iN n c ->
  (n <= 64 \/ (nd = false /\ lit (flags enc p) nd n c u ui <> None) \/ u = false \/ ui = true) ->
  exact_encoding enc ->
  exists e v, lit (flags enc p) nd n c u ui = Some e /\
    evaluates (preludeInt (flags enc p)) I rb e v /\ represents enc n v c.
Proof.
  intros p nd I n c u ui enc rb Hn Hc Hw He. pose proof (size_pos n Hn) as Hn1.
  assert (exists e, lit (flags enc p) nd n c u ui = Some e) as [e Hlit].
  { destruct Hw as [Hw|[[_ Hw]|Hw]].
    - apply (lits_total_64 (flags enc p) nd (fun m => m = n)); auto. intros; lia.
    - destruct (lit (flags enc p) nd n c u ui); [eauto|congruence].
    - unfold lit. destruct (1 <? n); [|eauto]. destruct Hw as [-> | ->]; eauto. destruct u; eauto. }
  assert (nd = true -> u = true -> ui = false -> n <= 64) as Hg.
  { intros -> -> ->. destruct Hw as [Hw|[[Hw _]|[Hw|Hw]]]; try discriminate; assumption. }
  assert (exists v, eval (preludeInt (flags enc p)) I k5 rb e = Some v /\ represents enc n v c) as (v & Hv & HR).
  { destruct He as [-> | ->].
    - apply (b_lit (flags BitVector p) nd _ I 0%nat (extends_refl _) eq_refl eq_refl n c u ui e rb); auto.
    - destruct (w_lit (flags WrappedInteger p) nd _ I 0%nat (extends_refl _) eq_refl eq_refl (fun _ _ => False) n c u ui e rb)
        as (v & Hv & HR); auto. exists v. split; [exact Hv|]. apply Rw_represents, HR. }
  exists e, v. split; [assumption|]. split; [|assumption]. exists k5. exact Hv.
Qed.

Lemma trans_total_64 : forall enc p nd G c,
  wt_code G (fun n => supported n /\ n <= 64) c -> exists l, trans_code (flags enc p) nd c = Some l.
Proof.
  intros enc p nd G c H. eapply code_total; [|exact H]. apply lits_total_64.
  intros n [Hn H64]. pose proof (size_pos n Hn). lia.
Qed.

(** *** signed division of wrapped integers *)
Lemma smt_div_inexact : forall a b, b <> 0 -> a < 0 -> Z.rem a b <> 0 ->
  smt_div a b = Some (Z.quot a b + (if b <? 0 then 1 else -1)).
Proof.
  intros a b Hb Ha Hr. unfold smt_div. destruct (b =? 0) eqn:E0; [lia|]. f_equal.
  pose proof (Z.quot_rem' a b) as Q. 
  pose proof (Z.rem_nonpos a b Hb ltac:(lia)) as R1. pose proof (Z.rem_bound_abs a b Hb) as R2.
  destruct (0 <? b) eqn:Eb.
  - destruct (b <? 0) eqn:E1; [lia|]. symmetry. apply Z.div_unique_pos with (r := b + Z.rem a b); lia.
  - destruct (b <? 0) eqn:E1; [|lia].
    assert (a / - b = - (Z.quot a b + 1)); [|lia].
    symmetry. apply Z.div_unique_pos with (r := - b + Z.rem a b); lia.
Qed.

Lemma sdiv_iff : forall p nd I n nsw x y rb vx vy a b c e v,
  supported n -> is_iN n a -> is_iN n b -> rb x = Some vx -> rb y = Some vy ->
  represents WrappedInteger n vx a -> represents WrappedInteger n vy b ->
  llvm_binop SDiv n a b = Some c ->
  inst_expr (flags WrappedInteger p) nd (IBin SDiv nsw n (VReg n x) (VReg n y)) = Some e ->
  evaluates (preludeInt (flags WrappedInteger p)) I rb e v ->
  (represents WrappedInteger n v c <-> 0 <= signed n a \/ Z.rem (signed n a) (signed n b) = 0).
Proof.
  intros p nd I n nsw x y rb vx vy a b c e v Hn HNa HNb Hx Hy Ha Hb Hc He Hv.
  pose proof (size_pos n Hn) as Hn1. split.
  - intros HR.
    destruct (Z.leb_spec 0 (signed n a)) as [|Hneg]; [now left|].
    destruct (Z.eq_dec (Z.rem (signed n a) (signed n b)) 0) as [|Hr]; [now right|]. exfalso.
    destruct Ha as (za & -> & Ea), Hb as (zb & -> & Eb).
    cbn in He. injection He as <-.
    assert (signed n b <> 0) as Hb0.
    { intro E. rewrite E, Z.rem_0_r_ext in Hr by reflexivity.
      cbn in Hc. destruct (b =? 0) eqn:E0; [discriminate|].
      assert (b = 0); [|lia]. apply (signed_eq_iff n); auto; [unfold is_iN; pose proof (pow2_pos n); lia|].
      rewrite E. symmetry. apply signed_0; lia. }
    assert (evaluates (preludeInt (flags WrappedInteger p)) I rb
             (EFun (indexedName "$sdiv" [intType (flags WrappedInteger p) n]) [EVar x; EVar y])
             (VInt (Z.quot (signed n a) (signed n b) + (if signed n b <? 0 then 1 else -1)))) as Hv'.
    { exists 5%nat. unfold eval. cbn [eval_with]. rewrite Hx, Hy. unfold intType. cbn [bitPrecise flags].
      rewrite (c_sdiv (flags WrappedInteger p) _ I (extends_refl _) eq_refl) by exact Hn.
      unfold wrapS. cbn [wrappedIntegerEncoding flags]. rewrite Ea, Eb.
      rewrite smt_div_inexact by assumption. reflexivity. }
    pose proof (evaluates_det _ _ _ _ _ _ Hv Hv') as ->.
    destruct HR as (z & Ez & Hz). injection Ez as <-.
    cbn in Hc. destruct (_ || _); [discriminate|]. injection Hc as <-.
    unfold pat in Hz. pose proof (pow2_pos n ltac:(lia)). pose proof (pow2_le 1 n ltac:(lia)).
    set (q := Z.quot (signed n a) (signed n b)) in *. set (m := 2 ^ n) in *. change (2 ^ 1) with 2 in *.
    set (d := if signed n b <? 0 then 1 else -1) in *.
    assert (d = 1 \/ d = -1) as Hd by (unfold d; destruct (signed n b <? 0); auto).
    pose proof (Z.div_mod (q + d) m ltac:(lia)) as D1. pose proof (Z.div_mod q m ltac:(lia)) as D2.
    rewrite Hz in D1. assert (d = m * ((q + d) / m - q / m)) as D by lia.
    set (t := (q + d) / m - q / m) in *. assert (t = 0 \/ 1 <= t \/ t <= -1) as [T|[T|T]] by lia; nia.
  - intros Hok.
    destruct (single_div p nd I n Hn WrappedInteger SDiv nsw x y rb vx vy a b c) as (e' & v' & He' & Hv' & HR); auto.
    + right. reflexivity.
    + cbn; tauto.
    + rewrite He in He'. injection He' as <-. rewrite (evaluates_det _ _ _ _ _ _ Hv Hv'). exact HR.
Qed.
