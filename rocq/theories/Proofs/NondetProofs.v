(** Evaluation, over all integers, of translated comparisons, casts and selects
    in the unbounded encoding; then the nondet functions of Model/Nondet.v. *)
From Coq Require Import ZArith List String Bool Lia ZifyBool.
From Verif.Base Require Import ZBits.
From Verif.Spec Require Import LLVMInt IR Encodings CTypes.
From Verif.Model Require Import Boogie PreludeInt SmackRepInt Nondet.
From Verif.Proofs Require Import Lookup PreludeCalls ExprSim EvalCompose IntEncodings IntUnbounded EventGuards IntMain.
Import ListNotations.
Open Scope string_scope.
Open Scope list_scope.
Open Scope Z_scope.

(** ** Integer reading of the translated code (unbounded encoding) *)
Definition zregs := string -> option Z.
Definition zlit (n c : Z) (u : bool) : Z :=
  if u then c else if (1 <? n) && (2 ^ (n - 1) <=? c) then c - 2 ^ n else c.
Definition zval (r : zregs) (u : bool) (v : value) : option Z :=
  match v with
  | VReg _ x => r x
  | VConst n c => Some (zlit n c u)
  | _ => None
  end.
Definition zcmp (p : icmp_pred) (x y : Z) : bool :=
  match p with
  | EQ => x =? y | NE => negb (x =? y)
  | UGT | SGT => y <? x | UGE | SGE => y <=? x | ULT | SLT => x <? y | ULE | SLE => x <=? y
  end.
Definition zinst (r : zregs) (i : inst) : option Z :=
  match i with
  | IIcmp p n a b =>
      match zval r (icmp_isUnsigned p) a, zval r (icmp_isUnsigned p) b with
      | Some x, Some y => Some (if zcmp p x y then 1 else 0)
      | _, _ => None
      end
  | ICast _ _ _ a => zval r false a
  | ISelect _ c a b =>
      match zval r false c, zval r true a, zval r true b with
      | Some z, Some x, Some y => Some (if z =? 1 then x else y)
      | _, _, _ => None
      end
  | IBin _ _ _ _ _ => None
  end.
Definition zset (r : zregs) (x : string) (z : Z) : zregs := fun y => if String.eqb x y then Some z else r y.
Fixpoint zrun (r : zregs) (c : code) : option zregs :=
  match c with
  | [] => Some r
  | (x, i) :: c' => match zinst r i with Some z => zrun (zset r x z) c' | None => None end
  end.

(** side conditions, checked by computation *)
Definition size_ok (n : Z) : bool := existsb (Z.eqb n) INTEGER_SIZES.
Lemma size_ok_in : forall n, size_ok n = true -> In n INTEGER_SIZES.
Proof. intros n H. apply existsb_exists in H as (m & Hm & E). apply Z.eqb_eq in E. now subst. Qed.
Definition val_ok (v : value) : bool :=
  match v with
  | VReg n _ => size_ok n
  | VConst n c => size_ok n && (0 <=? c) && (c <? 2 ^ n)
  | _ => false
  end.
Definition inst_ok (i : inst) : bool :=
  match i with
  | IIcmp _ n a b => size_ok n && val_ok a && val_ok b
  | ICast c n1 n2 a => size_ok n1 && size_ok n2 && val_ok a &&
      (match c with Trunc => n2 <? n1 | _ => n1 <? n2 end)
  | ISelect n c a b => val_ok c && val_ok a && val_ok b
  | IBin _ _ _ _ _ => false
  end.
Definition code_ok (c : code) : bool := forallb (fun p => inst_ok (snd p)) c.

Section Unb.
  Context (p nd : bool) (I : interp).
  Let O := flags UnboundedInteger p.
  Let prog := preludeInt O.
  Let Hext : extends prog (preludeInt O) := extends_refl _.
  Let Hbp : bitPrecise O = false := eq_refl.
  Notation ev := (evaluates prog I).

  Lemma calls_k : forall k f vs v, eval_call prog I k f vs = Some v -> calls prog I f vs v.
  Proof. intros k f vs v H. now exists k. Qed.

  Lemma zval_ok : forall r rb u ui v z e,
    (forall x y, r x = Some y -> rb x = Some (VInt y)) ->
    val_ok v = true -> (u = true -> ui = true) -> zval r u v = Some z -> expr_of O nd v u ui = Some e ->
    ev rb e (VInt z).
  Proof.
    intros r rb u ui v z e Hr Hv Hu Hz He. destruct v as [n x|n c| | | |]; try discriminate.
    - cbn in Hz, He. injection He as <-. apply ev_var. now apply Hr.
    - cbn [zval] in Hz. injection Hz as <-. cbn [val_ok] in Hv.
      apply andb_prop in Hv as [Hv Hc2]. apply andb_prop in Hv as [Hn Hc1]. apply size_ok_in in Hn.
      assert (1 <= n) by (apply size_pos, Hn).
      cbn [expr_of] in He. unfold lit in He. unfold zlit.
      change (bitPrecise O) with false in He. cbn match in He.
      destruct u.
      + rewrite (Hu eq_refl) in He.
        destruct (1 <? n); injection He as <-; apply ev_int.
      + destruct (1 <? n) eqn:En; [|injection He as <-; apply ev_int].
        unfold APInt_isNegative, APInt_abs in He. unfold APInt_isNegative in He.
        destruct (2 ^ (n - 1) <=? c) eqn:Eneg; cbn [andb]; [|injection He as <-; apply ev_int].
        injection He as <-.
        eapply ev_fun; [repeat constructor; apply ev_int|].
        apply (calls_k 1). unfold intType. change (bitPrecise O) with false. cbn match.
        rewrite (c_sub O prog I Hext Hbp) by assumption.
        f_equal. f_equal.
        pose proof (pow2_half n ltac:(lia)). pose proof (pow2_half_pos n ltac:(lia)).
        replace ((- c) mod 2 ^ n) with (2 ^ n - c); [lia|].
        apply Z.mod_unique with (-1); lia.
  Qed.

  Lemma zcmp_ok : forall q n a b, In n INTEGER_SIZES ->
    calls prog I (indexedName (CMPINST_TABLE q) [NInt n]) [VInt a; VInt b] (VInt (if zcmp q a b then 1 else 0)).
  Proof.
    intros q n a b Hn. apply (calls_k 4).
    destruct q; cbn [CMPINST_TABLE zcmp].
    - change "$eq" with ("$" ++ "eq")%string. rewrite (c_pred O prog I Hext Hbp "eq" BEq false (Some (intPredExpr O BEq false))) by (reflexivity || assumption || in_table). reflexivity.
    - change "$ne" with ("$" ++ "ne")%string. rewrite (c_pred O prog I Hext Hbp "ne" BNeq false (Some (intPredExpr O BNeq false))) by (reflexivity || assumption || in_table). reflexivity.
    - change "$ugt" with ("$" ++ "ugt")%string. rewrite (c_pred O prog I Hext Hbp "ugt" Gt false None) by (reflexivity || assumption || in_table). reflexivity.
    - change "$uge" with ("$" ++ "uge")%string. rewrite (c_pred O prog I Hext Hbp "uge" Gte false None) by (reflexivity || assumption || in_table). reflexivity.
    - change "$ult" with ("$" ++ "ult")%string. rewrite (c_pred O prog I Hext Hbp "ult" Lt false None) by (reflexivity || assumption || in_table). reflexivity.
    - change "$ule" with ("$" ++ "ule")%string. rewrite (c_pred O prog I Hext Hbp "ule" Lte false None) by (reflexivity || assumption || in_table). reflexivity.
    - change "$sgt" with ("$" ++ "sgt")%string. rewrite (c_pred O prog I Hext Hbp "sgt" Gt true None) by (reflexivity || assumption || in_table). reflexivity.
    - change "$sge" with ("$" ++ "sge")%string. rewrite (c_pred O prog I Hext Hbp "sge" Gte true None) by (reflexivity || assumption || in_table). reflexivity.
    - change "$slt" with ("$" ++ "slt")%string. rewrite (c_pred O prog I Hext Hbp "slt" Lt true None) by (reflexivity || assumption || in_table). reflexivity.
    - change "$sle" with ("$" ++ "sle")%string. rewrite (c_pred O prog I Hext Hbp "sle" Lte true None) by (reflexivity || assumption || in_table). reflexivity.
  Qed.

  Lemma zcast_ok : forall c n m a, In n INTEGER_SIZES -> In m INTEGER_SIZES ->
    (match c with Trunc => m <? n | _ => n <? m end) = true ->
    calls prog I (indexedName (CAST_TABLE c) [NInt n; NInt m]) [VInt a] (VInt a).
  Proof.
    intros c n m a Hn Hm H. apply (calls_k 3). destruct c; cbn [CAST_TABLE]; cbn match in H.
    - rewrite (c_trunc O prog I Hext Hbp) by (assumption || lia). reflexivity.
    - rewrite (c_zext O prog I Hext Hbp) by (assumption || lia). reflexivity.
    - rewrite (c_sext O prog I Hext Hbp) by (assumption || lia). reflexivity.
  Qed.

  Lemma zinst_ok : forall r rb i z e,
    (forall x y, r x = Some y -> rb x = Some (VInt y)) -> inst_ok i = true ->
    zinst r i = Some z -> inst_expr O nd i = Some e -> ev rb e (VInt z).
  Proof.
    intros r rb i z e Hr Hi Hz He. destruct i as [|q n a b|c n1 n2 a|n c a b]; [discriminate| | |];
      cbn [zinst inst_ok inst_expr expr_of] in *.
    - apply andb_prop in Hi as [Hi Hb]. apply andb_prop in Hi as [Hn Ha]. apply size_ok_in in Hn.
      destruct (zval r _ a) as [x|] eqn:Ea; [|discriminate].
      destruct (zval r _ b) as [y|] eqn:Eb; [|discriminate]. injection Hz as <-.
      destruct (expr_of O nd a _ _) as [e1|] eqn:E1; [|discriminate].
      destruct (expr_of O nd b _ _) as [e2|] eqn:E2; [|discriminate]. injection He as <-.
      eapply ev_fun; [|apply zcmp_ok; assumption].
      constructor; [|constructor; [|constructor]]; [eapply (zval_ok r rb (icmp_isUnsigned q) true a)|eapply (zval_ok r rb (icmp_isUnsigned q) true b)]; eauto.
    - apply andb_prop in Hi as [Hi Hlt]. apply andb_prop in Hi as [Hi Ha]. apply andb_prop in Hi as [H1 H2].
      apply size_ok_in in H1, H2.
      destruct (expr_of O nd a _ _) as [e1|] eqn:E1; [|discriminate]. injection He as <-.
      eapply ev_fun; [|apply zcast_ok; assumption].
      constructor; [|constructor]. eapply (zval_ok r rb false false a); eauto.
    - apply andb_prop in Hi as [Hi Hb]. apply andb_prop in Hi as [Hc Ha].
      destruct (zval r _ c) as [t|] eqn:Ec; [|discriminate].
      destruct (zval r _ a) as [x|] eqn:Ea; [|discriminate].
      destruct (zval r _ b) as [y|] eqn:Eb; [|discriminate]. injection Hz as <-.
      destruct (expr_of O nd c _ _) as [e0|] eqn:E0; [|discriminate].
      destruct (expr_of O nd a _ _) as [e1|] eqn:E1; [|discriminate].
      destruct (expr_of O nd b _ _) as [e2|] eqn:E2; [|discriminate]. injection He as <-.
      eapply (ev_ite prog I) with (x := (t =? 1)).
      + eapply ev_bin; [eapply (zval_ok r rb false false c); eauto|apply ev_int|reflexivity].
      + destruct (t =? 1); [eapply (zval_ok r rb true true a)|eapply (zval_ok r rb true true b)]; eauto.
  Qed.

  Definition zrel (r : zregs) (rb : env) : Prop := forall x y, r x = Some y -> rb x = Some (VInt y).
  Lemma zrel_set : forall r rb x z, zrel r rb -> zrel (zset r x z) (upd_env rb x (VInt z)).
  Proof.
    intros r rb x z H y w Hy. unfold zset in Hy. unfold upd_env.
    destruct (String.eqb x y); [congruence|now apply H].
  Qed.

  (** Any run of the translation computes these values. *)
  Lemma zrun_sound : forall c r rb l fuel rb' r', zrel r rb -> code_ok c = true ->
    zrun r c = Some r' -> trans_code O nd c = Some l ->
    run_assigns prog I fuel rb l = Some rb' -> zrel r' rb'.
  Proof.
    induction c as [|[x i] c IH]; intros r rb l fuel rb' r' Hr Hok Hz Ht Hrun.
    - cbn in Hz, Ht. injection Hz as <-. injection Ht as <-. cbn in Hrun. now injection Hrun as <-.
    - cbn [zrun trans_code code_ok forallb snd] in *.
      apply andb_prop in Hok as [Hi Hok].
      destruct (zinst r i) as [z|] eqn:Ez; [|discriminate].
      destruct (inst_expr O nd i) as [e|] eqn:Ee; [|discriminate].
      destruct (trans_code O nd c) as [l0|] eqn:El; [|discriminate]. injection Ht as <-.
      cbn [run_assigns] in Hrun.
      destruct (eval prog I fuel rb e) as [v|] eqn:Ev; [|discriminate].
      assert (v = VInt z) as ->.
      { eapply evaluates_det; [exists fuel; exact Ev|]. eapply zinst_ok; eauto. }
      exact (IH _ _ _ _ _ _ (zrel_set r rb x z Hr) Hok Hz eq_refl Hrun).
  Qed.

  Lemma run_up : forall l k n rb rb', (k <= n)%nat ->
    run_assigns prog I k rb l = Some rb' -> run_assigns prog I n rb l = Some rb'.
  Proof.
    induction l as [|[x e] l IH]; intros k n rb rb' Hle H; [exact H|].
    cbn [run_assigns] in *. destruct (eval prog I k rb e) as [v|] eqn:E; [|discriminate].
    rewrite (eval_up prog I k n rb e v Hle E). eauto.
  Qed.

  (** ... and there is such a run. *)
  Lemma zrun_complete : forall c r rb l r', zrel r rb -> code_ok c = true ->
    zrun r c = Some r' -> trans_code O nd c = Some l ->
    exists fuel rb', run_assigns prog I fuel rb l = Some rb' /\ zrel r' rb'.
  Proof.
    induction c as [|[x i] c IH]; intros r rb l r' Hr Hok Hz Ht.
    - cbn in Hz, Ht. injection Hz as <-. injection Ht as <-. exists 0%nat, rb. split; [reflexivity|exact Hr].
    - cbn [zrun trans_code code_ok forallb snd] in *.
      apply andb_prop in Hok as [Hi Hok].
      destruct (zinst r i) as [z|] eqn:Ez; [|discriminate].
      destruct (inst_expr O nd i) as [e|] eqn:Ee; [|discriminate].
      destruct (trans_code O nd c) as [l0|] eqn:El; [|discriminate]. injection Ht as <-.
      destruct (zinst_ok r rb i z e Hr Hi Ez Ee) as [k1 Hk1].
      destruct (IH _ _ _ _ (zrel_set r rb x z Hr) Hok Hz eq_refl) as (k2 & rb' & Hk2 & Hrel).
      exists (k1 + k2)%nat, rb'. split; [|exact Hrel]. cbn [run_assigns].
      rewrite (eval_up prog I k1 (k1 + k2) rb e (VInt z) ltac:(lia) Hk1).
      eapply run_up; [|exact Hk2]. lia.
  Qed.
End Unb.

(** ** Exact encodings: the conditions hold for every value of the type *)
Definition widths_of (c : code) (calls : list (string * Z)) : string -> option Z := fun x =>
  match find (fun p => String.eqb (fst p) x) calls with
  | Some (_, n) => Some n
  | None => match find (fun p => String.eqb (fst p) x) c with Some (_, i) => Some (iwidth i) | None => None end
  end.

(** Registers defined by the calls. *)
Fixpoint init_regs (l : list (string * Z)) (vs : string -> Z) : regs :=
  match l with
  | [] => fun _ => None
  | (x, _) :: l' => fun y => if String.eqb x y then Some (vs x) else init_regs l' vs y
  end.

Definition code_widths (f : nondet_fn) := widths_of (nf_code f) (nf_calls f).

(** What is checked of each function by computation. *)
Record fn_ok (f : nondet_fn) (n : Z) (x : string) : Prop := {
  ok_wt : wt_code (code_widths f) (fun k => supported k /\ k <= 64) (nf_code f);
  ok_code : code_ok (nf_code f) = true;
  ok_res : nf_result f = VReg n x;
  ok_resw : code_widths f x = Some n;
  ok_callsw : forall y k, In (y, k) (nf_calls f) -> code_widths f y = Some k /\ 1 < k;
  ok_assw : forall z, In z (nf_assumes f) -> code_widths f z = Some 32 }.

Lemma no_bin_exact : forall c r, code_ok c = true -> Forall (wrapped_exact axiomatised) (code_events r c).
Proof.
  induction c as [|[x i] c IH]; intros r H; [constructor|].
  cbn [code_ok forallb snd] in H. apply andb_prop in H as [Hi Hc].
  assert (forall v, val_ok v = true -> value_events r v = []) as Hv by (intros [] Hv; try discriminate; reflexivity).
  cbn [code_events].
  destruct (inst_den r i) as [v|].
  2: { rewrite ?app_nil_r. destruct i as [|q n a b|k n m a|n a b d]; [discriminate| | |]; cbn [inst_ok inst_events value_events] in *.
       - apply andb_prop in Hi as [Hi Hb]. apply andb_prop in Hi as [_ Ha]. rewrite (Hv a), (Hv b) by assumption.
         unfold ev2. destruct (value_den r a), (value_den r b); repeat constructor.
       - apply andb_prop in Hi as [Hi _]. apply andb_prop in Hi as [_ Ha]. rewrite (Hv a) by assumption.
         destruct (value_den r a); repeat constructor.
       - apply andb_prop in Hi as [Hi Hb]. apply andb_prop in Hi as [Ha Hd]. rewrite (Hv a), (Hv b), (Hv d) by assumption. constructor. }
  apply Forall_app. split; [|now apply IH].
  destruct i as [|q n a b|k n m a|n a b d]; [discriminate| | |]; cbn [inst_ok inst_events value_events] in *.
  - apply andb_prop in Hi as [Hi Hb]. apply andb_prop in Hi as [_ Ha]. rewrite (Hv a), (Hv b) by assumption.
    unfold ev2. destruct (value_den r a), (value_den r b); repeat constructor.
  - apply andb_prop in Hi as [Hi _]. apply andb_prop in Hi as [_ Ha]. rewrite (Hv a) by assumption.
    destruct (value_den r a); repeat constructor.
  - apply andb_prop in Hi as [Hi Hb]. apply andb_prop in Hi as [Ha Hd]. rewrite (Hv a), (Hv b), (Hv d) by assumption. constructor.
Qed.

Lemma run_det : forall prog I l k1 k2 rb r1 r2,
  run_assigns prog I k1 rb l = Some r1 -> run_assigns prog I k2 rb l = Some r2 -> r1 = r2.
Proof.
  intros prog I. induction l as [|[x e] l IH]; intros k1 k2 rb r1 r2 H1 H2; cbn [run_assigns] in *; [congruence|].
  destruct (eval prog I k1 rb e) as [v1|] eqn:E1; [|discriminate].
  destruct (eval prog I k2 rb e) as [v2|] eqn:E2; [|discriminate].
  assert (v1 = v2) as -> by (eapply evaluates_det; [exists k1; exact E1|exists k2; exact E2]).
  eapply IH; eauto.
Qed.

Section Exact.
  Context (enc : encoding) (p nd : bool) (I : interp) (f : nondet_fn) (n : Z) (x : string).
  Hypothesis Henc : enc = BitVector \/ enc = WrappedInteger.
  Hypothesis HI : meets_axioms (flags enc p) I.
  Hypothesis Hf : fn_ok f n x.
  Let prog := preludeInt (flags enc p).
  Let G := code_widths f.

  Definition embed (k a : Z) : val := match enc with BitVector => VBv k a | _ => VInt a end.

  Lemma exact_run : forall r rb r' l, stores_correspond enc G r rb -> run_code r (nf_code f) = Some r' ->
    trans_code (flags enc p) nd (nf_code f) = Some l ->
    exists fuel rb', run_assigns prog I fuel rb l = Some rb' /\ stores_correspond enc G r' rb'.
  Proof.
    intros r rb r' l Hs Hr Ht.
    assert (wt_code G (widths nd) (nf_code f)) as Hwt.
    { eapply wt_code_mono; [|exact (ok_wt _ _ _ Hf)]. intros k [Hk1 Hk2]. split; [exact Hk1|]. intros _. exact Hk2. }
    destruct Henc as [-> | ->].
    - eapply code_bv; eauto.
    - eapply code_wrapped with (bw := axiomatised); eauto.
      + left. split; [reflexivity|exact HI].
      + apply no_bin_exact, (ok_code _ _ _ Hf).
  Qed.

  Lemma init_in : forall l vs y a, init_regs l vs y = Some a -> a = vs y /\ exists k, In (y, k) l.
  Proof.
    induction l as [|[z k] l IH]; intros vs y a H; cbn in H; [discriminate|].
    destruct (String.eqb_spec z y) as [->|].
    - injection H as <-. split; [reflexivity|]. exists k. now left.
    - destruct (IH _ _ _ H) as (E & k' & Hin). split; [exact E|]. exists k'. now right.
  Qed.

  Lemma init_corr : forall vs rb,
    (forall y k, In (y, k) (nf_calls f) -> is_iN k (vs y) /\ exists v, rb y = Some v /\ represents enc k v (vs y)) ->
    stores_correspond enc G (init_regs (nf_calls f) vs) rb.
  Proof.
    intros vs rb H y m a Hy Ha. apply init_in in Ha as (-> & k & Hin).
    destruct (ok_callsw _ _ _ Hf y k Hin) as [Hk1 Hk2].
    assert (m = k) as -> by (unfold G in Hy; congruence).
    destruct (H y k Hin) as (Ha & v & Hv & Hr). split; [exact Ha|]. exists v. split; [exact Hv|]. split; [exact Hr|].
    intros ->. lia.
  Qed.

  Definition pats (rb : env) : string -> Z := fun y =>
    match rb y, G y with
    | Some (VBv _ a), _ => a
    | Some (VInt z), Some k => pat k z
    | _, _ => 0
    end.

  Lemma exact_sound : forall v,
    (forall vs, exists r' a, run_code (init_regs (nf_calls f) vs) (nf_code f) = Some r' /\ r' x = Some a) ->
    returns enc p nd I f v -> exists a, is_iN n a /\ represents enc n v a.
  Proof.
    intros v Htot (rb & l & e & fuel & rb' & Hraw & Ht & Hrun & _ & He & Hv).
    destruct (Htot (pats rb)) as (r' & a & Hr' & Ha).
    assert (stores_correspond enc G (init_regs (nf_calls f) (pats rb)) rb) as Hs.
    { apply init_corr. intros y k Hin. destruct (Hraw y k Hin) as (w & Hw & Hu).
      destruct (ok_callsw _ _ _ Hf y k Hin) as [Hk1 Hk2]. unfold pats. rewrite Hw.
      unfold G. rewrite Hk1. pose proof (pow2_pos k ltac:(lia)).
      destruct Henc as [E | E]; rewrite E in Hu |- *; cbn in Hu |- *.
      - destruct Hu as (b & -> & Hb). split; [exact Hb|]. eexists. split; [reflexivity|reflexivity].
      - destruct Hu as (z & ->). split; [unfold is_iN, pat; apply Z.mod_pos_bound; lia|].
        eexists. split; [reflexivity|]. now exists z. }
    destruct (exact_run _ _ _ _ Hs Hr' Ht) as (k2 & rb2 & Hrun2 & Hs2).
    assert (rb2 = rb') as -> by (eapply run_det; eauto).
    destruct (Hs2 x n a (ok_resw _ _ _ Hf) Ha) as (Hi & w & Hw & Hrep & _).
    exists a. split; [exact Hi|].
    rewrite (ok_res _ _ _ Hf) in He. cbn in He. injection He as <-. cbn in Hv. congruence.
  Qed.

  Lemma exact_complete : forall vs r' a,
    (forall y k, In (y, k) (nf_calls f) -> is_iN k (vs y)) ->
    run_code (init_regs (nf_calls f) vs) (nf_code f) = Some r' ->
    (forall z, In z (nf_assumes f) -> r' z = Some 1) -> r' x = Some a ->
    exists v, returns enc p nd I f v /\ represents enc n v a.
  Proof.
    intros vs r' a Hvs Hr' Hass Ha.
    destruct (trans_total_64 enc p nd _ _ (ok_wt _ _ _ Hf)) as (l & Ht).
    pose (rb := fun y => match init_regs (nf_calls f) vs y, G y with
                         | Some b, Some k => Some (embed k b) | _, _ => None end).
    assert (Hin0 : forall y k, In (y, k) (nf_calls f) -> init_regs (nf_calls f) vs y = Some (vs y)).
    { generalize (nf_calls f) as L. induction L as [|[z m] L IH]; intros y k []; cbn.
      - injection H as -> ->. now rewrite String.eqb_refl.
      - destruct (String.eqb_spec z y) as [->|]; [reflexivity|]. eauto. }
    assert (Hrb : forall y k, In (y, k) (nf_calls f) -> rb y = Some (embed k (vs y))).
    { intros y k Hin. unfold rb, G. rewrite (Hin0 y k Hin). now rewrite (proj1 (ok_callsw _ _ _ Hf y k Hin)). }
    assert (Hemb : forall k b, is_iN k b -> represents enc k (embed k b) b).
    { intros k b Hb. unfold embed. destruct Henc as [E | E]; rewrite E; cbn; [reflexivity|].
      exists b. split; [reflexivity|]. apply pat_id, Hb. }
    assert (stores_correspond enc G (init_regs (nf_calls f) vs) rb) as Hs.
    { apply init_corr. intros y k Hin. split; [eauto|]. exists (embed k (vs y)). split; [eauto|].
      apply Hemb. eauto. }
    destruct (exact_run _ _ _ _ Hs Hr' Ht) as (fuel & rb' & Hrun & Hs2).
    destruct (Hs2 x n a (ok_resw _ _ _ Hf) Ha) as (Hi & w & Hw & Hrep & _).
    exists w. split; [|exact Hrep].
    exists rb, l, (EVar x), fuel, rb'. split; [|split; [exact Ht|split; [exact Hrun|split; [|split]]]].
    - intros y k Hin. exists (embed k (vs y)). split; [eauto|]. pose proof (Hvs y k Hin) as Hb. unfold embed.
      destruct Henc as [E | E]; rewrite E; cbn; eauto.
    - intros z Hz. destruct (Hs2 z 32 1 (ok_assw _ _ _ Hf z Hz) (Hass z Hz)) as (_ & wz & Hwz & Hrz & _).
      exists wz. split; [exact Hwz|]. unfold assume_holds.
      destruct Henc as [E | E]; rewrite E in Hrz |- *; cbn in Hrz.
      + subst wz. reflexivity.
      + destruct Hrz as (y & -> & Hy). cbn. destruct (y =? 0) eqn:Ey; [|reflexivity].
        apply Z.eqb_eq in Ey. subst y. discriminate.
    - rewrite (ok_res _ _ _ Hf). reflexivity.
    - exact Hw.
  Qed.
End Exact.

Section UnbFn.
  Context (p nd : bool) (I : interp) (f : nondet_fn) (n : Z) (x : string).
  Hypothesis Hf : fn_ok f n x.

  Lemma zinit_rel : forall vs (rb : env), (forall y k, In (y, k) (nf_calls f) -> rb y = Some (VInt (vs y))) ->
    zrel (init_regs (nf_calls f) vs) rb.
  Proof. intros vs rb H y a Ha. apply init_in in Ha as (-> & k & Hin). eauto. Qed.

  Lemma unb_sound : forall v, returns UnboundedInteger p nd I f v ->
    exists vs, forall r', zrun (init_regs (nf_calls f) vs) (nf_code f) = Some r' ->
      (forall z y, In z (nf_assumes f) -> r' z = Some y -> y <> 0) /\
      (forall y, r' x = Some y -> v = VInt y).
  Proof.
    intros v (rb & l & e & fuel & rb' & Hraw & Ht & Hrun & Hass & He & Hv).
    exists (fun y => match rb y with Some (VInt z) => z | _ => 0 end). intros r' Hr'.
    assert (zrel r' rb') as Hz.
    { eapply zrun_sound; eauto using ok_code. apply zinit_rel. intros y k Hin.
      destruct (Hraw y k Hin) as (w & Hw & z & ->). now rewrite Hw. }
    split.
    - intros z y Hin Hy. apply Hz in Hy. destruct (Hass z Hin) as (w & Hw & Ha).
      rewrite Hy in Hw. injection Hw as <-. unfold assume_holds in Ha. cbn in Ha.
      intros ->. discriminate.
    - intros y Hy. apply Hz in Hy. rewrite (ok_res _ _ _ Hf) in He. cbn in He. injection He as <-. cbn in Hv. congruence.
  Qed.

  Lemma unb_complete : forall vs r' a, zrun (init_regs (nf_calls f) vs) (nf_code f) = Some r' ->
    (forall z, In z (nf_assumes f) -> r' z = Some 1) -> r' x = Some a ->
    returns UnboundedInteger p nd I f (VInt a).
  Proof.
    intros vs r' a Hr Hass Ha.
    destruct (trans_total_64 UnboundedInteger p nd _ _ (ok_wt _ _ _ Hf)) as (l & Ht).
    destruct (zrun_complete p nd I _ _ (fun y => Some (VInt (vs y))) l r' (zinit_rel vs _ (fun _ _ _ => eq_refl)) (ok_code _ _ _ Hf) Hr Ht) as (fuel & rb' & Hrun & Hz).
    exists (fun y => Some (VInt (vs y))), l, (EVar x), fuel, rb'.
    split; [|split; [exact Ht|split; [exact Hrun|split; [|split]]]].
    - intros y k _. eexists. split; [reflexivity|]. now exists (vs y).
    - intros z Hin. exists (VInt 1). split; [apply Hz; eauto|reflexivity].
    - rewrite (ok_res _ _ _ Hf). reflexivity.
    - cbn. apply Hz, Ha.
  Qed.
End UnbFn.
