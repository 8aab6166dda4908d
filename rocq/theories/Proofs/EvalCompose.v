(** Evaluation of compound expressions without counting inlining depth. *)
From Coq Require Import ZArith List String Bool Lia.
From Verif.Model Require Import Boogie.
From Verif.Proofs Require Import ExprSim.
Import ListNotations.
Open Scope Z_scope.

Section Compose.
  Context (prog : list fdecl) (I : interp).
  Notation ev := (evaluates prog I).

  Definition calls (f : fname) (vs : list val) (v : val) : Prop :=
    exists k, eval_call prog I k f vs = Some v.

  Lemma call_mono : forall j k f vs v, eval_call prog I k f vs = Some v -> eval_call prog I (j + k) f vs = Some v.
  Proof. induction j as [|j IH]; intros; [assumption|]. cbn [plus]. apply eval_call_S. now apply IH. Qed.
  Lemma call_up : forall k n f vs v, (k <= n)%nat -> eval_call prog I k f vs = Some v -> eval_call prog I n f vs = Some v.
  Proof. intros k n f vs v H H1. replace n with ((n - k) + k)%nat by lia. now apply call_mono. Qed.
  Lemma eval_up : forall k n r e v, (k <= n)%nat -> eval prog I k r e = Some v -> eval prog I n r e = Some v.
  Proof. intros k n r e v H H1. replace n with ((n - k) + k)%nat by lia. now apply eval_mono. Qed.

  Lemma ev_var : forall r x v, r x = Some v -> ev r (EVar x) v.
  Proof. intros r x v H. exists 0%nat. exact H. Qed.
  Lemma ev_int : forall r z, ev r (EInt z) (VInt z).
  Proof. intros. exists 0%nat. reflexivity. Qed.
  Lemma ev_bv : forall r z w, 0 <= z < 2 ^ w -> ev r (EBv z w) (VBv w z).
  Proof.
    intros r z w H. exists 0%nat. unfold eval. cbn [eval_with].
    destruct (Z.leb_spec 0 z), (Z.ltb_spec z (2 ^ w)); try lia. reflexivity.
  Qed.

  Lemma ev_list : forall r es vs, Forall2 (ev r) es vs ->
    exists k, evals_with (eval_call prog I k) r es = Some vs.
  Proof.
    intros r es vs H. induction H as [|e v es vs [k1 H1] _ [k2 H2]]; [now exists 0%nat|].
    exists (k1 + k2)%nat. cbn [evals_with].
    pose proof (eval_up k1 (k1 + k2) r e v ltac:(lia) H1) as E. unfold eval in E. rewrite E.
    replace (evals_with (eval_call prog I (k1 + k2)) r es) with (Some vs); [reflexivity|]. symmetry.
    revert H2. clear. revert vs. induction es as [|e es IH]; intros vs H; [exact H|].
    cbn [evals_with] in *. destruct (eval_with (eval_call prog I k2) r e) eqn:E1; [|discriminate].
    pose proof (eval_up k2 (k1 + k2) r e v ltac:(lia) E1) as E. unfold eval in E. rewrite E.
    destruct (evals_with (eval_call prog I k2) r es) eqn:E2; [|discriminate].
    rewrite (IH _ eq_refl). exact H.
  Qed.

  Lemma evals_up : forall k n r es vs, (k <= n)%nat ->
    evals_with (eval_call prog I k) r es = Some vs -> evals_with (eval_call prog I n) r es = Some vs.
  Proof.
    intros k n r es. induction es as [|e es IH]; intros vs Hle H; [exact H|].
    cbn [evals_with] in *. destruct (eval_with (eval_call prog I k) r e) eqn:E1; [|discriminate].
    pose proof (eval_up k n r e v Hle E1) as E. unfold eval in E. rewrite E.
    destruct (evals_with (eval_call prog I k) r es) eqn:E2; [|discriminate].
    rewrite (IH _ Hle eq_refl). exact H.
  Qed.

  Lemma ev_fun : forall r f es vs v, Forall2 (ev r) es vs -> calls f vs v -> ev r (EFun f es) v.
  Proof.
    intros r f es vs v H1 [k2 H2]. apply ev_list in H1 as [k1 H1].
    exists (k1 + k2)%nat. unfold eval. rewrite eval_fun.
    rewrite (evals_up k1 (k1 + k2) r es vs) by (lia || assumption).
    apply (call_up k2); [lia|exact H2].
  Qed.

  Lemma calls_inline : forall f d b r vs v,
    lookup prog f = Some d -> fd_attr d = AInline -> fd_body d = Some b ->
    bind_params (fd_params d) vs = Some r -> ev r b v -> calls f vs v.
  Proof.
    intros f d b r vs v H1 H2 H3 H4 [k H]. exists (S k). cbn [eval_call]. now rewrite H1, H2, H3, H4.
  Qed.

  Lemma ev_sel : forall r m i d c f iv z, ev r m (VMap d c f) -> ev r i iv ->
    to_scalar d iv = Some z -> ev r (ESel m i) (scalar_of c (f z)).
  Proof.
    intros r m i d c f iv z [k1 H1] [k2 H2] H3. exists (k1 + k2)%nat. unfold eval. cbn [eval_with].
    pose proof (eval_up k1 (k1 + k2) _ _ _ ltac:(lia) H1) as E1.
    pose proof (eval_up k2 (k1 + k2) _ _ _ ltac:(lia) H2) as E2.
    unfold eval in E1, E2. now rewrite E1, E2, H3.
  Qed.
  Lemma ev_upd : forall r m i x d c f iv xv z y, ev r m (VMap d c f) -> ev r i iv -> ev r x xv ->
    to_scalar d iv = Some z -> to_scalar c xv = Some y ->
    ev r (EUpd m i x) (VMap d c (fun a => if a =? z then y else f a)).
  Proof.
    intros r m i x d c f iv xv z y [k1 H1] [k2 H2] [k3 H3] H4 H5.
    exists (k1 + k2 + k3)%nat. unfold eval. cbn [eval_with].
    pose proof (eval_up k1 (k1 + k2 + k3) _ _ _ ltac:(lia) H1) as E1.
    pose proof (eval_up k2 (k1 + k2 + k3) _ _ _ ltac:(lia) H2) as E2.
    pose proof (eval_up k3 (k1 + k2 + k3) _ _ _ ltac:(lia) H3) as E3.
    unfold eval in E1, E2, E3. now rewrite E1, E2, E3, H4, H5.
  Qed.
  Lemma ev_extract : forall r e hi lo w z, ev r e (VBv w z) -> 0 <= lo -> lo <= hi -> hi <= w ->
    ev r (EExtract e hi lo) (VBv (hi - lo) ((z / 2 ^ lo) mod 2 ^ (hi - lo))).
  Proof.
    intros r e hi lo w z [k H] H1 H2 H3. exists k. unfold eval in *. cbn [eval_with]. rewrite H.
    destruct (Z.leb_spec 0 lo), (Z.leb_spec lo hi), (Z.leb_spec hi w); try lia. reflexivity.
  Qed.
  Lemma ev_concat : forall r a b w1 x w2 y, ev r a (VBv w1 x) -> ev r b (VBv w2 y) ->
    ev r (EConcat a b) (VBv (w1 + w2) (x * 2 ^ w2 + y)).
  Proof.
    intros r a b w1 x w2 y [k1 H1] [k2 H2]. exists (k1 + k2)%nat. unfold eval. cbn [eval_with].
    pose proof (eval_up k1 (k1 + k2) _ _ _ ltac:(lia) H1) as E1.
    pose proof (eval_up k2 (k1 + k2) _ _ _ ltac:(lia) H2) as E2.
    unfold eval in E1, E2. now rewrite E1, E2.
  Qed.
  Lemma ev_bin : forall r o a b x y v, ev r a x -> ev r b y -> eval_bin o x y = Some v -> ev r (EBin o a b) v.
  Proof.
    intros r o a b x y v [k1 H1] [k2 H2] H3. exists (k1 + k2)%nat. unfold eval. cbn [eval_with].
    pose proof (eval_up k1 (k1 + k2) _ _ _ ltac:(lia) H1) as E1.
    pose proof (eval_up k2 (k1 + k2) _ _ _ ltac:(lia) H2) as E2.
    unfold eval in E1, E2. now rewrite E1, E2.
  Qed.
  Lemma ev_ite : forall r c a b (x : bool) v, ev r c (VBool x) -> ev r (if x then a else b) v -> ev r (EIte c a b) v.
  Proof.
    intros r c a b x v [k1 H1] [k2 H2]. exists (k1 + k2)%nat. unfold eval. cbn [eval_with].
    pose proof (eval_up k1 (k1 + k2) _ _ _ ltac:(lia) H1) as E1.
    pose proof (eval_up k2 (k1 + k2) _ _ _ ltac:(lia) H2) as E2.
    unfold eval in E1, E2. rewrite E1. destruct x; exact E2.
  Qed.
End Compose.
