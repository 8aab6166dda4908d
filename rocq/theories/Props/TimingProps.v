(** C56: verifier code is told apart from the program, and the timing annotations of the
    Boogie code add up to the costs of the program. *)
From Coq Require Import ZArith List String Bool Lia.
From Verif.Spec Require Import BoogieSyntax VerifierCode CostAttribute.
From Verif.Model Require Import MemorySafetyChecker Timing.
From Verif.Proofs Require Import TimingProofs TimingCost.
Import ListNotations.
Open Scope string_scope.
Open Scope list_scope.
Open Scope Z_scope.

Notation marked b := (Assume [Attr "verifier.code" [AExpr (Num b)]] (BoolLit true)).

(** Every instruction but a debug call is annotated once as verifier code or once as
    code of the program, and as the former exactly if it exists only for the verifier. *)
Theorem C56_verifier_code : forall m c fname i, NoDup (map id m) -> plain_names m -> In i m -> ~ debug_call i ->
  (verifier_only m i -> In (marked 1) (annotate c (mark_module m) fname i) /\ ~ In (marked 0) (annotate c (mark_module m) fname i)) /\
  (~ verifier_only m i -> In (marked 0) (annotate c (mark_module m) fname i) /\ ~ In (marked 1) (annotate c (mark_module m) fname i)).
Proof.
  intros m c fname i ND P Hi D. assert (M := mark_module_spec m ND i Hi).
  unfold annotate. destruct (_ && _) eqn:B; [exfalso; apply D; eapply skip_spec; eauto|]. clear B.
  assert (A : forall b b', (b = 0 \/ b = 1) -> (b' = 0 \/ b' = 1) -> b <> b' -> (if isMarked (mark_module m) (id i) then 1 else 0) = b ->
    In (marked b) ((match loc i with Some (f, l, k) => if sourcelocs c then [Assume [Attr "sourceloc" [AStr f; AExpr (Num l); AExpr (Num k)]] (BoolLit true)] else [] | None => [] end)
       ++ map (fun a => Assume [a] (BoolLit true)) (metadata c (mark_module m) fname i)) /\
    ~ In (marked b') ((match loc i with Some (f, l, k) => if sourcelocs c then [Assume [Attr "sourceloc" [AStr f; AExpr (Num l); AExpr (Num k)]] (BoolLit true)] else [] | None => [] end)
       ++ map (fun a => Assume [a] (BoolLit true)) (metadata c (mark_module m) fname i))).
  { intros b b' Hb Hb' N E. unfold metadata. rewrite E. split.
    - apply in_or_app; right; left; reflexivity.
    - intros H. apply in_app_or in H. destruct H as [H|H].
      + destruct (loc i) as [[[f l] k]|]; [destruct (sourcelocs c)|]; cbn in H; [destruct H as [H|[]]; discriminate|tauto|tauto].
      + cbn [map In] in H. destruct H as [H|H]; [congruence|].
        apply in_map_iff in H. destruct H as [a [H1 H2]]. injection H1 as ->.
        destruct (timing c && _); [|destruct H2]. destruct H2 as [H2|H2]; [discriminate|].
        cbv zeta in H2. destruct (_ =? _); [destruct H2|]. destruct H2 as [H2|[]]; discriminate. }
  split; intros V.
  - apply A; auto; [lia|]. apply M in V; rewrite V; reflexivity.
  - apply A; auto; [lia|]. destruct (isMarked _ _); [exfalso; apply V, M; reflexivity|reflexivity].
Qed.
Print Assumptions C56_verifier_code.

(** What is verifier code is confined: if it is no call, its result is used, and only by
    verifier code. *)
Theorem C56_confined : forall m c fname i u, NoDup (map id m) -> plain_names m ->
  In i m -> In u m -> ~ debug_call u -> ~ is_call i -> uses u i ->
  In (marked 1) (annotate c (mark_module m) fname i) -> In (marked 1) (annotate c (mark_module m) fname u).
Proof.
  intros m c fname i u ND P Hi Hu D NC U A.
  assert (V : verifier_only m i).
  { assert (M := mark_module_spec m ND i Hi). apply M.
    destruct (isMarked (mark_module m) (id i)) eqn:E; [reflexivity|exfalso].
    assert (~ verifier_only m i) as NV by (intros V; apply M in V; congruence).
    assert (~ debug_call i) as ND' by (intros [O _]; apply NC; left; auto).
    destruct (C56_verifier_code m c fname i ND P Hi ND') as [_ H]. destruct (H NV) as [_ H']; auto. }
  inversion V; subst.
  - destruct H0; tauto.
  - apply (C56_verifier_code m c fname u ND P Hu D). auto.
Qed.
Print Assumptions C56_confined.

(** With --timing-annotations, the annotations on a path through a function (its entry
    block and then any of its other blocks, [gen] and [record] being the rest of the
    translation) sum up to the costs of the instructions on it, plus, at the entry, once
    more the cost of the first instruction with a source location. *)
Theorem C56_path_cost : forall m c gen record fname entry others entry' others' t t' ,
  NoDup (map id m) -> plain_names m -> timing c = true ->
  ~ begins "__SMACK" fname -> ~ begins "__VERIFIER" fname ->
  (forall i, uncosted (gen i)) -> uncosted record ->
  incl entry m -> (forall b, In b others -> incl b m) ->
  code entry entry' -> code (List.concat others) others' ->
  let price i := if tti c i =? 2 ^ 32 - 1 then None else Some (tti c i) in
  total m price entry' t -> total m price others' t' ->
  let boogie := gen_entry c (mark_module m) gen record fname entry ++ flat_map (gen_block c (mark_module m) gen fname) others in
  (forall i k, first_located entry i -> cost m price i k -> run_cost boogie = k + t + t') /\
  ((forall i, ~ first_located entry i) -> run_cost boogie = t + t').
Proof.
  intros m c gen record fname entry others entry' others' t t' ND P T N1 N2 G R He Ho Ce Co price Te To boogie.
  assert (User : isAutogeneratedSmackFunction fname = false).
  { unfold isAutogeneratedSmackFunction. apply orb_false_iff; split;
      match goal with |- ?x = false => destruct x eqn:E end; auto; apply prefix_begins in E; tauto. }
  unfold boogie. rewrite run_cost_app.
  rewrite (gen_blocks_cost m c fname ND P T User gen G others Ho others' Co t' To).
  destruct (gen_entry_cost m c fname ND P T User gen G record entry R He entry' Ce t Te) as [A B].
  split; [intros i k Fi K; rewrite (A i k Fi K) | intros N; rewrite (B N)]; reflexivity.
Qed.
Print Assumptions C56_path_cost.

(** Without the option, and in the functions of the verifier, nothing is annotated. *)
Theorem C56_untimed : forall m c gen record fname entry others,
  timing c = false \/ begins "__SMACK" fname \/ begins "__VERIFIER" fname ->
  (forall i, uncosted (gen i)) -> uncosted record ->
  uncosted (gen_entry c (mark_module m) gen record fname entry ++ flat_map (gen_block c (mark_module m) gen fname) others).
Proof.
  intros m c gen record fname entry others Off G R.
  assert (O : timing c && negb (isAutogeneratedSmackFunction fname) = false).
  { destruct Off as [->|H]; [reflexivity|]. apply andb_false_iff; right. apply negb_false_iff.
    unfold isAutogeneratedSmackFunction. rewrite orb_true_iff, !prefix_begins. tauto. }
  assert (A : forall i, uncosted (annotate c (mark_module m) fname i)).
  { intros i s a Hs Ha. unfold annotate in Hs. match type of Hs with context [if ?x then _ else _] => destruct x end; [destruct Hs|].
    apply in_app_or in Hs; destruct Hs as [Hs|Hs].
    - destruct (loc i) as [[[f l] k]|]; [destruct (sourcelocs c)|]; cbn in Hs; try tauto.
      destruct Hs as [<-|[]]. cbn in Ha. destruct Ha as [<-|[]]; discriminate.
    - unfold metadata in Hs. rewrite O in Hs. cbn in Hs. destruct Hs as [<-|[]]. cbn in Ha. destruct Ha as [<-|[]]; discriminate. }
  assert (B : forall b, uncosted (gen_block c (mark_module m) gen fname b)).
  { intros b s a Hs. unfold gen_block in Hs. apply in_flat_map in Hs. destruct Hs as [i [_ Hs]].
    apply in_app_or in Hs; destruct Hs as [Hs|Hs]; [eapply A|eapply G]; eauto. }
  intros s a Hs. apply in_app_or in Hs; destruct Hs as [Hs|Hs].
  - unfold gen_entry in Hs. apply in_app_or in Hs; destruct Hs as [Hs|Hs].
    + unfold entry_annotation in Hs. destruct (find _ entry); [eapply A; eauto | destruct Hs].
    + apply in_app_or in Hs; destruct Hs as [Hs|Hs]; [eapply R|eapply B]; eauto.
  - apply in_flat_map in Hs. destruct Hs as [b [_ Hs]]. eapply B; eauto.
Qed.
Print Assumptions C56_untimed.

(** x = load p; y = load q; assume(x + y > 0) where x is used by the program too *)
Definition L (n : Z) := Some ("a.c", n, 1).
Definition prog : list instr :=
  [Instr 0 CallIntrinsic (Some "llvm.dbg.value") [Elsewhere] (L 1);
   Instr 1 Load None [Elsewhere] (L 2);
   Instr 2 Load None [Elsewhere] (L 3);
   Instr 3 Arithmetic None [Inst 1; Inst 2] (L 3);
   Instr 4 Compare None [Inst 3; Elsewhere] (L 3);
   Instr 5 CallOther (Some "__VERIFIER_assume") [Inst 4; Elsewhere] (L 3);
   Instr 6 Ret None [Inst 1] (L 4)].
Definition conf : config := Config true true (fun i => match op i with Load => 4 | Arithmetic => 3 | Compare => 2 | _ => 1 end) (fun _ => "").
Example C56_nonvacuous :
  NoDup (map id prog) /\ plain_names prog /\
  map (fun i => isMarked (mark_module prog) (id i)) prog = [false; false; true; true; true; true; false] /\
  run_cost (gen_entry conf (mark_module prog) (fun _ => []) [] "main" prog) = 4 + (4 + 1) /\
  first_located prog (Instr 1 Load None [Elsewhere] (L 2)).
Proof.
  split; [repeat constructor; cbn; intuition discriminate|].
  split.
  - intros i f Hi C E [a [b F]]. unfold prog in Hi. cbn [In] in Hi.
    assert (X : contains "llvm.dbg." f = true) by (apply contains_spec; eauto).
    destruct Hi as [<-|[<-|[<-|[<-|[<-|[<-|[<-|[]]]]]]]]; cbn in E; try discriminate; injection E as <-.
    + split; [reflexivity | eexists; split; [reflexivity | cbn; auto]].
    + vm_compute in X; discriminate.
  - split; [vm_compute; reflexivity|]. split; [vm_compute; reflexivity|].
    exists [Instr 0 CallIntrinsic (Some "llvm.dbg.value") [Elsewhere] (L 1)].
    eexists. split; [reflexivity|]. split; [discriminate|]. split; [intros [H _]; discriminate|].
    intros j [<-|[]]. right. split; [reflexivity|]. eexists; split; [reflexivity | cbn; auto].
Qed.

Definition ret1 : instr := Instr 0 Ret None [] (L 1).
(** The annotations do not add up to the cost of the executed instructions: the first
    instruction with a source location is annotated twice, so that a function that only
    returns costs two. *)
Theorem C56_entry_twice_refuted : exists m c fname entry t,
  NoDup (map id m) /\ plain_names m /\ timing c = true /\ incl entry m /\ code entry entry /\
  total m (fun i => Some (tti c i)) entry t /\
  run_cost (gen_entry c (mark_module m) (fun _ => []) [] fname entry) = t + t /\ t = 1.
Proof.
  exists [ret1], conf, "main", [ret1], 1.
  split; [repeat constructor; intros []|].
  split; [intros i f [<-|[]] [H|H]; discriminate|].
  split; [reflexivity|]. split; [apply incl_refl|].
  split; [apply code_keep; [intros [H _]; discriminate|constructor]|].
  split; [|split; [vm_compute; reflexivity|reflexivity]].
  change 1 with (1 + 0). apply total_cons; [|constructor]. right. split; [|reflexivity].
  intros V. apply (mark_module_spec [ret1]) in V; [vm_compute in V; discriminate | repeat constructor; intros [] | left; reflexivity].
Qed.
Print Assumptions C56_entry_twice_refuted.

(** An instruction with an effect counts as verifier code if its result is used by the
    verifier only: atomic_fetch_add whose result is asserted (an atomicrmw, like an
    invoke, is no CallInst) is annotated as verifier code. *)
Theorem C56_effects_refuted : exists m rmw,
  NoDup (map id m) /\ In rmw m /\ op rmw = Other /\ forall c fname, In (marked 1) (annotate c (mark_module m) fname rmw).
Proof.
  exists [Instr 0 Other None [Elsewhere; Elsewhere] None; Instr 1 CallOther (Some "__VERIFIER_assert") [Inst 0; Elsewhere] None].
  eexists. split; [repeat constructor; cbn; intuition discriminate|]. split; [left; reflexivity|]. split; [reflexivity|].
  intros c fname. left; reflexivity.
Qed.
Print Assumptions C56_effects_refuted.

(** A computation of the verifier that goes through a cycle is not found: a loop counter
    that is used only by itself and by an assumption counts as program code. *)
Theorem C56_cycle_refuted : exists m phi add,
  NoDup (map id m) /\ In phi m /\ In add m /\
  (forall u, In u m -> uses u phi -> u = add \/ verifier_call u) /\ (forall u, In u m -> uses u add -> u = phi) /\
  forall c fname, In (marked 0) (annotate c (mark_module m) fname phi).
Proof.
  exists [Instr 0 PHI None [Elsewhere; Inst 1] None; Instr 1 Arithmetic None [Inst 0; Elsewhere] None;
          Instr 2 CallOther (Some "__VERIFIER_assume") [Inst 0; Elsewhere] None].
  eexists; eexists. split; [repeat constructor; cbn; intuition discriminate|].
  split; [left; reflexivity|]. split; [right; left; reflexivity|].
  split; [|split].
  - intros u [<-|[<-|[<-|[]]]] U; cbn in U.
    + exfalso; intuition discriminate.
    + left; reflexivity.
    + right. split; [right; reflexivity|]. eexists; split; [reflexivity|]. left; exists "assume"; reflexivity.
  - intros u [<-|[<-|[<-|[]]]] U; cbn in U; [reflexivity|exfalso; intuition discriminate..].
  - intros c fname; left; reflexivity.
Qed.
Print Assumptions C56_cycle_refuted.
