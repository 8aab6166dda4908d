(** C66: warnings about approximations.  Specification: Spec/Warnings.v; model:
    Model/Warnings.v. *)
From Coq Require Import ZArith List String Bool Lia.
From Verif.Base Require Import ZBits.
From Verif.Spec Require Import LLVMInt IR Encodings Template BitCount Warnings.
From Verif.Model Require Import Boogie BoogieAst PreludeInt SmackRepInt Intrinsics Warnings.
From Verif.Model Require MemIntrinsics.
From Verif.Proofs Require Import PreludeCalls ExprSim IntEncodings IntUnbounded IntMain IntrinsicsProofs.
From Verif.Props Require Import IntProps IntrinsicProps.
Import ListNotations.
Open Scope string_scope.
Open Scope list_scope.
Open Scope Z_scope.

(** The comments among the emitted statements. *)
Definition comments (f : effect) : list string :=
  flat_map (fun s => match s with SComment t => [t] | _ => [] end) (emitted f).
Definition well_formed (o : operation) : Prop := match o with IntegerOp _ n => 1 <= n | _ => True end.

Definition option_of (f : flag) : string :=
  match f with BitPrecise => "--integer-encoding=bit-vector" | RewriteBitwiseOps => "--rewrite-bitwise-ops" | FloatEnabled => "--float" end.

Lemma is_set_given : forall u f, is_set (llvm_to_bpl u) f = true <-> given (option_of f) u.
Proof. intros [[] [] [] []] []; unfold given; cbn; split; congruence. Qed.
Lemma unset_missing : forall u l x,
  In x (map option_of (getUnsetFlags (llvm_to_bpl u) l)) <-> In x (map option_of l) /\ ~ given x u.
Proof.
  intros u l x. unfold getUnsetFlags. rewrite !in_map_iff. split.
  - intros (f & <- & H). apply filter_In in H. destruct H as [H1 H2]. split; [eauto|].
    rewrite <- is_set_given. now destruct (is_set (llvm_to_bpl u) f).
  - intros [(f & <- & H) G]. exists f. split; [reflexivity|]. apply filter_In. split; [exact H|].
    rewrite <- is_set_given in G. now destruct (is_set (llvm_to_bpl u) f).
Qed.
Lemma satisfied_all : forall u l, isSatisfied (llvm_to_bpl u) l AndR = true <-> Forall (fun x => given x u) (map option_of l).
Proof.
  intros u l. unfold isSatisfied, getUnsetFlags. induction l as [|f l IH]; cbn [filter map]; [split; auto|].
  destruct (is_set (llvm_to_bpl u) f) eqn:E; cbn [negb].
  - rewrite IH. split; [|intro H; now inversion H]. intro H. constructor; [now apply is_set_given|exact H].
  - split; [discriminate|]. intro H. inversion H as [|? ? H1 H2]. apply is_set_given in H1. congruence.
Qed.
Lemma filter_shorter : forall (l : list flag) p, (List.length (filter p l) <= List.length l)%nat.
Proof. induction l as [|f l IH]; intro p; cbn; [lia|]. specialize (IH p). destruct (p f); cbn; lia. Qed.
Lemma satisfied_any : forall u l, isSatisfied (llvm_to_bpl u) l OrR = true <-> Exists (fun x => given x u) (map option_of l).
Proof.
  intros u l. unfold isSatisfied, getUnsetFlags. induction l as [|f l IH]; cbn [filter map].
  - split; [discriminate|]. intro H. inversion H.
  - destruct (is_set (llvm_to_bpl u) f) eqn:E; cbn [negb].
    + split; [intros _; constructor; now apply is_set_given|]. intros _. apply PeanoNat.Nat.ltb_lt.
      apply le_n_S, filter_shorter.
    + cbn [List.length]. rewrite (Exists_cons _ (option_of f)). rewrite <- is_set_given, E, <- IH.
      split; [auto|]. intros [H|H]; [discriminate|exact H].
Qed.

Lemma app_str_nil : forall s, (s +++ "") = s.
Proof. induction s as [|c s IH]; cbn; [reflexivity|now rewrite IH]. Qed.
Lemma app_str_assoc : forall a b c, ((a +++ b) +++ c) = (a +++ b +++ c).
Proof. induction a as [|ch a IH]; intros; cbn; [reflexivity|now rewrite IH]. Qed.
Lemma concat_cons : forall a l, String.concat "" (a :: l) = (a +++ String.concat "" l).
Proof. intros a [|b l]; cbn; [now rewrite app_str_nil|reflexivity]. Qed.
Lemma flag_text : forall l, getFlagStr l = ("{ " +++ listed (map option_of l) +++ "}").
Proof.
  intro l. unfold getFlagStr. enough (forall s, fold_left (fun ret f => (ret +++
    (if String.eqb (ArgStr f) "bit-precise" then "--integer-encoding=bit-vector " else "--" +++ ArgStr f +++ " "))) l s =
    (s +++ listed (map option_of l))) as H by (rewrite H, app_str_assoc; reflexivity).
  induction l as [|f l IH]; intro s; cbn [fold_left map].
  - unfold listed. cbn. now rewrite app_str_nil.
  - rewrite IH. unfold listed. cbn [map]. rewrite concat_cons, app_str_assoc. f_equal. f_equal. now destruct f.
Qed.

Lemma hint_text : forall u l all, getUnsetFlags (llvm_to_bpl u) l <> [] ->
  match getUnsetFlags (llvm_to_bpl u) l with
  | [] => ""
  | _ => " try adding " +++ (match (if all : bool then AndR else OrR) with AndR => "all the " | OrR => "any " end) +++
         "flag(s) in: " +++ getFlagStr (getUnsetFlags (llvm_to_bpl u) l)
  end = advice all (map option_of (getUnsetFlags (llvm_to_bpl u) l)).
Proof.
  intros u l all H. destruct (getUnsetFlags (llvm_to_bpl u) l) as [|f k] eqn:E; [congruence|].
  rewrite flag_text. unfold advice. now destruct all.
Qed.
Lemma level_quiet : forall u, isSufficientWarningLevel (llvm_to_bpl u) Approximate = true <-> verbose u <> Quiet.
Proof. intros [? ? ? []]; cbn; split; congruence. Qed.

Lemma quiet : forall u d fl bl loc rel, verbose u = Quiet -> processApproximate (llvm_to_bpl u) d fl bl loc rel = nothing.
Proof. intros [? ? ? []] d fl bl loc rel H; cbn in H; try discriminate H. reflexivity. Qed.
Lemma loud : forall u d l loc (all : bool), verbose u <> Quiet -> getUnsetFlags (llvm_to_bpl u) l <> [] ->
  processApproximate (llvm_to_bpl u) d (getUnsetFlags (llvm_to_bpl u) l) true loc (if all then AndR else OrR) =
  Effect [position loc +++ "SMACK warning: " +++ d +++ ";" +++ advice all (map option_of (getUnsetFlags (llvm_to_bpl u) l))]
         [SComment (position loc +++ "SMACK warning: " +++ d +++ ";")].
Proof.
  intros u d l loc all H U. unfold processApproximate. rewrite (proj2 (level_quiet u) H). cbn [negb].
  rewrite (hint_text u l all U). rewrite !app_str_assoc. reflexivity.
Qed.
Lemma loud_plain : forall u d loc, verbose u <> Quiet ->
  processApproximate (llvm_to_bpl u) d [] true loc AndR =
  Effect [position loc +++ "SMACK warning: " +++ d +++ ";" +++ ""] [SComment (position loc +++ "SMACK warning: " +++ d +++ ";")].
Proof.
  intros u d loc H. unfold processApproximate. rewrite (proj2 (level_quiet u) H). cbn [negb].
  rewrite !app_str_assoc. reflexivity.
Qed.
Lemma unsat_unset : forall u l all, isSatisfied (llvm_to_bpl u) l (if all : bool then AndR else OrR) = false -> l <> [] ->
  getUnsetFlags (llvm_to_bpl u) l <> [].
Proof.
  intros u l [] H Hl E; unfold isSatisfied in H; rewrite E in H; [discriminate|]. destruct l; [congruence|discriminate].
Qed.
Definition sat (u : settings) (l : list flag) (all : bool) : Prop :=
  (if all then Forall (fun x => given x u) else Exists (fun x => given x u)) (map option_of l).
Lemma sat_ok : forall u l all, isSatisfied (llvm_to_bpl u) l (if all : bool then AndR else OrR) = true <-> sat u l all.
Proof. intros u l []; [apply satisfied_all|apply satisfied_any]. Qed.

(** the shape of a warned operation *)
Definition warned_as (u : settings) (loc : location) (o : operation) (f : effect) : Prop :=
  let line := position loc +++ "SMACK warning: " +++ description o +++ ";" in
  comments f = [line] /\ exists hint, right_hint u o hint /\ printed f = [line +++ hint].
Definition silent (f : effect) : Prop := printed f = [] /\ comments f = [].

Definition stmt_free (l : list stm) : Prop := flat_map (fun s => match s with SComment t => [t] | _ => [] end) l = [].
Lemma flagged : forall u loc o d l (all : bool) tl, l <> [] -> d = description o ->
  needs o = (if all then AllOf (map option_of l) else OneOf (map option_of l)) -> stmt_free (emitted tl) -> printed tl = [] ->
  verbose u <> Quiet -> isSatisfied (llvm_to_bpl u) l (if all then AndR else OrR) = false ->
  warned_as u loc o (and_then (processApproximate (llvm_to_bpl u) d (getUnsetFlags (llvm_to_bpl u) l) true loc (if all then AndR else OrR)) tl).
Proof.
  intros u loc o d l all tl Hl -> Hn Ht Hp Hv Hs. pose proof (unsat_unset u l all Hs Hl) as U.
  rewrite (loud u _ l loc all Hv U). unfold warned_as, comments, and_then. cbn [emitted printed app flat_map]. split.
  - now rewrite Ht.
  - exists (advice all (map option_of (getUnsetFlags (llvm_to_bpl u) l))). split.
    + unfold right_hint. rewrite Hn. destruct all; (eexists; split; [|reflexivity]); intro x; apply unset_missing.
    + rewrite Hp. now rewrite !app_str_assoc.
Qed.
Lemma plain : forall u loc o d hd tl, d = description o -> needs o = Impossible -> stmt_free (emitted hd) -> printed hd = [] ->
  stmt_free (emitted tl) -> printed tl = [] -> verbose u <> Quiet ->
  warned_as u loc o (and_then hd (and_then (processApproximate (llvm_to_bpl u) d [] true loc AndR) tl)).
Proof.
  intros u loc o d hd tl -> Hn Hh Hhp Ht Hp Hv. rewrite (loud_plain u _ loc Hv).
  unfold warned_as, comments, and_then. cbn [emitted printed]. split.
  - rewrite flat_map_app. unfold stmt_free in Hh. rewrite Hh. cbn [app flat_map]. now rewrite Ht.
  - exists "". split; [unfold right_hint; now rewrite Hn|]. rewrite Hhp, Hp. cbn [app]. now rewrite !app_str_assoc.
Qed.
Lemma nothing_then : forall f, and_then nothing f = f.
Proof. intros [p e]. reflexivity. Qed.
Lemma then_nothing : forall f, and_then f nothing = f.
Proof. intros [p e]. unfold and_then. cbn. now rewrite !app_nil_r. Qed.

(** what an operation issues: flags required, relation, and the rest *)
Definition issues (u : settings) (loc : location) (o : operation) (f : effect) : Prop :=
  (modelled u o \/ verbose u = Quiet -> silent f) /\
  (~ modelled u o -> verbose u <> Quiet -> warned_as u loc o f).

Lemma issues_flags : forall u loc o l (all : bool) d f tl, l <> [] -> d = description o ->
  needs o = (if all then AllOf (map option_of l) else OneOf (map option_of l)) ->
  stmt_free (emitted tl) -> printed tl = [] ->
  (isSatisfied (llvm_to_bpl u) l (if all then AndR else OrR) = true -> silent f) ->
  (isSatisfied (llvm_to_bpl u) l (if all then AndR else OrR) = false ->
   f = and_then (processApproximate (llvm_to_bpl u) d (getUnsetFlags (llvm_to_bpl u) l) true loc (if all then AndR else OrR)) tl) ->
  issues u loc o f.
Proof.
  intros u loc o l all d f tl Hl Hd Hn Ht Hp Hs Hu.
  assert (modelled u o <-> isSatisfied (llvm_to_bpl u) l (if all then AndR else OrR) = true) as M.
  { unfold modelled. rewrite Hn, sat_ok. unfold sat. now destruct all. }
  destruct (isSatisfied (llvm_to_bpl u) l (if all then AndR else OrR)) eqn:E.
  - split; [auto|]. intro C. elim C. now apply M.
  - rewrite (Hu eq_refl). split.
    + intros [C|C]; [apply M in C; discriminate|]. rewrite quiet by exact C. rewrite nothing_then. split; assumption.
    + intros _ Hv. eapply flagged; eauto.
Qed.
Lemma issues_nothing : forall u loc o f, needs o = Nothing -> silent f -> issues u loc o f.
Proof. intros u loc o f Hn Hs. split; [auto|]. intro C. elim C. unfold modelled. now rewrite Hn. Qed.
Lemma issues_plain : forall u loc o d hd tl, d = description o -> needs o = Impossible ->
  stmt_free (emitted hd) -> printed hd = [] -> stmt_free (emitted tl) -> printed tl = [] ->
  issues u loc o (and_then hd (and_then (processApproximate (llvm_to_bpl u) d [] true loc AndR) tl)).
Proof.
  intros u loc o d hd tl Hd Hn Hh Hhp Ht Hp. split.
  - intros [C|C]; [unfold modelled in C; rewrite Hn in C; destruct C|]. rewrite quiet by exact C.
    rewrite nothing_then. unfold silent, comments, and_then. cbn [emitted printed]. rewrite flat_map_app, Hhp, Hp.
    unfold stmt_free in Hh, Ht. now rewrite Hh, Ht.
  - intros _ Hv. now apply plain.
Qed.
Lemma silent_emit : forall s, match s with SComment _ => False | _ => True end -> silent (emit s).
Proof. intros [] H; try destruct H; split; reflexivity. Qed.

Lemma visit_issues : forall u bvptr loc o w res a b e, well_formed o -> issues u loc o (visit u bvptr loc o w res a b e).
Proof.
  intros u bvptr loc o w res a b e W.
  assert (forall i name l all f tl, l <> [] -> i <> OtherIntrinsic ->
    needs_intrinsic i = (if all : bool then AllOf (map option_of l) else OneOf (map option_of l)) ->
    silent f -> stmt_free (emitted tl) -> printed tl = [] ->
    issues u loc (Intrinsic i name)
      (if isSatisfied (llvm_to_bpl u) l (if all then AndR else OrR) then f
       else and_then (warnOverApproximate_unset (llvm_to_bpl u) ("call to " +++ name) (getUnsetFlags (llvm_to_bpl u) l) loc (if all then AndR else OrR)) tl)) as HI.
  { intros i name l all f tl Hl Hi Hn Hf Ht Hp.
    eapply (issues_flags u loc _ l all (description (Intrinsic i name))); eauto.
    - intro E. rewrite E. exact Hf.
    - intro E. rewrite E. unfold warnOverApproximate_unset. destruct i; try reflexivity. congruence. }
  destruct o as [op n|op| |i name|text|text|]; cbn [visit].
  - unfold visitBinaryOperator. cbn in W.
    assert (isBitwiseOp op && (1 <? n) = false -> issues u loc (IntegerOp op n) (emit (SAssign res e))) as HN.
    { intro E. apply issues_nothing; [|now apply silent_emit]. cbn. destruct op; try reflexivity; cbn in E;
        (destruct (Z.eqb_spec n 1); [reflexivity|apply Z.ltb_ge in E; lia]). }
    destruct (isBitwiseOp op && (1 <? n)) eqn:E; [|rewrite nothing_then; auto].
    apply andb_prop in E. destruct E as [E1 E2]. apply Z.ltb_lt in E2.
    eapply (issues_flags u loc _ [BitPrecise] true (description (IntegerOp op n)) _ (emit (SAssign res e)));
      try discriminate; try reflexivity.
    + cbn. destruct (Z.eqb_spec n 1); [lia|]. now destruct op.
    + intro S. unfold warnOverApproximate. rewrite S, nothing_then. now apply silent_emit.
    + intro S. unfold warnOverApproximate. rewrite S. unfold warnOverApproximate_unset. now destruct op.
  - unfold visitFloatOperator. destruct (isFpArithOp op) eqn:E.
    + eapply (issues_flags u loc _ [FloatEnabled] true (description (FloatOp op)) _ (emit SOther));
        try discriminate; try reflexivity.
      * now destruct op.
      * intro S. unfold warnOverApproximate. rewrite S, nothing_then. now apply silent_emit.
      * intro S. unfold warnOverApproximate. rewrite S. now destruct op.
    + rewrite nothing_then. apply issues_nothing; [now destruct op|now apply silent_emit].
  - unfold visitUnaryOperator.
    eapply (issues_flags u loc _ [FloatEnabled] true (description FloatNeg) _ (emit SOther)); try discriminate; try reflexivity.
    + intro S. unfold warnOverApproximate. rewrite S, nothing_then. now apply silent_emit.
    + intro S. unfold warnOverApproximate. rewrite S. reflexivity.
  - unfold visitIntrinsicInst, conditionalModel.
    destruct i; cbn beta iota zeta;
      first [ apply issues_nothing; [reflexivity|now apply silent_emit]
            | apply (HI _ name [BitPrecise] true); try discriminate; try reflexivity; now apply silent_emit
            | apply (HI _ name [FloatEnabled] true); try discriminate; try reflexivity; now apply silent_emit
            | apply (HI _ name [FloatEnabled; BitPrecise] true); try discriminate; try reflexivity; now apply silent_emit
            | apply (HI _ name [BitPrecise; RewriteBitwiseOps] false); try discriminate; try reflexivity; now apply silent_emit
            | idtac ].
    rewrite <- (nothing_then (and_then _ _)). unfold warnApproximate. now apply issues_plain.
  - unfold visitInlineAsm, warnApproximate. rewrite <- (nothing_then (and_then _ _)). now apply issues_plain.
  - unfold visitCallBrInst, warnApproximate. rewrite <- (nothing_then (and_then _ _)). now apply issues_plain.
  - unfold visitLandingPadInst, warnApproximate. rewrite <- (then_nothing (processApproximate _ _ _ _ _ _)). now apply issues_plain.
Qed.

(** Exactly the operations that are not modelled with the given options are
    warned about (unless --warn=silent), once, with the position, the operation,
    and the options missing; the Boogie program gets the same line, without the
    advice, as a comment. *)
Theorem C66_warned_iff : forall u bvptr loc o w res a b e, well_formed o ->
  let f := visit u bvptr loc o w res a b e in
  let line := position loc +++ "SMACK warning: " +++ description o +++ ";" in
  (modelled u o \/ verbose u = Quiet -> printed f = [] /\ comments f = []) /\
  (~ modelled u o -> verbose u <> Quiet ->
     comments f = [line] /\ exists hint, right_hint u o hint /\ printed f = [line +++ hint]).
Proof. intros u bvptr loc o w res a b e W. exact (visit_issues u bvptr loc o w res a b e W). Qed.
Print Assumptions C66_warned_iff.

Lemma verbose_given : forall x u, verbose (given_too x u) = verbose u.
Proof.
  intros x u. unfold given_too. destruct (String.eqb x "--integer-encoding=bit-vector"); [reflexivity|].
  destruct (String.eqb x "--float"); [reflexivity|]. now destruct (String.eqb x "--rewrite-bitwise-ops").
Qed.
Lemma verbose_all : forall l u, verbose (all_given_too l u) = verbose u.
Proof. induction l as [|x l IH]; intro u; cbn; [reflexivity|]. now rewrite IH, verbose_given. Qed.
Definition the_options : list string := ["--integer-encoding=bit-vector"; "--float"; "--rewrite-bitwise-ops"].
Lemma given_one : forall x y u, In x the_options -> In y the_options ->
  (given x (given_too y u) <-> x = y \/ given x u).
Proof.
  intros x y [[] [] [] v] Hx Hy. all: cbn in Hx, Hy;
  destruct Hx as [<-|[<-|[<-|[]]]], Hy as [<-|[<-|[<-|[]]]]; unfold given; cbn;
  (split; [intro H; first [now left|right; congruence]|intros [H|H]; congruence]).
Qed.
Lemma given_all : forall x l u, In x the_options -> incl l the_options ->
  (given x (all_given_too l u) <-> In x l \/ given x u).
Proof.
  intros x l. induction l as [|y l IH]; intros u Hx Hl; cbn [all_given_too In].
  - split; [auto|]. intros [[]|H]; exact H.
  - rewrite IH; [|exact Hx|intros z Hz; apply Hl; now right]. rewrite given_one; [|exact Hx|apply Hl; now left].
    intuition congruence.
Qed.
Lemma needs_options : forall o, incl (options_of (needs o)) the_options.
Proof.
  intros [[] n|[]| |[] nm|t|t|] x; cbn; try tauto; destruct (n =? 1); cbn; tauto.
Qed.

Lemma given_dec : forall x u, {given x u} + {~ given x u}.
Proof. intros x u. unfold given. repeat decide equality. Defined.
Lemma modelled_dec : forall u o, {modelled u o} + {~ modelled u o}.
Proof.
  intros u o. unfold modelled. destruct (needs o) as [|l|l|]; [now left| | |now right].
  - apply Forall_dec. intro x. apply given_dec.
  - apply Exists_dec. intro x. apply given_dec.
Defined.
Lemma printed_iff : forall u bvptr loc o w res a b e, well_formed o -> verbose u <> Quiet ->
  (printed (visit u bvptr loc o w res a b e) = [] <-> modelled u o).
Proof.
  intros u bvptr loc o w res a b e W V. destruct (visit_issues u bvptr loc o w res a b e W) as [H1 H2]. split.
  - intro E. destruct (modelled_dec u o) as [M|M]; [exact M|]. destruct (H2 M V) as (_ & h & _ & P). rewrite E in P. discriminate.
  - intro M. now destruct (H1 (or_introl M)).
Qed.

(** Of the options a warning names, adding all of them ("all the flag(s) in")
    or any one of them ("any flag(s) in") is what makes it disappear – no fewer
    will do.  [chosen]: the options added. *)
Theorem C66_following_advice : forall u bvptr loc o w res a b e os chosen, well_formed o -> verbose u <> Quiet ->
  ~ modelled u o ->
  (forall x, In x os <-> In x (options_of (needs o)) /\ ~ given x u) -> incl chosen os ->
  (printed (visit (all_given_too chosen u) bvptr loc o w res a b e) = [] <->
   match needs o with
   | AllOf _ => incl os chosen
   | OneOf _ => chosen <> []
   | Nothing | Impossible => False
   end).
Proof.
  intros u bvptr loc o w res a b e os chosen W V N Hos Hin.
  rewrite printed_iff; [|exact W|now rewrite verbose_all].
  assert (incl chosen the_options) as Hc.
  { intros x Hx. apply (needs_options o). apply Hos, Hin, Hx. }
  pose proof (needs_options o) as Ho. unfold modelled in *. destruct (needs o) as [|l|l|]; cbn [options_of] in *.
  - tauto.
  - rewrite !Forall_forall in *. split.
    + intros H x Hx. apply Hos in Hx. destruct Hx as [Hx G]. specialize (H x Hx).
      apply given_all in H; [|now apply Ho|exact Hc]. tauto.
    + intros H x Hx. apply given_all; [now apply Ho|exact Hc|]. destruct (given_dec x u) as [G|G]; [now right|].
      left. apply H. apply Hos. now split.
  - rewrite !Exists_exists in *. split.
    + intros (x & Hx & G) ->. apply N. exists x. split; assumption.
    + destruct chosen as [|x l']; [congruence|]. intros _. assert (In x os) as H by (apply Hin; now left).
      apply Hos in H. exists x. split; [tauto|]. apply given_all; [now apply Ho|exact Hc|]. left. now left.
  - tauto.
Qed.
Print Assumptions C66_following_advice.

Example C66_nonvacuous :
  let u := Settings UnboundedInteger false false Approximations in
  let f o := visit u false (Some ("a.c", 12, 7)) o 32 "r" "x" "y" (EVar "z") in
  printed (f (IntegerOp And 32)) =
    ["a.c:12:7: SMACK warning: overapproximating bitwise operation and (can lead to false alarms); try adding all the flag(s) in: { --integer-encoding=bit-vector }"] /\
  printed (f (Intrinsic CtPop "llvm.ctpop.i32")) =
    ["a.c:12:7: SMACK warning: overapproximating call to llvm.ctpop.i32 (can lead to false alarms); try adding any flag(s) in: { --integer-encoding=bit-vector --rewrite-bitwise-ops }"] /\
  printed (f (Intrinsic ToFP16 "llvm.convert.to.fp16.f32")) =
    ["a.c:12:7: SMACK warning: overapproximating call to llvm.convert.to.fp16.f32 (can lead to false alarms); try adding all the flag(s) in: { --float --integer-encoding=bit-vector }"] /\
  printed (f (InlineAsm "nop")) =
    ["a.c:12:7: SMACK warning: approximating inline asm call nop (can lead to both false alarms and missed detections);"] /\
  printed (f (IntegerOp And 1)) = [] /\ printed (f (IntegerOp Add 32)) = [].
Proof. repeat (split; [vm_compute; reflexivity|]). vm_compute. reflexivity. Qed.

(** ** What the warnings mean *)

(** The operation's value is right whatever the open functions mean. *)
Definition exact_for_all (enc : encoding) (bvptr : bool) (op : binop) (n : Z) (x y : string) (e : expr) : Prop :=
  forall I rb vx vy p q c, meets_axioms (flags enc bvptr) I -> is_iN n p -> is_iN n q ->
    rb x = Some vx -> rb y = Some vy -> represents enc n vx p -> represents enc n vy q -> llvm_binop op n p q = Some c ->
    exists v, evaluates (prelude_of enc bvptr) I rb e v /\ represents enc n v c.
Lemma bitwise_call : forall enc p I k op n vs, enc <> BitVector -> bitwise_operation op -> In n INTEGER_SIZES ->
  eval_call (preludeInt (flags enc p)) I (S k) (indexedName (INSTRUCTION_TABLE op) [NInt n]) vs =
  I (indexedName (INSTRUCTION_TABLE op) [NInt n]) vs.
Proof.
  intros enc p I k op n vs He Hop Hn.
  assert (bitPrecise (flags enc p) = false) as Hbp by (destruct enc; [congruence|reflexivity|reflexivity]).
  assert (forall u, In (IntArithOp u 2 (Some OpUninterp) (Some OpBuiltin) false) (intArithOpTable (flags enc p)) ->
    eval_call (preludeInt (flags enc p)) I (S k) (indexedName ("$" +++ u) [NInt n]) vs = I (indexedName ("$" +++ u) [NInt n]) vs) as H.
  { intros u Hu. exact (c_uninterp (flags enc p) _ I (extends_refl _) Hbp u _ Hu k n vs Hn). }
  destruct Hop as [<-|[<-|[<-|[<-|[<-|[<-|[]]]]]]];
  [exact (H "shl" ltac:(cbn; tauto))|exact (H "lshr" ltac:(cbn; tauto))|exact (H "ashr" ltac:(cbn; tauto))
  |exact (H "and" ltac:(cbn; tauto))|exact (H "or" ltac:(cbn; tauto))|exact (H "xor" ltac:(cbn; tauto))].
Qed.
Lemma bitvector_exact : forall bvptr op nsw n x y e, width_supported n -> x <> y ->
  translate_inst BitVector bvptr false (IBin op nsw n (VReg n x) (VReg n y)) = Some e -> exact_for_all BitVector bvptr op n x y e.
Proof.
  intros bvptr op nsw n x y e Hn Hxy He I rb vx vy p q c _ Hp Hq Hx Hy Rx Ry Hc. cbn in Rx, Ry. subst vx vy.
  set (G := fun s => if String.eqb s x then Some n else if String.eqb s y then Some n else None).
  set (r := fun s => if String.eqb s x then Some p else if String.eqb s y then Some q else None).
  assert (G x = Some n) as Gx by (unfold G; now rewrite String.eqb_refl).
  assert (G y = Some n) as Gy by (unfold G; destruct (String.eqb y x); [reflexivity|now rewrite String.eqb_refl]).
  assert (r x = Some p) as Ex by (unfold r; now rewrite String.eqb_refl).
  assert (r y = Some q) as Ey by (unfold r; destruct (String.eqb_spec y x); [congruence|now rewrite String.eqb_refl]).
  set (i := IBin op nsw n (VReg n x) (VReg n y)).
  assert (forall s m z, G s = Some m -> r s = Some z -> (s = x /\ m = n /\ z = p) \/ (s = y /\ m = n /\ z = q)) as D.
  { intros s m z. unfold G, r. destruct (String.eqb_spec s x) as [->|]; [intros [= <-] [= <-]; auto|].
    destruct (String.eqb_spec s y) as [->|]; [intros [= <-] [= <-]; auto|discriminate]. }
  destruct (inst_den r (IBin op false n (VReg n x) (VReg n y))) as [c'|] eqn:Ec.
  2:{ cbn in Ec. rewrite Ex, Ey in Ec. cbn in Ec. congruence. }
  assert (c' = c) as -> by (cbn in Ec; rewrite Ex, Ey in Ec; cbn in Ec; congruence).
  destruct (C06_bitvector_programs bvptr false I G [(x, IBin op false n (VReg n x) (VReg n y))] r rb (set_reg r x c) [(x, e)])
    as (fuel & rb' & H1 & H2).
  - intros s j [[= <- <-]|[]]. cbn. rewrite Gx, Gy. repeat split; auto; try (intro C; discriminate C).
  - intros s m z Hs Hz. destruct (D s m z Hs Hz) as [(-> & -> & ->)|(-> & -> & ->)]; (split; [assumption|]);
      (eexists; split; [eassumption|]); (split; [reflexivity|]); intros ->;
      [destruct (i1_cases p Hp) as [-> | ->]|destruct (i1_cases q Hq) as [-> | ->]]; reflexivity.
  - cbn [run_code]. rewrite Ec. reflexivity.
  - cbn [translate_code trans_code]. unfold translate_code. cbn [trans_code].
    assert (inst_expr (flags BitVector bvptr) false (IBin op false n (VReg n x) (VReg n y)) = Some e) as ->; [|reflexivity].
    rewrite <- He. reflexivity.
  - destruct (H2 x n c Gx) as (_ & v & E & R & _).
    { unfold set_reg. now rewrite String.eqb_refl. }
    cbn [run_assigns] in H1. destruct (eval (prelude_of BitVector bvptr) I fuel rb e) as [v'|] eqn:Ev; [|discriminate].
    injection H1 as <-. unfold upd_env in E. rewrite String.eqb_refl in E. injection E as ->.
    exists v. split; [exists fuel; exact Ev|exact R].
Qed.

(** a legal but wrong meaning of the bitwise functions: 0 above width 1 *)
Definition zero_interp : interp := fun f vs =>
  match fn_idx f with
  | [NInt 1] => machine_interp UnboundedInteger f vs
  | _ => Some (VInt 0)
  end.
Lemma zero_meets : forall enc p, meets_axioms (flags enc p) zero_interp.
Proof.
  intros enc p f args v H. unfold arithAxioms in H. destruct enc; cbn [flags bitPrecise] in H; [destruct H| |];
  cbn -[machine_interp Z.land Z.lor Z.lxor] in H;
  repeat (destruct H as [H|H]; [injection H as <- <- <-; reflexivity|]); destruct H.
Qed.

Lemma one_iN : forall n, 1 <= n -> is_iN n 1 /\ is_iN n 0.
Proof. intros n Hn. pose proof (Z.pow_le_mono_r 2 1 n ltac:(lia) Hn). unfold is_iN. lia. Qed.
Lemma represents_small : forall enc n x, enc <> BitVector -> 2 <= n -> 0 <= x <= 1 -> represents enc n (VInt x) x.
Proof.
  intros enc n x He Hn Hx. pose proof (Z.pow_le_mono_r 2 2 n ltac:(lia) Hn). pose proof (Z.pow_le_mono_r 2 1 (n-1) ltac:(lia) ltac:(lia)).
  destruct enc; [congruence| |].
  - exists x. split; [reflexivity|]. apply Z.mod_small. lia.
  - cbn. destruct (Z.eqb_spec n 1); [lia|]. unfold signed. destruct (Z.ltb_spec x (2 ^ (n - 1))); [reflexivity|lia].
Qed.
Lemma zero_not_one : forall enc n, enc <> BitVector -> 2 <= n -> ~ represents enc n (VInt 0) 1.
Proof.
  intros enc n He Hn H. destruct enc; [congruence| |].
  - destruct H as (z & [= <-] & H). unfold pat in H. rewrite Z.mod_0_l in H; [discriminate|]. pose proof (Z.pow_pos_nonneg 2 n). lia.
  - cbn in H. destruct (Z.eqb_spec n 1); [lia|]. injection H as H. unfold signed in H.
    pose proof (Z.pow_le_mono_r 2 1 (n-1) ltac:(lia) ltac:(lia)). destruct (Z.ltb_spec 1 (2 ^ (n - 1))); lia.
Qed.
Lemma sample : forall op n, bitwise_operation op -> 2 <= n -> exists q, 0 <= q <= 1 /\ llvm_binop op n 1 q = Some 1.
Proof.
  intros op n Hop Hn. pose proof (Z.pow_le_mono_r 2 2 n ltac:(lia) Hn) as P. change (2 ^ 2) with 4 in P.
  pose proof (Z.pow_le_mono_r 2 1 (n-1) ltac:(lia) ltac:(lia)) as P'. change (2 ^ 1) with 2 in P'.
  assert (pat n 1 = 1) as E1 by (apply Z.mod_small; lia).
  assert (0 <? n = true) as E0 by (apply Z.ltb_lt; lia).
  assert (signed n 1 = 1) as E2 by (unfold signed; destruct (Z.ltb_spec 1 (2 ^ (n - 1))); lia).
  destruct Hop as [<-|[<-|[<-|[<-|[<-|[<-|[]]]]]]];
  [exists 0|exists 0|exists 0|exists 1|exists 1|exists 0]; (split; [lia|]); cbn; rewrite ?E0, ?E1, ?E2; cbn; rewrite ?E1; reflexivity.
Qed.

(** A bitwise operation wider than one bit is warned about exactly if its
    translation can have a value other than the machine's. *)
Theorem C66_bitwise_exact_iff : forall u bvptr loc op nsw n w res x y a b e, verbose u <> Quiet ->
  bitwise_operation op -> width_supported n -> 1 < n -> x <> y ->
  translate_inst (integers u) bvptr false (IBin op nsw n (VReg n x) (VReg n y)) = Some e ->
  (printed (visit u bvptr loc (IntegerOp op n) w res a b e) = [] <-> exact_for_all (integers u) bvptr op n x y e).
Proof.
  intros u bvptr loc op nsw n w res x y a b e V Hop Hn H1 Hxy He. rewrite printed_iff; [|cbn; lia|exact V].
  assert (modelled u (IntegerOp op n) <-> integers u = BitVector) as M.
  { unfold modelled. cbn. destruct (Z.eqb_spec n 1); [lia|].
    assert (given "--integer-encoding=bit-vector" u <-> integers u = BitVector) as G.
    { destruct u as [[] ? ? ?]; unfold given; cbn; split; congruence. }
    destruct Hop as [<-|[<-|[<-|[<-|[<-|[<-|[]]]]]]]; rewrite <- G;
    (split; [intro F; now inversion F|intro F; now repeat constructor]). }
  rewrite M. split.
  - intro E. rewrite E in *. eapply bitvector_exact; eauto.
  - intro H. assert (integers u = BitVector \/ integers u <> BitVector) as [E|E] by (destruct (integers u); auto; right; discriminate); [exact E|].
    exfalso. destruct (sample op n Hop ltac:(lia)) as (q & Hq & Hs).
    assert (bitPrecise (flags (integers u) bvptr) = false) as Hbp by (destruct (integers u); [congruence|reflexivity|reflexivity]).
    destruct (one_iN n ltac:(lia)) as [I1 I0].
    assert (is_iN n q) as Iq by (assert (q = 0 \/ q = 1) as [-> | ->] by lia; assumption).
    set (rb := fun s => if String.eqb s x then Some (VInt 1) else Some (VInt q)).
    destruct (H zero_interp rb (VInt 1) (VInt q) 1 q 1 (zero_meets _ _) I1 Iq) as (v & (k & Ev) & R).
    + unfold rb. now rewrite String.eqb_refl.
    + unfold rb. destruct (String.eqb_spec y x); [congruence|reflexivity].
    + apply represents_small; [exact E|lia|lia].
    + apply represents_small; [exact E|lia|lia].
    + exact Hs.
    + apply (zero_not_one (integers u) n E ltac:(lia)). replace (VInt 0) with v; [exact R|].
      unfold translate_inst in He. cbn [inst_expr expr_of] in He. injection He as <-.
      unfold eval in Ev. cbn [eval_with] in Ev. unfold rb in Ev. rewrite String.eqb_refl in Ev.
      destruct (String.eqb_spec y x); [congruence|]. unfold intType in Ev. rewrite Hbp in Ev.
      destruct k as [|k]; [discriminate|].
      unfold prelude_of in Ev. rewrite (bitwise_call (integers u) bvptr zero_interp k op n _ E Hop Hn) in Ev.
      unfold zero_interp in Ev. cbn [fn_idx] in Ev. assert (n <> 1) as N by lia.
      destruct n as [|[p|p|]|p]; congruence.
Qed.
Print Assumptions C66_bitwise_exact_iff.

(** The machine's value is always among those considered: "overapproximating,
    can lead to false alarms" only. *)
Theorem C66_overapproximate : forall enc bvptr op nsw n x y e, bitwise_operation op -> width_supported n -> x <> y ->
  translate_inst enc bvptr false (IBin op nsw n (VReg n x) (VReg n y)) = Some e ->
  exists I, meets_axioms (flags enc bvptr) I /\
  forall rb vx vy p q c, is_iN n p -> is_iN n q -> rb x = Some vx -> rb y = Some vy ->
    represents enc n vx p -> represents enc n vy q -> llvm_binop op n p q = Some c ->
    exists v, evaluates (prelude_of enc bvptr) I rb e v /\ represents enc n v c.
Proof.
  intros enc bvptr op nsw n x y e Hop Hn Hxy He. exists (machine_interp enc). split; [apply machine_meets_axioms|].
  intros rb vx vy p q c Hp Hq Hx Hy Rx Ry Hc. pose proof (size_pos n Hn) as Hn1.
  assert (enc = BitVector \/ enc <> BitVector) as [->|E] by (destruct enc; auto; right; discriminate).
  - exact (bitvector_exact bvptr op nsw n x y e Hn Hxy He _ rb vx vy p q c (machine_meets_axioms _ _) Hp Hq Hx Hy Rx Ry Hc).
  - assert (bitPrecise (flags enc bvptr) = false) as Hbp by (destruct enc; [congruence|reflexivity|reflexivity]).
    assert (is_iN n c) as Ic by (eapply (llvm_binop_range op n p q); eauto).
    assert (exists zx zy, vx = VInt zx /\ vy = VInt zy /\ pat n zx = p /\ pat n zy = q) as (zx & zy & -> & -> & Px & Py).
    { destruct enc; [congruence| |].
      - destruct Rx as (zx & -> & ?), Ry as (zy & -> & ?). eauto 8.
      - cbn in Rx, Ry. exists (sval n p), (sval n q). repeat split; try assumption; apply sval_pat; assumption. }
    assert (IntEncodings.is_bitwise op = true) as Bo by (destruct Hop as [<-|[<-|[<-|[<-|[<-|[<-|[]]]]]]]; reflexivity).
    pose proof Hc as Hc'. rewrite <- Px, <- Py in Hc'.
    pose proof (machine_value enc op n zx zy c Bo Hc') as Hm.
    eexists. split.
    + unfold translate_inst in He. cbn [inst_expr expr_of] in He. injection He as <-. exists 1%nat.
      unfold eval. cbn [eval_with]. rewrite Hx, Hy. unfold intType. rewrite Hbp. unfold prelude_of.
      rewrite (bitwise_call enc bvptr _ 0 op n _ E Hop Hn). exact Hm.
    + destruct enc; [congruence| |].
      * exists c. split; [reflexivity|]. apply pat_id, Ic.
      * reflexivity.
Qed.
Print Assumptions C66_overapproximate.

(** i1: never warned about, and the logical operations are exact on 0 and 1. *)
Theorem C66_i1_exact : forall u bvptr loc op nsw w res x y a b e, In op [And; Or; Xor] -> x <> y ->
  translate_inst (integers u) bvptr false (IBin op nsw 1 (VReg 1 x) (VReg 1 y)) = Some e ->
  printed (visit u bvptr loc (IntegerOp op 1) w res a b e) = [] /\
  forall I rb p q c, meets_axioms (flags (integers u) bvptr) I ->
    rb x = Some (truth (integers u) p) -> rb y = Some (truth (integers u) q) -> llvm_binop op 1 (b2z p) (b2z q) = Some c ->
    evaluates (prelude_of (integers u) bvptr) I rb e (truth (integers u) (c =? 1)).
Proof.
  intros u bvptr loc op nsw w res x y a b e Hop Hxy He. split.
  { destruct (visit_issues u bvptr loc (IntegerOp op 1) w res a b e) as [H _]; [cbn; lia|].
    apply H. left. unfold modelled. now destruct op. }
  intros I rb p q c HI Hx Hy Hc.
  assert (bitwise_operation op) as Ho by (unfold bitwise_operation; cbn in *; tauto).
  assert (width_supported 1) as W1 by (unfold width_supported; cbn; tauto).
  pose proof (b2z_range p) as Rp. pose proof (b2z_range q) as Rq.
  assert (is_iN 1 c) as Rc by (eapply (llvm_binop_range op 1 (b2z p) (b2z q)); eauto; lia).
  assert (integers u = BitVector \/ integers u <> BitVector) as [E|E] by (destruct (integers u); auto; right; discriminate).
  - rewrite E in *. destruct (bitvector_exact bvptr op nsw 1 x y e W1 Hxy He I rb _ _ (b2z p) (b2z q) c HI Rp Rq Hx Hy) as (v & H1 & H2);
      [reflexivity|reflexivity|exact Hc|]. cbn in H2. subst v.
    destruct (i1_cases c Rc) as [-> | ->]; exact H1.
  - assert (bitPrecise (flags (integers u) bvptr) = false) as Hbp by (destruct (integers u); [congruence|reflexivity|reflexivity]).
    assert (forall t, truth (integers u) t = VInt (b2z t)) as T by (intro; destruct (integers u); [congruence|reflexivity|reflexivity]).
    rewrite T in *. unfold translate_inst in He. cbn [inst_expr expr_of] in He. injection He as <-. exists 1%nat.
    unfold eval. cbn [eval_with]. rewrite Hx, Hy. unfold intType. rewrite Hbp. unfold prelude_of.
    rewrite (bitwise_call (integers u) bvptr I 0 op 1 _ E Ho W1).
    rewrite (axioms_i1 (integers u) bvptr I op _ _ c E HI ltac:(cbn in Hop; intuition congruence) Rp Rq Hc).
    destruct (i1_cases c Rc) as [-> | ->]; reflexivity.
Qed.
Print Assumptions C66_i1_exact.

Lemma popcount_range : forall w x, 0 <= popcount w x <= Z.max 0 w.
Proof.
  intros w x. unfold popcount. split; [lia|].
  enough (forall (l : list nat) p, (List.length (filter p l) <= List.length l)%nat) as H.
  { specialize (H (seq 0 (Z.to_nat w)) (fun k => Z.testbit x (Z.of_nat k))). rewrite seq_length in H. lia. }
  induction l as [|y l IH]; intro p; cbn; [lia|]. specialize (IH p). destruct (p y); cbn; lia.
Qed.
Lemma sizes_linear : forall w, width_supported w -> 1 < w -> w < 2 ^ (w - 1).
Proof.
  intros w Hw H1. unfold width_supported in Hw. cbn in Hw.
  repeat (destruct Hw as [<-|Hw]; [first [exfalso; lia|reflexivity]|]). destruct Hw.
Qed.

(** The bit-manipulation intrinsics: where there is no warning the assigned
    expression has the right value in every interpretation; where there is one, the
    result is that of a procedure nothing is known about. [b]: the second operand
    (is_zero_undef) of ctlz and cttz. *)
Theorem C66_bit_intrinsics : forall u bvptr loc i name w res a b e, verbose u <> Quiet ->
  In i [BitReverse; BSwap; CtLZ; CtTZ; CtPop] -> width_supported w -> 1 < w <= 64 -> (i = BSwap -> w mod 16 = 0) ->
  let f := visit u bvptr loc (Intrinsic i name) w res a b e in
  (printed f = [] -> exists t, emitted f = [SAssign res t] /\
     forall I rb va x, rb a = Some va ->
       (i = CtLZ \/ i = CtTZ -> exists z, rb b = Some (VBv 1 z) /\ ~ (z = 1 /\ x = 0)) ->
       is_iN w x -> represents (integers u) w va x ->
       exists v r, evaluates (prelude_of (integers u) bvptr) I rb t v /\ represents (integers u) w v r /\ bit_result i w x r) /\
  (printed f <> [] -> exists text, emitted f = [SComment text; SCall res name [a; b]]).
Proof.
  intros u bvptr loc i name w res a b e V Hi Hw Hr H16 f.
  assert (printed f = [] <-> modelled u (Intrinsic i name)) as P by (apply printed_iff; [exact Logic.I|exact V]).
  assert (given "--integer-encoding=bit-vector" u <-> integers u = BitVector) as GB.
  { destruct u as [[] ? ? ?]; unfold given; cbn; split; congruence. }
  assert (exists l all m, f = conditionalModel (llvm_to_bpl u) (emit (SAssign res m)) l (if all : bool then AndR else OrR) loc res name [a; b] /\
     sat u l all = modelled u (Intrinsic i name) /\ l <> [] /\
     match i with
     | BitReverse => m = bitreverse w (EVar a) | BSwap => m = bswap w (EVar a)
     | CtLZ => m = ctlz w (EVar a) (EVar b) (EVar res) | CtTZ => m = cttz w (EVar a) (EVar b) (EVar res)
     | _ => m = ctpop (flags (integers u) bvptr) w (EVar a)
     end) as (l & all & m & Ef & Es & El & Em).
  { destruct Hi as [<-|[<-|[<-|[<-|[<-|[]]]]]];
    [exists [BitPrecise], true|exists [BitPrecise], true|exists [BitPrecise], true|exists [BitPrecise], true
    |exists [BitPrecise; RewriteBitwiseOps], false];
    eexists; (split; [reflexivity|]); (split; [reflexivity|]); (split; [discriminate|reflexivity]). }
  split.
  - intro N. apply P in N. exists m. split.
    { rewrite Ef. unfold conditionalModel. rewrite <- Es in N. apply sat_ok in N. rewrite N. reflexivity. }
    intros I rb va x Ha Hzb Hx R. clear Ef Es El f P.
    assert (i <> CtPop -> integers u = BitVector) as EB.
    { intro C. unfold modelled in N. cbn in N. apply GB. destruct i; cbn in Hi, N; try (now inversion N);
      try congruence; exfalso; intuition congruence. }
    assert (w < 2 ^ (w - 1)) as Lw by (apply sizes_linear; [exact Hw|lia]).
    assert (2 ^ (w - 1) < 2 ^ w) as Lp by (apply Z.pow_lt_mono_r; lia).
    destruct Hi as [<-|[<-|[<-|[<-|[<-|[]]]]]]; subst m; try (rewrite (EB ltac:(discriminate)) in *; cbn in R; subst va).
    + destruct (C08_bitreverse (prelude_of BitVector bvptr) I rb a w x ltac:(lia) Hx Ha) as (r & H1 & H2).
      exists (VBv w r), r. repeat split; try assumption; apply H2.
    + destruct (C08_bswap (prelude_of BitVector bvptr) I rb a w x ltac:(lia) (H16 eq_refl) Hx Ha) as (r & H1 & H2).
      exists (VBv w r), r. repeat split; try assumption; apply H2.
    + destruct (Hzb ltac:(auto)) as (z & Hb & Hz). destruct (C08_ctlz (prelude_of BitVector bvptr) I rb a b res w x z ltac:(lia) Hx Ha Hb Hz) as (r & H1 & H2).
      exists (VBv w r), r. split; [exact H1|]. split; [reflexivity|exact H2].
    + destruct (Hzb ltac:(auto)) as (z & Hb & Hz). destruct (C08_cttz (prelude_of BitVector bvptr) I rb a b res w x z ltac:(lia) Hx Ha Hb Hz) as (r & H1 & H2).
      exists (VBv w r), r. split; [exact H1|]. split; [reflexivity|exact H2].
    + pose proof (popcount_range w x) as Rg. assert (integers u = BitVector \/ integers u <> BitVector) as [E|E] by (destruct (integers u); auto; right; discriminate).
      * rewrite E in *. cbn in R. subst va. exists (VBv w (popcount w x)), (popcount w x).
        split; [exact (C08_ctpop_bitvector bvptr I rb a w x Hw ltac:(lia) Ha)|]. split; reflexivity.
      * assert (exists zx, va = VInt zx /\ pat w zx = x) as (zx & -> & Px).
        { destruct (integers u); [congruence| |].
          - destruct R as (zx & -> & ?). eauto.
          - cbn in R. exists (sval w x). split; [exact R|]. apply sval_pat; [lia|exact Hx]. }
        exists (VInt (popcount w zx)), (popcount w x).
        split; [exact (C08_ctpop_integers (integers u) bvptr I rb a w zx E Hw ltac:(lia) Ha)|].
        split; [|reflexivity]. rewrite (C08_popcount_mod w zx ltac:(lia)), Px. destruct (integers u); [congruence| |].
        -- exists (popcount w x). split; [reflexivity|]. apply Z.mod_small. lia.
        -- cbn. destruct (Z.eqb_spec w 1); [lia|]. unfold signed. destruct (Z.ltb_spec (popcount w x) (2 ^ (w - 1))); [reflexivity|lia].
  - intro N. assert (isSatisfied (llvm_to_bpl u) l (if all then AndR else OrR) = false) as S.
    { apply not_true_is_false. intro C. apply N, P. rewrite <- Es. now apply sat_ok. }
    rewrite Ef. unfold conditionalModel. rewrite S. unfold warnOverApproximate_unset.
    rewrite loud; [|exact V|now apply (unsat_unset u l all)]. cbn. eexists. reflexivity.
Qed.
Print Assumptions C66_bit_intrinsics.

(** ** Where there is no warning although the translation is not exact *)

(** overflow of unbounded integers, and shifts of i1 *)
Theorem C66_integer_silence_refuted :
  exists u, verbose u = Information /\
  (exists c G r rb z n, unbounded_wrong c G r rb z n /\
     forall x i bvptr loc w res a b e, In (x, i) c ->
       match i with IBin op _ m _ _ => printed (visit u bvptr loc (IntegerOp op m) w res a b e) = [] | _ => True end) /\
  (forall bvptr loc w res a b, exists e,
     translate_inst (integers u) bvptr false (IBin Shl false 1 (VReg 1 "x") (VReg 1 "y")) = Some e /\
     printed (visit u bvptr loc (IntegerOp Shl 1) w res a b e) = [] /\ ~ exact_for_all (integers u) bvptr Shl 1 "x" "y" e).
Proof.
  exists (Settings UnboundedInteger false false Information). split; [reflexivity|]. split.
  - exists [("t", IBin Add false 32 (VReg 32 "x") (VConst 32 1)); ("u", IIcmp SLT 32 (VReg 32 "t") (VConst 32 0))],
      G1, (store_x (2^31 - 1) 32), (env_x (2^31 - 1)), "u", 1. split; [wrong 1|].
    intros x i bvptr loc w res a b e [[= <- <-]|[[= <- <-]|[]]]; [reflexivity|exact Logic.I].
  - intros bvptr loc w res a b. eexists. split; [reflexivity|]. split; [reflexivity|]. intro H.
    set (I := fun (f : fname) vs => if String.eqb (fn_base f) "$shl" then Some (VInt 0) else machine_interp UnboundedInteger f vs).
    destruct (H I (fun s => if String.eqb s "x" then Some (VInt 1) else Some (VInt 0)) (VInt 1) (VInt 0) 1 0 1) as (v & (k & Ev) & R);
      try reflexivity; try (unfold is_iN; cbn; lia).
    + intros f args v Hin. cbn -[machine_interp Z.land Z.lor Z.lxor] in Hin.
      repeat (destruct Hin as [Hin|Hin]; [injection Hin as <- <- <-; reflexivity|]). destruct Hin.
    + unfold eval in Ev. cbn [eval_with String.eqb Ascii.eqb Bool.eqb] in Ev. destruct k as [|k]; [discriminate|].
      unfold prelude_of in Ev. change (eval_call (preludeInt (flags UnboundedInteger bvptr)) I (S k) (indexedName (INSTRUCTION_TABLE Shl) [NInt 1]) [VInt 1; VInt 0] = Some v) in Ev.
      rewrite (bitwise_call UnboundedInteger bvptr I k Shl 1) in Ev; [|discriminate|cbn; tauto|cbn; tauto].
      cbn in Ev. injection Ev as <-. discriminate R.
Qed.
Print Assumptions C66_integer_silence_refuted.

(** frem is never warned about, with --float (where its value is wrong, C55) or
    without (where it is an uninterpreted function). *)
Theorem C66_frem_refuted : forall u bvptr loc w res a b e, printed (visit u bvptr loc (FloatOp FRem) w res a b e) = [].
Proof. reflexivity. Qed.
Print Assumptions C66_frem_refuted.

(** Memory intrinsics are announced with --warn=info only, and the announcement
    is not part of the Boogie program. *)
Theorem C66_info_only : forall u length, (printed (memoryIntrinsic (llvm_to_bpl u) length) <> [] <-> verbose u = Information) /\
  comments (memoryIntrinsic (llvm_to_bpl u) length) = [].
Proof. intros [? ? ? []] length; (split; [split; [intros H|intros [=]]|reflexivity]); try reflexivity; try discriminate; destruct H; reflexivity. Qed.
Print Assumptions C66_info_only.

(** --warn=info announces quantifiers for memory intrinsics of every length,
    also for those at or below the threshold, which get none. *)
Theorem C66_info_refuted : forall u length, verbose u = Information -> length <= MemIntrinsics.MEMORY_INTRINSIC_THRESHOLD ->
  printed (memoryIntrinsic (llvm_to_bpl u) length) = ["warning: warning: memory intrinsic length exceeds threshold (0adding quantifiers."].
Proof. intros [? ? ? []] length H _; try discriminate H. reflexivity. Qed.
Print Assumptions C66_info_refuted.

(** Inline assembly as an operand: a warning without position or comment. *)
Theorem C66_operand_asm : forall u,
  printed (exprInlineAsm (llvm_to_bpl u)) =
    (match verbose u with Quiet => [] | _ => ["SMACK warning: approximating inline asm passed as argument (can lead to both false alarms and missed detections);"] end) /\
  comments (exprInlineAsm (llvm_to_bpl u)) = [].
Proof. intros [? ? ? []]; split; reflexivity. Qed.
Print Assumptions C66_operand_asm.
