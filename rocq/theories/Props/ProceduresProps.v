(** C59: calls resolve to the procedure of the called function and pass its arguments.
    Specification: Spec/Procedures.v.  Model: Model/Procedures.v. *)
From Coq Require Import String List Bool Arith Lia.
From Verif.Model Require Import Naming.
From Verif.Spec Require Import Procedures.
From Verif.Model Require Import Procedures.
From Verif.Proofs Require Import ProcNames ProcCalls ProcMain.
Import ListNotations.
Open Scope string_scope.
Open Scope list_scope.

Lemma denotes_node m i f : denotes m i f -> exists n, In n m /\ nkind n = KFunc f.
Proof.
  induction 1 as [i f t ops E|i f t j E D IH]; auto. apply node_of_in in E. destruct E as [E _]. eexists. split; [exact E|reflexivity].
Qed.
(** A call of a function, also through casts, with the types of the function: one procedure has the name
    in the call statement, its parameter and result types are those of the call, and it runs the function on the
    arguments.  Variadic functions have one such procedure for each list of argument types they are called with. *)
Theorem C59_calls o m u f parent : graph_ok m -> names_ok m -> annotations_ok m ->
  calls m u f -> nkind u = KCall parent -> well_typed m u f -> ordinary f ->
  (llvm_name f = "__VERIFIER_assert" -> should_check o (llvm_name parent) = true) ->
  exists c p, visit o m u = Some (Calls c) /\ resolves (procedures o m) c p /\ runs u f c p.
Proof.
  intros G N A [Hu [_ [i [L [Ne D]]]]] K W O Ck. subst i.
  assert (Cd := called_denotes m u f D). destruct (denotes_node _ _ _ D) as [n [Hn Kn]].
  exists (call o m f u).
  assert (V : visit o m u = Some (Calls (call o m f u))).
  { unfold visit. rewrite K. unfold visitCallInst. rewrite Cd. destruct O as [Oc [On [Ex [De Om]]]]. rewrite !has_contains.
    repeat match goal with H : Forall _ (_ :: _) |- _ => inversion H; subst; clear H end. cbn beta in *.
    repeat match goal with H : contains _ _ = false |- _ => rewrite H; clear H end.
    repeat match goal with H : llvm_name f <> _ |- _ => apply String.eqb_neq in H; rewrite H; clear H end.
    unfold isContractExpr. rewrite Ex, andb_false_r. cbn [andb].
    destruct (String.eqb (llvm_name f) "__VERIFIER_assert") eqn:E; [|reflexivity]. apply String.eqb_eq in E. rewrite (Ck E). reflexivity. }
  assert (C : exists q, nkind u = KCall q \/ nkind u = KInvoke q) by eauto.
  destruct (vararg f) eqn:Va.
  - destruct (fits_vararg o m G N n f u parent) as [p [P1 P2]]; auto. exists p. auto.
  - destruct O as [_ [_ [Ex [De _]]]]. destruct (fits_plain o m G N n f u) as [p [P1 P2]]; auto. exists p. auto.
Qed.
Print Assumptions C59_calls.

(** Invokes of functions that are not variadic *)
Theorem C59_invokes o m u f parent i t ops : graph_ok m -> names_ok m -> In u m -> nkind u = KInvoke parent ->
  last (nops u) 0 = i -> node_of m i = Some (Node i t ops (KFunc f)) -> well_typed m u f -> vararg f = false ->
  String.prefix "$expr" (boogie_name f) = false -> boogie_name f <> "__SMACK_decls" ->
  exists c p, visit o m u = Some (Calls c) /\ resolves (procedures o m) c p /\ runs u f c p.
Proof.
  intros G N Hu K L E W V Ex De. exists (call o m f u).
  assert (E' := E). apply node_of_in in E'. destruct E' as [Hn _].
  destruct (fits_plain o m G N _ f u Hn eq_refl) as [p [P1 P2]]; eauto. exists p. repeat split; try apply P1; try apply P2.
  unfold visit. rewrite K. unfold visitInvokeInst, getCalledFunction. rewrite L, E. reflexivity.
Qed.
Print Assumptions C59_invokes.

(** An assertion of the program is dropped exactly in the functions that are not checked; a marked Rust panic fails
    exactly in those that are. *)
Theorem C59_checked o m u f parent : nkind u = KCall parent -> denotes m (last (nops u) 0) f -> boogie_name f = llvm_name f ->
  (llvm_name f = "__VERIFIER_assert" -> (visit o m u = Some Nothing <-> should_check o (llvm_name parent) = false)) /\
  (llvm_name f = "__SMACK_RUST_PANIC_MARKER" -> (visit o m u = Some FailingAssert <-> rust_panics o = true /\ should_check o (llvm_name parent) = true)).
Proof.
  intros K D B. unfold visit. rewrite K. unfold visitCallInst. rewrite (called_denotes m u f D), B. split; intros ->; cbn.
  - rewrite andb_false_r. cbn. destruct (should_check o (llvm_name parent)); cbn; split; intros H; try discriminate; auto.
  - destruct (rust_panics o); cbn; [|split; [discriminate|intros [H _]; discriminate]].
    destruct (should_check o (llvm_name parent)); cbn; split; intros H; auto; try discriminate. destruct H; discriminate.
Qed.
Print Assumptions C59_checked.

Lemma neqs_malloc n : n = "__SMACK_value" -> String.eqb n "malloc" = false.
Proof. intros ->. reflexivity. Qed.
Lemma neqs_free n : n = "__SMACK_value" -> String.eqb n "free_" = false.
Proof. intros ->. reflexivity. Qed.
Lemma neqs_expr n : n = "__SMACK_value" -> isContractExpr n = false.
Proof. intros ->. reflexivity. Qed.
Section Annotations.
  Context (o : options) (m : module_) (G : graph_ok m) (N : names_ok m).
  Context (n : node) (f : func) (Hn : In n m) (K : nkind n = KFunc f).
  Context (Ln : llvm_name f = "__SMACK_value") (Bn : boogie_name f = "__SMACK_value") (Vf : vararg f = true) (Pf : params f = []).

  Lemma annotation_name parent : (boogie_name f ++ suffix o [parent] = "__SMACK_value" ++ "." ++ type o parent)%string.
  Proof. rewrite Bn. cbn [suffix fold_right]. rewrite app_nil_s. reflexivity. Qed.
  Lemma procedure1_annotation u : exists ts ps, procedure1 o m f (Some u) =
      Proc (boogie_name f ++ suffix o ts) ps (if isVoid (result f) then [] else [("$r", type o (result f))]) (if defined f then [CodeOf f] else []) /\
      map snd ps = map (type o) ts.
  Proof.
    assert (Z : exists ts ps, Proc (procName o m f u) (map (fun a => (fst a, type o (snd a))) (params f) ++
         map (fun i => (param i, type o (type_of m (nth i (nops u) 0)))) (seq (List.length (params f)) (List.length (nops u) - 1 - List.length (params f))))
          (if isVoid (result f) then [] else [("$r", type o (result f))]) (if defined f then [CodeOf f] else []) =
        Proc (boogie_name f ++ suffix o ts) ps (if isVoid (result f) then [] else [("$r", type o (result f))]) (if defined f then [CodeOf f] else []) /\
        map snd ps = map (type o) ts).
    { exists (map (type_of m) (firstn (List.length (nops u) - 1) (nops u))). eexists. unfold procName. rewrite procName_suffix, Vf. split; [reflexivity|].
      rewrite Pf. cbn [map app List.length]. rewrite map_map. cbn [snd].
      rewrite (nth_skipn (fun i => type o (type_of m i)) (nops u) (List.length (nops u) - 1) 0) by lia. cbn [skipn]. rewrite map_map. reflexivity. }
    unfold procedure1. cbv zeta. rewrite (neqs_malloc _ Bn), (neqs_free _ Bn), (neqs_expr _ Bn).
    destruct (nkind u) as [|parent| | |]; try exact Z. destruct (getCalledFunction m u) as [g|]; [|exact Z].
    destruct (String.eqb (llvm_name g) "__SMACK_return_value"); [|exact Z].
    exists [result parent]. eexists. rewrite procName_suffix, Vf. split; [reflexivity|]. rewrite Pf. reflexivity.
  Qed.
  Lemma procedure1_return u g parent : nkind u = KCall parent -> getCalledFunction m u = Some g -> llvm_name g = "__SMACK_return_value" ->
    pname (procedure1 o m f (Some u)) = (boogie_name f ++ suffix o [result parent])%string.
  Proof.
    intros Ku Gu Lg. unfold procedure1. cbv zeta. rewrite (neqs_malloc _ Bn), (neqs_free _ Bn), (neqs_expr _ Bn). rewrite Ku, Gu, Lg. cbn [String.eqb Ascii.eqb Bool.eqb pname].
    rewrite procName_suffix, Vf. reflexivity.
  Qed.
  Lemma annotation_resolves callers u t c :
    callers = findCallers m n ++ (match function_named m "__SMACK_return_value" with Some r => findCallers m r | None => [] end) ->
    In u callers -> pname (procedure1 o m f (Some u)) = (boogie_name f ++ suffix o [t])%string ->
    cname c = (boogie_name f ++ suffix o [t])%string -> map snd (cargs c) = [type o t] ->
    map snd (crets c) = (if isVoid (result f) then [] else [type o (result f)]) ->
    exists p, resolves (procedures o m) c p.
  Proof.
    intros Ec Hu Pu Cn Ca Cr.
    assert (Ft : find (fun p => String.eqb (pname p) (cname c)) (map (fun u' => procedure1 o m f (Some u')) callers) <> None).
    { intros X. assert (Y := find_none _ _ X _ (in_map (fun u' => procedure1 o m f (Some u')) _ _ Hu)). cbn beta in Y. rewrite Pu, Cn, String.eqb_refl in Y. discriminate. }
    destruct (find (fun p => String.eqb (pname p) (cname c)) (map (fun u' => procedure1 o m f (Some u')) callers)) as [p|] eqn:Fp; [clear Ft|contradiction].
    assert (Fp' := Fp). apply find_some in Fp'. destruct Fp' as [Ip Ep]. apply in_map_iff in Ip. destruct Ip as [u' [Eu' Hu']]. apply String.eqb_eq in Ep.
    exists p. split; [|].
    - rewrite (procedures_of o m G N n f (cname c) (suffix o [t]) Hn K); auto.
      + unfold procedure. rewrite Ln, Vf. replace (String.eqb "__SMACK_value" "__SMACK_value") with true by reflexivity. rewrite <- Ec.
        destruct callers as [|c0 cs] eqn:E0; [contradiction|]. cbn [negb orb]. rewrite <- E0 in *. rewrite filter_distinct. cbn [existsb]. rewrite Fp. reflexivity.
      + rewrite Bn. reflexivity.
      + rewrite Bn. discriminate.
      + apply suffix_starts.
      + congruence.
    - destruct (procedure1_annotation u') as [ts [ps [E M]]]. rewrite E in Eu'. rewrite <- Eu' in Ep |- *. cbn [pname pparams prets] in *.
      rewrite Cn in Ep. apply app_inv_s in Ep. apply suffix_inj in Ep. rewrite M, Ep, Ca, Cr. split; auto. destruct (isVoid (result f)); reflexivity.
  Qed.
End Annotations.

(** Annotations of values and of results, for which C has one variadic function __SMACK_value: there is one procedure
    __SMACK_value.T, which takes the annotated value or the result. *)
Theorem C59_annotations o m n f u parent : graph_ok m -> names_ok m -> casts_ok m -> NoDup (map llvm_name (functions m)) ->
  In n m -> nkind n = KFunc f -> llvm_name f = "__SMACK_value" -> boogie_name f = "__SMACK_value" -> vararg f = true -> params f = [] ->
  In u m -> nkind u = KCall parent -> nty u = result f -> result f <> TVoid ->
  (forall a, nops u = [a; nid n] ->
     exists c p, visit o m u = Some (Calls c) /\ resolves (procedures o m) c p /\
       cname c = ("__SMACK_value." ++ type o (type_of m a))%string /\ map fst (cargs c) = [a] /\ map fst (crets c) = [nid u]) /\
  (forall r g, In r m -> nkind r = KFunc g -> llvm_name g = "__SMACK_return_value" -> nops u = [nid r] ->
     exists c p, visit o m u = Some (Calls c) /\ resolves (procedures o m) c p /\
       cname c = ("__SMACK_value." ++ type o (result parent))%string /\ map snd (cargs c) = [type o (result parent)] /\ map fst (crets c) = [nid u]).
Proof.
  intros G N Cs ND Hn K Ln Bn Vf Pf Hu Ku Tu Rf.
  assert (Iv : isVoid (result f) = false) by (destruct (result f); auto; contradiction).
  assert (Nu : forall x h, In x m -> nkind x = KFunc h -> node_of m (nid x) = Some x) by (intros; apply node_of_nid; auto).
  split.
  - intros a Na.
    assert (Gu : node_of m (last (nops u) 0) = Some n) by (rewrite Na; cbn [last]; eauto).
    assert (Du : denotes m (last (nops u) 0) f).
    { destruct n as [i t ops kd]. cbn in K. subst kd. assert (L : last (nops u) 0 = i) by (rewrite Na; reflexivity). rewrite L in *. eapply d_func. exact Gu. }
    assert (St : forall k, type_of m (strip m k a) = type_of m a).
    { intros k. revert a Na. cut (forall a, type_of m (strip m k a) = type_of m a); [auto|]. induction k as [|k IH]; intros a; cbn [strip]; auto.
      destruct (node_of m a) as [[i t [|j [|? ?]] []]|] eqn:E; auto. rewrite IH.
      destruct (Cs (Node i t [j] KCast)) as [j' [C1 [C2 C3]]]; auto; [apply node_of_in in E; apply E|]. cbn in C1, C2. injection C1 as <-. unfold type_of at 2. rewrite E, C3. cbn. auto. }
    set (c := CallStmt ("__SMACK_value" ++ "." ++ type o (type_of m a)) [(a, type o (type_of m a))] [(nid u, type o (nty u))]).
    assert (V : visit o m u = Some (Calls c)).
    { unfold visit. rewrite Ku. unfold visitCallInst. rewrite (called_denotes m u f Du), Ln. cbn [String.eqb Ascii.eqb Bool.eqb andb]. rewrite andb_false_r. cbn [andb has String.prefix].
      replace (has "__SMACK_value" "__SMACK_value") with true by reflexivity. unfold valueAnnotation, arguments. rewrite Ku, Na. cbn [List.length Nat.sub firstn].
      rewrite St. reflexivity. }
    exists c. destruct (annotation_resolves o m G N n f Hn K Ln Bn Vf Pf _ u (type_of m a) c eq_refl) as [p P].
    + apply in_or_app. left. eapply found; eauto; [|rewrite Na; discriminate].
      intros n' f' Hn' K' ->. symmetry. eapply fun_unique; eauto.
    + assert (R : getCalledFunction m u = Some f) by (unfold getCalledFunction; rewrite Gu; destruct n as [i t ops kd]; cbn in K; rewrite K; reflexivity).
      unfold procedure1. cbv zeta. rewrite (neqs_malloc _ Bn), (neqs_free _ Bn), (neqs_expr _ Bn). rewrite Ku, R, Ln.
      replace (String.eqb "__SMACK_value" "__SMACK_return_value") with false by reflexivity. cbn [pname].
      unfold procName. rewrite procName_suffix, Vf, Na. reflexivity.
    + unfold c. cbn [cname]. rewrite annotation_name by auto. reflexivity.
    + reflexivity.
    + cbn. rewrite Iv, Tu. reflexivity.
    + exists p. repeat split; auto; apply P.
  - intros r g Hr Kr Lg Na.
    assert (Gu : node_of m (last (nops u) 0) = Some r) by (rewrite Na; cbn [last]; eauto).
    assert (Du : denotes m (last (nops u) 0) g).
    { destruct r as [i t ops kd]. cbn in Kr. subst kd. assert (L : last (nops u) 0 = i) by (rewrite Na; reflexivity). rewrite L in *. eapply d_func. exact Gu. }
    assert (Fr : function_named m "__SMACK_return_value" = Some r).
    { unfold function_named. destruct (find _ m) as [r'|] eqn:Fd.
      - apply find_some in Fd. destruct Fd as [Hr' E]. destruct (nkind r') as [g'| | | |] eqn:Kr'; try discriminate. apply String.eqb_eq in E. f_equal.
        assert (NB : NoDup (map llvm_name (functions m))) by exact ND. rewrite <- Lg in E. clear - NB Hr Hr' Kr Kr' E.
        revert NB Hr Hr'. unfold functions. induction m as [|x l IH]; cbn [In flat_map]; intros D H H'; [contradiction|].
        rewrite map_app in D.
        assert (D2 : NoDup (map llvm_name (flat_map (fun n => match nkind n with KFunc f => [f] | _ => [] end) l))).
        { revert D. generalize (map llvm_name (match nkind x with KFunc f => [f] | _ => [] end)). intros l0. induction l0; cbn; auto. intros D; inversion D; auto. }
        assert (X : forall h y, nkind x = KFunc h -> In y l -> forall h', nkind y = KFunc h' -> llvm_name h <> llvm_name h').
        { intros h y Kx Hy h' Ky Eq. rewrite Kx in D. cbn in D. inversion D as [|? ? Nin _]; subst. apply Nin. rewrite Eq. apply in_map. apply in_flat_map. exists y. rewrite Ky. split; auto. left; auto. }
        destruct H as [->|H], H' as [->|H']; auto.
        + exfalso. apply (X _ _ Kr H' _ Kr'). auto.
        + exfalso. apply (X _ _ Kr' H _ Kr). auto.
      - exfalso. assert (Y := find_none _ _ Fd r Hr). cbn beta in Y. rewrite Kr, Lg in Y. discriminate. }
    set (c := returnValueAnnotation o parent u).
    assert (V : visit o m u = Some (Calls c)).
    { unfold visit. rewrite Ku. unfold visitCallInst. rewrite (called_denotes m u g Du), Lg. cbn. rewrite !andb_false_r. reflexivity. }
    exists c. destruct (annotation_resolves o m G N n f Hn K Ln Bn Vf Pf _ u (result parent) c eq_refl) as [p P].
    + apply in_or_app. right. rewrite Fr. eapply found; eauto; [|rewrite Na; discriminate].
      intros n' f' Hn' K' ->. symmetry. eapply fun_unique; eauto.
    + eapply procedure1_return; eauto. unfold getCalledFunction. rewrite Gu. destruct r as [i t ops kd]. cbn in Kr. rewrite Kr. reflexivity.
    + unfold c, returnValueAnnotation. cbn [cname]. rewrite annotation_name by auto. reflexivity.
    + reflexivity.
    + cbn. rewrite Iv, Tu. reflexivity.
    + exists p. repeat split; auto; apply P.
Qed.
Print Assumptions C59_annotations.

(** ** Witnesses *)
Definition opts : options := Options false false true (fun _ => true).
Definition f_main : func := Func "main" "main" [] (TInt 32) false true.
Definition f_printf : func := Func "printf" "printf" [("$p0", TPtr)] (TInt 32) true false.
Definition f_g : func := Func "g" "g" [("$i0", TInt 32); ("$p0", TPtr)] TVoid false true.
Definition f_malloc : func := Func "malloc" "malloc" [("$i0", TInt 64)] TPtr false false.
Definition f_value : func := Func "__SMACK_value" "__SMACK_value" [] TPtr true false.
Definition f_return : func := Func "__SMACK_return_value" "__SMACK_return_value" [] TPtr true false.
Definition example : module_ :=
  [ Node 0 TPtr [] (KFunc f_main); Node 1 TPtr [] (KFunc f_printf); Node 2 TPtr [] (KFunc f_g); Node 3 TPtr [] (KFunc f_malloc);
    Node 4 TPtr [] (KFunc f_value); Node 5 TPtr [] (KFunc f_return);
    Node 10 TPtr [] KOther; Node 11 (TInt 32) [] KOther; Node 12 (TInt 64) [] KOther; Node 13 TDouble [] KOther;
    Node 14 TPtr [1] KCast;
    Node 20 (TInt 32) [10; 11; 1] (KCall f_main);
    Node 21 (TInt 32) [10; 13; 12; 14] (KCall f_main);
    Node 22 TVoid [11; 10; 2] (KCall f_main);
    Node 23 TPtr [12; 3] (KCall f_main);
    Node 24 TPtr [12; 4] (KCall f_main);
    Node 25 TPtr [5] (KCall f_main);
    Node 26 TVoid [11; 10; 10; 10; 2] (KInvoke f_main) ].
Lemma operands_ok m : forallb (fun n => forallb (fun i => match node_of m i with Some _ => true | None => false end) (nops n)) m = true ->
  forall n i, In n m -> In i (nops n) -> exists k, In k m /\ nid k = i.
Proof.
  intros E n i Hn Hi. rewrite forallb_forall in E. specialize (E n Hn). rewrite forallb_forall in E. specialize (E i Hi).
  destruct (node_of m i) as [k|] eqn:K; [|discriminate]. apply node_of_in in K. eauto.
Qed.
Ltac parts := repeat match goal with |- _ /\ _ => split | |- let _ := _ in _ => cbv zeta | |- calls _ _ _ => split | |- well_typed _ _ _ => split
  | |- ordinary _ => split | |- graph_ok _ => split | |- names_ok _ => split end.
Ltac nodup := repeat constructor; cbn; intuition discriminate.
Lemma example_graph : graph_ok example.
Proof.
  split; [nodup|]. apply operands_ok. reflexivity.
Qed.
Lemma example_names : names_ok example.
Proof.
  split; [nodup|]. intros f g F H V. cbn in F, H.
  repeat (destruct F as [<-|F]; [first [discriminate V|repeat (destruct H as [<-|H]; [reflexivity|]); contradiction]|]). contradiction.
Qed.
Lemma example_annotations : annotations_ok example.
Proof.
  intros r f Hr K L. cbn in Hr.
  repeat (destruct Hr as [<-|Hr]; [cbn in K; try discriminate; injection K as <-; try discriminate|]); try contradiction.
  split; auto. intros u p Hu Ku Lu. cbn in Hu.
  repeat (destruct Hu as [<-|Hu]; [cbn in Ku, Lu; try discriminate; auto|]); contradiction.
Qed.
Lemma example_casts : casts_ok example.
Proof.
  intros r Hr K. cbn in Hr. repeat (destruct Hr as [<-|Hr]; [try discriminate|]); try contradiction. eexists. repeat split; reflexivity.
Qed.
(** Direct calls, one through a cast, and an invoke; printf gets two procedures *)
Example C59_nonvacuous :
  graph_ok example /\ names_ok example /\ annotations_ok example /\ casts_ok example /\ NoDup (map llvm_name (functions example)) /\
  (let u := Node 21 (TInt 32) [10; 13; 12; 14] (KCall f_main) in
   calls example u f_printf /\ well_typed example u f_printf /\ ordinary f_printf /\
   visit opts example u = Some (Calls (CallStmt "printf.ref.float.i64" [(10, "ref"); (13, "float"); (12, "i64")] [(21, "i32")]))) /\
  (let u := Node 26 TVoid [11; 10; 10; 10; 2] (KInvoke f_main) in
   well_typed example u f_g /\ visit opts example u = Some (Calls (CallStmt "g" [(11, "i32"); (10, "ref")] []))) /\
  procedures opts example =
    [ Proc "main" [] [("$r", "i32")] [CodeOf f_main];
      Proc "printf.ref.i32" [("$p0", "ref"); ("p.1", "i32")] [("$r", "i32")] [];
      Proc "printf.ref.float.i64" [("$p0", "ref"); ("p.1", "float"); ("p.2", "i64")] [("$r", "i32")] [];
      Proc "g" [("$i0", "i32"); ("$p0", "ref")] [] [CodeOf f_g];
      Proc "malloc" [("$i0", "i64")] [("$r", "ref")] [MallocCode "$i0"];
      Proc "__SMACK_value.i64" [("p.0", "i64")] [("$r", "ref")] [];
      Proc "__SMACK_value.i32" [("p.0", "i32")] [("$r", "ref")] [];
      Proc "__SMACK_return_value.i32" [("p.0", "i32")] [("$r", "ref")] [] ].
Proof.
  split; [apply example_graph|]. split; [apply example_names|]. split; [apply example_annotations|]. split; [apply example_casts|].
  parts; try (vm_compute; reflexivity).
  - nodup.
  - repeat (first [left; reflexivity|right]).
  - eexists; first [left; reflexivity|right; reflexivity].
  - exists 14. split; [reflexivity|]. split; [discriminate|]. eapply d_cast; [reflexivity|]. eapply d_func. reflexivity.
  - discriminate.
  - repeat constructor.
  - repeat constructor; discriminate.
  - discriminate.
  - intros _. split; discriminate.
Qed.

(** An invoke of a variadic function calls a procedure nothing declares: its two blocks count as arguments in the name,
    and invokes are not among the callers for which procedures are declared. *)
Theorem C59_vararg_invoke_refuted : exists o m u f c,
  graph_ok m /\ names_ok m /\ annotations_ok m /\ calls m u f /\ well_typed m u f /\ ordinary f /\
  visit o m u = Some (Calls c) /\ cname c = "printf.ref.i32.ref.ref" /\ forall p, In p (procedures o m) -> pname p <> cname c.
Proof.
  exists opts,
    [Node 0 TPtr [] (KFunc f_main); Node 1 TPtr [] (KFunc f_printf); Node 10 TPtr [] KOther; Node 11 (TInt 32) [] KOther; Node 12 TElse [] KOther;
     Node 20 (TInt 32) [10; 11; 12; 12; 1] (KInvoke f_main)],
    (Node 20 (TInt 32) [10; 11; 12; 12; 1] (KInvoke f_main)), f_printf, (CallStmt "printf.ref.i32.ref.ref" [(10, "ref"); (11, "i32")] [(20, "i32")]).
  parts; try (vm_compute; reflexivity).
  - nodup.
  - apply operands_ok. reflexivity.
  - nodup.
  - intros f g F H V. cbn in F, H.
    repeat (destruct F as [<-|F]; [first [discriminate V|repeat (destruct H as [<-|H]; [reflexivity|]); contradiction]|]). contradiction.
  - intros r f Hr K L. cbn in Hr.
    repeat (destruct Hr as [<-|Hr]; [cbn in K; try discriminate; injection K as <-; try discriminate|]); contradiction.
  - repeat (first [left; reflexivity|right]).
  - eexists; first [left; reflexivity|right; reflexivity].
  - exists 1. split; [reflexivity|]. split; [discriminate|]. eapply d_func. reflexivity.
  - discriminate.
  - repeat constructor.
  - repeat constructor; discriminate.
  - discriminate.
  - intros _. split; discriminate.
  - vm_compute. intros p [<-|[<-|[]]]; discriminate.
Qed.
Print Assumptions C59_vararg_invoke_refuted.

(** A call through a cast with other types, as of a function declared without a prototype, passes arguments the
    procedure does not take: the Boogie program is not well typed. *)
Theorem C59_cast_refuted : exists o m u f c,
  graph_ok m /\ names_ok m /\ annotations_ok m /\ calls m u f /\ ordinary f /\ visit o m u = Some (Calls c) /\
  forall p, In p (procedures o m) -> pname p = cname c -> List.length (pparams p) <> List.length (cargs c).
Proof.
  exists opts,
    [Node 0 TPtr [] (KFunc f_main); Node 2 TPtr [] (KFunc f_g); Node 11 (TInt 32) [] KOther; Node 12 TPtr [2] KCast;
     Node 20 TVoid [11; 12] (KCall f_main)],
    (Node 20 TVoid [11; 12] (KCall f_main)), f_g, (CallStmt "g" [(11, "i32")] []).
  parts; try (vm_compute; reflexivity).
  - nodup.
  - apply operands_ok. reflexivity.
  - nodup.
  - intros f g F H V. cbn in F, H. repeat (destruct F as [<-|F]; [discriminate|]). contradiction.
  - intros r f Hr K L. cbn in Hr.
    repeat (destruct Hr as [<-|Hr]; [cbn in K; try discriminate; injection K as <-; try discriminate|]); contradiction.
  - repeat (first [left; reflexivity|right]).
  - eexists; first [left; reflexivity|right; reflexivity].
  - exists 12. split; [reflexivity|]. split; [discriminate|]. eapply d_cast; [reflexivity|]. eapply d_func. reflexivity.
  - repeat constructor.
  - repeat constructor; discriminate.
  - discriminate.
  - discriminate.
  - vm_compute. intros p [<-|[<-|[]]]; discriminate.
Qed.
Print Assumptions C59_cast_refuted.

(** Functions with different names can get the same procedure name: a variadic f called with a 32-bit integer, and a
    function f.i32.  Two procedures are declared. *)
Theorem C59_collision_refuted : exists o m u f c,
  graph_ok m /\ NoDup (map boogie_name (functions m)) /\ calls m u f /\ well_typed m u f /\ ordinary f /\
  visit o m u = Some (Calls c) /\ List.length (filter (fun p => String.eqb (pname p) (cname c)) (procedures o m)) = 2.
Proof.
  set (fv := Func "f" "f" [] TVoid true false). set (fi := Func "f.i32" "f.i32" [("$i0", TInt 32)] TVoid false true).
  exists opts,
    [Node 0 TPtr [] (KFunc f_main); Node 1 TPtr [] (KFunc fv); Node 2 TPtr [] (KFunc fi); Node 11 (TInt 32) [] KOther;
     Node 20 TVoid [11; 1] (KCall f_main)],
    (Node 20 TVoid [11; 1] (KCall f_main)), fv, (CallStmt "f.i32" [(11, "i32")] []).
  parts; try (vm_compute; reflexivity).
  - nodup.
  - apply operands_ok. reflexivity.
  - nodup.
  - repeat (first [left; reflexivity|right]).
  - eexists; first [left; reflexivity|right; reflexivity].
  - exists 1. split; [reflexivity|]. split; [discriminate|]. eapply d_func. reflexivity.
  - discriminate.
  - repeat constructor.
  - repeat constructor; discriminate.
  - discriminate.
  - intros _. split; discriminate.
Qed.
Print Assumptions C59_collision_refuted.

(** A module that annotates a result, and has no __SMACK_value, calls a procedure nothing declares. *)
Theorem C59_return_value_refuted : exists o m u r f c,
  graph_ok m /\ names_ok m /\ annotations_ok m /\ In r m /\ nkind r = KFunc f /\ llvm_name f = "__SMACK_return_value" /\ nops u = [nid r] /\ In u m /\
  visit o m u = Some (Calls c) /\ forall p, In p (procedures o m) -> pname p <> cname c.
Proof.
  exists opts,
    [Node 0 TPtr [] (KFunc f_main); Node 5 TPtr [] (KFunc f_return); Node 20 TPtr [5] (KCall f_main)],
    (Node 20 TPtr [5] (KCall f_main)), (Node 5 TPtr [] (KFunc f_return)), f_return, (CallStmt "__SMACK_value.i32" [(0, "i32")] [(20, "ref")]).
  parts; try (vm_compute; reflexivity).
  - nodup.
  - apply operands_ok. reflexivity.
  - nodup.
  - intros f g F H V. cbn in F, H.
    repeat (destruct F as [<-|F]; [first [discriminate V|repeat (destruct H as [<-|H]; [reflexivity|]); contradiction]|]). contradiction.
  - intros r f Hr K L. cbn in Hr.
    repeat (destruct Hr as [<-|Hr]; [cbn in K; try discriminate; injection K as <-; try discriminate|]); try contradiction.
    split; auto. intros u p Hu Ku Lu. cbn in Hu. repeat (destruct Hu as [<-|Hu]; [cbn in Ku, Lu; try discriminate; auto|]); contradiction.
  - repeat (first [left; reflexivity|right]).
  - repeat (first [left; reflexivity|right]).
  - vm_compute. intros p [<-|[<-|[]]]; discriminate.
Qed.
Print Assumptions C59_return_value_refuted.
