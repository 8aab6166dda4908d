(** Calls resolve: proofs about Model/Procedures.v *)
From Coq Require Import String Ascii List Bool Arith Lia.
From Verif.Model Require Import Naming.
From Verif.Spec Require Import Procedures.
From Verif.Model Require Import Procedures.
From Verif.Proofs Require Import ProcNames ProcCalls.
Import ListNotations.
Open Scope string_scope.
Open Scope list_scope.

Lemma has_contains p n : has p n = contains p n.
Proof.
  unfold contains. induction n as [|a n IH].
  - destruct p; reflexivity.
  - cbn [has]. rewrite IH. clear IH. cbn [index]. destruct (prefix p (String a n)); cbn [orb]; auto.
    destruct (index 0 p n); auto.
Qed.

Section Main.
  Context (o : options) (m : module_) (G : graph_ok m) (N : names_ok m).
  Notation type := (type o).

  Lemma in_functions n f : In n m -> nkind n = KFunc f -> In f (functions m).
  Proof. intros H K. unfold functions. apply in_flat_map. exists n. rewrite K. split; auto. left; auto. Qed.
  Lemma fun_unique n n' f f' : In n m -> In n' m -> nkind n = KFunc f -> nkind n' = KFunc f' -> boogie_name f = boogie_name f' -> n = n'.
  Proof.
    destruct N as [D _]. revert D. unfold functions. clear. induction m as [|x l IH]; cbn [In flat_map]; intros D H H' K K' E; [contradiction|].
    rewrite map_app in D.
    assert (D2 : NoDup (map boogie_name (flat_map (fun n => match nkind n with KFunc f => [f] | _ => [] end) l))).
    { revert D. generalize (map boogie_name (match nkind x with KFunc f => [f] | _ => [] end)). intros l0. induction l0; cbn; auto. intros D; inversion D; auto. }
    assert (X : forall g y, nkind x = KFunc g -> In y l -> forall h, nkind y = KFunc h -> boogie_name g <> boogie_name h).
    { intros g y Kx Hy h Ky Eq. rewrite Kx in D. cbn in D. inversion D as [|? ? Nin _]; subst. apply Nin. rewrite Eq. apply in_map. apply in_flat_map. exists y. rewrite Ky. split; auto. left; auto. }
    destruct H as [->|H], H' as [->|H']; auto.
    - exfalso. eapply X; eauto.
    - exfalso. symmetry in E. eapply X; eauto.
  Qed.

  (** ** Stripping casts *)
  Inductive dep : nat -> nat -> func -> Prop :=
  | dep0 i t ops f : node_of m i = Some (Node i t ops (KFunc f)) -> dep 0 i f
  | depS k i t j f : node_of m i = Some (Node i t [j] KCast) -> dep k j f -> dep (S k) i f.
  Lemma denotes_dep i f : denotes m i f -> exists k, dep k i f.
  Proof. induction 1 as [i f t ops E|i f t j E D [k IH]]; [exists 0; econstructor; eauto|exists (S k); econstructor; eauto]. Qed.
  Lemma dep_unique k i f : dep k i f -> forall k' f', dep k' i f' -> k = k'.
  Proof.
    induction 1 as [i t ops f E|k i t j f E D IH]; intros k' f' D'; inversion D'; subst; auto; try congruence.
    f_equal. assert (j0 = j) by congruence. subst. eauto.
  Qed.
  Lemma dep_path k i f : dep k i f -> exists l, List.length l = S k /\ NoDup l /\ incl l (map nid m) /\ forall x, In x l -> exists k', (k' <= k)%nat /\ dep k' x f.
  Proof.
    induction 1 as [i t ops f E|k i t j f E D IH].
    - exists [i]. repeat split; auto.
      + constructor; [intros []|constructor].
      + intros x [<-|[]]. apply node_of_in in E. destruct E as [E Ei]. rewrite <- Ei. apply in_map; auto.
      + intros x [<-|[]]. exists 0. split; auto. econstructor; eauto.
    - destruct IH as [l [L [ND [I P]]]]. exists (i :: l). repeat split; cbn; auto.
      + constructor; auto. intros Hin. apply P in Hin. destruct Hin as [k' [Le D']]. assert (S k = k') by (eapply dep_unique; eauto; econstructor; eauto). lia.
      + intros x [<-|H]; auto. apply node_of_in in E. destruct E as [E Ei]. rewrite <- Ei at 1. apply in_map; auto.
      + intros x [<-|H]; [exists (S k); split; auto; econstructor; eauto|]. apply P in H. destruct H as [k' [Le D']]. exists k'. split; auto; lia.
  Qed.
  Lemma strip_dep k i f : dep k i f -> forall fuel, (k <= fuel)%nat -> exists t ops, node_of m (strip m fuel i) = Some (Node (strip m fuel i) t ops (KFunc f)).
  Proof.
    induction 1 as [i t ops f E|k i t j f E D IH]; intros fuel L.
    - destruct fuel; cbn [strip]; rewrite ?E; destruct ops as [|a [|b ops]]; eauto.
    - destruct fuel; [lia|]. cbn [strip]. rewrite E. apply IH. lia.
  Qed.
  Lemma called_denotes u f : denotes m (last (nops u) 0) f -> called m u = Some f.
  Proof.
    intros D. destruct (denotes_dep _ _ D) as [k D']. destruct (dep_path _ _ _ D') as [l [L [ND [I _]]]].
    assert (X := NoDup_incl_length ND I). rewrite map_length in X.
    unfold called. destruct (strip_dep _ _ _ D' (List.length m)) as [t [ops ->]]; [lia|reflexivity].
  Qed.

  (** ** Names of procedures *)
  Lemma procedure1_name f ci : exists r, pname (procedure1 o m f ci) = (boogie_name f ++ r)%string /\ starts "." r /\ (vararg f = false -> r = "").
  Proof.
    assert (Z : exists r, boogie_name f = (boogie_name f ++ r)%string /\ starts "." r /\ (vararg f = false -> r = "")).
    { exists "". rewrite app_nil_s. split; auto. split; auto. left; auto. }
    assert (P : forall ts, exists r, procName_types o f ts = (boogie_name f ++ r)%string /\ starts "." r /\ (vararg f = false -> r = "")).
    { intros ts. rewrite procName_suffix. exists (if vararg f then suffix o ts else ""). split; auto. destruct (vararg f); split; auto; try discriminate; [apply suffix_starts|left; auto]. }
    unfold procedure1. destruct (String.eqb (boogie_name f) "malloc"); [exact Z|]. destruct (String.eqb (boogie_name f) "free_"); [exact Z|].
    destruct (isContractExpr (boogie_name f)); [exact Z|]. destruct ci as [u|]; [|exact Z].
    destruct (nkind u); try apply P. destruct (getCalledFunction m u); [|apply P]. destruct (String.eqb (llvm_name f0) "__SMACK_return_value"); apply P.
  Qed.
  Lemma distinct_in names ps p : In p (distinct names ps) -> In p ps.
  Proof.
    revert names. induction ps as [|q ps IH]; intros names H; cbn in *; auto.
    destruct (existsb (String.eqb (pname q)) names); [right; eauto|]. destruct H as [<-|H]; [left; auto|right; eauto].
  Qed.
  Lemma procedure_name n f p : In p (procedure o m n f) -> exists r, pname p = (boogie_name f ++ r)%string /\ starts "." r /\ (vararg f = false -> r = "").
  Proof.
    unfold procedure. destruct (_ || _).
    - intros [<-|[]]. apply procedure1_name.
    - intros H. apply distinct_in in H. apply in_map_iff in H. destruct H as [u [<- _]]. apply procedure1_name.
  Qed.
  Lemma name_owner f g r1 r2 : In f (functions m) -> In g (functions m) ->
    (boogie_name f ++ r1 = boogie_name g ++ r2)%string -> starts "." r1 -> starts "." r2 -> (vararg f = false -> r1 = "") -> (vararg g = false -> r2 = "") ->
    boogie_name f = boogie_name g.
  Proof.
    destruct N as [_ P]. intros F Gg E S1 S2 V1 V2. destruct (common_prefix _ _ _ _ E) as [[k [A B]]|[k [A B]]].
    - destruct k as [|c k]; [rewrite app_nil_s in A; auto|]. destruct S1 as [->|[r' ->]]; [discriminate|]. injection B as <- _.
      destruct (vararg f) eqn:V; [|discriminate (V1 eq_refl)]. specialize (P f g F Gg V).
      assert (X : String.prefix (boogie_name f ++ ".") (boogie_name g) = true) by (apply prefix_app; exists k; rewrite A, app_assoc_s; reflexivity). congruence.
    - destruct k as [|c k]; [rewrite app_nil_s in A; auto|]. destruct S2 as [->|[r' ->]]; [discriminate|]. injection B as <- _.
      destruct (vararg g) eqn:V; [|discriminate (V2 eq_refl)]. specialize (P g f Gg F V).
      assert (X : String.prefix (boogie_name g ++ ".") (boogie_name f) = true) by (apply prefix_app; exists k; rewrite A, app_assoc_s; reflexivity). congruence.
  Qed.
  Lemma contract_name b r : starts "." r -> String.prefix "$expr" b = false -> isContractExpr (b ++ r) = false.
  Proof.
    intros S B. unfold isContractExpr. destruct (String.prefix "$expr" (b ++ r)) eqn:E; auto. apply prefix_app in E. destruct E as [s E].
    destruct (common_prefix _ _ _ _ E) as [[k [A C]]|[k [A C]]].
    - destruct k as [|c k]; [rewrite app_nil_s in A; rewrite <- A in B; discriminate|]. destruct S as [->|[r' ->]]; [discriminate|]. injection C as <- _.
      exfalso. assert (X := f_equal (without ".") A). rewrite without_app in X. cbn in X. rewrite andb_false_r in X. discriminate.
    - exfalso. assert (String.prefix "$expr" b = true) by (apply prefix_app; eauto). congruence.
  Qed.

  (** ** The procedure of a name *)
  Lemma filter_distinct t ps : forall names,
    filter (fun q => String.eqb (pname q) t) (distinct names ps) =
    if existsb (String.eqb t) names then [] else match find (fun q => String.eqb (pname q) t) ps with Some p => [p] | None => [] end.
  Proof.
    induction ps as [|q ps IH]; intros names; cbn [distinct].
    - cbn. destruct (existsb (String.eqb t) names); auto.
    - cbn [find]. destruct (String.eqb (pname q) t) eqn:E.
      + apply String.eqb_eq in E. subst t. destruct (existsb (String.eqb (pname q)) names) eqn:X.
        * rewrite IH, X. reflexivity.
        * cbn [filter]. rewrite String.eqb_refl, IH. cbn [existsb]. rewrite String.eqb_refl. reflexivity.
      + destruct (existsb (String.eqb (pname q)) names) eqn:X; [apply IH|].
        cbn [filter]. rewrite E, IH. cbn [existsb]. rewrite String.eqb_sym, E. reflexivity.
  Qed.
  Lemma filter_flat_map {A B} (P : B -> bool) (h : A -> list B) l : filter P (flat_map h l) = flat_map (fun x => filter P (h x)) l.
  Proof. induction l; cbn; auto. rewrite filter_app, IHl. reflexivity. Qed.
  Lemma flat_map_one {B} (h : node -> list B) n : In n m -> (forall x, In x m -> x <> n -> h x = []) -> flat_map h m = h n.
  Proof.
    destruct G as [D _]. revert D. clear. induction m as [|x l IH]; cbn; intros D H Z; [contradiction|]. inversion D; subst.
    destruct H as [->|H].
    - replace (flat_map h l) with (@nil B); [apply app_nil_r|]. symmetry. assert (Y : forall y, In y l -> h y = []).
      { intros y Hy. apply Z; auto. intros ->. apply H2. apply in_map; auto. }
      revert Y. clear. induction l; cbn; intros Y; auto. rewrite Y by auto. cbn. apply IHl. auto.
    - rewrite Z; [cbn; apply IH; auto|auto|]. intros ->. apply H2. apply in_map; auto.
  Qed.
  Lemma filter_filter {A} (P Q : A -> bool) l : (forall x, In x l -> Q x = true) -> filter P (filter Q l) = filter P l.
  Proof.
    induction l as [|x l IH]; intros H; cbn; auto. rewrite H by (left; auto). cbn. rewrite IH; auto. intros; apply H; right; auto.
  Qed.
  Lemma procedures_of n f t r : In n m -> nkind n = KFunc f -> String.prefix "$expr" (boogie_name f) = false -> boogie_name f <> "__SMACK_decls" ->
    t = (boogie_name f ++ r)%string -> starts "." r -> (vararg f = false -> r = "") ->
    filter (fun q => String.eqb (pname q) t) (procedures o m) = filter (fun q => String.eqb (pname q) t) (procedure o m n f).
  Proof.
    intros Hn K C D T S V. unfold procedures. rewrite filter_flat_map, (flat_map_one _ n Hn).
    - rewrite K. destruct (String.eqb (boogie_name f) "__SMACK_decls") eqn:E; [apply String.eqb_eq in E; contradiction|].
      apply filter_filter. intros p Hp. apply procedure_name in Hp. destruct Hp as [r' [-> [S' _]]]. rewrite contract_name; auto.
    - intros x Hx Ne. destruct (nkind x) as [g| | | |] eqn:Kx; auto. destruct (String.eqb (boogie_name g) "__SMACK_decls"); auto.
      assert (Z : forall p, In p (procedure o m x g) -> String.eqb (pname p) t = false).
      { intros p Hp. apply String.eqb_neq. intros E. apply procedure_name in Hp. destruct Hp as [r' [Ep [S' V']]]. rewrite Ep, T in E.
        assert (boogie_name g = boogie_name f) by exact (name_owner g f r' r (in_functions x g Hx Kx) (in_functions n f Hn K) E S' S V' V).
        apply Ne. eapply fun_unique; eauto. }
      revert Z. generalize (procedure o m x g). intros l. induction l as [|p l IH]; intros Z; cbn; auto.
      assert (IH' := IH (fun q Hq => Z q (or_intror Hq))). destruct (isContractExpr (pname p)); cbn; auto. rewrite Z by (left; auto). auto.
  Qed.

  (** ** Calls *)
  Lemma map_snd_combine {A B} : forall (a : list A) (b : list B), List.length a = List.length b -> map snd (combine a b) = b.
  Proof. induction a; intros [|y b] H; cbn in *; try discriminate; auto. f_equal. apply IHa. lia. Qed.
  Lemma nth_skipn {B} (F : nat -> B) (l : list nat) n k : (n <= List.length l)%nat ->
    map (fun i => F (nth i l 0)) (seq k (n - k)) = skipn k (map F (firstn n l)).
  Proof.
    revert n k. induction l as [|a l IH]; intros n k H.
    - cbn in H. assert (n = 0) as -> by lia. destruct k; reflexivity.
    - destruct n as [|n]; [destruct k; reflexivity|]. cbn in H. destruct k as [|k].
      + cbn [firstn map skipn]. replace (S n - 0) with (S n) by lia. cbn [seq map nth]. f_equal. rewrite <- seq_shift, map_map.
        replace n with (n - 0) at 1 by lia. rewrite IH by lia. reflexivity.
      + replace (S n - S k) with (n - k) by lia. cbn [firstn map skipn]. rewrite <- seq_shift, map_map. apply IH. lia.
  Qed.
  Lemma params_types f : map snd (map (fun a : string * ty => (fst a, type (snd a))) (params f)) = map type (map snd (params f)).
  Proof. rewrite !map_map. reflexivity. Qed.
  Lemma params_names f : map fst (map (fun a : string * ty => (fst a, type (snd a))) (params f)) = map fst (params f).
  Proof. rewrite map_map. reflexivity. Qed.
  Lemma call_args f u : (exists p, nkind u = KCall p \/ nkind u = KInvoke p) -> cargs (call o m f u) = map (fun i => (i, type (type_of m i))) (arguments u).
  Proof. intros [p [K|K]]; unfold call, arguments; rewrite K; reflexivity. Qed.
  Lemma call_fst f u : (exists p, nkind u = KCall p \/ nkind u = KInvoke p) -> map fst (cargs (call o m f u)) = arguments u.
  Proof. intros H. rewrite call_args by auto. rewrite map_map. apply map_id. Qed.
  Lemma call_snd f u : (exists p, nkind u = KCall p \/ nkind u = KInvoke p) -> map snd (cargs (call o m f u)) = map type (map (type_of m) (arguments u)).
  Proof. intros H. rewrite call_args by auto. rewrite !map_map. reflexivity. Qed.
  Lemma first_param f : match map (fun a : string * ty => (fst a, type (snd a))) (params f) with (x, _) :: _ => x | [] => "" end = match params f with (x, _) :: _ => x | [] => "" end.
  Proof. destruct (params f) as [|[x t] l]; reflexivity. Qed.
  Lemma procedure1_none f : procedure1 o m f None =
    Proc (boogie_name f) (map (fun a => (fst a, type (snd a))) (params f)) (if isVoid (result f) then [] else [("$r", type (result f))])
      (if isContractExpr (boogie_name f) then (if defined f then [CodeOf f] else []) else code_of f).
  Proof.
    unfold procedure1, code_of. rewrite first_param.
    destruct (String.eqb (boogie_name f) "malloc") eqn:E1.
    - apply String.eqb_eq in E1. rewrite E1. reflexivity.
    - destruct (String.eqb (boogie_name f) "free_") eqn:E2.
      + apply String.eqb_eq in E2. rewrite E2. reflexivity.
      + destruct (isContractExpr (boogie_name f)); reflexivity.
  Qed.
  (** From the shape of the procedure to the claim *)
  Lemma fits_runs f u p names more : well_typed m u f -> (exists q, nkind u = KCall q \/ nkind u = KInvoke q) ->
    filter (fun q => String.eqb (pname q) (cname (call o m f u))) (procedures o m) = [p] ->
    p = Proc names (map (fun a => (fst a, type (snd a))) (params f) ++ more) (if isVoid (result f) then [] else [("$r", type (result f))]) (code_of f) ->
    map snd more = skipn (List.length (params f)) (map type (map (type_of m) (arguments u))) ->
    resolves (procedures o m) (call o m f u) p /\ runs u f (call o m f u) p.
  Proof.
    intros [T [V R]] C F P M.
    assert (PT : map snd (pparams p) = map type (map (type_of m) (arguments u))).
    { rewrite P. cbn [pparams]. rewrite map_app, params_types, <- T, M. rewrite <- firstn_map. apply firstn_skipn. }
    assert (PL : List.length (pparams p) = List.length (arguments u)).
    { rewrite <- (map_length snd), PT, !map_length. reflexivity. }
    split; [split; [exact F|split]|split; [|split; [|split; [|split]]]].
    - rewrite call_snd by auto. exact PT.
    - rewrite P. cbn [prets]. unfold call. cbn [crets]. rewrite R. destruct (isVoid (result f)); reflexivity.
    - rewrite P. reflexivity.
    - unfold bindings. rewrite call_fst by auto. rewrite combine_length, map_length, PL. lia.
    - unfold bindings. rewrite call_fst by auto. rewrite combine_firstn. rewrite P. cbn [pparams]. rewrite map_app, params_names, firstn_app, map_length, Nat.sub_diag. cbn [firstn]. rewrite app_nil_r.
      rewrite firstn_all2 by (rewrite map_length; lia). rewrite (combine_firstn_l (map fst (params f)) (arguments u)), map_length. reflexivity.
    - unfold bindings. rewrite call_fst by auto. apply map_snd_combine. rewrite map_length. exact PL.
    - unfold call. cbn [crets]. rewrite R. destruct (result f); reflexivity.
  Qed.
  Lemma fits_plain n f u : In n m -> nkind n = KFunc f -> well_typed m u f -> (exists q, nkind u = KCall q \/ nkind u = KInvoke q) ->
    String.prefix "$expr" (boogie_name f) = false -> boogie_name f <> "__SMACK_decls" -> vararg f = false ->
    exists p, resolves (procedures o m) (call o m f u) p /\ runs u f (call o m f u) p.
  Proof.
    intros Hn K W C Ex De V.
    assert (Nm : cname (call o m f u) = boogie_name f).
    { unfold call. cbn [cname]. unfold procName. rewrite procName_suffix, V. apply app_nil_s. }
    exists (procedure1 o m f None). eapply (fits_runs f u _ (boogie_name f) []); auto.
    - rewrite (procedures_of n f _ "" Hn K Ex De); auto; [|rewrite Nm, app_nil_s; reflexivity|left; auto].
      unfold procedure. rewrite V. cbn [negb]. rewrite orb_true_r. cbn [filter]. rewrite Nm, procedure1_none. cbn [pname]. rewrite String.eqb_refl. reflexivity.
    - rewrite procedure1_none, app_nil_r. unfold isContractExpr. rewrite Ex. reflexivity.
    - destruct W as [_ [W _]]. rewrite skipn_all2; auto. rewrite !map_length, (W V). lia.
  Qed.
  Lemma fits_vararg n f u q : annotations_ok m -> In n m -> nkind n = KFunc f -> In u m -> nops u <> [] -> denotes m (last (nops u) 0) f ->
    well_typed m u f -> nkind u = KCall q -> ordinary f -> vararg f = true ->
    exists p, resolves (procedures o m) (call o m f u) p /\ runs u f (call o m f u) p.
  Proof.
    intros A Hn K Hu Ne D W C O V. destruct O as [Oc [On [Ex [De Om]]]]. destruct (Om V) as [Nm Nf].
    assert (Vn : String.eqb (llvm_name f) "__SMACK_value" = false).
    { apply String.eqb_neq. intros E. inversion Oc as [|? ? H _]; subst. rewrite E in H. discriminate. }
    assert (Rn : llvm_name f <> "__SMACK_return_value").
    { intros E. inversion Oc as [|? ? _ H]; subst. inversion H as [|? ? H' _]; subst. rewrite E in H'. discriminate. }
    assert (Fu : In u (findCallers m n)).
    { eapply found; eauto. intros n' f' Hn' K' ->. symmetry. eapply fun_unique; eauto. }
    assert (Pu : forall u', In u' (findCallers m n) ->
      procedure1 o m f (Some u') = Proc (procName o m f u')
        (map (fun a => (fst a, type (snd a))) (params f) ++
         map (fun i => (param i, type (type_of m (nth i (nops u') 0)))) (seq (List.length (params f)) (List.length (nops u') - 1 - List.length (params f))))
        (if isVoid (result f) then [] else [("$r", type (result f))]) (code_of f)).
    { intros u' Hu'. unfold procedure1, code_of. apply String.eqb_neq in Nm, Nf. rewrite Nm, Nf. unfold isContractExpr. rewrite Ex. cbn [app].
      destruct (found_calls m G n u' Hn) as [U1 [[q' U2] [x [U3 [w [W1 [W2 W3]]]]]]]; auto; [intros [p E]; congruence|].
      rewrite U2. destruct (getCalledFunction m u') as [g|] eqn:E; [|reflexivity].
      destruct (String.eqb (llvm_name g) "__SMACK_return_value") eqn:Eg; [|reflexivity]. exfalso. apply String.eqb_eq in Eg.
      unfold getCalledFunction in E. destruct (node_of m (last (nops u') 0)) as [[i t ops kd]|] eqn:Er; [|discriminate]. destruct kd; try discriminate. injection E as ->.
      apply (node_of_in m) in Er. destruct Er as [Er1 Er2]. destruct (A _ g Er1 eq_refl Eg) as [A1 A2]. specialize (A2 u' q' U1 U2 (eq_sym Er2)).
      rewrite A2 in U3. destruct U3 as [<-|[]].
      assert (w = Node i t ops (KFunc g)) by (apply (nid_inj m G); auto). subst w. destruct W3 as [W3|W3]; [|apply W3; exact A1].
      rewrite <- W3 in K. cbn in K. injection K as ->. contradiction. }
    set (t := cname (call o m f u)).
    assert (Ft : find (fun p => String.eqb (pname p) t) (map (fun u' => procedure1 o m f (Some u')) (findCallers m n)) <> None).
    { intros X. assert (Y := find_none _ _ X (procedure1 o m f (Some u)) (in_map _ _ _ Fu)). cbn beta in Y. rewrite (Pu u Fu) in Y. cbn [pname] in Y. unfold t, call in Y. cbn [cname] in Y. rewrite String.eqb_refl in Y. discriminate. }
    destruct (find (fun p => String.eqb (pname p) t) (map (fun u' => procedure1 o m f (Some u')) (findCallers m n))) as [p|] eqn:Fp; [clear Ft|contradiction].
    assert (Fp' := Fp). apply find_some in Fp'. destruct Fp' as [Ip Ep]. apply in_map_iff in Ip. destruct Ip as [u' [Eu' Hu']]. apply String.eqb_eq in Ep.
    exists p. eapply (fits_runs f u p); eauto.
    - fold t. rewrite (procedures_of n f t (suffix o (map (type_of m) (firstn (List.length (nops u) - 1) (nops u)))) Hn K Ex De); auto.
      + unfold procedure. rewrite Vn, V, app_nil_r. destruct (findCallers m n) as [|c0 cs] eqn:Ec; [contradiction|]. cbn [negb orb]. rewrite <- Ec in *.
        rewrite filter_distinct. cbn [existsb]. rewrite Fp. reflexivity.
      + unfold t, call. cbn [cname]. unfold procName. rewrite procName_suffix, V. reflexivity.
      + apply suffix_starts.
      + congruence.
    - rewrite <- Eu'. apply Pu; auto.
    - rewrite map_map. cbn [snd].
      assert (Et : map type (map (type_of m) (firstn (List.length (nops u') - 1) (nops u'))) = map type (map (type_of m) (arguments u))).
      { assert (X : procName o m f u' = procName o m f u) by (rewrite <- Eu', (Pu u' Hu') in Ep; exact Ep).
        unfold procName in X. rewrite !procName_suffix, V in X. apply app_inv_s in X. apply suffix_inj in X. unfold arguments. rewrite C. exact X. }
      rewrite <- Et. rewrite map_map.
      apply (nth_skipn (fun i => type (type_of m i)) (nops u') (List.length (nops u') - 1) (List.length (params f))). lia.
  Qed.
End Main.
