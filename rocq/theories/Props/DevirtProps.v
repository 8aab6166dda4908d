(** C37: calls through function pointers. *)
From Coq Require Import ZArith List Bool String Lia.
From Verif.Spec Require Import IndirectCall.
From Verif.Model Require Import Devirt.
Import ListNotations.
Open Scope string_scope.
Open Scope list_scope.
Open Scope Z_scope.

Lemma ty_eqb_eq : forall a b, ty_eqb a b = true <-> a = b.
Proof. intros [] []; cbn; split; intros H; try discriminate; try reflexivity; try (f_equal; lia); injection H as ->; apply Z.eqb_refl. Qed.
Lemma tys_eqb_eq : forall a b, tys_eqb a b = true <-> a = b.
Proof.
  induction a as [|x a IH]; intros [|y b]; cbn; split; intros H; try discriminate; try reflexivity.
  - apply andb_true_iff in H as (H1 & H2). apply ty_eqb_eq in H1 as ->. apply IH in H2 as ->. reflexivity.
  - injection H as -> ->. apply andb_true_iff. split; [now apply ty_eqb_eq|now apply IH].
Qed.
Lemma fty_eqb_eq : forall a b, fty_eqb a b = true <-> a = b.
Proof.
  intros [r p v] [r' p' v']. unfold fty_eqb. cbn. rewrite !andb_true_iff, ty_eqb_eq, tys_eqb_eq, Bool.eqb_true_iff. split; [intros ((-> & ->) & ->); reflexivity|]. intros H. injection H as -> -> ->. auto.
Qed.
Lemma castable_iff : forall a b, ty_eqb a b || isZExtOrBitCastable a b = true <-> convertible a b.
Proof.
  intros a b. unfold convertible, isZExtOrBitCastable. rewrite !orb_true_iff, ty_eqb_eq.
  assert (zext_valid a b = true <-> zext_ok a b) as -> by (destruct a, b; cbn; lia || (split; [discriminate|contradiction])).
  assert (bitcast_valid a b = true <-> bitcast_ok a b) as -> by (destruct a, b; cbn; lia || (split; [discriminate|contradiction]) || tauto).
  tauto.
Qed.
Lemma castTo_some : forall a t, convertible (a_type a) t -> castTo a t = Some (Arg t (a_bits a)).
Proof.
  intros [ta x] t H. cbn in H. unfold castTo. cbn [a_type a_bits]. destruct (ty_eqb ta t) eqn:E; [apply ty_eqb_eq in E as ->; reflexivity|].
  apply castable_iff in H. rewrite E in H. cbn in H. now rewrite H.
Qed.
Lemma args_match_iff : forall args ps, args_match args ps = true <-> forall i a t, nth_error args i = Some a -> nth_error ps i = Some t -> convertible a t.
Proof.
  induction args as [|a args IH]; intros [|p ps]; cbn.
  - split; [intros _ [|i] a t H; discriminate|reflexivity].
  - split; [intros _ [|i] a t H; discriminate|reflexivity].
  - split; [intros _ [|i] x t _ H; discriminate|reflexivity].
  - rewrite andb_true_iff, castable_iff, IH. split.
    + intros (H1 & H2) [|i] x t X1 X2; cbn in X1, X2; [injection X1 as <-; injection X2 as <-; exact H1|eauto].
    + intros H. split; [exact (H 0%nat a p eq_refl eq_refl)|intros i x t X1 X2; exact (H (S i) x t X1 X2)].
Qed.

Lemma pass_args_some : forall args ps, (forall i a t, nth_error args i = Some a -> nth_error ps i = Some t -> convertible (a_type a) t) ->
  exists xs, pass_args args ps = Some xs /\ map a_type xs = firstn (List.length args) ps /\ map a_bits xs = map a_bits (firstn (List.length ps) args).
Proof.
  induction args as [|a args IH]; intros [|p ps] H; cbn [pass_args]; try (exists []; cbn; auto; fail).
  destruct (IH ps) as (xs & X1 & X2 & X3); [intros i x t Y1 Y2; exact (H (S i) x t Y1 Y2)|].
  rewrite (castTo_some a p (H 0%nat a p eq_refl eq_refl)), X1. exists (Arg p (a_bits a) :: xs). cbn. rewrite X2, X3. auto.
Qed.

Lemma match_iff : forall CS F, match_ CS F = true <->
  (ret (f_type F) = ret (cs_type CS) \/ isBitCastable (ret (f_type F)) (ret (cs_type CS)) = true) /\
  (List.length (cs_args CS) = List.length (params (f_type F)) \/ (vararg (f_type F) = true /\ (List.length (cs_args CS) >= List.length (params (f_type F)))%nat)) /\
  (forall i a t, nth_error (cs_args CS) i = Some a -> nth_error (params (f_type F)) i = Some t -> convertible a t).
Proof.
  intros CS F. unfold match_. rewrite !andb_true_iff, orb_true_iff, ty_eqb_eq, !negb_true_iff, args_match_iff, andb_false_iff, negb_false_iff, !Nat.ltb_ge.
  split; [intros (((A & B) & C) & D); split; [exact A|split; [|exact D]]; destruct C as [C|C]; [left; lia|destruct (Nat.eq_dec (List.length (cs_args CS)) (List.length (params (f_type F)))); [left; assumption|right; split; [exact C|lia]]]|].
  intros (A & B & D). split; [split; [split; [exact A|lia]|]|exact D]. destruct B as [B|(B1 & B2)]; [left; lia|right; exact B1].
Qed.

Lemma types_nth : forall args i a, nth_error args i = Some a -> nth_error (map a_type args) i = Some (a_type a).
Proof. intros args i a H. rewrite nth_error_map, H. reflexivity. Qed.

(** The call fits and returns what is expected exactly if match says so. *)
Lemma match_fits : forall CS F args, map a_type args = cs_args CS -> fits args F -> returns F (ret (cs_type CS)) -> match_ CS F = true.
Proof.
  intros CS F args E (H1 & H2) HR. apply match_iff. rewrite <- E, map_length. split; [|split; [exact H1|]].
  - destruct HR as [HR|HR]; [now left|right]. unfold isBitCastable. destruct (ret (f_type F)), (ret (cs_type CS)); cbn in *; try contradiction; try lia; try reflexivity; rewrite ?orb_true_r; auto.
  - intros i a t X1 X2. rewrite nth_error_map in X1. destruct (nth_error args i) as [y|] eqn:Ey; [|discriminate]. injection X1 as <-. eauto.
Qed.

(** Chains of tests *)
Lemma tests_found : forall addr none ptr args chain F, (forall G, In G chain -> addr G = ptr -> G = F) -> In F chain -> addr F = ptr ->
  tests addr none ptr args chain = match pass_args args (params (f_type F)) with Some xs => Calls F xs | None => Invalid end.
Proof.
  induction chain as [|G chain IH]; intros F Hu HF Ha; [destruct HF|]. cbn [tests]. destruct (addr G =? ptr) eqn:E.
  - assert (G = F) as -> by (apply Hu; [now left|lia]). reflexivity.
  - apply IH; auto; [intros; apply Hu; auto; now right|]. destruct HF as [->|HF]; [lia|exact HF].
Qed.
Lemma tests_none : forall addr none ptr args chain, (forall G, In G chain -> addr G <> ptr) -> tests addr none ptr args chain = none.
Proof. induction chain as [|G chain IH]; intros H; [reflexivity|]. cbn. destruct (addr G =? ptr) eqn:E; [exfalso; apply (H G); [now left|lia]|apply IH; intros; apply H; now right]. Qed.

Section Module.
  Variable fs : list func.
  Hypothesis names_differ : forall F G, In F fs -> In G fs -> f_name F = f_name G -> F = G.

  (** What is known of the bounces in the cache. *)
  Definition good (b : bounce) : Prop :=
    call_ok (b_ptr b) (b_params b) /\ b_ret b = ret (b_ptr b) /\ incl (b_targets b) fs /\
    forall F, In F (b_targets b) -> match_ (CallSite (b_ptr b) (b_ptr b) (b_params b)) F = true.

  Lemma same_set_in : forall A B, incl A fs -> incl B fs -> same_set A B = true -> forall F, In F A <-> In F B.
  Proof.
    intros A B HA HB H F. unfold same_set in H. apply andb_true_iff in H as (H1 & H2). rewrite forallb_forall in H1, H2.
    split; intros HF; [specialize (H1 F HF)|specialize (H2 F HF)]; [apply existsb_exists in H1 as (G & G1 & G2)|apply existsb_exists in H2 as (G & G1 & G2)];
      apply String.eqb_eq in G2; [assert (F = G) as -> by (apply names_differ; auto)|assert (F = G) as -> by (apply names_differ; auto)]; exact G1.
  Qed.

  Definition ok_call (w : bool * list func * callsite) : Prop :=
    let '(complete, ccg, CS) := w in incl ccg fs /\ call_ok (cs_type CS) (cs_args CS) /\ cs_stripped CS = cs_type CS.

  Lemma targets_incl : forall complete ccg CS, incl ccg fs -> incl (targets_of complete ccg fs CS) fs.
  Proof. intros [] ccg CS H F HF; unfold targets_of in HF; apply filter_In in HF as (HF & _); auto. Qed.
  Lemma targets_match : forall complete ccg CS F, In F (targets_of complete ccg fs CS) -> match_ CS F = true.
  Proof. intros [] ccg CS F HF; unfold targets_of in HF; apply filter_In in HF as (_ & HF); auto. apply andb_true_iff in HF. tauto. Qed.

  (** The bounce used at a call site takes its arguments and has its targets. *)
  Definition serves (b : bounce) (complete : bool) (ccg : list func) (CS : callsite) : Prop :=
    good b /\ List.length (b_params b) = List.length (cs_args CS) /\
    (forall i a t, nth_error (cs_args CS) i = Some a -> nth_error (b_params b) i = Some t -> convertible a t) /\
    forall F, In F (b_targets b) <-> In F (targets_of complete ccg fs CS).

  Lemma match_stripped : forall T s1 s2 a F, match_ (CallSite T s1 a) F = match_ (CallSite T s2 a) F.
  Proof. reflexivity. Qed.

  Lemma build_good : forall complete ccg CS, ok_call (complete, ccg, CS) -> good (buildBounce CS (targets_of complete ccg fs CS)).
  Proof.
    intros complete ccg CS (H1 & H2 & H3). split; [exact H2|]. split; [reflexivity|]. split; [now apply targets_incl|].
    intros F HF. apply targets_match in HF. destruct CS. exact HF.
  Qed.

  Lemma make_serves : forall cache complete ccg CS b cache', (forall x, In x cache -> good x) -> ok_call (complete, ccg, CS) ->
    makeDirectCall complete ccg fs cache CS = (b, cache') -> serves b complete ccg CS /\ forall x, In x cache' -> good x.
  Proof.
    intros cache complete ccg CS b cache' Hc Hok H. unfold makeDirectCall in H. pose proof Hok as (H1 & H2 & H3).
    destruct (findInCache cache CS (targets_of complete ccg fs CS)) as [b0|] eqn:E.
    - injection H as <- <-. split; [|exact Hc]. unfold findInCache in E. apply find_some in E as (Hin & Hu). pose proof (Hc b0 Hin) as Hg.
      unfold usable in Hu. apply andb_true_iff in Hu as (Hu & U4). apply andb_true_iff in Hu as (Hu & U3). apply andb_true_iff in Hu as (U1 & U2).
      apply fty_eqb_eq in U2. pose proof Hg as (G1 & G2 & G3 & G4). split; [exact Hg|].
      assert (List.length (b_params b0) = List.length (cs_args CS) /\ forall i a t, nth_error (cs_args CS) i = Some a -> nth_error (b_params b0) i = Some t -> convertible a t) as (L & C).
      { rewrite H3 in U2. destruct (vararg (b_ptr b0)) eqn:Ev.
        - cbn in U3. destruct (checkArgs CS b0) eqn:Ek; [|discriminate]. unfold checkArgs in Ek. apply andb_true_iff in Ek as (K1 & K2). apply Nat.eqb_eq in K1. rewrite args_match_iff in K2. split; [lia|exact K2].
        - destruct G1 as (e1 & E1 & X1). destruct H2 as (e2 & E2 & X2). rewrite U2 in E2, X2. rewrite (X1 Ev), app_nil_r in E1. rewrite (X2 Ev), app_nil_r in E2. rewrite E1, E2.
          split; [reflexivity|]. intros i a t Y1 Y2. left. congruence. }
      split; [exact L|]. split; [exact C|]. intros F. symmetry. apply same_set_in; auto. now apply targets_incl.
    - injection H as <- <-. pose proof (build_good complete ccg CS Hok) as Hg. split.
      + split; [exact Hg|]. cbn [buildBounce b_params b_targets]. split; [reflexivity|]. split; [intros i a t Y1 Y2; left; congruence|]. tauto.
      + intros x [<-|Hx]; auto.
  Qed.

  Lemma run_serves : forall work cache, (forall x, In x cache -> good x) -> (forall w, In w work -> ok_call w) ->
    forall k complete ccg CS, nth_error work k = Some (complete, ccg, CS) -> exists b, nth_error (run_on_module fs cache work) k = Some b /\ serves b complete ccg CS.
  Proof.
    induction work as [|((c & g) & cs) work IH]; intros cache Hc Hw k complete ccg CS H; [destruct k; discriminate|].
    cbn [run_on_module]. destruct (makeDirectCall c g fs cache cs) as (b & cache') eqn:E.
    destruct (make_serves cache c g cs b cache' Hc (Hw _ (or_introl eq_refl)) E) as (S1 & S2).
    destruct k as [|k]; cbn in H |- *; [injection H as <- <- <-; eauto|]. apply IH; auto. intros; apply Hw; now right.
  Qed.
End Module.

(** For every module, every list of indirect calls (each with the targets computed by
    the analysis, if it is complete) and the bounces chosen for them, fresh or from the
    cache: a call whose pointer holds the address of F, where F is a computed target
    (or, if the analysis is incomplete, any function whose address is taken) that fits
    the arguments and the result, calls exactly F; F gets the arguments, bit for bit
    (the ones it has parameters for). *)
Theorem C37_call : forall fs addr work k (complete : bool) ccg CS F args,
  (forall F G, In F fs -> In G fs -> f_name F = f_name G -> F = G) ->
  (forall F G, In F fs -> In G fs -> addr F = addr G -> F = G) ->
  (forall c g cs, In (c, g, cs) work -> incl g fs /\ call_ok (cs_type cs) (cs_args cs) /\ cs_stripped cs = cs_type cs) ->
  nth_error work k = Some (complete, ccg, CS) ->
  map a_type args = cs_args CS -> fits args F -> returns F (ret (cs_type CS)) ->
  (if complete then In F ccg else In F fs /\ f_address_taken F = true) ->
  exists b xs, nth_error (run_on_module fs [] work) k = Some b /\ run_call addr b (addr F) args = Calls F xs /\
    map a_type xs = params (f_type F) /\ map a_bits xs = map a_bits (firstn (List.length (params (f_type F))) args).
Proof.
  intros fs addr work k complete ccg CS F args Hn Ha Hw Hk Ht Hf Hr HF.
  destruct (run_serves fs Hn work [] ltac:(intros x []) ltac:(intros ((c & g) & cs) Hin; exact (Hw c g cs Hin)) k complete ccg CS Hk) as (b & Hb & (G & L & C & T)).
  pose proof G as (G1 & G2 & G3 & G4).
  assert (In F (targets_of complete ccg fs CS)) as HT.
  { pose proof (match_fits CS F args Ht Hf Hr) as Hm. unfold targets_of. destruct complete; apply filter_In; [auto|]. destruct HF as (F1 & F2). split; [exact F1|]. now rewrite F2. }
  assert (In F (b_targets b)) as HB by now apply T.
  destruct (pass_args_some args (b_params b)) as (ys & Y1 & Y2 & Y3).
  { intros i a t X1 X2. apply (C i); [|exact X2]. rewrite <- Ht. now apply types_nth. }
  assert (List.length args = List.length (b_params b)) as La by (rewrite L, <- Ht, map_length; reflexivity).
  rewrite <- La, firstn_all in Y3. rewrite La, firstn_all in Y2.
  pose proof (G4 F HB) as Hm. apply match_iff in Hm as (_ & M2 & M3). cbn [cs_args] in M2, M3.
  destruct (pass_args_some ys (params (f_type F))) as (xs & X1 & X2 & X3).
  { intros i a t Z1 Z2. apply (M3 i); [|exact Z2]. rewrite <- Y2. now apply types_nth. }
  exists b, xs. split; [exact Hb|]. split; [|split].
  - unfold run_call. rewrite La, Nat.eqb_refl, Y1. unfold run_bounce. rewrite tests_found with (F := F).
    + now rewrite X1.
    + intros H HG EQ. apply in_rev in HG. apply Ha; auto.
    + now apply -> in_rev.
    + reflexivity.
  - rewrite X2. apply firstn_all2. rewrite <- (map_length a_type ys), Y2. lia.
  - rewrite X3. rewrite <- !firstn_map, Y3. reflexivity.
Qed.
Print Assumptions C37_call.

(** Nothing else is ever called: the function called is a target with that address;
    without one the execution stops, or, if there are no targets, the call returns. *)
Theorem C37_only_targets : forall fs addr work k (complete : bool) ccg CS args ptr,
  (forall F G, In F fs -> In G fs -> f_name F = f_name G -> F = G) ->
  (forall c g cs, In (c, g, cs) work -> incl g fs /\ call_ok (cs_type cs) (cs_args cs) /\ cs_stripped cs = cs_type cs) ->
  nth_error work k = Some (complete, ccg, CS) -> map a_type args = cs_args CS ->
  exists b, nth_error (run_on_module fs [] work) k = Some b /\
    match run_call addr b ptr args with
    | Calls F _ => addr F = ptr /\ if complete then In F ccg else In F fs /\ f_address_taken F = true
    | Blocked => exists F, if complete then In F ccg else In F fs /\ f_address_taken F = true
    | Returns => forall F, (if complete then In F ccg else In F fs /\ f_address_taken F = true) -> ~ (fits args F /\ returns F (ret (cs_type CS)))
    | Invalid => False
    end.
Proof.
  intros fs addr work k complete ccg CS args ptr Hn Hw Hk Ht.
  destruct (run_serves fs Hn work [] ltac:(intros x []) ltac:(intros ((c & g) & cs) Hin; exact (Hw c g cs Hin)) k complete ccg CS Hk) as (b & Hb & (G & L & C & T)).
  exists b. split; [exact Hb|]. pose proof G as (G1 & G2 & G3 & G4).
  destruct (pass_args_some args (b_params b)) as (ys & Y1 & Y2 & Y3).
  { intros i a t X1 X2. apply (C i); [|exact X2]. rewrite <- Ht. now apply types_nth. }
  assert (List.length args = List.length (b_params b)) as La by (rewrite L, <- Ht, map_length; reflexivity).
  rewrite La, firstn_all in Y2. unfold run_call. rewrite La, Nat.eqb_refl, Y1. unfold run_bounce.
  assert (forall F, In F (b_targets b) -> if complete then In F ccg else In F fs /\ f_address_taken F = true) as HT.
  { intros F HF. apply T in HF. unfold targets_of in HF. destruct complete; apply filter_In in HF as (F1 & F2); [exact F1|]. apply andb_true_iff in F2. tauto. }
  assert (forall chain, incl chain (b_targets b) ->
    (forall none, tests addr none ptr ys chain = none) \/ exists F xs, In F chain /\ addr F = ptr /\ forall none, tests addr none ptr ys chain = Calls F xs) as Hch.
  { induction chain as [|F chain IH]; intros Hi; [left; reflexivity|]. cbn [tests]. destruct (addr F =? ptr) eqn:E.
    - right. pose proof (G4 F (Hi F (or_introl eq_refl))) as Hm. apply match_iff in Hm as (_ & M2 & M3). cbn [cs_args] in M2, M3.
      destruct (pass_args_some ys (params (f_type F))) as (xs & X1 & _).
      { intros i a t Z1 Z2. apply (M3 i); [|exact Z2]. rewrite <- Y2. now apply types_nth. }
      exists F, xs. rewrite X1. split; [now left|]. split; [lia|reflexivity].
    - destruct IH as [IH|(F1 & xs & I1 & I2 & I3)]; [intros x Hx; apply Hi; now right|now left|]. right. exists F1, xs. split; [now right|]. auto. }
  destruct (Hch (rev (b_targets b))) as [H|(F & xs & HF & HA & H)]; [intros x Hx; now apply in_rev| |].
  - rewrite H. destruct (b_targets b) as [|F l] eqn:Eb.
    + intros F HF (H1 & H2). apply (T F). unfold targets_of. pose proof (match_fits CS F args Ht H1 H2) as Hm. destruct complete; apply filter_In; [split; [exact HF|exact Hm]|]. destruct HF as (F1 & F2). split; [exact F1|]. now rewrite F2.
    + exists F. apply HT. now left.
  - rewrite H. split; [exact HA|]. apply HT. now apply in_rev.
Qed.
Print Assumptions C37_only_targets.

(** The pointer may hold the address of a function that does not fit the call (its
    type has another number of arguments): the call then never returns, although the
    program may do so. *)
Theorem C37_other_type_refuted : exists fs addr CS F args,
  (forall F G, In F fs -> In G fs -> addr F = addr G -> F = G) /\ In F fs /\ f_address_taken F = true /\
  call_ok (cs_type CS) (cs_args CS) /\ map a_type args = cs_args CS /\
  forall b, nth_error (run_on_module fs [] [(false, [], CS)]) 0 = Some b -> run_call addr b (addr F) args = Blocked.
Proof.
  set (F := Func "f" (Fty TVoid [] false) true). set (G := Func "g" (Fty TVoid [TInt 32] false) true).
  exists [F; G], (fun x => if String.eqb (f_name x) "f" then 1 else 2), (CallSite (Fty TVoid [TInt 32] false) (Fty TVoid [TInt 32] false) [TInt 32]), F, [Arg (TInt 32) 7].
  split; [|split; [now left|split; [reflexivity|split; [exists []; cbn; auto|split; [reflexivity|]]]]].
  - intros x y [<-|[<-|[]]] [<-|[<-|[]]]; cbn; intros H; discriminate || reflexivity.
  - intros b H. vm_compute in H. injection H as <-. reflexivity.
Qed.
Print Assumptions C37_other_type_refuted.

(** The arguments of a variadic function beyond its parameters are dropped. *)
Theorem C37_variadic_refuted : exists fs addr CS F args,
  In F fs /\ f_address_taken F = true /\ call_ok (cs_type CS) (cs_args CS) /\ map a_type args = cs_args CS /\ fits args F /\
  forall b, nth_error (run_on_module fs [] [(false, [], CS)]) 0 = Some b -> exists xs, run_call addr b (addr F) args = Calls F xs /\ map a_bits xs <> map a_bits args.
Proof.
  set (F := Func "printf" (Fty TVoid [TPtr 8] true) true). exists [F], (fun _ => 1), (CallSite (Fty TVoid [TPtr 8] true) (Fty TVoid [TPtr 8] true) [TPtr 8; TInt 32]), F, [Arg (TPtr 8) 100; Arg (TInt 32) 7].
  split; [now left|]. split; [reflexivity|]. split; [exists [TInt 32]; cbn; split; [reflexivity|discriminate]|]. split; [reflexivity|]. split.
  - split; [right; cbn; auto|]. intros [|[|i]] a t; cbn; intros H1 H2; [|discriminate|destruct i; discriminate]. injection H1 as <-. injection H2 as <-. now left.
  - intros b H. vm_compute in H. injection H as <-. eexists. split; [reflexivity|]. cbn. discriminate.
Qed.
Print Assumptions C37_variadic_refuted.

(** A pointer cast just before the call (cs_stripped differs from cs_type) can make
    the pass use a bounce with other parameters: the code is then ill-formed. *)
Theorem C37_cast_pointer_refuted : exists fs addr CS1 CS2 args,
  call_ok (cs_type CS1) (cs_args CS1) /\ call_ok (cs_type CS2) (cs_args CS2) /\ map a_type args = cs_args CS2 /\ cs_stripped CS2 = cs_type CS1 /\
  forall b, nth_error (run_on_module fs [] [(false, [], CS1); (false, [], CS2)]) 1 = Some b -> forall p, run_call addr b p args = Invalid.
Proof.
  exists [], (fun _ => 1), (CallSite (Fty TVoid [TInt 32] false) (Fty TVoid [TInt 32] false) [TInt 32]), (CallSite (Fty TVoid [TPtr 8; TPtr 8] false) (Fty TVoid [TInt 32] false) [TPtr 8; TPtr 8]), [Arg (TPtr 8) 1; Arg (TPtr 8) 2].
  split; [exists []; cbn; auto|]. split; [exists []; cbn; auto|]. split; [reflexivity|]. split; [reflexivity|].
  intros b H p. vm_compute in H. injection H as <-. reflexivity.
Qed.
Print Assumptions C37_cast_pointer_refuted.

(** Two call sites that share a bounce with two targets; the second argument of the
    call is widened for one of them. *)
Example C37_nonvacuous :
  let T := Fty (TInt 32) [TInt 16; TPtr 1] false in
  let f := Func "f" (Fty (TInt 32) [TInt 16; TPtr 1] false) true in
  let g := Func "g" (Fty (TInt 32) [TInt 64; TPtr 2] false) true in
  let fs := [f; g; Func "h" (Fty TVoid [] false) true] in
  let addr := fun F => if String.eqb (f_name F) "f" then -8 else if String.eqb (f_name F) "g" then -16 else -24 in
  let CS := CallSite T T [TInt 16; TPtr 1] in
  let args := [Arg (TInt 16) 65535; Arg (TPtr 1) 4096] in
  fits args g /\ returns g (ret (cs_type CS)) /\ map a_type args = cs_args CS /\
  exists b, run_on_module fs [] [(true, [f; g], CS); (false, [], CS)] = [b; b] /\
  run_call addr b (-16) args = Calls g [Arg (TInt 64) 65535; Arg (TPtr 2) 4096] /\ run_call addr b (-8) args = Calls f args /\ run_call addr b (-24) args = Blocked.
Proof.
  cbv zeta. split; [|split; [now left|split; [reflexivity|eexists; split; [reflexivity|repeat split]]]].
  split; [now left|]. intros [|[|i]] a t; cbn; intros H1 H2; [| |destruct i; discriminate]; injection H1 as <-; injection H2 as <-; right; [left; reflexivity|right; exact I].
Qed.
