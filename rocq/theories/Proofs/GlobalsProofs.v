From Coq Require Import ZArith List String Bool Lia ZifyBool.
From Verif.Base Require Import ZBits.
From Verif.Spec Require Import LLVMInt IR Encodings Pointers.
From Verif.Model Require Import Boogie PreludeInt SmackRepInt PreludeMem Globals.
From Verif.Proofs Require Import Lookup PreludeCalls ExprSim EvalCompose MemCalls PtrProofs.
Import ListNotations.
Open Scope string_scope.
Open Scope list_scope.
Open Scope Z_scope.

(** A state in which every axiom "x == e" holds. *)
Definition satisfies (prog : list fdecl) (I : interp) (r : env) (axs : list (string * expr)) : Prop :=
  forall x e, In (x, e) axs -> exists v, r x = Some v /\ evaluates prog I r e v.

(** Sizes for which the 32-bit computation does not wrap. *)
Definition size_ok (g : gvalue) : Prop := 0 <= gsize g /\ gsize g + 1024 < 2 ^ 32.

Section Pure.
  Definition next (st : offsets) (g : gvalue) : offsets := snd (globalDecl (flags BitVector false) 64 st g).
  Lemma next_any : forall O P st g, snd (globalDecl O P st g) = next st g.
  Proof. intros. unfold next, globalDecl. destruct (gv_code g), (gexternal g); reflexivity. Qed.
  Fixpoint after (st : offsets) (gs : list gvalue) (i : nat) : offsets :=
    match i, gs with
    | S i', g :: gs' => after (next st g) gs' i'
    | _, _ => st
    end.
  Lemma after_step : forall gs st i g, nth_error gs i = Some g -> after st gs (S i) = next (after st gs i) g.
  Proof.
    induction gs as [|h gs IH]; intros st [|i] g H; try discriminate; cbn [nth_error] in H.
    - injection H as ->. cbn [after]. destruct gs; reflexivity.
    - cbn [after]. destruct gs as [|k gs]; [destruct i; discriminate|]. exact (IH (next st h) i g H).
  Qed.
  Lemma final_after : forall O P gs st, snd (globalDecls O P st gs) = after st gs (List.length gs).
  Proof.
    intros O P. induction gs as [|g gs IH]; intros st; [reflexivity|]. cbn [globalDecls List.length after].
    destruct (globalDecl O P st g) as [ax st1] eqn:E. pose proof (next_any O P st g) as N. rewrite E in N. cbn in N. subst st1.
    specialize (IH (next st g)). destruct (globalDecls O P (next st g) gs). exact IH.
  Qed.

  Lemma next_mono : forall st g, size_ok g ->
    globalsOffset (next st g) <= globalsOffset st /\ externsOffset (next st g) <= externsOffset st.
  Proof.
    intros st g [H1 H2]. unfold next, globalDecl, u32, globalsPadding.
    destruct (gv_code g); [cbn; lia|]. destruct (gexternal g); cbn -[Z.pow Z.modulo]; [lia|].
    rewrite Z.mod_small by lia. lia.
  Qed.
  Lemma after_mono : forall gs i j st, Forall size_ok gs -> (i <= j)%nat ->
    globalsOffset (after st gs j) <= globalsOffset (after st gs i) /\
    externsOffset (after st gs j) <= externsOffset (after st gs i).
  Proof.
    induction gs as [|g gs IH]; intros i j st HF Hij; [destruct i, j; cbn; lia|].
    inversion HF as [|? ? Hg HF']; subst. destruct j as [|j]; [assert (i = 0)%nat by lia; subst; lia|].
    pose proof (next_mono st g Hg). destruct i as [|i].
    - cbn [after]. pose proof (IH 0%nat j (next st g) HF' ltac:(lia)) as IH0.
      replace (after (next st g) gs 0) with (next st g) in IH0 by (destruct gs; reflexivity). lia.
    - cbn [after]. apply IH; [assumption|lia].
  Qed.

  (** The integer address of the i-th global; [gb] is the value of $GLOBALS_BOTTOM. *)
  Definition address_of (gs : list gvalue) (i : nat) : Z :=
    match nth_error gs i with
    | Some g => if gexternal g
                then globalsOffset (after initial_offsets gs (List.length gs)) +
                     externsOffset (after initial_offsets gs (S i))
                else globalsOffset (after initial_offsets gs (S i))
    | None => 0
    end.

  Lemma in_decls : forall O P gs st i g, nth_error gs i = Some g -> gv_code g = false ->
    In (gv_name g, if gexternal g
        then EFun (indexedName "$add" [NRef]) [EVar "$GLOBALS_BOTTOM"; pointerLit O P (externsOffset (after st gs (S i)))]
        else pointerLit O P (globalsOffset (after st gs (S i)))) (fst (globalDecls O P st gs)).
  Proof.
    intros O P. induction gs as [|h gs IH]; intros st [|i] g H Hc; try discriminate; cbn [nth_error] in H; cbn [globalDecls].
    - injection H as ->. destruct (globalDecl O P st g) as [ax st1] eqn:E.
      destruct (globalDecls O P st1 gs). cbn [fst]. apply in_or_app. left.
      unfold globalDecl in E. rewrite Hc in E.
      replace (after st (g :: gs) 1) with (next st g) by (destruct gs; reflexivity).
      rewrite <- (next_any O P). unfold globalDecl. rewrite Hc.
      destruct (gexternal g); injection E as <- <-; left; reflexivity.
    - destruct (globalDecl O P st h) as [ax st1] eqn:E. pose proof (next_any O P st h) as N. rewrite E in N. cbn in N. subst st1.
      specialize (IH (next st h) i g H Hc). destruct (globalDecls O P (next st h) gs). cbn [fst] in *.
      apply in_or_app. right. exact IH.
  Qed.
End Pure.

Section Layout.
  Context (enc : encoding) (bvptr : bool) (P : Z) (prog : list fdecl) (I : interp).
  Notation fl := (flags enc bvptr).
  Hypothesis Hext : extends prog (preludeMem fl P).
  Hypothesis HP : ptr_width P.
  Context (r : env) (gs : list gvalue).
  Hypothesis Hsat : satisfies prog I r (addressAxioms fl P gs).
  Hypothesis Hsize : Forall size_ok gs.
  Let fin := after initial_offsets gs (List.length gs).
  Let gb := globalsOffset fin.
  Let eb := externsOffset fin.
  Hypothesis Hfit : bvptr = true -> - 2 ^ (P - 1) <= gb + eb.
  Notation ev := (evaluates prog I).

  Lemma gb_le : gb <= 0 /\ eb <= -32768.
  Proof.
    pose proof (after_mono gs 0 (List.length gs) initial_offsets Hsize ltac:(lia)) as H. fold fin gb eb in H.
    replace (after initial_offsets gs 0) with initial_offsets in H by (destruct gs; reflexivity).
    cbn in H. exact H.
  Qed.
  Lemma fit_pow : 0 < 2 ^ (P - 1) /\ 2 ^ P = 2 * 2 ^ (P - 1).
  Proof.
    assert (1 <= P) as H by (destruct HP as [->| ->]; lia). split; [now apply pow2_half_pos|now apply pow2_half].
  Qed.

  Lemma axioms_eq : addressAxioms fl P gs = fst (globalDecls fl P initial_offsets gs) ++ addrBounds fl P fin.
  Proof.
    unfold addressAxioms. unfold fin. rewrite <- (final_after fl P).
    destruct (globalDecls fl P initial_offsets gs). reflexivity.
  Qed.

  Lemma ev_lit : forall z, (bvptr = true -> Z.abs z < 2 ^ P) -> ev r (pointerLit fl P z) (ptr fl P (pwrap fl P z)).
  Proof.
    intros z H. exists 2%nat. eapply eval_pointerLit; [exact Hext|exact HP|]. rewrite flags_bpp. exact H.
  Qed.
  Lemma lit_fit : forall z, gb + eb <= z <= 0 -> bvptr = true -> Z.abs z < 2 ^ P.
  Proof. intros z H Hb. pose proof (Hfit Hb). pose proof fit_pow. lia. Qed.

  Lemma r_bottom : r "$GLOBALS_BOTTOM" = Some (ptr fl P (pwrap fl P gb)).
  Proof.
    destruct (Hsat "$GLOBALS_BOTTOM" (pointerLit fl P gb)) as (v & Hv & He).
    { rewrite axioms_eq. apply in_or_app. right. left. reflexivity. }
    pose proof gb_le as [Hg1 Hg2].
    rewrite Hv. f_equal. apply (evaluates_det prog I r _ _ _ He), ev_lit. apply lit_fit; lia.
  Qed.

  Lemma ev_extern : forall z, eb <= z <= 0 ->
    ev r (EFun (indexedName "$add" [NRef]) [EVar "$GLOBALS_BOTTOM"; pointerLit fl P z]) (ptr fl P (pwrap fl P (gb + z))).
  Proof.
    intros z Hz. pose proof gb_le as [Hg1 Hg2].
    replace (pwrap fl P (gb + z)) with (pwrap fl P (pwrap fl P gb + pwrap fl P z)).
    - apply (ev_ref_op enc bvptr P prog I Hext HP "$add"); [cbn; tauto|apply ev_var, r_bottom|].
      apply ev_lit. apply lit_fit; lia.
    - unfold pwrap. destruct (bitPrecisePointers fl); [symmetry; apply Zplus_mod|reflexivity].
  Qed.

  Lemma r_externs : r "$EXTERNS_BOTTOM" = Some (ptr fl P (pwrap fl P (gb + eb))).
  Proof.
    destruct (Hsat "$EXTERNS_BOTTOM" (EFun (indexedName "$add" [NRef]) [EVar "$GLOBALS_BOTTOM"; pointerLit fl P eb])) as (v & Hv & He).
    { rewrite axioms_eq. apply in_or_app. right. right. left. reflexivity. }
    rewrite Hv. f_equal. apply (evaluates_det prog I r _ _ _ He), ev_extern. pose proof gb_le. lia.
  Qed.

  Lemma nth_le : forall i g, nth_error gs i = Some g -> (S i <= List.length gs)%nat.
  Proof. intros i g H. apply nth_error_Some. congruence. Qed.

  Lemma after_bounds : forall i g, nth_error gs i = Some g ->
    gb <= globalsOffset (after initial_offsets gs (S i)) <= 0 /\
    eb <= externsOffset (after initial_offsets gs (S i)) <= -32768.
  Proof.
    intros i g H. pose proof (after_mono gs (S i) (List.length gs) initial_offsets Hsize (nth_le i g H)) as A.
    pose proof (after_mono gs 0 (S i) initial_offsets Hsize ltac:(lia)) as B.
    replace (after initial_offsets gs 0) with initial_offsets in B by (destruct gs; reflexivity).
    fold fin gb eb in A. cbn [globalsOffset externsOffset initial_offsets] in B. lia.
  Qed.

  (** every global is where [address_of] says *)
  Lemma placed : forall i g, nth_error gs i = Some g -> gv_code g = false ->
    r (gv_name g) = Some (pointer bvptr P (if bvptr then pat P (address_of gs i) else address_of gs i)).
  Proof.
    intros i g Hi Hc. pose proof (in_decls fl P gs initial_offsets i g Hi Hc) as Hin.
    destruct (Hsat (gv_name g) (if gexternal g
        then EFun (indexedName "$add" [NRef]) [EVar "$GLOBALS_BOTTOM"; pointerLit fl P (externsOffset (after initial_offsets gs (S i)))]
        else pointerLit fl P (globalsOffset (after initial_offsets gs (S i))))) as (v & Hv & He).
    { rewrite axioms_eq. apply in_or_app. left. exact Hin. }
    rewrite Hv. f_equal.
    replace (pointer bvptr P (if bvptr then pat P (address_of gs i) else address_of gs i)) with (ptr fl P (pwrap fl P (address_of gs i))).
    2:{ unfold pointer, ptr, pwrap, pat. rewrite flags_bpp. destruct bvptr; reflexivity. }
    apply (evaluates_det prog I r _ _ _ He). unfold address_of. rewrite Hi.
    pose proof (after_bounds i g Hi) as Hb. fold fin gb. destruct (gexternal g).
    - apply ev_extern. lia.
    - apply ev_lit. apply lit_fit. pose proof gb_le. lia.
  Qed.

  Lemma own_step : forall i g, nth_error gs i = Some g -> gv_code g = false ->
    if gexternal g then externsOffset (after initial_offsets gs (S i)) = externsOffset (after initial_offsets gs i) - gsize g
    else globalsOffset (after initial_offsets gs (S i)) = globalsOffset (after initial_offsets gs i) - (gsize g + 1024).
  Proof.
    intros i g Hi Hc. rewrite (after_step gs initial_offsets i g Hi).
    assert (size_ok g) as [H1 H2] by (rewrite Forall_forall in Hsize; apply Hsize; eapply nth_error_In; exact Hi).
    unfold next, globalDecl. rewrite Hc. destruct (gexternal g); cbn [snd globalsOffset externsOffset]; [reflexivity|].
    unfold u32, globalsPadding. rewrite Z.mod_small by lia. reflexivity.
  Qed.

  Lemma address_range : forall i g, nth_error gs i = Some g -> gv_code g = false ->
    if gexternal g then gb + eb <= address_of gs i /\ address_of gs i + gsize g <= gb - 32768
    else gb <= address_of gs i /\ address_of gs i + gsize g + 1024 <= 0.
  Proof.
    intros i g Hi Hc. pose proof (own_step i g Hi Hc) as Ho. pose proof (after_bounds i g Hi) as Hb.
    pose proof (after_mono gs 0 i initial_offsets Hsize ltac:(lia)) as B.
    replace (after initial_offsets gs 0) with initial_offsets in B by (destruct gs; reflexivity).
    cbn [globalsOffset externsOffset initial_offsets] in B.
    unfold address_of. rewrite Hi. fold fin gb. destruct (gexternal g); lia.
  Qed.

  Lemma separated_lt : forall i j gi gj, (i < j)%nat -> nth_error gs i = Some gi -> nth_error gs j = Some gj ->
    gv_code gi = false -> gv_code gj = false ->
    if gexternal gi then (if gexternal gj then address_of gs j + gsize gj <= address_of gs i
                          else address_of gs i + gsize gi + 1024 <= address_of gs j)
    else address_of gs j + gsize gj + 1024 <= address_of gs i.
  Proof.
    intros i j gi gj Hij Hi Hj Hci Hcj.
    pose proof (own_step j gj Hj Hcj) as Hoj. pose proof (address_range i gi Hi Hci) as Ri. pose proof (address_range j gj Hj Hcj) as Rj.
    pose proof (after_mono gs (S i) j initial_offsets Hsize Hij) as M.
    unfold address_of in *. rewrite Hi, Hj in *. fold fin gb in Ri, Rj |- *.
    destruct (gexternal gi), (gexternal gj); lia.
  Qed.
End Layout.

(** total space taken *)
Fixpoint total (gs : list gvalue) : Z := match gs with [] => 0 | g :: gs' => gsize g + 1024 + total gs' end.

Lemma after_total : forall gs st, Forall size_ok gs ->
  globalsOffset st + externsOffset st - total gs <=
  globalsOffset (after st gs (List.length gs)) + externsOffset (after st gs (List.length gs)).
Proof.
  induction gs as [|g gs IH]; intros st HF; [cbn; lia|]. inversion HF as [|? ? [H1 H2] HF']; subst.
  cbn [List.length after total]. specialize (IH (next st g) HF').
  assert (globalsOffset st + externsOffset st - (gsize g + 1024) <= globalsOffset (next st g) + externsOffset (next st g)).
  { unfold next, globalDecl, u32, globalsPadding. destruct (gv_code g); [cbn; lia|].
    destruct (gexternal g); cbn -[Z.pow Z.modulo]; [lia|]. rewrite Z.mod_small by lia. lia. }
  lia.
Qed.

Lemma globals_layout : forall enc bvptr P prog I, extends prog (preludeMem (flags enc bvptr) P) -> ptr_width P ->
  forall r gs, satisfies prog I r (addressAxioms (flags enc bvptr) P gs) ->
    Forall size_ok gs -> (bvptr = true -> total gs + 32768 <= 2 ^ (P - 1)) ->
    exists addr bottom externs,
      r "$GLOBALS_BOTTOM" = Some (pointer bvptr P (if bvptr then pat P bottom else bottom)) /\
      r "$EXTERNS_BOTTOM" = Some (pointer bvptr P (if bvptr then pat P externs else externs)) /\
      - (total gs + 32768) <= externs /\ externs + 32768 <= bottom <= 0 /\
      (forall i g, nth_error gs i = Some g -> gv_code g = false ->
         r (gv_name g) = Some (pointer bvptr P (if bvptr then pat P (addr i) else addr i)) /\
         if gexternal g then externs <= addr i /\ addr i + gsize g <= bottom - 32768
         else bottom <= addr i /\ addr i + gsize g <= - 1024) /\
      (forall i j gi gj, i <> j -> nth_error gs i = Some gi -> nth_error gs j = Some gj ->
         gv_code gi = false -> gv_code gj = false ->
         let gap := if (gexternal gi && gexternal gj)%bool then 0 else 1024 in
         addr i + gsize gi + gap <= addr j \/ addr j + gsize gj + gap <= addr i).
Proof.
  intros enc bvptr P prog I Hext HP r gs Hsat Hsize Hfit.
  set (fin := after initial_offsets gs (List.length gs)).
  pose proof (after_total gs initial_offsets Hsize) as Ht. cbn [globalsOffset externsOffset initial_offsets] in Ht. fold fin in Ht.
  assert (bvptr = true -> - 2 ^ (P - 1) <= globalsOffset fin + externsOffset fin) as Hf by (intros Hb; specialize (Hfit Hb); lia).
  assert (forall z, pointer bvptr P (if bvptr then pat P z else z) = ptr (flags enc bvptr) P (pwrap (flags enc bvptr) P z)) as Hpp.
  { intros z. unfold pointer, ptr, pwrap, pat. rewrite flags_bpp. destruct bvptr; reflexivity. }
  exists (address_of gs), (globalsOffset fin), (globalsOffset fin + externsOffset fin).
  split; [rewrite Hpp; exact (r_bottom enc bvptr P prog I Hext HP r gs Hsat Hsize Hf)|].
  split; [rewrite Hpp; exact (r_externs enc bvptr P prog I Hext HP r gs Hsat Hsize Hf)|].
  split; [lia|]. split; [pose proof (gb_le enc bvptr P prog I Hext r gs Hsat Hsize Hf) as Hgb; fold fin in Hgb; lia|]. split.
  - intros i g Hi Hc. split; [exact (placed enc bvptr P prog I Hext HP r gs Hsat Hsize Hf i g Hi Hc)|].
    pose proof (address_range enc bvptr P prog I Hext r gs Hsat Hsize Hf i g Hi Hc) as H. fold fin in H. destruct (gexternal g); lia.
  - intros i j gi gj Hij Hi Hj Hci Hcj gap.
    destruct (Nat.lt_ge_cases i j) as [Hlt|Hge].
    + pose proof (separated_lt enc bvptr P prog I Hext r gs Hsat Hsize Hf i j gi gj Hlt Hi Hj Hci Hcj) as H. unfold gap. destruct (gexternal gi), (gexternal gj); cbn [andb]; lia.
    + pose proof (separated_lt enc bvptr P prog I Hext r gs Hsat Hsize Hf j i gj gi ltac:(lia) Hj Hi Hcj Hci) as H. unfold gap. destruct (gexternal gi), (gexternal gj); cbn [andb]; lia.
Qed.
