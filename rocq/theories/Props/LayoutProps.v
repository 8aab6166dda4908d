(** C18: placement of global variables and functions. *)
From Coq Require Import ZArith List String Bool Lia ZifyBool.
From Verif.Base Require Import ZBits.
From Verif.Spec Require Import LLVMInt IR Encodings Pointers.
From Verif.Model Require Import Boogie PreludeInt SmackRepInt PreludeMem Globals.
From Verif.Proofs Require Import Lookup PreludeCalls ExprSim EvalCompose MemCalls PtrProofs PtrCmp GlobalsProofs.
Import ListNotations.
Open Scope string_scope.
Open Scope list_scope.
Open Scope Z_scope.

(** The bytes a global needs: the store size of its type if it is defined here;
    nothing is known about the size of external variables and functions. *)
Definition known_size (g : gvalue) : Z :=
  match gv_kind g with VarInit (Some s) => s | _ => 0 end.
(** Sizes (and alignments) below 4 GiB minus the padding. *)
Definition below_4G (g : gvalue) : Prop :=
  0 <= known_size g < 2 ^ 32 - 1024 /\ 0 <= gv_align g < 2 ^ 32 - 1024.
Definition external (g : gvalue) : Prop := gv_kind g = VarExtern.

(** The address of a pointer value as a signed number. *)
Definition at_address (bvptr : bool) (P : Z) (v : option val) (a : Z) : Prop :=
  v = Some (pointer bvptr P (if bvptr then pat P a else a)).

Lemma below_size_ok : forall g, below_4G g -> size_ok g /\ known_size g <= gsize g.
Proof.
  intros g [H1 H2]. unfold size_ok, gsize, known_size, u32 in *.
  destruct (gv_kind g) as [[s|]| |].
  - rewrite Z.mod_small by lia. destruct (s =? 0) eqn:E; lia.
  - cbn. lia.
  - cbn [Z.eqb]. lia.
  - cbn [Z.eqb]. lia.
Qed.

(** In every state satisfying the emitted address axioms, for every list of
    globals: all are at negative addresses, defined ones in
    [bottom, -1024], external ones more than 32 KiB below all of these, and any
    two are disjoint, with at least 1024 bytes in between unless both are
    external.  (Bit-vector pointers: if everything fits in half the address space.) *)
Theorem C18_disjoint : forall enc bvptr P prog I,
  extends prog (preludeMem (flags enc bvptr) P) -> P = 32 \/ P = 64 ->
  forall r gs, satisfies prog I r (addressAxioms (flags enc bvptr) P gs) ->
    Forall below_4G gs -> (bvptr = true -> total gs + 32768 <= 2 ^ (P - 1)) ->
    exists addr bottom externs,
      at_address bvptr P (r "$GLOBALS_BOTTOM") bottom /\ at_address bvptr P (r "$EXTERNS_BOTTOM") externs /\
      (bvptr = true -> - 2 ^ (P - 1) <= externs) /\ externs + 32768 <= bottom <= 0 /\
      (forall i g, nth_error gs i = Some g -> gv_code g = false ->
         at_address bvptr P (r (gv_name g)) (addr i) /\
         (external g -> externs <= addr i /\ addr i + known_size g <= bottom - 32768) /\
         (~ external g -> bottom <= addr i /\ addr i + known_size g <= - 1024)) /\
      (forall i j gi gj, i <> j -> nth_error gs i = Some gi -> nth_error gs j = Some gj ->
         gv_code gi = false -> gv_code gj = false -> ~ (external gi /\ external gj) ->
         addr i + known_size gi + 1024 <= addr j \/ addr j + known_size gj + 1024 <= addr i) /\
      (forall i j gi gj, i <> j -> nth_error gs i = Some gi -> nth_error gs j = Some gj ->
         gv_code gi = false -> gv_code gj = false -> external gi -> external gj ->
         addr i + gv_align gi <= addr j \/ addr j + gv_align gj <= addr i).
Proof.
  intros enc bvptr P prog I Hext HP r gs Hsat HF Hfit.
  assert (Forall size_ok gs) as HF' by (eapply Forall_impl; [|exact HF]; intros g Hg; apply (below_size_ok g Hg)).
  assert (forall i g, nth_error gs i = Some g -> known_size g <= gsize g) as Hk.
  { intros i g Hi. rewrite Forall_forall in HF. apply below_size_ok, HF. eapply nth_error_In; exact Hi. }
  assert (forall g, gexternal g = true <-> external g) as He.
  { intros g. unfold gexternal, external. destruct (gv_kind g); split; congruence. }
  assert (forall g, external g -> gsize g = gv_align g) as Ha.
  { intros g E. unfold gsize. rewrite E. reflexivity. }
  destruct (globals_layout enc bvptr P prog I Hext HP r gs Hsat HF' Hfit) as (addr & bottom & externs & H1 & H2 & H3 & H35 & H4 & H5).
  exists addr, bottom, externs. split; [exact H1|]. split; [exact H2|]. split; [intros Hb; specialize (Hfit Hb); lia|].
  split; [exact H35|]. split; [|split].
  - intros i g Hi Hc. destruct (H4 i g Hi Hc) as [Hr Hg]. split; [exact Hr|]. specialize (Hk i g Hi). specialize (He g).
    destruct (gexternal g); split; intros Hx; try lia; exfalso; intuition congruence.
  - intros i j gi gj Hij Hi Hj Hci Hcj Hn. pose proof (H5 i j gi gj Hij Hi Hj Hci Hcj) as H. cbv zeta in H.
    pose proof (Hk i gi Hi). pose proof (Hk j gj Hj). pose proof (proj1 (He gi)). pose proof (proj1 (He gj)).
    destruct (gexternal gi), (gexternal gj); cbn [andb] in H; try lia. exfalso. tauto.
  - intros i j gi gj Hij Hi Hj Hci Hcj Ei Ej. pose proof (H5 i j gi gj Hij Hi Hj Hci Hcj) as H. cbv zeta in H.
    rewrite (proj2 (He gi) Ei), (proj2 (He gj) Ej) in H. cbn [andb] in H. rewrite (Ha gi Ei), (Ha gj Ej) in H. lia.
Qed.
Print Assumptions C18_disjoint.

Lemma satisfies_small : forall prog I r axs,
  forallb (fun a => match r (fst a), eval prog I 3 r (snd a) with
                    | Some (VInt x), Some (VInt y) => x =? y | _, _ => false end) axs = true ->
  satisfies prog I r axs.
Proof.
  intros prog I r axs H x e Hin. rewrite forallb_forall in H. specialize (H _ Hin). cbn [fst snd] in H.
  destruct (r x) as [[| | |]|] eqn:Ex; try discriminate; destruct (eval prog I 3 r e) as [[| | |]|] eqn:Ee; try discriminate.
  eexists. split; [reflexivity|]. exists 3%nat. rewrite Ee. f_equal. f_equal. lia.
Qed.

Definition bind (l : list (string * Z)) : env :=
  fold_right (fun p r => upd_env r (fst p) (VInt (snd p))) empty_env l.
Definition layout_prog : list fdecl := preludeMem (flags BitVector false) 64.

(** A 40-byte array, a function, an external variable and an int. *)
Definition demo_globals : list gvalue :=
  [ GValue "a" (VarInit (Some 40)) 8 false; GValue "f" Func 8 false;
    GValue "e" VarExtern 8 false; GValue "n" (VarInit (Some 4)) 8 false ].
Example C18_nonvacuous :
  satisfies layout_prog (fun _ _ => None)
    (bind [("a", -1064); ("f", -2096); ("n", -3124); ("e", -35900); ("$GLOBALS_BOTTOM", -3124);
           ("$EXTERNS_BOTTOM", -35900); ("$MALLOC_TOP", 9223372036854775807)])
    (addressAxioms (flags BitVector false) 64 demo_globals) /\
  Forall below_4G demo_globals.
Proof.
  split; [apply satisfies_small; vm_compute; reflexivity|].
  repeat constructor; cbn; lia.
Qed.

(** Two external variables are 8 bytes (the size of a pointer) apart whatever
    their types are, so external objects larger than 8 bytes overlap. *)
Theorem C18_external_arrays_refuted :
  let gs := [GValue "a" VarExtern 8 false; GValue "b" VarExtern 8 false] in
  Forall below_4G gs /\
  (exists r, satisfies layout_prog (fun _ _ => None) r (addressAxioms (flags BitVector false) 64 gs)) /\
  forall r, satisfies layout_prog (fun _ _ => None) r (addressAxioms (flags BitVector false) 64 gs) ->
    exists x, r "b" = Some (VInt x) /\ r "a" = Some (VInt (x + 8)).
Proof.
  intros gs. split; [repeat constructor; cbn; lia|]. split.
  - exists (bind [("a", -32776); ("b", -32784); ("$GLOBALS_BOTTOM", 0);
           ("$EXTERNS_BOTTOM", -32784); ("$MALLOC_TOP", 9223372036854775807)]).
    apply satisfies_small. vm_compute. reflexivity.
  - intros r Hs.
    assert (r "$GLOBALS_BOTTOM" = Some (VInt 0)) as Hb.
    { destruct (Hs "$GLOBALS_BOTTOM" (EInt 0)) as (v & Hv & He); [cbn; tauto|].
      rewrite Hv. f_equal. apply (evaluates_det _ _ _ _ _ _ He). exists 0%nat. reflexivity. }
    assert (forall x z, In (x, EFun (indexedName "$add" [NRef]) [EVar "$GLOBALS_BOTTOM"; EFun (indexedName "$sub" [NRef]) [EInt 0; EInt z]])
              (addressAxioms (flags BitVector false) 64 gs) ->
              r x = Some (VInt (0 - z))) as H.
    { intros x z Hin. destruct (Hs _ _ Hin) as (v & Hv & He). rewrite Hv. f_equal.
      apply (evaluates_det _ _ _ _ _ _ He).
      assert (extends layout_prog (preludeMem (flags BitVector false) 64)) as Hext by (intros f d Hf; exact Hf).
      exact (ev_ref_op BitVector false 64 layout_prog (fun _ _ => None) Hext (or_intror eq_refl) "$add" r _ _ 0 (0 - z)
               ltac:(cbn; tauto) (ev_var _ _ _ _ _ Hb)
               (ev_ref_op BitVector false 64 layout_prog (fun _ _ => None) Hext (or_intror eq_refl) "$sub" r _ _ 0 z
                  ltac:(cbn; tauto) (ev_int _ _ _ _) (ev_int _ _ _ _))). }
    exists (-32784). split.
    + exact (H "b" 32784 ltac:(vm_compute; tauto)).
    + exact (H "a" 32776 ltac:(vm_compute; tauto)).
Qed.
Print Assumptions C18_external_arrays_refuted.

(** Sizes are computed modulo 2^32: a global of 4 GiB - 1 KiB is placed at the
    null address, and a global of 4 GiB + 4 bytes gets 4 bytes, so the global
    declared before it lies inside it. *)
Theorem C18_large_global_refuted :
  (let gs := [GValue "a" (VarInit (Some (2 ^ 32 - 1024))) 8 false] in
   exists r, satisfies layout_prog (fun _ _ => None) r (addressAxioms (flags BitVector false) 64 gs) /\
     r "a" = Some (VInt 0)) /\
  (let gs := [GValue "a" (VarInit (Some 4)) 8 false; GValue "b" (VarInit (Some (2 ^ 32 + 4))) 8 false] in
   exists r x y, satisfies layout_prog (fun _ _ => None) r (addressAxioms (flags BitVector false) 64 gs) /\
     r "a" = Some (VInt x) /\ r "b" = Some (VInt y) /\ y < x < y + (2 ^ 32 + 4)).
Proof.
  split.
  - exists (bind [("a", 0); ("$GLOBALS_BOTTOM", 0); ("$EXTERNS_BOTTOM", -32768); ("$MALLOC_TOP", 9223372036854775807)]).
    split; [apply satisfies_small; vm_compute; reflexivity|reflexivity].
  - exists (bind [("a", -1028); ("b", -2056); ("$GLOBALS_BOTTOM", -2056); ("$EXTERNS_BOTTOM", -34824); ("$MALLOC_TOP", 9223372036854775807)]), (-1028), (-2056).
    split; [apply satisfies_small; vm_compute; reflexivity|]. split; [reflexivity|]. split; [reflexivity|lia].
Qed.
Print Assumptions C18_large_global_refuted.

(** The predicate assumed of every pointer an undefined function returns holds
    of no global: such a pointer is modelled as different from the address of
    every global variable, external ones included. *)
Theorem C18_external_pointers : forall enc bvptr P prog I,
  extends prog (preludeMem (flags enc bvptr) P) -> P = 32 \/ P = 64 ->
  forall r gs, satisfies prog I r (addressAxioms (flags enc bvptr) P gs) ->
    Forall below_4G gs -> (bvptr = true -> total gs + 32768 <= 2 ^ (P - 1)) ->
    forall i g, nth_error gs i = Some g -> gv_code g = false ->
      evaluates prog I r (isExternal (EVar (gv_name g))) (VBool false).
Proof.
  intros enc bvptr P prog I Hext HP r gs Hsat HF Hfit i g Hi Hc.
  destruct (C18_disjoint enc bvptr P prog I Hext HP r gs Hsat HF Hfit) as (addr & bottom & externs & Hb & He & Hlo & Heb & Hg & _).
  destruct (Hg i g Hi Hc) as (Hr & Hx & Hnx). unfold at_address in *.
  assert (below_4G g) as [Hk _] by (rewrite Forall_forall in HF; apply HF; eapply nth_error_In; exact Hi).
  assert (externs <= addr i <= 0) as Hle.
  { assert (external g \/ ~ external g) as [X|N] by (unfold external; destruct (gv_kind g); (left; reflexivity) || (right; discriminate)).
    - specialize (Hx X). lia.
    - specialize (Hnx N). lia. }
  assert (1 <= P) as HP1 by (destruct HP as [->| ->]; lia).
  unfold isExternal. eapply ev_fun.
  - constructor; [apply ev_var; exact Hr|]. constructor; [apply ev_var; exact He|constructor].
  - destruct bvptr eqn:Hbp; cbn [pointer].
    + assert (llvm_icmp SLT P (pat P (addr i)) (pat P externs) = false) as E.
      { specialize (Hlo eq_refl). assert (0 < 2 ^ (P - 1)) by (apply pow2_half_pos; lia).
        unfold llvm_icmp. rewrite !pat_signed by lia. lia. }
      pose proof (calls_cmpbool_bv enc true P prog I Hext HP SLT (pat P (addr i)) (pat P externs) eq_refl ltac:(split; discriminate)) as H.
      rewrite E in H. exact H.
    + pose proof (calls_cmpbool_int enc false P prog I Hext SLT (addr i) externs eq_refl) as H. cbv beta iota in H.
      assert ((addr i <? externs) = false) as E by lia. rewrite E in H. exact H.
Qed.
Print Assumptions C18_external_pointers.
