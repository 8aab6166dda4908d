(** Concrete functions used beside the theorems of Props/ControlProps.v. *)
From Coq Require Import ZArith List String Bool Lia.
From Verif.Spec Require Import LLVMInt IR CFG BitVectorIR Encodings.
From Verif.Model Require Import Boogie PreludeInt SmackRepInt BitVectorCode ControlFlow NormalizeLoops.
From Verif.Proofs Require Import CFGBase SSACheck BitVectorCFG.
Import ListNotations.
Open Scope string_scope.
Open Scope list_scope.

Section Heads.
  Context {V E M P Ev T : Type} (tr : E -> T) (evS : (string -> option V) -> E -> option V) (evT : (string -> V) -> T -> option V)
          (prim : P -> list V -> M -> list Ev -> V -> M -> Prop)
          (inv : P -> list V -> M -> list Ev -> V -> bool -> M -> Prop) (one : V) (veq : V -> V -> bool) (f : func V E P).
  Lemma bsteps_head : forall s t s', bsteps tr evT prim inv one veq f s t s' ->
    (s = s' /\ t = []) \/
    exists t1 s1 t2, bstep tr evT prim inv one veq f s t1 s1 /\ bsteps tr evT prim inv one veq f s1 t2 s' /\ t = t1 ++ t2.
  Proof.
    intros s t s' H. induction H as [s|s1 t1 s2 t2 s3 H IH Hs]; [now left|right].
    destruct IH as [[-> ->]|(u1 & s4 & u2 & A & B & ->)].
    - exists t2, s3, []. split; [exact Hs|]. split; [constructor|now rewrite app_nil_r].
    - exists u1, s4, (u2 ++ t2). split; [exact A|]. split; [econstructor; eauto|now rewrite app_assoc].
  Qed.
  Lemma lsteps_head : forall s t s', lsteps evS prim inv one veq f s t s' ->
    (s = s' /\ t = []) \/
    exists t1 s1 t2, lstep evS prim inv one veq f s t1 s1 /\ lsteps evS prim inv one veq f s1 t2 s' /\ t = t1 ++ t2.
  Proof.
    intros s t s' H. induction H as [s|s1 t1 s2 t2 s3 H IH Hs]; [now left|right].
    destruct IH as [[-> ->]|(u1 & s4 & u2 & A & B & ->)].
    - exists t2, s3, []. split; [exact Hs|]. split; [constructor|now rewrite app_nil_r].
    - exists u1, s4, (u2 ++ t2). split; [exact A|]. split; [econstructor; eauto|now rewrite app_assoc].
  Qed.
  Lemma bsteps_cons : forall s t1 s1 t2 s2, bstep tr evT prim inv one veq f s t1 s1 -> bsteps tr evT prim inv one veq f s1 t2 s2 ->
    bsteps tr evT prim inv one veq f s (t1 ++ t2) s2.
  Proof.
    intros s t1 s1 t2 s2 H1 H2. induction H2 as [s0|a u1 b u2 c H IH Hs].
    - rewrite app_nil_r. change t1 with ([] ++ t1). econstructor; [constructor|exact H1].
    - rewrite app_assoc. econstructor; [apply IH; exact H1|exact Hs].
  Qed.
  Lemma lsteps_cons : forall s t1 s1 t2 s2, lstep evS prim inv one veq f s t1 s1 -> lsteps evS prim inv one veq f s1 t2 s2 ->
    lsteps evS prim inv one veq f s (t1 ++ t2) s2.
  Proof.
    intros s t1 s1 t2 s2 H1 H2. induction H2 as [s0|a u1 b u2 c H IH Hs].
    - rewrite app_nil_r. change t1 with ([] ++ t1). econstructor; [constructor|exact H1].
    - rewrite app_assoc. econstructor; [apply IH; exact H1|exact Hs].
  Qed.
End Heads.

(** ** A minimal instruction language: registers and numbers. *)
Inductive sexp := SReg (x : string) | SNum (n : nat).
Definition suses (e : sexp) : list string := match e with SReg x => [x] | SNum _ => [] end.
Definition sden (r : string -> option nat) (e : sexp) : option nat :=
  match e with SReg x => r x | SNum n => Some n end.
Definition sval (r : string -> nat) (e : sexp) : option nat :=
  match e with SReg x => Some (r x) | SNum n => Some n end.
Definition sid (e : sexp) : sexp := e.
(** the only call returns normally *)
Definition sprim (p : unit) (vs : list nat) (m : unit) (t : list unit) (v : nat) (m' : unit) : Prop := False.
Definition sinv (p : unit) (vs : list nat) (m : unit) (t : list unit) (v : nat) (w : bool) (m' : unit) : Prop :=
  t = [] /\ w = false.
Notation sfunc := (func nat sexp unit).

Lemma sfaithful : forall r rb e v, (forall x, In x (suses e) -> r x = Some (rb x)) -> sden r e = Some v -> sval rb (sid e) = Some v.
Proof.
  intros r rb [x|n] v Hu Hv; cbn in *; [|exact Hv]. rewrite (Hu x (or_introl eq_refl)) in Hv. exact Hv.
Qed.

(** entry: goto 1;  1: x = phi(entry: 0, 1: 7); if c goto 1 else 2;  2: return x *)
Definition lost_copy : sfunc := Func ["c"] (Blk 0)
  [ (Blk 0, Block [] [] (TBr (Blk 1)));
    (Blk 1, Block [("x", [(Blk 0, SNum 0); (Blk 1, SNum 7)])] [] (TCond (SReg "c") (Blk 1) (Blk 2)));
    (Blk 2, Block [] [] (TRet (Some (SReg "x")))) ].
Definition lost_doms (l : label) : list label :=
  match l with Blk 0 => [Blk 0] | Blk 1 => [Blk 0; Blk 1] | Blk 2 => [Blk 0; Blk 1; Blk 2] | _ => [] end.

(** entry: if c goto 1 else 1;  1: return 3 *)
Definition same_target : sfunc := Func ["c"] (Blk 0)
  [ (Blk 0, Block [] [] (TCond (SReg "c") (Blk 1) (Blk 1)));
    (Blk 1, Block [] [] (TRet (Some (SNum 3)))) ].
Definition same_doms (l : label) : list label :=
  match l with Blk 0 => [Blk 0] | Blk 1 => [Blk 0; Blk 1] | _ => [] end.

(** entry: invoke p to 1 unwind 2;  1: x = phi(entry: 5); return x;  2: return 0 *)
Definition invoke_phi : sfunc := Func [] (Blk 0)
  [ (Blk 0, Block [] [] (TInvoke None tt [] (Blk 1) (Blk 2)));
    (Blk 1, Block [("x", [(Blk 0, SNum 5)])] [] (TRet (Some (SReg "x"))));
    (Blk 2, Block [] [] (TRet (Some (SNum 0)))) ].
Definition invoke_doms (l : label) : list label :=
  match l with Blk 0 => [Blk 0] | Blk 1 => [Blk 0; Blk 1] | Blk 2 => [Blk 0; Blk 2] | _ => [] end.

(** entry: switch v default 1, case 4: 2;  1: return 1;  2: return 2 *)
Definition switch_fn : sfunc := Func ["v"] (Blk 0)
  [ (Blk 0, Block [] [] (TSwitch (SReg "v") (Blk 1) [(4%nat, Blk 2)]));
    (Blk 1, Block [] [] (TRet (Some (SNum 1))));
    (Blk 2, Block [] [] (TRet (Some (SNum 2)))) ].

Lemma lost_ssa : ssa_form suses lost_copy.
Proof. apply (ssa_check_ok suses lost_doms). reflexivity. Qed.
Lemma lost_lowered : lowered lost_copy.
Proof. apply lowered_check_ok. reflexivity. Qed.
Lemma lost_original : original lost_copy.
Proof. apply original_check_ok. reflexivity. Qed.
Lemma lost_forest : loop_forest lost_copy [Loop (Blk 1) [Blk 1] []].
Proof.
  apply (forest_check_ok lost_copy (fun l => match l with Blk 0 => [Blk 0] | Blk 1 => [Blk 1; Blk 0] | _ => [] end)).
  reflexivity.
Qed.
Lemma same_ssa : ssa_form suses same_target.
Proof. apply (ssa_check_ok suses same_doms). reflexivity. Qed.
Lemma same_normalized : normalized same_target.
Proof. apply normalized_check_ok. reflexivity. Qed.
Lemma invoke_ssa : ssa_form suses invoke_phi.
Proof. apply (ssa_check_ok suses invoke_doms). reflexivity. Qed.
Lemma switch_ssa : ssa_form suses switch_fn.
Proof. apply (ssa_check_ok suses invoke_doms). reflexivity. Qed.

Ltac bclean :=
  repeat match goal with
  | H : In _ [] |- _ => destruct H
  | H : In _ (_ :: _) |- _ => destruct H as [<-|H]
  | H : code_at _ _ _ = Some _ |- _ => cbn in H; injection H as <-
  | H : Forall2 _ [] _ |- _ => inversion H; subst; clear H
  | H : Forall2 _ (_ :: _) _ |- _ => inversion H; subst; clear H
  | H : has_value _ _ _ _ |- _ => cbn in H; subst
  | H : cond_holds _ _ _ _ _ (CIsOne _ _) |- _ =>
      destruct H as (? & H & ?); cbn in H; subst; try discriminate
  | H : cond_holds _ _ _ _ _ _ |- _ => cbn in H; try discriminate; subst
  | H : sinv _ _ _ _ _ _ _ |- _ => destruct H as [-> ->]
  end.
Ltac bhead :=
  repeat match goal with
  | H3 : bresult ?s = Some _, H2 : bsteps _ _ _ _ _ _ _ _ _ ?s |- _ =>
      apply bsteps_head in H2; destruct H2 as [[<- _]|(? & ? & ? & Hs & H2 & ?)];
      [try discriminate H3|inversion Hs; subst; clear Hs; bclean]
  end.

Lemma lost_copy_llvm : behaves sden sprim sinv 1%nat Nat.eqb lost_copy [0%nat] tt [] (Some (Returned (Some 0%nat), tt)).
Proof.
  eexists _, _. split; [reflexivity|]. split.
  - eapply (lsteps_cons _ _ _ _ _ _ _ []); [eapply L_br; reflexivity|].
    eapply (lsteps_cons _ _ _ _ _ _ _ []); [eapply L_cond; reflexivity|].
    eapply (lsteps_cons _ _ _ _ _ _ _ []); [eapply L_retv; reflexivity|]. constructor.
  - reflexivity.
Qed.
Lemma lost_copy_boogie : forall r0 exn t v m, bbehaves sid sval sprim sinv 1%nat Nat.eqb lost_copy [0%nat] r0 exn tt t (Some (Returned (Some v), m)) -> v = 7%nat.
Proof.
  intros r0 exn t v m (s0 & s & H1 & H2 & H3). cbn in H1. injection H1 as <-. bhead.
  cbn in H3. congruence.
Qed.

Lemma same_target_llvm : forall c, behaves sden sprim sinv 1%nat Nat.eqb same_target [c] tt [] (Some (Returned (Some 3%nat), tt)).
Proof.
  intros c. eexists _, _. split; [reflexivity|]. split.
  - eapply (lsteps_cons _ _ _ _ _ _ _ []).
    + eapply L_cond; try reflexivity. cbn. destruct (Nat.eqb c 1); reflexivity.
    + replace (if Nat.eqb c 1 then Blk 1 else Blk 1) with (Blk 1) by (destruct (Nat.eqb c 1); reflexivity).
      eapply (lsteps_cons _ _ _ _ _ _ _ []); [eapply L_retv; reflexivity|]. constructor.
  - reflexivity.
Qed.
Lemma same_target_boogie : forall c r0 exn t o, ~ bbehaves sid sval sprim sinv 1%nat Nat.eqb same_target [c] r0 exn tt t (Some o).
Proof.
  intros c r0 exn t o (s0 & s & H1 & H2 & H3). cbn in H1. injection H1 as <-. bhead.
  all: cbn in *; congruence.
Qed.

Lemma invoke_phi_boogie : bbehaves sid sval sprim sinv 1%nat Nat.eqb invoke_phi [] (fun _ => 9%nat) false tt []
  (Some (Returned (Some 9%nat), tt)).
Proof.
  eexists _, _. split; [reflexivity|]. split.
  - cbn. eapply (bsteps_cons _ _ _ _ _ _ _ _ []); [eapply B_call; [constructor|split; reflexivity]|].
    eapply (bsteps_cons _ _ _ _ _ _ _ _ []); [eapply B_goto; [left; reflexivity|reflexivity]|]. cbn.
    eapply (bsteps_cons _ _ _ _ _ _ _ _ []); [eapply B_assume; reflexivity|].
    eapply (bsteps_cons _ _ _ _ _ _ _ _ []); [eapply B_ret; cbn; reflexivity|].
    eapply (bsteps_cons _ _ _ _ _ _ _ _ []); [eapply B_exn|].
    eapply (bsteps_cons _ _ _ _ _ _ _ _ []); [eapply B_return_normal|]. constructor.
  - reflexivity.
Unshelve. exact 0%nat.
Qed.

Ltac lclean :=
  repeat match goal with
  | H : block_of _ _ = Some _ |- _ => cbn in H; injection H as <-
  | H : bterm _ = _ |- _ => cbn in H; (discriminate H || injection H; clear H; intros; subst)
  | H : evals _ _ _ = Some _ |- _ => cbn in H; injection H as <-
  | H : enter _ _ _ _ _ = Some _ |- _ => cbn in H; injection H as <- <-
  | H : sinv _ _ _ _ _ _ _ |- _ => destruct H as [-> ->]
  | H : sden _ _ = Some _ |- _ => cbn in H; injection H as <-
  end.
Lemma invoke_phi_llvm : forall t v m, behaves sden sprim sinv 1%nat Nat.eqb invoke_phi [] tt t (Some (Returned (Some v), m)) -> v = 5%nat.
Proof.
  intros t v m (s0 & s & H1 & H2 & H3). cbn in H1. injection H1 as <-.
  repeat match goal with
  | H3 : result ?s = Some _, H2 : lsteps _ _ _ _ _ _ _ _ ?s |- _ =>
      apply lsteps_head in H2; destruct H2 as [[<- _]|(? & ? & ? & Hs & H2 & ?)];
      [try discriminate H3|inversion Hs; subst; clear Hs; lclean]
  end.
  cbn in H3. congruence.
Qed.
Lemma invoke_phi_defined : forall t, ~ undefined_after sden sprim sinv 1%nat Nat.eqb invoke_phi [] tt t.
Proof.
  intros t (s0 & s & H1 & H2 & H3). cbn in H1. injection H1 as <-.
  repeat match goal with
  | H3 : goes_wrong _ _ _ _ _ ?s, H2 : lsteps _ _ _ _ _ _ _ _ ?s |- _ =>
      apply lsteps_head in H2; destruct H2 as [[<- _]|(? & ? & ? & Hs & H2 & ?)];
      [|inversion Hs; subst; clear Hs; lclean]
  end.
  all: try (destruct H3; fail).
  - cbn in H3. destruct H3 as (b & E1 & H3). injection E1 as <-. cbn in H3.
    destruct H3 as (evs & v & w & m' & [-> ->] & H3). discriminate.
  - cbn in H3. destruct H3 as (b & E1 & H3). injection E1 as <-. cbn in H3. discriminate.
Qed.

Lemma switch_llvm : behaves sden sprim sinv 1%nat Nat.eqb switch_fn [4%nat] tt [] (Some (Returned (Some 2%nat), tt)).
Proof.
  eexists _, _. split; [reflexivity|]. split.
  - eapply (lsteps_cons _ _ _ _ _ _ _ []); [eapply L_switch; reflexivity|].
    eapply (lsteps_cons _ _ _ _ _ _ _ []); [eapply L_retv; reflexivity|]. constructor.
  - reflexivity.
Qed.
Lemma switch_boogie : forall r0 exn t v m, bbehaves sid sval sprim sinv 1%nat Nat.eqb switch_fn [4%nat] r0 exn tt t (Some (Returned (Some v), m)) -> v = 1%nat.
Proof.
  intros r0 exn t v m (s0 & s & H1 & H2 & H3). cbn in H1. injection H1 as <-. bhead. cbn in H3. congruence.
Qed.

(** ** A loop over 32-bit integers: do { s += i; i += 1 } while (i < n),
    with a check of s on exit. *)
Open Scope Z_scope.
Definition exG (x : string) : option Z :=
  if existsb (String.eqb x) ["n"; "i"; "s"; "i1"; "s1"] then Some 32 else if String.eqb x "c" then Some 1 else None.
Ltac wt := unfold wt_operand, W64, is_iN; cbn; repeat split; try reflexivity; try lia; tauto.
Definition reg32 (x : string) (H : exG x = Some 32) : typed exG W64.
Proof. exists (Op (VReg 32 x)). abstract (split; [exact H|wt]). Defined.
Definition zero32 : typed exG W64.
Proof. exists (Op (VConst 32 0)). abstract wt. Defined.
Definition reg_c : typed exG W64.
Proof. exists (Op (VReg 1 "c")). abstract wt. Defined.
Definition add_si : typed exG W64.
Proof. exists (Instr (IBin Add false 32 (VReg 32 "s") (VReg 32 "i"))). abstract wt. Defined.
Definition add_i1 : typed exG W64.
Proof. exists (Instr (IBin Add false 32 (VReg 32 "i") (VConst 32 1))). abstract wt. Defined.
Definition cmp_in : typed exG W64.
Proof. exists (Instr (IIcmp ULT 32 (VReg 32 "i1") (VReg 32 "n"))). abstract wt. Defined.
Definition do_while : func val (typed exG W64) string := Func ["n"] (Blk 0)
  [ (Blk 0, Block [] [] (TBr (Blk 1)));
    (Blk 1, Block [("i", [(Blk 0, zero32); (Blk 1, reg32 "i1" eq_refl)]);
                   ("s", [(Blk 1, reg32 "s1" eq_refl); (Blk 0, zero32)])]
                  [SAssign "s1" add_si; SAssign "i1" add_i1; SAssign "c" cmp_in]
                  (TCond reg_c (Blk 1) (Blk 2)));
    (Blk 2, Block [] [SPrim None "check" [reg32 "s1" eq_refl]] (TRet (Some (reg32 "s1" eq_refl)))) ].
Definition ex_forest : list loop := [Loop (Blk 1) [Blk 1] []].
Lemma do_while_ssa : ssa_form (typed_regs exG W64) do_while.
Proof. apply (ssa_check_ok _ lost_doms). reflexivity. Qed.
Lemma do_while_lowered : lowered do_while.
Proof. apply lowered_check_ok. reflexivity. Qed.
Lemma do_while_original : original do_while.
Proof. apply original_check_ok. reflexivity. Qed.
Lemma do_while_forest : loop_forest do_while ex_forest.
Proof.
  apply (forest_check_ok do_while (fun l => match l with Blk 0 => [Blk 0] | Blk 1 => [Blk 1; Blk 0] | _ => [] end)).
  reflexivity.
Qed.
Lemma do_while_result : runOnFunction do_while ex_forest = Func ["n"] (Blk 0)
  [ (Blk 0, Block [] [] (TBr (Blk 1)));
    (Blk 1, Block [("i", [(Blk 0, zero32); (Fwd (Blk 1) (Blk 1), reg32 "i1" eq_refl)]);
                   ("s", [(Fwd (Blk 1) (Blk 1), reg32 "s1" eq_refl); (Blk 0, zero32)])]
                  [SAssign "s1" add_si; SAssign "i1" add_i1; SAssign "c" cmp_in]
                  (TCond reg_c (Fwd (Blk 1) (Blk 1)) (Blk 2)));
    (Blk 2, Block [] [SPrim None "check" [reg32 "s1" eq_refl]] (TRet (Some (reg32 "s1" eq_refl))));
    (Fwd (Blk 1) (Blk 1), Block [] [] (TBr (Blk 1))) ].
Proof. reflexivity. Qed.

(** the checks made are observable *)
Definition ex_prim (p : string) (vs : list val) (m : unit) (t : list (string * list val)) (v : val) (m' : unit) : Prop :=
  t = [(p, vs)] /\ v = VBv 1 0.
Definition ex_inv (p : string) (vs : list val) (m : unit) (t : list (string * list val)) (v : val) (w : bool) (m' : unit) : Prop := False.

(** with n = 3: i = 0, 1, 2; s = 0, 1, 3 *)
Lemma do_while_run : behaves (typed_den exG W64) ex_prim ex_inv bv_true bv_eq do_while [VBv 32 3] tt
  [("check", [VBv 32 3])] (Some (Returned (Some (VBv 32 3)), tt)).
Proof.
  eexists _, _. split; [reflexivity|]. split.
  - eapply (lsteps_cons _ _ _ _ _ _ _ []); [eapply L_br; reflexivity|].
    do 3 (do 3 (eapply (lsteps_cons _ _ _ _ _ _ _ []); [eapply L_assign; reflexivity|]);
      eapply (lsteps_cons _ _ _ _ _ _ _ []); [eapply L_cond; reflexivity|]).
    eapply (lsteps_cons _ _ _ _ _ _ _ [_] _ []); [eapply L_prim; [reflexivity|split; reflexivity]|].
    eapply (lsteps_cons _ _ _ _ _ _ _ []); [eapply L_retv; reflexivity|]. constructor.
  - reflexivity.
Unshelve. all: exact tt.
Qed.
