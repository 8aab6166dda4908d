(** C43: atomicrmw and cmpxchg. *)
From Coq Require Import ZArith List String Bool Lia.
From Verif.Base Require Import ZBits.
From Verif.Spec Require Import LLVMInt IR Encodings ByteMemory Pointers Atomics.
From Verif.Model Require Import Boogie PreludeInt SmackRepInt PreludeMem Atomics.
From Verif.Proofs Require Import Lookup PreludeCalls EvalCompose ExprSim MemCalls MemMain AtomicProofs.
Import ListNotations.
Open Scope string_scope.
Open Scope list_scope.
Open Scope Z_scope.

Lemma run_two : forall prog I r x1 e1 v1 x2 e2 v2, evaluates prog I r e1 v1 -> evaluates prog I (upd_env r x1 v1) e2 v2 ->
  exists fuel, run_assigns prog I fuel r [(x1, e1); (x2, e2)] = Some (upd_env (upd_env r x1 v1) x2 v2).
Proof.
  intros prog I r x1 e1 v1 x2 e2 v2 [k1 H1] [k2 H2]. exists (k1 + k2)%nat. cbn [run_assigns].
  rewrite (eval_up prog I k1 (k1 + k2)%nat _ _ _ ltac:(lia) H1), (eval_up prog I k2 (k1 + k2)%nat _ _ _ ltac:(lia) H2). reflexivity.
Qed.
Lemma upd_env_same : forall r x v, upd_env r x v x = Some v.
Proof. intros. unfold upd_env. now rewrite String.eqb_refl. Qed.
Lemma upd_env_other : forall r x y v, y <> x -> upd_env r x v y = r y.
Proof. intros. unfold upd_env. destruct (String.eqb_spec x y); congruence. Qed.

Section Props.
Context (enc : encoding) (bvptr : bool) (P : Z) (prog : list fdecl) (I : interp).
Hypothesis Hext : extends prog (preludeMem (flags enc bvptr) P).
Hypothesis HP : P = 32 \/ P = 64.

(** The two assignments, for any stored expression with the right value. *)
Lemma two_steps : forall n R r res p e V a x y, In n INTEGER_SIZES -> 8 <= n -> region_ok enc n R ->
  is_iN n x -> is_iN n y -> address bvptr P a -> r (reg R) = Some V -> cell_at enc bvptr P n R V a x -> res <> reg R ->
  evaluates prog I r p (pointer bvptr P a) -> (forall u, evaluates prog I (upd_env r res u) p (pointer bvptr P a)) ->
  (forall v, represents enc n v x -> evaluates prog I r (load R (intType (flags enc bvptr) n) p) v ->
     evaluates prog I (upd_env r res v) (load R (intType (flags enc bvptr) n) p) v ->
     exists w, evaluates prog I (upd_env r res v) e w /\ represents enc n w y) ->
  exists fuel r', run_assigns prog I fuel r
      [(res, load R (intType (flags enc bvptr) n) p); store R (intType (flags enc bvptr) n) p e] = Some r' /\
    updates_cell enc bvptr P n R res a x y r r'.
Proof.
  intros n R r res p e V a x y Hn H8 Hok Hx Hy Ha HV Hc Hne Hp Hpu He.
  destruct (load_cell enc bvptr P prog I Hext HP n Hn H8 R r p V a x Hok Hx Ha HV Hc Hp) as (v & Hv & Rv).
  assert (upd_env r res v (reg R) = Some V) as HV' by (rewrite upd_env_other; auto).
  assert (evaluates prog I (upd_env r res v) (load R (intType (flags enc bvptr) n) p) v) as Hv'.
  { destruct Hv as [k0 Hv0].
    assert (exists v', evaluates prog I (upd_env r res v) (load R (intType (flags enc bvptr) n) p) v' /\
       evaluates prog I r (load R (intType (flags enc bvptr) n) p) v') as (v' & H1 & H2).
    { unfold load in Hv0 |- *. destruct (singleton R); [exists V; split; apply ev_var; auto|].
      unfold eval in Hv0. rewrite eval_fun in Hv0. cbn [evals_with] in Hv0.
      cbn [eval_with] in Hv0. rewrite HV in Hv0.
      destruct (eval_with (eval_call prog I k0) r p) as [q|] eqn:Eq; [|discriminate].
      assert (q = pointer bvptr P a) as -> by (eapply evaluates_det; [exists k0; exact Eq|exact Hp]).
      exists v. split.
      - eapply ev_fun; [constructor; [apply ev_var; exact HV'|constructor; [apply Hpu|constructor]]|]. exists k0. exact Hv0.
      - eapply ev_fun; [constructor; [apply ev_var; exact HV|constructor; [apply Hp|constructor]]|]. exists k0. exact Hv0. }
    pose proof (evaluates_det prog I r _ v v' (ex_intro _ k0 Hv0) H2) as X. subst v'. exact H1. }
  destruct (He v Rv Hv Hv') as (w & Hw & Rw).
  destruct (store_cell enc bvptr P prog I Hext HP n Hn H8 R (upd_env r res v) p e V a x y w Hok Hy Ha HV' Hc (Hpu v) Hw Rw) as (V' & S1 & S2 & S3).
  destruct (run_two prog I r res _ v (fst (store R (intType (flags enc bvptr) n) p e)) _ V' Hv S1) as (fuel & E).
  exists fuel, (upd_env (upd_env r res v) (reg R) V'). split; [exact E|]. split; [|split].
  - exists v. split; [|exact Rv]. rewrite upd_env_other by exact Hne. apply upd_env_same.
  - exists V, V'. split; [exact HV|]. split; [apply upd_env_same|]. split; assumption.
  - intros z Hz1 Hz2. rewrite !upd_env_other by assumption. reflexivity.
Qed.
End Props.

(** atomicrmw: for every operation, width from 8 bits, region kind and encoding, the
    emitted statements return the old value and write the new one, where the encoding
    is exact ([rmw_exact]).  The pointer and value expressions do not depend on the
    result register. *)
Theorem C43_rmw : forall enc bvptr P prog I,
  extends prog (preludeMem (flags enc bvptr) P) -> P = 32 \/ P = 64 ->
  forall op n R r res p val V w a x y, In n INTEGER_SIZES -> 8 <= n -> region_ok enc n R ->
  is_iN n x -> is_iN n y -> address bvptr P a -> r (reg R) = Some V -> cell_at enc bvptr P n R V a x -> res <> reg R ->
  evaluates prog I r p (pointer bvptr P a) -> (forall u, evaluates prog I (upd_env r res u) p (pointer bvptr P a)) ->
  (forall u, evaluates prog I (upd_env r res u) val w) -> represents enc n w y ->
  rmw_exact enc I op n x y ->
  exists fuel r', run_assigns prog I fuel r (visitAtomicRMWInst op R (intType (flags enc bvptr) n) res p val) = Some r' /\
    updates_cell enc bvptr P n R res a x (rmw_result op n x y) r r'.
Proof.
  intros enc bvptr P prog I Hext HP op n R r res p val V w a x y Hn H8 Hok Hx Hy Ha HV Hc Hne Hp Hpu Hval Rw Hex.
  eapply two_steps; eauto; [now apply rmw_range|]. intros v Rv Hv Hv'.
  destruct (ATOMICRMWINST_TABLE op) as [f|] eqn:Ef.
  - destruct (rmw_call enc bvptr P prog I Hext HP n Hn H8 op f v w x y Ef Hx Hy Rv Rw Hex) as (z & Hz & Rz).
    exists z. split; [|exact Rz]. eapply ev_fun; [constructor; [exact Hv'|constructor; [apply Hval|constructor]]|exact Hz].
  - destruct op; try discriminate. exists w. split; [apply Hval|exact Rw].
Qed.
Print Assumptions C43_rmw.

(** cmpxchg: memory and the register.  With wrapped integers the comparison is that of
    the unwrapped integers, so when the values are equal the integers have to be. *)
Theorem C43_cmpxchg : forall enc bvptr P prog I,
  extends prog (preludeMem (flags enc bvptr) P) -> P = 32 \/ P = 64 ->
  forall n R r res p cmp swp V wc ws a x c y, In n INTEGER_SIZES -> 8 <= n -> region_ok enc n R ->
  is_iN n x -> is_iN n c -> is_iN n y -> address bvptr P a -> r (reg R) = Some V -> cell_at enc bvptr P n R V a x -> res <> reg R ->
  evaluates prog I r p (pointer bvptr P a) -> (forall u, evaluates prog I (upd_env r res u) p (pointer bvptr P a)) ->
  (forall u, evaluates prog I (upd_env r res u) cmp wc) -> represents enc n wc c ->
  (forall u, evaluates prog I (upd_env r res u) swp ws) -> represents enc n ws y ->
  (enc = WrappedInteger -> x = c -> evaluates prog I r (load R (intType (flags enc bvptr) n) p) wc) ->
  exists fuel r', run_assigns prog I fuel r (visitAtomicCmpXchgInst R (intType (flags enc bvptr) n) res p cmp swp) = Some r' /\
    updates_cell enc bvptr P n R res a x (cmpxchg_result x c y) r r'.
Proof.
  intros enc bvptr P prog I Hext HP n R r res p cmp swp V wc ws a x c y Hn H8 Hok Hx Hc Hy Ha HV HC Hne Hp Hpu Hcmp Rc Hswp Rs Hwr.
  eapply two_steps; eauto; [unfold cmpxchg_result; destruct (x =? c); assumption|]. intros v Rv Hv Hv'.
  assert (eval_bin BEq v wc = Some (VBool (x =? c))) as Eq.
  { assert (n =? 1 = false) as N1 by lia. destruct enc; cbn in Rv, Rc.
    - subst. cbn. now rewrite Z.eqb_refl.
    - destruct Rv as (zv & -> & Pv), Rc as (zc & -> & Pc). cbn. do 2 f_equal.
      destruct (Z.eqb_spec x c) as [E|E].
      + pose proof (evaluates_det prog I r _ _ _ Hv (Hwr eq_refl E)) as X. injection X as ->. apply Z.eqb_refl.
      + apply Z.eqb_neq. intros ->. congruence.
    - subst. rewrite N1. cbn. do 2 f_equal. destruct (Z.eqb_spec x c) as [->|E]; [apply Z.eqb_refl|].
      apply Z.eqb_neq. intros X. apply E. apply (signed_eq_iff n); auto. lia. }
  unfold cmpxchg_result. destruct (x =? c).
  - exists ws. split; [|exact Rs]. eapply ev_ite; [eapply ev_bin; [exact Hv'|apply Hcmp|exact Eq]|apply Hswp].
  - exists v. split; [|exact Rv]. eapply ev_ite; [eapply ev_bin; [exact Hv'|apply Hcmp|exact Eq]|exact Hv'].
Qed.
Print Assumptions C43_cmpxchg.

(** The success flag is lost: it is read from the result register with an uninterpreted
    function, and that register holds the old value only.  For every interpretation
    an exchange that succeeds and one that fails on the same cell have the same flag
    (and so has the extracted old value, whatever it is). *)
Theorem C43_flag_refuted : forall prog I fuel fuel' r R t tf res flag p idx cmp1 swp1 cmp2 swp2 r1 r2,
  extends prog [extractValue tf] -> res <> reg R -> flag <> res -> flag <> reg R ->
  run_assigns prog I fuel r (visitAtomicCmpXchgInst R t res p cmp1 swp1 ++ visitExtractValueInst flag (EVar res) tf idx) = Some r1 ->
  run_assigns prog I fuel' r (visitAtomicCmpXchgInst R t res p cmp2 swp2 ++ visitExtractValueInst flag (EVar res) tf idx) = Some r2 ->
  r1 flag = r2 flag.
Proof.
  intros prog I fuel fuel' r R t tf res flag p idx cmp1 swp1 cmp2 swp2 r1 r2 Hx N1 N2 N3 E1 E2.
  assert (lookup prog (indexedName "$extractvalue" [tf]) = Some (extractValue tf)) as HL.
  { apply Hx. cbn [lookup extractValue uninterpretedOp fd_name]. now rewrite fname_eqb_refl. }
  assert (forall fuel cmp swp r1, run_assigns prog I fuel r (visitAtomicCmpXchgInst R t res p cmp swp ++ visitExtractValueInst flag (EVar res) tf idx) = Some r1 ->
    exists v w, evaluates prog I r (load R t p) v /\ I (indexedName "$extractvalue" [tf]) [v; VInt idx] = Some w /\ r1 flag = Some w) as H.
  { clear E1 E2. intros fuel0 cmp swp r0 E.
    unfold visitAtomicCmpXchgInst, visitExtractValueInst in E. cbn [List.app run_assigns] in E.
    destruct (eval prog I fuel0 r (load R t p)) as [v|] eqn:Ev; [|discriminate].
    destruct (store R t p (EIte (EBin BEq (load R t p) cmp) swp (load R t p))) as [sx se] eqn:Es.
    assert (sx = reg R) as -> by (unfold store in Es; congruence). cbn [run_assigns] in E.
    destruct (eval prog I fuel0 (upd_env r res v) se) as [V'|]; [|discriminate].
    unfold eval in E at 1. rewrite eval_fun in E. cbn [evals_with eval_with] in E.
    rewrite upd_env_other, upd_env_same in E by exact N1.
    destruct fuel0 as [|k]; [discriminate|]. cbn [eval_call] in E. rewrite HL in E. cbn [fd_attr extractValue uninterpretedOp] in E.
    destruct (I (indexedName "$extractvalue" [tf]) [v; VInt idx]) as [w|] eqn:Ew; [|discriminate]. injection E as <-.
    exists v, w. split; [exists (S k); exact Ev|]. split; [exact Ew|apply upd_env_same]. }
  destruct (H _ _ _ _ E1) as (v1 & w1 & A1 & B1 & D1), (H _ _ _ _ E2) as (v2 & w2 & A2 & B2 & D2).
  rewrite (evaluates_det prog I r _ _ _ A1 A2) in B1. congruence.
Qed.
Print Assumptions C43_flag_refuted.

(** Running, and looking at some variables. *)
Lemma run_look : forall {A} prog I fuel r l (look : env -> A) x,
  option_map look (run_assigns prog I fuel r l) = Some x -> exists r', run_assigns prog I fuel r l = Some r' /\ look r' = x.
Proof. intros A prog I fuel r l look x H. destruct (run_assigns prog I fuel r l) as [r'|]; [|discriminate]. exists r'. split; [reflexivity|]. now injection H. Qed.

(** The two statements are not atomic: in an interleaving of two fetch-and-add of 1 on
    a cell that holds 0 both return 0 (so two threads can draw the same ticket); the
    cell ends as 2, since the second statement reads it again. *)
Definition one (enc : encoding) : expr := match enc with BitVector => EBv 1 32 | _ => EInt 1 end.
Definition num (enc : encoding) (z : Z) : Boogie.val := match enc with BitVector => VBv 32 z | _ => VInt z end.
Definition cellR : region := Region false true "$M.0".
Definition fetch_add (enc : encoding) (bvptr : bool) (res : string) : list (string * expr) :=
  visitAtomicRMWInst RAdd cellR (intType (flags enc bvptr) 32) res (EInt 16) (one enc).
Theorem C43_not_atomic_refuted : forall enc bvptr I, exists l fuel r',
  interleaves (fetch_add enc bvptr "a") (fetch_add enc bvptr "b") l /\
  run_assigns (preludeMem (flags enc bvptr) 64) I fuel (upd_env empty_env "$M.0" (num enc 0)) l = Some r' /\
  r' "a" = Some (num enc 0) /\ r' "b" = Some (num enc 0) /\ r' "$M.0" = Some (num enc 2).
Proof.
  intros enc bvptr I.
  exists [nth 0 (fetch_add enc bvptr "a") ("", EInt 0); nth 0 (fetch_add enc bvptr "b") ("", EInt 0);
          nth 1 (fetch_add enc bvptr "a") ("", EInt 0); nth 1 (fetch_add enc bvptr "b") ("", EInt 0)].
  exists 2%nat.
  match goal with |- context [run_assigns ?p I ?k ?r ?l] =>
    destruct (run_look p I k r l (fun r' => (r' "a", r' "b", r' "$M.0")) (Some (num enc 0), Some (num enc 0), Some (num enc 2))) as (r' & E & L);
    [destruct enc, bvptr; vm_compute; reflexivity|] end.
  exists r'. split; [repeat constructor|]. split; [exact E|]. injection L as L1 L2 L3. auto.
Qed.
Print Assumptions C43_not_atomic_refuted.

(** Wrapped integers: a cell that holds 0 as 2^32 is not equal to the expected 0. *)
Theorem C43_wrapped_cmpxchg_refuted : forall bvptr I, exists fuel r',
  run_assigns (preludeMem (flags WrappedInteger bvptr) 64) I fuel (upd_env empty_env "$M.0" (VInt (2 ^ 32)))
    (visitAtomicCmpXchgInst cellR (NInt 32) "a" (EInt 16) (EInt 0) (EInt 7)) = Some r' /\
  represents WrappedInteger 32 (VInt (2 ^ 32)) 0 /\ cmpxchg_result 0 0 7 = 7 /\
  exists v, r' "$M.0" = Some v /\ ~ represents WrappedInteger 32 v 7.
Proof.
  intros bvptr I. exists 2%nat.
  match goal with |- context [run_assigns ?p I ?k ?r ?l] =>
    destruct (run_look p I k r l (fun r' => r' "$M.0") (Some (VInt (2 ^ 32)))) as (r' & E & L);
    [destruct bvptr; vm_compute; reflexivity|] end.
  exists r'. split; [exact E|].
  split; [exists (2 ^ 32); split; reflexivity|]. split; [reflexivity|]. eexists. split; [exact L|].
  intros (z & X & H). injection X as <-. vm_compute in H. discriminate.
Qed.
Print Assumptions C43_wrapped_cmpxchg_refuted.

(** Unbounded integers: the unsigned maximum of 2^32-1 (held as -1) and 1 becomes 1. *)
Theorem C43_unbounded_umax_refuted : forall bvptr I, exists fuel r',
  run_assigns (preludeMem (flags UnboundedInteger bvptr) 64) I fuel (upd_env empty_env "$M.0" (VInt (-1)))
    (visitAtomicRMWInst RUMax cellR (NInt 32) "a" (EInt 16) (EInt 1)) = Some r' /\
  represents UnboundedInteger 32 (VInt (-1)) (2 ^ 32 - 1) /\ rmw_result RUMax 32 (2 ^ 32 - 1) 1 = 2 ^ 32 - 1 /\
  r' "$M.0" = Some (VInt 1) /\ ~ represents UnboundedInteger 32 (VInt 1) (2 ^ 32 - 1).
Proof.
  intros bvptr I. exists 5%nat.
  match goal with |- context [run_assigns ?p I ?k ?r ?l] =>
    destruct (run_look p I k r l (fun r' => r' "$M.0") (Some (VInt 1))) as (r' & E & L);
    [destruct bvptr; vm_compute; reflexivity|] end.
  exists r'. split; [exact E|].
  split; [reflexivity|]. split; [reflexivity|]. split; [exact L|]. intros H. vm_compute in H. discriminate.
Qed.
Print Assumptions C43_unbounded_umax_refuted.

(** A concrete case: a bytewise region with 0x01020304 at address 100; add 0xFF. *)
Definition aprog : list fdecl := preludeMem (flags BitVector false) 64 ++ [extractValue (NBv 1)].
Definition abytes : Z -> Z := fun q => if q =? 100 then 4 else if q =? 101 then 3 else if q =? 102 then 2 else if q =? 103 then 1 else 0.
Definition astate : env := upd_env empty_env "$M.0" (memory_map false 64 (Some 8) abytes).
Definition aregion : region := Region true false "$M.0".
Example C43_nonvacuous :
  extends aprog (preludeMem (flags BitVector false) 64) /\ region_ok BitVector 32 aregion /\
  cell_at BitVector false 64 32 aregion (memory_map false 64 (Some 8) abytes) 100 16909060 /\
  rmw_exact BitVector (fun _ _ => None) RAdd 32 16909060 255 /\
  exists r', run_assigns aprog (fun _ _ => None) 5 astate (visitAtomicRMWInst RAdd aregion (NBv 32) "r" (EInt 100) (EBv 255 32)) = Some r' /\
    r' "r" = Some (VBv 32 16909060) /\
    match r' "$M.0" with Some (VMap None (Some 8) m') => map m' [99; 100; 101; 102; 103; 104] | _ => [] end = [0; 3; 4; 2; 1; 0].
Proof.
  split; [apply extends_app|]. split; [intros _ _; split; reflexivity|].
  split.
  { cbn. exists abytes. split; [reflexivity|]. split.
    - intros q. unfold abytes. repeat destruct (_ =? _); lia.
    - split; [vm_compute; split; [discriminate|reflexivity]|]. intros i Hi. change (bytes_needed 32) with 4 in Hi.
      assert (i = 0 \/ i = 1 \/ i = 2 \/ i = 3) as [-> | [-> | [-> | ->]]] by lia; reflexivity. }
  split; [exact Logic.I|].
  match goal with |- context [run_assigns ?p ?I ?k ?r ?l] =>
    destruct (run_look p I k r l (fun r' => (r' "r", match r' "$M.0" with Some (VMap None (Some 8) m') => map m' [99; 100; 101; 102; 103; 104] | _ => [] end))
      (Some (VBv 32 16909060), [0; 3; 4; 2; 1; 0])) as (r' & E & L);
    [vm_compute; reflexivity|] end.
  exists r'. split; [exact E|]. injection L as L1 L2. auto.
Qed.
