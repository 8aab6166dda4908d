(** C36: simplification of extractvalue. *)
From Coq Require Import ZArith List Bool Lia ZifyBool.
From Verif.Spec Require Import ByteMemory Aggregates Gep LLVMInt AggProgram.
From Verif.Model Require Import SimplifyExtractValue.
From Verif.Proofs Require Import ByteMem AggregateProofs.
From Verif.Props Require Import AggregateProps GepProps.
Import ListNotations.
Open Scope list_scope.
Open Scope Z_scope.

(** ** Extraction and insertion *)
Lemma element_update : forall l i j w v, 0 <= i -> nth_error l (Z.to_nat i) = Some v ->
  element (Ag (update l (Z.to_nat i) w)) j = if j =? i then Some w else element (Ag l) j.
Proof.
  intros l i j w v Hi Hn. cbn. destruct (0 <=? j) eqn:E; [|destruct (j =? i) eqn:?; [lia|reflexivity]].
  rewrite nth_update by (apply nth_error_Some; congruence). destruct (Nat.eqb (Z.to_nat i) (Z.to_nat j)) eqn:E2; destruct (j =? i) eqn:E3; try reflexivity;
    [apply Nat.eqb_eq in E2; lia|apply Nat.eqb_neq in E2; lia].
Qed.
Lemma insert_inv : forall A i p v w, insertvalue A (i :: p) v = Some w -> exists l x x', A = Ag l /\ 0 <= i /\ nth_error l (Z.to_nat i) = Some x /\
  element A i = Some x /\ insertvalue x p v = Some x' /\ w = Ag (update l (Z.to_nat i) x').
Proof.
  intros [s|l] i p v w H; cbn in H; [discriminate|]. destruct (0 <=? i) eqn:E; [|discriminate]. destruct (nth_error l (Z.to_nat i)) as [x|] eqn:En; [|discriminate].
  destruct (insertvalue x p v) as [x'|] eqn:Ei; [|discriminate]. injection H as <-. exists l, x, x'. cbn. rewrite E, En. repeat split; auto. lia.
Qed.
Lemma extract_insert_app : forall c A ins v w ext, insertvalue A (c ++ ins) v = Some w ->
  extractvalue w (c ++ ext) = match extractvalue A c with
                              | Some x => match insertvalue x ins v with Some y => extractvalue y ext | None => None end
                              | None => None end.
Proof.
  induction c as [|i c IH]; intros A ins v w ext H; cbn [app] in *.
  - cbn [extractvalue]. now rewrite H.
  - apply insert_inv in H as (l & x & x' & -> & Hi & Hn & He & Hx & ->). cbn [extractvalue]. rewrite (element_update l i i x' x Hi Hn), Z.eqb_refl, He.
    now apply IH.
Qed.
Lemma extract_apart : forall idx ins A v w, compare idx ins = None -> insertvalue A ins v = Some w -> extractvalue w idx = extractvalue A idx.
Proof.
  induction idx as [|j idx IH]; intros [|i ins] A v w Hc H; try discriminate. cbn in Hc.
  apply insert_inv in H as (l & x & x' & -> & Hi & Hn & He & Hx & ->). cbn [extractvalue]. rewrite (element_update l i j x' x Hi Hn).
  destruct (j =? i) eqn:E; [|reflexivity]. assert (j = i) as -> by lia. rewrite He. eapply IH; eauto.
Qed.
Lemma compare_some : forall idx ins e i, compare idx ins = Some (e, i) -> exists c, idx = c ++ e /\ ins = c ++ i /\ (e = [] \/ i = []).
Proof.
  induction idx as [|j idx IH]; intros ins e i H.
  - cbn in H. injection H as <- <-. exists []. auto.
  - destruct ins as [|k ins]; cbn in H; [injection H as <- <-; exists []; auto|]. destruct (j =? k) eqn:E; [|discriminate].
    apply IH in H as (c & -> & -> & H). exists (j :: c). assert (j = k) as -> by lia. auto.
Qed.

Lemma nth_repeat' : forall (x : agg) n i, (i < n)%nat -> nth_error (repeat x n) i = Some x.
Proof. intros. now apply nth_error_repeat. Qed.
Lemma extract_family : forall F, (forall n t, F (TArray n t) = Ag (repeat (F t) (Z.to_nat n))) -> (forall k ts, F (TStruct k ts) = Ag (map F ts)) ->
  forall idx t o s, component t idx = Some (o, s) -> extractvalue (F t) idx = Some (F s).
Proof.
  intros F FA FS. induction idx as [|i idx IH]; intros t o s H; cbn in H; [injection H as <- <-; reflexivity|].
  destruct (child t i) as [[o1 t1]|] eqn:E; [|discriminate]. destruct (component t1 idx) as [[o2 s2]|] eqn:E2; [|discriminate]. injection H as <- <-.
  cbn [extractvalue]. assert (element (F t) i = Some (F t1)) as ->; [|eauto].
  destruct t as [b a|n t|k ts]; [discriminate| |].
  - cbn in E. destruct ((0 <=? i) && (i <? n)) eqn:Ei; [|discriminate]. injection E as <- <-. rewrite FA. cbn. replace (0 <=? i) with true by lia. apply nth_repeat'. lia.
  - apply child_struct in E as (Hi & Hn). rewrite FS. cbn. replace (0 <=? i) with true by lia. now apply map_nth_error.
Qed.

(** ** Executions *)
Lemma execs_app : forall P sem p q e m t e2 m2, execs P sem (p ++ q) e m t e2 m2 <->
  exists t1 t2 e1 m1, t = t1 ++ t2 /\ execs P sem p e m t1 e1 m1 /\ execs P sem q e1 m1 t2 e2 m2.
Proof.
  intros P sem. induction p as [|i p IH]; intros q e m t e2 m2; cbn [app].
  - split; [intros H; exists [], t, e, m; repeat split; auto; constructor|]. intros (t1 & t2 & e1 & m1 & -> & H1 & H2). inversion H1; subst. exact H2.
  - split.
    + intros H. inversion H as [|? ? ? ? ta e1 m1 tb ? ? Hi Hr]; subst. apply IH in Hr as (t1 & t2 & e3 & m3 & -> & H1 & H2).
      exists (ta ++ t1), t2, e3, m3. split; [now rewrite app_assoc|]. split; [|exact H2]. econstructor; eauto.
    + intros (t1 & t2 & e1 & m1 & -> & H1 & H2). inversion H1 as [|? ? ? ? ta e3 m3 tb ? ? Hi Hr]; subst. rewrite <- app_assoc.
      econstructor; [exact Hi|]. apply IH. eauto 8.
Qed.
Lemma exec_dest : forall P sem i e m t e1 m1, exec P sem i e m t e1 m1 -> exists v, e1 = upd e (dest i) v.
Proof. intros P sem i e m t e1 m1 H. destruct H; cbn; eauto. Qed.
Lemma execs_frame : forall P sem p e m t e1 m1 x, execs P sem p e m t e1 m1 -> (forall i, In i p -> dest i <> x) -> e1 x = e x.
Proof.
  intros P sem p e m t e1 m1 x H. induction H as [|i p e m t e1 m1 t1 e2 m2 Hi Hr IH]; intros Hd; [reflexivity|].
  rewrite IH by (intros; apply Hd; now right). destruct (exec_dest _ _ _ _ _ _ _ _ Hi) as (v & ->). unfold upd.
  destruct (Nat.eqb x (dest i)) eqn:E; [|reflexivity]. apply Nat.eqb_eq in E. exfalso. apply (Hd i (or_introl eq_refl)). auto.
Qed.
Lemma eval_frame : forall P sem p e m t e1 m1 a, execs P sem p e m t e1 m1 -> (forall i x, In i p -> a = OV x -> dest i <> x) -> eval e1 a = eval e a.
Proof. intros P sem p e m t e1 m1 [c|x] H Hd; [reflexivity|]. cbn. eapply execs_frame; eauto. Qed.

Definition ops_of (i : inst) : list operand :=
  match i with IExtract _ a _ | ILoad _ _ a | IGep _ _ a _ => [a] | IInsert _ a v _ => [a; v] | IOther _ _ ops => ops end.
Lemma uses_ops : forall i x, uses i x <-> In (OV x) (ops_of i).
Proof. intros [d a idx|d a v idx|d t p|d t p idx|d k ops] x; cbn; unfold ovar; intuition congruence. Qed.
Definition map_inst (s : operand -> operand) (i : inst) : inst :=
  match i with
  | IExtract e a idx => IExtract e (s a) idx
  | IInsert e a v idx => IInsert e (s a) (s v) idx
  | ILoad e t p => ILoad e t (s p)
  | IGep e t p idx => IGep e t (s p) idx
  | IOther e k ops => IOther e k (map s ops)
  end.
Lemma subst_map : forall d o i, subst d o i = map_inst (subst_op d o) i.
Proof. intros d o []; reflexivity. Qed.
Lemma map_id_inst : forall i, map_inst (fun a => a) i = i.
Proof. intros []; cbn; try reflexivity. now rewrite map_id. Qed.

Lemma exec_map : forall P sem s i e e' m t m1, (forall a, In a (ops_of i) -> eval e a = eval e' (s a)) ->
  (forall e1, exec P sem i e m t e1 m1 -> exists v, e1 = upd e (dest i) v /\ exec P sem (map_inst s i) e' m t (upd e' (dest i) v) m1) /\
  (forall e1', exec P sem (map_inst s i) e' m t e1' m1 -> exists v, e1' = upd e' (dest i) v /\ exec P sem i e m t (upd e (dest i) v) m1).
Proof.
  intros P sem s i e e' m t m1 H. split; intros e1 Hx.
  - destruct i as [d a idx|d a v idx|d ty p|d ty p idx|d k ops]; inversion Hx; subst; cbn [map_inst ops_of dest] in *.
    + exists v. split; [reflexivity|]. constructor. rewrite <- H by (now left). assumption.
    + exists w. split; [reflexivity|]. constructor. rewrite <- !H by (cbn; auto). assumption.
    + exists v. split; [reflexivity|]. econstructor; eauto. rewrite <- H by (now left). assumption.
    + exists (Sc (Some c)). split; [reflexivity|]. econstructor; eauto. rewrite <- H by (now left). assumption.
    + exists r. split; [reflexivity|]. assert (map (eval e) ops = map (eval e') (map s ops)) as E by (rewrite map_map; apply map_ext_in; auto).
      rewrite E. constructor. now rewrite <- E.
  - destruct i as [d a idx|d a v idx|d ty p|d ty p idx|d k ops]; inversion Hx; subst; cbn [map_inst ops_of dest] in *.
    + exists v. split; [reflexivity|]. constructor. rewrite H by (now left). assumption.
    + exists w. split; [reflexivity|]. constructor. rewrite !H by (cbn; auto). assumption.
    + exists v. split; [reflexivity|]. econstructor; eauto. rewrite H by (now left). assumption.
    + exists (Sc (Some c)). split; [reflexivity|]. econstructor; eauto. rewrite H by (now left). assumption.
    + exists r. split; [reflexivity|]. assert (map (eval e) ops = map (eval e') (map s ops)) as E by (rewrite map_map; apply map_ext_in; auto).
      rewrite <- E. constructor. now rewrite E.
Qed.

(** Names below [f] other than [d] have the same value, and [v] stands for [d]. *)
Definition rel (d : nat) (v : operand) (f : nat) (e e' : env) : Prop :=
  (forall y, y <> d -> (y < f)%nat -> e y = e' y) /\ e d = eval e' v.
Definition below (f : nat) (i : inst) : Prop := (dest i < f)%nat /\ (forall y, uses i y -> (y < f)%nat).
Definition kept (d : nat) (v : operand) (i : inst) : Prop := dest i <> d /\ forall y, v = OV y -> dest i <> y.

Lemma rel_eval : forall d v f e e' a, rel d v f e e' -> (forall y, a = OV y -> (y < f)%nat) -> eval e a = eval e' (subst_op d v a).
Proof.
  intros d v f e e' [c|y] (H1 & H2) Ha; [reflexivity|]. cbn. destruct (Nat.eqb y d) eqn:E; [apply Nat.eqb_eq in E; subst; exact H2|].
  apply Nat.eqb_neq in E. apply H1; [exact E|]. now apply Ha.
Qed.
Lemma rel_upd : forall d v f e e' x w, rel d v f e e' -> x <> d -> (forall y, v = OV y -> x <> y) -> rel d v f (upd e x w) (upd e' x w).
Proof.
  intros d v f e e' x w (H1 & H2) Hd Hv. split.
  - intros y Hy Hf. unfold upd. destruct (Nat.eqb y x); auto.
  - unfold upd at 1. destruct (Nat.eqb d x) eqn:E; [apply Nat.eqb_eq in E; congruence|]. rewrite H2. destruct v as [c|y]; [reflexivity|]. cbn. unfold upd.
    destruct (Nat.eqb y x) eqn:E2; [|reflexivity]. apply Nat.eqb_eq in E2. exfalso. now apply (Hv y).
Qed.

Lemma subst_execs : forall P sem d v f q e e' m t m2, Forall (below f) q -> Forall (kept d v) q -> rel d v f e e' ->
  (exists e2, execs P sem q e m t e2 m2) <-> (exists e2, execs P sem (map (subst d v) q) e' m t e2 m2).
Proof.
  intros P sem d v f. induction q as [|i q IH]; intros e e' m t m2 Hb Hk Hr.
  - split; intros (e2 & H); inversion H; subst; eexists; constructor.
  - inversion Hb as [|? ? (B1 & B2) Hb']; subst. inversion Hk as [|? ? (K1 & K2) Hk']; subst. cbn [map]. rewrite subst_map.
    assert (forall a, In a (ops_of i) -> eval e a = eval e' (subst_op d v a)) as Hops.
    { intros a Ha. apply (rel_eval d v f); [exact Hr|]. intros y ->. apply B2. now apply uses_ops. }
    split; intros (e2 & H); inversion H as [|? ? ? ? ta e1 m1 tb ? ? Hi Hx]; subst.
    + destruct (proj1 (exec_map P sem (subst_op d v) i e e' m ta m1 Hops) e1 Hi) as (w & -> & Hi').
      destruct (proj1 (IH _ _ m1 tb m2 Hb' Hk' (rel_upd _ _ _ _ _ _ w Hr K1 K2)) (ex_intro _ e2 Hx)) as (e3 & H3). exists e3. econstructor; eauto.
    + destruct (proj2 (exec_map P sem (subst_op d v) i e e' m ta m1 Hops) e1 Hi) as (w & -> & Hi').
      destruct (proj2 (IH _ _ m1 tb m2 Hb' Hk' (rel_upd _ _ _ _ _ _ w Hr K1 K2)) (ex_intro _ e2 Hx)) as (e3 & H3). exists e3. econstructor; eauto.
Qed.

(** ** Static single assignment *)
Lemma ssa_app : forall p q, ssa (p ++ q) <-> ssa p /\ ssa q /\ forall i j, In i p -> In j q -> dest j <> dest i /\ ~ uses i (dest j).
Proof.
  induction p as [|i p IH]; intros q; cbn [app ssa].
  - split; [intros H; repeat split; auto; contradiction|]. intros (_ & H & _). exact H.
  - rewrite IH. split.
    + intros (H1 & H2 & H3 & H4 & H5). split; [split; [intros j Hj; apply H1, in_or_app; auto|split; [|exact H3]]|].
      { intros j [<-|Hj]; [apply H2; now left|apply H2; right; apply in_or_app; auto]. }
      split; [exact H4|]. intros a b [<-|Ha] Hb; [|auto]. split; [apply H1, in_or_app; auto|apply H2; right; apply in_or_app; auto].
    + intros ((H1 & H2 & H3) & H4 & H5). split; [|split; [|split; [exact H3|split; [exact H4|]]]].
      * intros j Hj. apply in_app_or in Hj as [Hj|Hj]; [auto|]. apply (H5 i j); [now left|exact Hj].
      * intros j [<-|Hj]; [apply H2; now left|]. apply in_app_or in Hj as [Hj|Hj]; [apply H2; now right|]. apply (H5 i j); [now left|exact Hj].
      * intros a b Ha Hb. apply H5; [now right|exact Hb].
Qed.
Lemma dest_subst : forall d v i, dest (subst d v i) = dest i.
Proof. intros d v []; reflexivity. Qed.
Lemma uses_subst : forall d v i x, uses (subst d v i) x -> (uses i x /\ x <> d) \/ v = OV x.
Proof.
  intros d v i x H. rewrite subst_map in H. apply uses_ops in H.
  assert (exists a, In a (ops_of i) /\ OV x = subst_op d v a) as (a & Ha & E).
  { destruct i as [e a idx|e a w idx|e t p|e t p idx|e k ops]; cbn in *.
    - destruct H as [H|[]]; eauto.
    - destruct H as [H|[H|[]]]; eauto.
    - destruct H as [H|[]]; eauto.
    - destruct H as [H|[]]; eauto.
    - apply in_map_iff in H as (a & E & Ha). eauto. }
  destruct a as [c|y]; cbn in E; [discriminate|]. destruct (Nat.eqb y d) eqn:Ey; [auto|]. left. injection E as <-. apply Nat.eqb_neq in Ey.
  split; [now apply uses_ops|exact Ey].
Qed.
Lemma ssa_subst : forall d v q, ssa q -> (forall i y, In i q -> v = OV y -> dest i <> y) -> ssa (map (subst d v) q).
Proof.
  intros d v. induction q as [|i q IH]; intros H Hv; [exact I|]. cbn [map ssa] in *. destruct H as (H1 & H2 & H3). split; [|split; [|apply IH; auto; intros; eapply Hv; eauto; now right]].
  - intros j Hj. apply in_map_iff in Hj as (k & <- & Hk). rewrite !dest_subst. auto.
  - intros j Hj Hu. assert (exists k, In k (i :: q) /\ dest j = dest k) as (k & Hk & Ek).
    { destruct Hj as [<-|Hj]; [exists i; rewrite dest_subst; split; [now left|auto]|]. apply in_map_iff in Hj as (k & <- & Hk). exists k. rewrite dest_subst. split; [now right|auto]. }
    apply uses_subst in Hu as [(Hu & _)|Hu]; [rewrite Ek in Hu; now apply (H2 k)|]. apply (Hv k (dest j)); auto.
Qed.

Lemma fresh_below : forall f p, fresh f p -> Forall (below f) p.
Proof. intros f p H. apply Forall_forall. exact H. Qed.
Lemma fresh_app : forall f p q, fresh f (p ++ q) <-> fresh f p /\ fresh f q.
Proof.
  intros f p q. split; [intros H; split; intros i Hi; apply H, in_or_app; auto|]. intros (H1 & H2) i Hi. apply in_app_or in Hi as [Hi|Hi]; auto.
Qed.

Lemma ssa_replace : forall f pre d a idx q b v, ssa (pre ++ IExtract d a idx :: q) -> fresh f (pre ++ IExtract d a idx :: q) ->
  ssa b -> (forall i, In i b -> (f <= dest i)%nat /\ forall j, In j q -> ~ uses i (dest j)) -> (forall i y, In i q -> v = OV y -> dest i <> y) ->
  ssa (pre ++ b ++ map (subst d v) q).
Proof.
  intros f pre d a idx q b v Hs Hf Hb Hb2 Hv. apply ssa_app in Hs as (S1 & S2 & S3). cbn [ssa] in S2. destruct S2 as (S4 & S5 & S6).
  apply fresh_app in Hf as (F1 & F2). assert (fresh f q) as F3 by (intros i Hi; apply F2; now right).
  apply ssa_app. split; [exact S1|]. split.
  - apply ssa_app. split; [exact Hb|]. split; [now apply ssa_subst|]. intros i j Hi Hj. apply in_map_iff in Hj as (k & <- & Hk). rewrite dest_subst.
    destruct (Hb2 i Hi) as (B1 & B2). destruct (F3 k Hk) as (B3 & _). split; [lia|auto].
  - intros i j Hi Hj. apply in_app_or in Hj as [Hj|Hj].
    + destruct (Hb2 j Hj) as (B1 & _). destruct (F1 i Hi) as (B2 & B3). split; [lia|]. intros Hu. apply B3 in Hu. lia.
    + apply in_map_iff in Hj as (k & <- & Hk). rewrite dest_subst. apply S3; [exact Hi|now right].
Qed.

Lemma run_replace : forall P sem f pre d a idx q b v, ssa (pre ++ IExtract d a idx :: q) -> fresh f (pre ++ IExtract d a idx :: q) ->
  (forall i y, In i q -> v = OV y -> dest i <> y) ->
  (forall e0 m0 t e m, execs P sem pre e0 m0 t e m ->
     (forall u, extractvalue (eval e a) idx = Some u -> exists e', execs P sem b e m [] e' m /\ rel d v f (upd e d u) e') /\
     (forall t' e' m', execs P sem b e m t' e' m' -> t' = [] /\ m' = m /\ exists u, extractvalue (eval e a) idx = Some u /\ rel d v f (upd e d u) e')) ->
  forall e m t m2, (exists e2, execs P sem (pre ++ IExtract d a idx :: q) e m t e2 m2) <-> (exists e2, execs P sem (pre ++ b ++ map (subst d v) q) e m t e2 m2).
Proof.
  intros P sem f pre d a idx q b v Hs Hf Hv H e m t m2. apply ssa_app in Hs as (_ & S2 & _). cbn [ssa] in S2. destruct S2 as (S4 & _ & _).
  apply fresh_app in Hf as (_ & F2). assert (Forall (below f) q) as F3 by (apply Forall_forall; intros i Hi; apply F2; now right).
  assert (Forall (kept d v) q) as Hk. { apply Forall_forall. intros i Hi. split; [now apply (S4 i)|]. intros y Hy. now apply (Hv i y). }
  split; intros (e2 & Hx).
  - apply execs_app in Hx as (t1 & t2 & e1 & m1 & -> & H1 & H2). inversion H2 as [|? ? ? ? ta e3 m3 tb ? ? Hi Hx]; subst. inversion Hi; subst.
    destruct (H _ _ _ _ _ H1) as (HA & _). match goal with E : extractvalue _ _ = Some ?u |- _ => destruct (HA u E) as (e' & Hb & Hr) end.
    destruct (proj1 (subst_execs P sem d v f q _ _ m3 tb m2 F3 Hk Hr) (ex_intro _ e2 Hx)) as (e4 & H4).
    exists e4. apply execs_app. exists t1, tb, e1, m3. split; [reflexivity|]. split; [exact H1|]. apply execs_app. exists [], tb, e', m3. auto.
  - apply execs_app in Hx as (t1 & t2 & e1 & m1 & -> & H1 & H2). apply execs_app in H2 as (t3 & t4 & e3 & m3 & -> & H3 & H4).
    destruct (H _ _ _ _ _ H1) as (_ & HB). destruct (HB _ _ _ H3) as (-> & -> & u & Hu & Hr).
    destruct (proj2 (subst_execs P sem d v f q _ _ m1 t4 m2 F3 Hk Hr) (ex_intro _ e2 H4)) as (e5 & H5).
    exists e5. apply execs_app. exists t1, t4, e1, m1. split; [reflexivity|]. split; [exact H1|]. change t4 with ([] ++ t4). econstructor; [|exact H5]. now constructor.
Qed.

Lemma agree_execs : forall P sem f r e e' m t e2 m2, Forall (below f) r -> (forall y, (y < f)%nat -> e y = e' y) -> execs P sem r e m t e2 m2 ->
  exists e2', execs P sem r e' m t e2' m2 /\ (forall y, (y < f)%nat -> e2 y = e2' y).
Proof.
  intros P sem f. induction r as [|i r IH]; intros e e' m t e2 m2 Hb Ha H; inversion H as [|? ? ? ? ta e1 m1 tb ? ? Hi Hx]; subst.
  - exists e'. split; [constructor|exact Ha].
  - inversion Hb as [|? ? (B1 & B2) Hb']; subst.
    destruct (proj1 (exec_map P sem (fun a => a) i e e' m ta m1 ltac:(intros [c|y] Hin; [reflexivity|apply Ha, B2; now apply uses_ops])) e1 Hi) as (w & -> & Hi').
    rewrite map_id_inst in Hi'. destruct (IH (upd e (dest i) w) (upd e' (dest i) w) m1 tb e2 m2 Hb') as (e2' & H1 & H2); [|exact Hx|].
    { intros y Hy. unfold upd. destruct (Nat.eqb y (dest i)); auto. }
    exists e2'. split; [econstructor; eauto|exact H2].
Qed.

(** ** Objects in memory *)
Lemma walk_component : forall idx t o s, ty_ok t -> Forall (fun k => 0 <= k < 2 ^ 31) idx -> component t idx = Some (o, s) -> walk t (map i32 idx) = Some (o, s).
Proof.
  induction idx as [|i idx IH]; intros t o s Hok Hi H; [exact H|]. inversion Hi as [|? ? H1 H2]; subst. cbn [component] in H.
  destruct (child t i) as [[o1 t1]|] eqn:E; [|discriminate]. destruct (component t1 idx) as [[o2 s2]|] eqn:E2; [|discriminate]. injection H as <- <-.
  assert (i32 i = i) as Ei by (apply signed_pat_id; cbn; lia).
  assert (step_in t i = Some (o1, t1)) as Es.
  { destruct t as [b a|n t|k ts]; [discriminate| |exact E]. cbn in E |- *. destruct ((0 <=? i) && (i <? n)); [|discriminate]. exact E. }
  cbn [map walk]. rewrite Ei, Es. destruct (child_facts t i o1 t1 Hok E) as (_ & _ & _ & Hok1 & _). now rewrite (IH t1 o2 s2 Hok1 H2 E2).
Qed.
Lemma component_app : forall p t q o s o' s', component t p = Some (o, s) -> component s q = Some (o', s') -> component t (p ++ q) = Some (o + o', s').
Proof.
  induction p as [|i p IH]; intros t q o s o' s' H H'; cbn in *; [injection H as <- <-; now rewrite H'|].
  destruct (child t i) as [[o1 t1]|]; [|discriminate]. destruct (component t1 p) as [[o2 s2]|] eqn:E; [|discriminate]. injection H as <- <-.
  rewrite (IH t1 q o2 s2 o' s' E H'). do 2 f_equal. lia.
Qed.
Lemma extract_app : forall p v q, extractvalue v (p ++ q) = match extractvalue v p with Some w => extractvalue w q | None => None end.
Proof. induction p as [|i p IH]; intros v q; cbn; [reflexivity|]. destruct (element v i); auto. Qed.
Lemma object_component : forall m b t w idx o s, object_value m b t w -> component t idx = Some (o, s) ->
  exists u, extractvalue w idx = Some u /\ object_value m (b + o) s u.
Proof.
  intros m b t w idx o s (H1 & H2) Hc. destruct (shaped_component idx t w o s H1 Hc) as (u & Hu & Hsu). exists u. split; [exact Hu|]. split; [exact Hsu|].
  intros p o' bits (a & Hp). destruct (H2 (idx ++ p) (o + o') bits) as (z & Hz1 & Hz2); [exists a; eapply component_app; eauto|].
  exists z. rewrite extract_app, Hu in Hz1. split; [exact Hz1|]. now replace (b + o + o') with (b + (o + o')) by lia.
Qed.

(** ** One replacement *)
Lemma rel_intro : forall d v f e e' u, (forall y, (y < f)%nat -> e' y = e y) -> eval e' v = u -> rel d v f (upd e d u) e'.
Proof.
  intros d v f e e' u H1 H2. split.
  - intros y Hy Hf. unfold upd. replace (Nat.eqb y d) with false by (symmetry; now apply Nat.eqb_neq). now rewrite H1.
  - unfold upd. now rewrite Nat.eqb_refl.
Qed.
Lemma upd_same : forall e x v, upd e x v x = v.
Proof. intros. unfold upd. now rewrite Nat.eqb_refl. Qed.
Lemma upd_other : forall e x v y, y <> x -> upd e x v y = e y.
Proof. intros. unfold upd. now replace (Nat.eqb y x) with false by (symmetry; now apply Nat.eqb_neq). Qed.

Lemma exists_fresh : forall p, exists f, fresh f p.
Proof.
  induction p as [|i p (f & IH)]; [exists O; intros i []|].
  set (g := fold_right (fun o n => match o with OV y => Nat.max (S y) n | OC _ => n end) (Nat.max (S (dest i)) f) (ops_of i)).
  assert ((Nat.max (S (dest i)) f <= g)%nat /\ forall y, In (OV y) (ops_of i) -> (y < g)%nat) as (G1 & G2).
  { unfold g. induction (ops_of i) as [|o l (IH1 & IH2)]; cbn [fold_right In]; [split; [lia|contradiction]|]. split; [destruct o; lia|].
    intros y [->|Hy]; [lia|]. specialize (IH2 y Hy). destruct o; lia. }
  exists g. intros j [<-|Hj]; [split; [lia|intros y Hy; apply G2; now apply uses_ops]|]. destruct (IH j Hj) as (H1 & H2). split; [lia|]. intros y Hy. specialize (H2 y Hy). lia.
Qed.

(** Execution of single extractions and insertions. *)
Lemma exec1 : forall P sem i e m t e' m', execs P sem [i] e m t e' m' <-> exec P sem i e m t e' m'.
Proof.
  intros. split.
  - intros H. inversion H as [|? ? ? ? ta e1 m1 tb ? ? Hi Hx]; subst. inversion Hx; subst. now rewrite app_nil_r.
  - intros H. rewrite <- (app_nil_r t). econstructor; [exact H|constructor].
Qed.
Lemma extract1 : forall P sem d v f a idx e m b op ext,
  (forall u, extractvalue (eval e a) idx = Some u <-> extractvalue (eval e op) ext = Some u) -> b = [IExtract f op ext] -> v = OV f ->
  (forall u, extractvalue (eval e a) idx = Some u -> exists e', execs P sem b e m [] e' m /\ rel d v f (upd e d u) e') /\
  (forall t' e' m', execs P sem b e m t' e' m' -> t' = [] /\ m' = m /\ exists u, extractvalue (eval e a) idx = Some u /\ rel d v f (upd e d u) e').
Proof.
  intros P sem d v f a idx e m b op ext H -> ->. split.
  - intros u Hu. exists (upd e f u). split; [apply exec1; constructor; now apply H|]. apply rel_intro; [|apply upd_same]. intros y Hy. apply upd_other. lia.
  - intros t' e' m' Hx. apply exec1 in Hx. inversion Hx; subst. split; [reflexivity|]. split; [reflexivity|]. exists v. split; [now apply H|].
    apply rel_intro; [|apply upd_same]. intros y Hy. apply upd_other. lia.
Qed.
Lemma extract0 : forall P sem d v f a idx e m u0, extractvalue (eval e a) idx = Some u0 -> eval e v = u0 ->
  (forall u, extractvalue (eval e a) idx = Some u -> exists e', execs P sem [] e m [] e' m /\ rel d v f (upd e d u) e') /\
  (forall t' e' m', execs P sem [] e m t' e' m' -> t' = [] /\ m' = m /\ exists u, extractvalue (eval e a) idx = Some u /\ rel d v f (upd e d u) e').
Proof.
  intros P sem d v f a idx e m u0 H Hv. split.
  - intros u Hu. exists e. split; [constructor|]. apply rel_intro; [reflexivity|congruence].
  - intros t' e' m' Hx. inversion Hx; subst. split; [reflexivity|]. split; [reflexivity|]. eexists. split; [exact H|]. now apply rel_intro.
Qed.
Lemma extract_insert1 : forall P sem d v f a idx e m A V ins x0, eval e V = x0 -> (forall y, V = OV y -> (y < f)%nat) ->
  extractvalue (eval e a) idx = match extractvalue (eval e A) idx with Some x => insertvalue x ins x0 | None => None end -> v = OV (S f) ->
  let b := [IExtract f A idx; IInsert (S f) (OV f) V ins] in
  (forall u, extractvalue (eval e a) idx = Some u -> exists e', execs P sem b e m [] e' m /\ rel d v f (upd e d u) e') /\
  (forall t' e' m', execs P sem b e m t' e' m' -> t' = [] /\ m' = m /\ exists u, extractvalue (eval e a) idx = Some u /\ rel d v f (upd e d u) e').
Proof.
  intros P sem d v f a idx e m A V ins x0 HV HVf H -> b.
  assert (forall w, eval (upd e f w) V = x0) as HV'.
  { intros w. destruct V as [c|y]; [exact HV|]. cbn. rewrite upd_other; [exact HV|]. specialize (HVf y eq_refl). lia. }
  split.
  - intros u Hu. rewrite H in Hu. destruct (extractvalue (eval e A) idx) as [x|] eqn:Ex; [|discriminate].
    exists (upd (upd e f x) (S f) u). split.
    + change (@nil event) with (@nil event ++ []). econstructor; [constructor; exact Ex|]. apply exec1. constructor. cbn [eval]. rewrite upd_same, HV'. exact Hu.
    + apply rel_intro; [|apply upd_same]. intros y Hy. rewrite !upd_other by lia. reflexivity.
  - intros t' e' m' Hx. inversion Hx as [|? ? ? ? ta e1 m1 tb ? ? Hi Hr]; subst. apply exec1 in Hr. inversion Hi; subst. inversion Hr; subst.
    split; [reflexivity|]. split; [reflexivity|].
    match goal with E : insertvalue _ _ _ = Some ?w, E2 : extractvalue _ _ = Some ?x |- _ => exists w; cbn [eval] in E; rewrite upd_same, HV' in E; split; [rewrite H, E2; exact E|] end.
    apply rel_intro; [|apply upd_same]. intros y Hy. rewrite !upd_other by lia. reflexivity.
Qed.

Definition equivalent (P : Z) (p p' : list inst) : Prop :=
  forall sem e m t m2, (exists e2, execs P sem p e m t e2 m2) <-> (exists e2, execs P sem p' e m t e2 m2).

Lemma proper_subst : forall d v i, proper i -> proper (subst d v i).
Proof. intros d v []; cbn; auto. Qed.
Lemma proper_replace : forall pre i b d v q, Forall proper (pre ++ i :: q) -> Forall proper b -> Forall proper (pre ++ b ++ map (subst d v) q).
Proof.
  intros pre i b d v q H Hb. apply Forall_app in H as (H1 & H2). inversion H2; subst. apply Forall_app. split; [exact H1|]. apply Forall_app. split; [exact Hb|].
  apply Forall_map. eapply Forall_impl; [|eassumption]. intros. now apply proper_subst.
Qed.

Lemma step_const : forall P p d c idx q f b v, ssa (p ++ IExtract d (OC c) idx :: q) -> Forall proper (p ++ IExtract d (OC c) idx :: q) ->
  fresh f (p ++ IExtract d (OC c) idx :: q) -> from_const f c idx = Some (Rewrite b v) ->
  ssa (p ++ b ++ map (subst d v) q) /\ Forall proper (p ++ b ++ map (subst d v) q) /\
  equivalent P (p ++ IExtract d (OC c) idx :: q) (p ++ b ++ map (subst d v) q).
Proof.
  intros P p d c idx q f b v Hs Hp Hf H.
  assert (Forall (fun k => 0 <= k < 2 ^ 31) idx) as Hidx by (apply Forall_app in Hp as (_ & Hp); now inversion Hp).
  assert (fresh f q) as Fq by (apply fresh_app in Hf as (_ & Hf); intros i Hi; apply Hf; now right).
  assert ((exists u, b = [] /\ v = OC u /\ extractvalue (cval c) idx = Some (cval u)) \/
          (exists V idx', b = [IExtract f (OC V) idx'] /\ v = OV f /\ Forall (fun k => 0 <= k < 2 ^ 31) idx' /\
             extractvalue (cval c) idx = extractvalue (cval V) idx')) as [(u & -> & -> & E)|(V & idx' & -> & -> & Hi' & E)].
  { unfold from_const in H. destruct idx as [|i idx]; [injection H as <- <-; left; exists c; auto|]. destruct c as [t|t|l|w]; [| | |discriminate].
    - left. unfold sub_type in H. destruct (component t (i :: idx)) as [[o s]|] eqn:Ec; [|discriminate]. injection H as <- <-. exists (CUndef s). repeat split; auto.
      apply (extract_family undef) with (o := o); auto.
    - left. unfold sub_type in H. destruct (component t (i :: idx)) as [[o s]|] eqn:Ec; [|discriminate]. injection H as <- <-. exists (CZero s). repeat split; auto.
      apply (extract_family zero) with (o := o); auto.
    - destruct (0 <=? i) eqn:E0; [|discriminate]. destruct (nth_error l (Z.to_nat i)) as [V|] eqn:En; [|discriminate].
      assert (extractvalue (cval (CAgg l)) (i :: idx) = extractvalue (cval V) idx) as Ex.
      { cbn [cval extractvalue element]. rewrite E0, (map_nth_error cval _ _ En). reflexivity. }
      destruct idx as [|j idx]; injection H as <- <-; [left; exists V; rewrite Ex; auto|right; exists V, (j :: idx); inversion Hidx; auto]. }
  - split; [|split].
    + eapply ssa_replace; eauto; [exact I|intros i []|discriminate].
    + eapply proper_replace; eauto.
    + intros sem. eapply run_replace; eauto; [discriminate|]. intros e0 m0 t e m _. apply extract0 with (u0 := cval u); [exact E|reflexivity].
  - split; [|split].
    + eapply ssa_replace; eauto.
      * cbn. split; [contradiction|]. split; [|exact I]. intros j _. unfold ovar. discriminate.
      * intros i [<-|[]]. split; [cbn; lia|]. intros j _. cbn. unfold ovar. discriminate.
      * intros i y Hi Hy. injection Hy as <-. destruct (Fq i Hi). lia.
    + eapply proper_replace; [eassumption|]. constructor; [exact Hi'|constructor].
    + intros sem. eapply run_replace; eauto.
      * intros i y Hi Hy. injection Hy as <-. destruct (Fq i Hi). lia.
      * intros e0 m0 t e m _. eapply extract1; [|reflexivity|reflexivity]. intros u. cbn [eval]. rewrite E. tauto.
Qed.

Lemma step_empty : forall P p d x q, ssa (p ++ IExtract d (OV x) [] :: q) -> Forall proper (p ++ IExtract d (OV x) [] :: q) ->
  ssa (p ++ map (subst d (OV x)) q) /\ Forall proper (p ++ map (subst d (OV x)) q) /\
  equivalent P (p ++ IExtract d (OV x) [] :: q) (p ++ map (subst d (OV x)) q).
Proof.
  intros P p d x q Hs Hp. destruct (exists_fresh (p ++ IExtract d (OV x) [] :: q)) as (f & Hf).
  assert (forall i y, In i q -> OV x = OV y -> dest i <> y) as Hx.
  { intros i y Hi E. injection E as <-. intros E. apply ssa_app in Hs as (_ & (_ & H & _) & _). apply (H i); [now right|]. cbn. unfold ovar. congruence. }
  change (map (subst d (OV x)) q) with ([] ++ map (subst d (OV x)) q). split; [|split].
  - eapply ssa_replace; eauto; [exact I|intros i []].
  - eapply proper_replace; eauto.
  - intros sem. eapply run_replace; eauto. intros e0 m0 t e m _. eapply extract0; reflexivity.
Qed.

Lemma step_insert : forall P p x A V ins r d idx q f b v,
  let prog := p ++ IInsert x A V ins :: r ++ IExtract d (OV x) idx :: q in
  let prog' := p ++ IInsert x A V ins :: r ++ b ++ map (subst d v) q in
  ssa prog -> Forall proper prog -> fresh f prog -> from_insert f A V ins idx = Some (Rewrite b v) ->
  ssa prog' /\ Forall proper prog' /\ equivalent P prog prog'.
Proof.
  intros P p x A V ins r d idx q f b v prog prog' Hs Hp Hf H.
  assert (prog = (p ++ IInsert x A V ins :: r) ++ IExtract d (OV x) idx :: q) as E1 by (unfold prog; now rewrite <- app_assoc).
  assert (prog' = (p ++ IInsert x A V ins :: r) ++ b ++ map (subst d v) q) as E2 by (unfold prog'; now rewrite <- app_assoc).
  set (pre := p ++ IInsert x A V ins :: r) in *. rewrite E1 in Hs, Hp, Hf |- *. rewrite E2. clear prog prog' E1 E2.
  assert (Forall (fun k => 0 <= k < 2 ^ 31) idx) as Hidx by (apply Forall_app in Hp as (_ & Hp'); now inversion Hp').
  assert (fresh f q) as Fq by (apply fresh_app in Hf as (_ & Hf'); intros i Hi; apply Hf'; now right).
  assert (fresh f pre) as Fp by (now apply fresh_app in Hf as (Hf' & _)).
  (* operands of the insert are not redefined after it *)
  pose proof Hs as Hs'. unfold pre in Hs'. rewrite <- app_assoc in Hs'. cbn [app] in Hs'. apply ssa_app in Hs' as (_ & (N1 & N2 & _) & _). cbn [dest] in N1, N2.
  assert (forall o y j, o = A \/ o = V -> o = OV y -> In j (r ++ IExtract d (OV x) idx :: q) -> dest j <> y) as Nops.
  { intros o y j Ho -> Hj E. apply (N2 j); [now right|]. cbn. unfold ovar. destruct Ho as [<-|<-]; rewrite E; auto. }
  assert (forall o y, o = A \/ o = V -> o = OV y -> (y < f)%nat) as Nf.
  { intros o y Ho ->. destruct (Fp (IInsert x A V ins)) as (_ & F); [unfold pre; apply in_or_app; right; now left|]. apply F. cbn. unfold ovar. destruct Ho as [<-|<-]; auto. }
  (* the equation of the insert holds at the extraction *)
  assert (forall sem e0 m0 t e m, execs P sem pre e0 m0 t e m -> insertvalue (eval e A) ins (eval e V) = Some (e x)) as Heq.
  { intros sem e0 m0 t e m Hx. unfold pre in Hx. apply execs_app in Hx as (t1 & t2 & e1 & m1 & _ & _ & Hx). inversion Hx as [|? ? ? ? ta e2 m2 tb ? ? Hi Hr]; subst. inversion Hi; subst.
    assert (forall o, o = A \/ o = V -> eval e o = eval e1 o) as Ho.
    { intros o Ho. rewrite (eval_frame _ _ _ _ _ _ _ _ o Hr).
      - destruct o as [c|y]; [reflexivity|]. cbn. apply upd_other. intros ->. apply (N2 (IInsert x A V ins)); [now left|]. cbn. unfold ovar. destruct Ho as [<-|<-]; auto.
      - intros i y Hi' ->. apply (Nops (OV y) y i Ho eq_refl). apply in_or_app. now left. }
    rewrite (Ho A), (Ho V) by auto. rewrite (execs_frame _ _ _ _ _ _ _ _ x Hr), upd_same; [assumption|]. intros i Hi'. apply N1, in_or_app. now left. }
  assert (forall i o y, In i q -> o = A \/ o = V -> o = OV y -> dest i <> y) as Nq.
  { intros i o y Hi Ho E. apply (Nops o y i Ho E). apply in_or_app. right. now right. }
  assert (forall i y, In i q -> OV f = OV y -> dest i <> y) as Nfr by (intros i y Hi E; injection E as <-; destruct (Fq i Hi); lia).
  unfold from_insert in H. destruct (compare idx ins) as [[ext' ins']|] eqn:Ec.
  - apply compare_some in Ec as (c & -> & -> & Hor). destruct ext' as [|j ext'].
    + rewrite app_nil_r in *. destruct ins' as [|k ins'].
      * injection H as <- <-. rewrite app_nil_r in *. split; [|split].
        -- eapply ssa_replace; [exact Hs|exact Hf|exact I|intros i []|]. intros i y Hi E. eapply Nq; eauto.
        -- eapply proper_replace; eauto.
        -- intros sem. eapply run_replace; [exact Hs|exact Hf|intros i y Hi E; eapply Nq; eauto|]. intros e0 m0 t e m Hx. specialize (Heq _ _ _ _ _ _ Hx).
           apply extract0 with (u0 := eval e V); [|reflexivity]. cbn [eval]. rewrite <- (app_nil_r c) in Heq. rewrite <- (app_nil_r c) at 1.
           rewrite (extract_insert_app _ _ _ _ _ [] Heq). destruct (extractvalue (eval e A) c) eqn:Ex; [reflexivity|].
           exfalso. rewrite app_nil_r in Heq. clear - Heq Ex. revert A Heq Ex. generalize (eval e V). generalize (e x). intros w v0 A Heq Ex. revert Heq Ex.
           generalize (eval e A). revert w. induction c as [|i c IH]; intros w a Heq Ex; [discriminate|]. apply insert_inv in Heq as (l & y & y' & -> & H1 & H2 & H3 & H4 & H5).
           cbn [extractvalue] in Ex. rewrite H3 in Ex. eapply IH; eauto.
      * injection H as <- <-. split; [|split].
        -- eapply ssa_replace; [exact Hs|exact Hf| | |].
           ++ cbn. unfold ovar. split; [intros j [<-|[]]; cbn; lia|]. split; [|split; [contradiction|split; [|exact I]]].
              ** intros j [<-|[<-|[]]]; cbn; intros ->; [specialize (Nf (OV f) f ltac:(auto) eq_refl)|specialize (Nf (OV (S f)) (S f) ltac:(auto) eq_refl)]; lia.
              ** intros j [<-|[]]; cbn; intros [E|E]; [injection E; lia|]. specialize (Nf V (S f) ltac:(auto) E). lia.
           ++ intros i [<-|[<-|[]]]; (split; [cbn; lia|]); intros j Hj; cbn; unfold ovar.
              ** intros E. now apply (Nq j A (dest j) Hj ltac:(auto) E).
              ** intros [E|E]; [injection E as E; destruct (Fq j Hj); lia|]. now apply (Nq j V (dest j) Hj ltac:(auto) E).
           ++ intros i y Hi E. injection E as <-. destruct (Fq i Hi). lia.
        -- eapply proper_replace; [eassumption|]. (repeat (constructor; [first [exact Hidx|exact I]|])); constructor.
        -- intros sem. eapply run_replace; [exact Hs|exact Hf|intros i y Hi E; injection E as <-; destruct (Fq i Hi); lia|]. intros e0 m0 t e m Hx. specialize (Heq _ _ _ _ _ _ Hx).
           apply extract_insert1 with (x0 := eval e V); [reflexivity|intros y Hy; apply (Nf V); auto| |reflexivity].
           cbn [eval]. rewrite <- (app_nil_r c) at 1. rewrite (extract_insert_app _ _ _ _ _ [] Heq). destruct (extractvalue (eval e A) c) as [z|]; [|reflexivity].
           destruct (insertvalue z (k :: ins') (eval e V)); reflexivity.
    + destruct Hor as [Hor| ->]; [discriminate|]. injection H as <- <-. rewrite app_nil_r in *. split; [|split].
      * eapply ssa_replace; [exact Hs|exact Hf| | |exact Nfr].
        -- cbn. unfold ovar. split; [contradiction|]. split; [|exact I]. intros i [<-|[]]. cbn. intros E. specialize (Nf V f ltac:(auto) E). lia.
        -- intros i [<-|[]]. split; [cbn; lia|]. intros k Hk. cbn. unfold ovar. intros E. now apply (Nq k V (dest k) Hk ltac:(auto) E).
      * eapply proper_replace; [eassumption|]. apply Forall_app in Hidx as (_ & Hidx). (repeat (constructor; [first [exact Hidx|exact I]|])); constructor.
      * intros sem. eapply run_replace; [exact Hs|exact Hf|exact Nfr|]. intros e0 m0 t e m Hx. specialize (Heq _ _ _ _ _ _ Hx).
        eapply extract1; [|reflexivity|reflexivity]. intros u. cbn [eval]. rewrite <- (app_nil_r c) in Heq. rewrite (extract_insert_app _ _ _ _ _ (j :: ext') Heq).
        destruct (extractvalue (eval e A) c) eqn:Ex; [reflexivity|].
        exfalso. rewrite app_nil_r in Heq. clear - Heq Ex. revert A Heq Ex. generalize (eval e V). generalize (e x). intros w v0 A Heq Ex. revert Heq Ex.
        generalize (eval e A). revert w. induction c as [|i c IH]; intros w a Heq Ex; [discriminate|]. apply insert_inv in Heq as (l & y & y' & -> & H1 & H2 & H3 & H4 & H5).
        cbn [extractvalue] in Ex. rewrite H3 in Ex. eapply IH; eauto.
  - injection H as <- <-. split; [|split].
    + eapply ssa_replace; [exact Hs|exact Hf| | |exact Nfr].
      * cbn. unfold ovar. split; [contradiction|]. split; [|exact I]. intros i [<-|[]]. cbn. intros E. specialize (Nf A f ltac:(auto) E). lia.
      * intros i [<-|[]]. split; [cbn; lia|]. intros k Hk. cbn. unfold ovar. intros E. now apply (Nq k A (dest k) Hk ltac:(auto) E).
    + eapply proper_replace; [eassumption|]. (repeat (constructor; [first [exact Hidx|exact I]|])); constructor.
    + intros sem. eapply run_replace; [exact Hs|exact Hf|exact Nfr|]. intros e0 m0 t e m Hx. specialize (Heq _ _ _ _ _ _ Hx).
      eapply extract1; [|reflexivity|reflexivity]. intros u. cbn [eval]. now rewrite (extract_apart _ _ _ _ _ Ec Heq).
Qed.

Lemma step_load : forall P p x t Pp r d idx q f b v,
  let prog := p ++ ILoad x t Pp :: r ++ IExtract d (OV x) idx :: q in
  let prog' := p ++ b ++ ILoad x t Pp :: r ++ map (subst d v) q in
  0 <= P -> ssa prog -> Forall proper prog -> fresh f prog -> from_load f t Pp idx = Some (b, v) ->
  ssa prog' /\ Forall proper prog' /\ equivalent P prog prog'.
Proof.
  intros P p x t Pp r d idx q f b v prog prog' HP Hs Hp Hf H.
  unfold from_load, sub_type in H. destruct (component t idx) as [[o s]|] eqn:Ec; [|discriminate]. injection H as <- <-.
  unfold prog in *. clear prog.
  pose proof Hs as Hs'. apply ssa_app in Hs' as (Sp & Sr & Spr). cbn [ssa dest] in Sr. destruct Sr as (N1 & N2 & Sr). apply ssa_app in Sr as (Sr & Sq & Srq).
  cbn [ssa dest] in Sq. destruct Sq as (N3 & N4 & Sq).
  pose proof Hf as Hf'. apply fresh_app in Hf' as (Fp & Fr). assert (fresh f r) as Fr' by (intros i Hi; apply Fr; right; apply in_or_app; auto).
  assert (fresh f q) as Fq by (intros i Hi; apply Fr; right; apply in_or_app; right; now right).
  assert ((x < f)%nat /\ forall y, Pp = OV y -> (y < f)%nat) as (Fx & FP).
  { destruct (Fr (ILoad x t Pp) (or_introl eq_refl)) as (F1 & F2). split; [exact F1|]. intros y Hy. now apply F2. }
  pose proof Hp as Hp'. apply Forall_app in Hp' as (Pp1 & Pp2). inversion Pp2 as [|? ? Hok Pp3]; subst. cbn [proper] in Hok. apply Forall_app in Pp3 as (Pr & Pq).
  inversion Pq as [|? ? Hidx Pq']; subst. cbn [proper] in Hidx.
  destruct (component_ok idx t o s Hok Ec) as (Hoks & Ho1 & Ho2). pose proof (asize_nonneg s Hoks) as Hs0.
  assert (forall i y, In i q -> OV (S f) = OV y -> dest i <> y) as Nfr by (intros i y Hi E; injection E as <-; destruct (Fq i Hi); lia).
  assert (Forall (kept d (OV (S f))) q) as Hk. { apply Forall_forall. intros i Hi. split; [now apply (N3 i)|]. intros y Hy. now apply (Nfr i y). }
  assert (forall a0, pat P (a0 + 0 * asize t + (0 + o)) = pat P (a0 + o)) as Epat by (intros; f_equal; lia).
  split; [|split].
  - unfold prog'. cbn [app]. apply ssa_app. split; [exact Sp|]. split.
    + assert (forall j, In j (ILoad x t Pp :: r ++ map (subst d (OV (S f))) q) -> (dest j < f)%nat) as Dj.
      { intros j [<-|Hj]; [exact Fx|]. apply in_app_or in Hj as [Hj|Hj]; [now apply Fr'|]. apply in_map_iff in Hj as (k & <- & Hk'). rewrite dest_subst. now apply Fq. }
      assert (forall j, In j (ILoad x t Pp :: r ++ map (subst d (OV (S f))) q) -> Pp <> OV (dest j)) as DP.
      { intros j Hj E. assert (exists k, In k (ILoad x t Pp :: r ++ IExtract d (OV x) idx :: q) /\ dest j = dest k) as (k & Hk' & Ek).
        { destruct Hj as [<-|Hj]; [eexists; split; [now left|reflexivity]|]. apply in_app_or in Hj as [Hj|Hj]; [exists j; split; [right; apply in_or_app; auto|auto]|].
          apply in_map_iff in Hj as (k & <- & Hk'). exists k. rewrite dest_subst. split; [right; apply in_or_app; right; now right|reflexivity]. }
        apply (N2 k Hk'). cbn. unfold ovar. congruence. }
      cbn [ssa dest]. split; [|split; [|split; [|split; [|split; [|split]]]]].
      * intros j [<-|Hj]; [cbn; lia|]. specialize (Dj j Hj). lia.
      * intros j Hj. cbn. unfold ovar. destruct Hj as [<-|[<-|Hj]]; [cbn; intros E; specialize (FP f E); lia|cbn; intros E; specialize (FP (S f) E); lia|now apply DP].
      * intros j Hj. specialize (Dj j Hj). lia.
      * intros j Hj. cbn. unfold ovar. destruct Hj as [<-|Hj]; [cbn; intros E; injection E; lia|]. specialize (Dj j Hj). intros E. injection E. lia.
      * intros j Hj. apply in_app_or in Hj as [Hj|Hj]; [apply N1, in_or_app; auto|]. apply in_map_iff in Hj as (k & <- & Hk'). rewrite dest_subst. apply N1, in_or_app. right. now right.
      * intros j Hj. cbn. unfold ovar. now apply DP.
      * apply ssa_app. split; [exact Sr|]. split; [now apply ssa_subst|]. intros i j Hi Hj. apply in_map_iff in Hj as (k & <- & Hk'). rewrite dest_subst. apply Srq; [exact Hi|now right].
    + intros i j Hi Hj. destruct (Fp i Hi) as (F1 & F2). destruct Hj as [<-|[<-|[<-|Hj]]].
      * cbn. split; [lia|]. intros Hu. apply F2 in Hu. lia.
      * cbn. split; [lia|]. intros Hu. apply F2 in Hu. lia.
      * apply Spr; [exact Hi|now left].
      * apply in_app_or in Hj as [Hj|Hj]; [apply Spr; [exact Hi|right; apply in_or_app; auto]|].
        apply in_map_iff in Hj as (k & <- & Hk'). rewrite dest_subst. apply Spr; [exact Hi|right; apply in_or_app; right; now right].
  - unfold prog'. cbn [app]. apply Forall_app. split; [exact Pp1|]. constructor; [exact I|]. constructor; [exact Hoks|]. constructor; [exact Hok|]. apply Forall_app. split; [exact Pr|].
    apply Forall_map. eapply Forall_impl; [|exact Pq']. intros. now apply proper_subst.
  - assert (forall m b w, 0 <= b -> b + asize t < 2 ^ P -> object_value m b t w -> exists u, extractvalue w idx = Some u /\ object_value m (pat P (b + o)) s u /\
             0 <= pat P (b + o) /\ pat P (b + o) + asize s < 2 ^ P /\ gep_address P b t (map i32 (0 :: idx)) = Some (pat P (b + o))) as Hobj.
    { intros m b w Hb1 Hb2 Hv. destruct (object_component m b t w idx o s Hv Ec) as (u & Hu & Hou). exists u. split; [exact Hu|].
      assert (pat P (b + o) = b + o) as E by (unfold pat; apply Z.mod_small; lia). rewrite E. split; [exact Hou|]. split; [lia|]. split; [lia|].
      unfold gep_address. cbn [map gep_walk]. rewrite (walk_component idx t o s Hok Hidx Ec). change (i32 0) with 0. rewrite Z.mul_0_l, Z.add_0_l. now rewrite E. }
    intros sem e m tr m2. unfold prog'. split; intros (e2 & Hx).
    + apply execs_app in Hx as (t1 & t2 & e1 & m1 & -> & R1 & R2). inversion R2 as [|? ? ? ? ta e3 m3 tb ? ? Hi Hr]; subst. inversion Hi; subst.
      match goal with E : object_value _ ?b _ ?w |- _ => rename E into Hw; set (bb := b) in *; set (ww := w) in * end.
      destruct (Hobj m3 bb ww ltac:(assumption) ltac:(assumption) Hw) as (u & Hu & Hou & Q1 & Q2 & Hg).
      apply execs_app in Hr as (t3 & t4 & e4 & m4 & -> & R3 & R4). inversion R4 as [|? ? ? ? tc e5 m5 td ? ? Hi2 Hr2]; subst. inversion Hi2; subst.
      assert (e4 x = ww) as Ex. { rewrite (execs_frame _ _ _ _ _ _ _ _ x R3); [apply upd_same|]. intros i Hi'. apply N1, in_or_app. now left. }
      match goal with E : extractvalue (eval e4 (OV x)) idx = Some ?z |- _ => cbn [eval] in E; rewrite Ex, Hu in E; injection E as <- end.
      set (e1' := upd (upd e1 f (Sc (Some (pat P (bb + o))))) (S f) u).
      assert (forall y, (y < f)%nat -> e1' y = e1 y) as Ea by (intros y Hy; unfold e1'; rewrite !upd_other by lia; reflexivity).
      destruct (agree_execs P sem f r (upd e1 x ww) (upd e1' x ww) m3 t3 e4 m5 (fresh_below _ _ Fr')) as (e4' & R5 & R6); [|exact R3|].
      { intros y Hy. unfold upd at 1 2. destruct (Nat.eqb y x); [reflexivity|]. now rewrite Ea. }
      assert (e4' (S f) = u) as Eu. { rewrite (execs_frame _ _ _ _ _ _ _ _ (S f) R5); [rewrite upd_other by lia; apply upd_same|]. intros i Hi'. destruct (Fr' i Hi'). lia. }
      assert (rel d (OV (S f)) f (upd e4 d u) e4') as Hrel by (apply rel_intro; [intros y Hy; symmetry; now apply R6|exact Eu]).
      destruct (proj1 (subst_execs P sem d (OV (S f)) f q (upd e4 d u) e4' m5 td m2 (fresh_below _ _ Fq) Hk Hrel) (ex_intro _ e2 Hr2)) as (e6 & R7).
      exists e6. apply execs_app. exists t1, (t3 ++ td), e1, m3. split; [reflexivity|]. split; [exact R1|]. cbn [app].
      change (t3 ++ td) with ([] ++ [] ++ [] ++ t3 ++ td).
      assert (eval e1 Pp = Sc (Some bb)) as EP by assumption.
      econstructor; [econstructor; [exact EP|exact Hg]|].
      econstructor; [econstructor; [cbn [eval]; apply upd_same|exact Q1|exact Q2|exact Hou]|].
      econstructor; [apply x_load with (b := bb); [|assumption|assumption|exact Hw]|].
      * destruct Pp as [c|y]; [exact EP|]. cbn [eval] in *. specialize (FP y eq_refl). fold e1'. rewrite Ea by exact FP. exact EP.
      * fold e1'. apply execs_app. exists t3, td, e4', m5. auto.
    + apply execs_app in Hx as (t1 & t2 & e1 & m1 & -> & R1 & R2). cbn [app] in R2.
      inversion R2 as [|? ? ? ? ta e3 m3 tb ? ? Hi Hr]; subst. inversion Hi; subst. clear R2 Hi.
      inversion Hr as [|? ? ? ? tc e5 m5 td ? ? Hi2 Hr2]; subst. inversion Hi2; subst. clear Hr Hi2.
      match goal with E : object_value _ ?b s ?w |- _ => rename E into Hou; set (bs := b) in *; set (uu := w) in * end.
      match goal with E : eval e1 Pp = Sc (Some ?b) |- _ => rename E into EP; set (bb := b) in * end.
      match goal with E : gep_address _ _ _ _ = Some ?z |- _ => rename E into Hg; set (cc := z) in * end.
      match goal with E : eval _ (OV f) = Sc (Some bs) |- _ => cbn [eval] in E; rewrite upd_same in E; injection E as E; rename E into Ebs end.
      inversion Hr2 as [|? ? ? ? te e7 m7 tf ? ? Hi3 Hr3]; subst. inversion Hi3; subst. clear Hr2 Hi3.
      match goal with E : object_value _ ?b t ?w |- _ => rename E into Hw; set (b3 := b) in *; set (ww := w) in * end.
      match goal with E : eval _ Pp = Sc (Some b3) |- _ => rename E into EP2 end.
      set (e1' := upd (upd e1 f (Sc (Some cc))) (S f) uu) in *.
      assert (forall y, (y < f)%nat -> e1' y = e1 y) as Ea by (intros y Hy; unfold e1'; rewrite !upd_other by lia; reflexivity).
      assert (b3 = bb) as Eb. { destruct Pp as [c0|y]; cbn [eval] in EP, EP2; [congruence|]. specialize (FP y eq_refl). rewrite Ea in EP2 by exact FP. congruence. }
      match goal with G1 : 0 <= b3, G2 : b3 + asize t < 2 ^ P |- _ => rename G1 into HB1; rename G2 into HB2 end.
      destruct (Hobj m7 b3 ww HB1 HB2 Hw) as (u & Hu & Hou' & Q1 & Q2 & Hg').
      assert (bs = pat P (b3 + o)) as Ebs2. { rewrite Eb in Hg'. change (map i32 (0 :: idx)) with (map i32 (0 :: idx)) in Hg. rewrite Hg in Hg'. congruence. }
      assert (u = uu) as ->. { apply (object_value_unique m7 bs s); [exact Hoks|rewrite Ebs2; exact Hou'|exact Hou]. }
      apply execs_app in Hr3 as (t3 & t4 & e4 & m4 & -> & R3 & R4).
      destruct (agree_execs P sem f r (upd e1' x ww) (upd e1 x ww) m7 t3 e4 m4 (fresh_below _ _ Fr')) as (e4' & R5 & R6); [|exact R3|].
      { intros y Hy. unfold upd at 1 2. destruct (Nat.eqb y x); [reflexivity|]. now rewrite Ea. }
      assert (e4 (S f) = uu) as Eu. { rewrite (execs_frame _ _ _ _ _ _ _ _ (S f) R3); [rewrite upd_other by lia; apply upd_same|]. intros i Hi'. destruct (Fr' i Hi'). lia. }
      assert (e4' x = ww) as Ex. { rewrite (execs_frame _ _ _ _ _ _ _ _ x R5); [apply upd_same|]. intros i Hi'. apply N1, in_or_app. now left. }
      assert (rel d (OV (S f)) f (upd e4' d uu) e4) as Hrel by (apply rel_intro; [intros y Hy; now apply R6|exact Eu]).
      destruct (proj2 (subst_execs P sem d (OV (S f)) f q (upd e4' d uu) e4 m4 t4 m2 (fresh_below _ _ Fq) Hk Hrel) (ex_intro _ e2 R4)) as (e6 & R7).
      exists e6. apply execs_app. exists t1, (t3 ++ t4), e1, m7. split; [reflexivity|]. split; [exact R1|].
      change (t3 ++ t4) with ([] ++ t3 ++ t4). econstructor; [econstructor; [exact EP|rewrite <- Eb; exact HB1|rewrite <- Eb; exact HB2|rewrite <- Eb; exact Hw]|].
      apply execs_app. exists t3, t4, e4', m4. split; [reflexivity|]. split; [exact R5|]. change t4 with ([] ++ t4). econstructor; [constructor; cbn [eval]; rewrite Ex; exact Hu|exact R7].
Qed.

(** ** C36 *)
Theorem C36_step : forall P p p', 0 <= P -> ssa p -> Forall proper p -> simplifies p p' ->
  ssa p' /\ Forall proper p' /\ equivalent P p p'.
Proof.
  intros P p p' HP Hs Hp H. destruct H.
  - eapply step_const; eauto.
  - now apply step_empty.
  - eapply step_insert; eauto.
  - eapply step_load; eauto.
Qed.
Print Assumptions C36_step.

(** The simplified program has the same executions: same effects and results of all
    other instructions, same memory. *)
Theorem C36_pass : forall P p p', 0 <= P -> ssa p -> Forall proper p -> pass p p' ->
  forall sem e m t m', (exists e2, execs P sem p e m t e2 m') <-> (exists e2, execs P sem p' e m t e2 m').
Proof.
  intros P p p' HP Hs Hp H. induction H as [p|p p1 p2 H1 H2 IH]; [intros; tauto|].
  destruct (C36_step P p p1 HP Hs Hp H1) as (S1 & S2 & S3). intros sem e m t m'. rewrite (S3 sem e m t m'). now apply IH.
Qed.
Print Assumptions C36_pass.

(** An array with more than 2^31 elements: the index 2^31 becomes the negative
    constant -2^31 of type i32, and another element is read. *)
Theorem C36_large_index_refuted : exists p p', ssa p /\ simplifies p p' /\ ~ equivalent 64 p p'.
Proof.
  assert (exists n, n = 2 ^ 31 + 1) as (n & Hn) by eauto.
  set (i8 := TScalar 8 1). set (T := TArray n i8).
  set (p := [ILoad 1 T (OV 0); IExtract 2 (OV 1) [2 ^ 31]; IOther 3 0 [OV 2]]).
  set (p' := [IGep 4 T (OV 0) [0; 2 ^ 31]; ILoad 5 i8 (OV 4); ILoad 1 T (OV 0); IOther 3 0 [OV 5]]).
  exists p, p'. split; [|split].
  - cbn. unfold ovar. repeat split; auto; try (intros j Hj; repeat destruct Hj as [<-|Hj]; try destruct Hj; cbn; try lia; try congruence; try tauto; intros [E|[]]; congruence).
  - apply (s_load [] 1 T (OV 0) [] 2 [2 ^ 31] [IOther 3 0 [OV 2]] 4 [IGep 4 T (OV 0) [0; 2 ^ 31]; ILoad 5 i8 (OV 4)] (OV 5)); [discriminate| |].
    + intros i Hi. repeat destruct Hi as [<-|Hi]; try destruct Hi; cbn; (split; [lia|]); unfold ovar; intros y Hy; try (injection Hy as <-; lia). destruct Hy as [Hy|[]]. injection Hy as <-. lia.
    + unfold from_load, sub_type, T, i8. cbn [component child]. replace ((0 <=? 2 ^ 31) && (2 ^ 31 <? n)) with true by lia. reflexivity.
  - intros H.
    set (bad := 2 ^ 64 + 1024 - 2 ^ 31). set (m := fun a => if a =? bad then 1 else 0).
    set (sem := fun (_ : nat) (args : list agg) (m1 : Z -> Z) (r : agg) (m2 : Z -> Z) => args = [Sc (Some 0)] /\ m2 = m1 /\ r = Sc (Some 0)).
    assert (object_value m 1024 T (Ag (repeat (Sc (Some 0)) (Z.to_nat n)))) as Hov.
    { split; [split; [rewrite repeat_length; lia|apply Forall_forall; intros x Hx; apply repeat_spec in Hx; subst; exact I]|].
      intros q o bits (a & Hq). destruct q as [|i q]; [discriminate|]. cbn [component child T] in Hq. destruct ((0 <=? i) && (i <? n)) eqn:Ei; [|discriminate].
      destruct q as [|j q]; [|discriminate]. cbn in Hq. injection Hq as <- <- <-. exists 0. split.
      - cbn [extractvalue element]. replace (0 <=? i) with true by lia. rewrite nth_error_repeat by lia. reflexivity.
      - split; [cbn; lia|]. intros k Hk. unfold m. change (bytes_needed 8) with 1 in Hk. unfold byte_of. cbn [asize]. change (roundup (bytes_needed 8) 1) with 1.
        destruct (1024 + (i * 1 + 0) + k =? bad) eqn:E; [|rewrite Z.div_0_l; [reflexivity|apply Z.pow_nonzero; lia]].
        unfold bad in E. lia. }
    specialize (H sem (fun _ => Sc (Some 1024)) m [(0%nat, [Sc (Some 0)], Sc (Some 0))] m). destruct H as (H & _). destruct H as (e2 & H).
    { eexists. change [(0%nat, [Sc (Some 0)], Sc (Some 0))] with ([] ++ [] ++ [(0%nat, [Sc (Some 0)], Sc (Some 0))] ++ @nil event). unfold p.
      econstructor; [apply x_load with (b := 1024); [reflexivity|lia| |exact Hov]|].
      { unfold T, i8. cbn [asize]. change (roundup (bytes_needed 8) 1) with 1. lia. }
      econstructor; [constructor; cbn [eval]; rewrite upd_same; cbn [extractvalue element]; replace (0 <=? 2 ^ 31) with true by reflexivity; rewrite nth_error_repeat by lia; reflexivity|].
      econstructor; [|constructor]. change [Sc (Some 0)] with (map (eval (upd (upd (fun _ : nat => Sc (Some 1024)) 1 (Ag (repeat (Sc (Some 0)) (Z.to_nat n)))) 2 (Sc (Some 0)))) [OV 2]).
      constructor. cbn. repeat split. }
    unfold p' in H. revert H. generalize [(0%nat, [Sc (Some 0)], Sc (Some 0))]. generalize m at 2. intros mf tr H.
    inversion H as [|? ? ? ? ta e3 m3 tb ? ? Hi Hr]; subst tr. inversion Hi; subst. clear H Hi.
    match goal with E : eval _ (OV 0) = Sc (Some ?b0) |- _ => cbn in E; injection E as <- end.
    match goal with E : gep_address _ _ _ _ = Some ?z |- _ => assert (z = bad) as -> by (unfold gep_address, T, i8 in E; vm_compute in E; injection E as <-; reflexivity) end.
    inversion Hr as [|? ? ? ? tc e5 m5 td ? ? Hi2 Hr2]; subst. inversion Hi2; subst.
    match goal with E : eval _ (OV 4) = Sc (Some ?b0) |- _ => cbn in E; injection E as <- end.
    match goal with E : object_value _ _ i8 ?w |- _ => destruct E as (_ & E); destruct (E [] 0 8 (ex_intro _ 1 eq_refl)) as (z & Ez1 & Ez2); cbn in Ez1; injection Ez1 as -> end.
    destruct Ez2 as (Ez2 & Ez3). specialize (Ez3 0 ltac:(cbn; lia)). unfold byte_of in Ez3. unfold m in Ez3. rewrite !Z.add_0_r, Z.eqb_refl in Ez3.
    inversion Hr2 as [|? ? ? ? te e7 m7 tf ? ? Hi3 Hr3]; subst. inversion Hi3; subst.
    inversion Hr3 as [|? ? ? ? tg e9 m9 th ? ? Hi4 Hr4]; subst. inversion Hi4; subst.
    match goal with E : sem _ _ _ _ _ |- _ => destruct E as (E & _); cbn in E; injection E as -> end. vm_compute in Ez3. discriminate.
Qed.
Print Assumptions C36_large_index_refuted.

(** Extraction from the result of an insertion into a loaded struct. *)
Example C36_nonvacuous :
  let i32 := TScalar 32 4 in let T := TStruct false [i32; TArray 2 i32] in
  let p := [ILoad 1 T (OV 0); IInsert 2 (OV 1) (OC (COther (Sc (Some 7)))) [1; 0]; IExtract 3 (OV 2) [1; 1]; IOther 4 0 [OV 3]] in
  let p1 := [ILoad 1 T (OV 0); IInsert 2 (OV 1) (OC (COther (Sc (Some 7)))) [1; 0]; IExtract 5 (OV 1) [1; 1]; IOther 4 0 [OV 5]] in
  let p2 := [IGep 6 T (OV 0) [0; 1; 1]; ILoad 7 i32 (OV 6); ILoad 1 T (OV 0); IInsert 2 (OV 1) (OC (COther (Sc (Some 7)))) [1; 0]; IOther 4 0 [OV 7]] in
  ssa p /\ Forall proper p /\ pass p p2.
Proof.
  cbv zeta. split; [|split].
  - cbn. unfold ovar. repeat split; auto; intros j Hj; repeat destruct Hj as [<-|Hj]; try destruct Hj; cbn; try lia; try congruence;
      try (intros [E|E]; congruence); intros [E|[]]; congruence.
  - repeat constructor; cbn; lia.
  - eapply pass_step.
    + apply (s_insert [ILoad 1 _ (OV 0)] 2 (OV 1) (OC (COther (Sc (Some 7)))) [1; 0] [] 3 [1; 1] [IOther 4 0 [OV 3]] 5 [IExtract 5 (OV 1) [1; 1]] (OV 5)); [discriminate| |reflexivity].
      intros i Hi. repeat destruct Hi as [<-|Hi]; try destruct Hi; cbn; unfold ovar; (split; [lia|]); intros y Hy; repeat (destruct Hy as [Hy|Hy]); try contradiction; try discriminate; injection Hy as <-; lia.
    + eapply pass_step; [|apply pass_done].
      apply (s_load [] 1 _ (OV 0) [IInsert 2 (OV 1) (OC (COther (Sc (Some 7)))) [1; 0]] 5 [1; 1] [IOther 4 0 [OV 5]] 6 [IGep 6 _ (OV 0) [0; 1; 1]; ILoad 7 (TScalar 32 4) (OV 6)] (OV 7)); [discriminate| |reflexivity].
      intros i Hi. repeat destruct Hi as [<-|Hi]; try destruct Hi; cbn; unfold ovar; (split; [lia|]); intros y Hy; repeat (destruct Hy as [Hy|Hy]); try contradiction; try discriminate; injection Hy as <-; lia.
Qed.
