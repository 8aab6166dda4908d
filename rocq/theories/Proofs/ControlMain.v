(** Lemmas behind Props/ControlProps.v: the loop pass as a whole. *)
From Coq Require Import List String Bool Arith Lia.
From Verif.Spec Require Import CFG.
From Verif.Model Require Import ControlFlow NormalizeLoops.
From Verif.Proofs Require Import CFGBase CFGProofs SplitEdges SplitSim.
Import ListNotations.

Section Run.
  Context {V E M P O : Type} (evS : (string -> option V) -> E -> option V) (uses : E -> list string)
          (prim : P -> list V -> M -> list O -> V -> M -> Prop)
          (inv : P -> list V -> M -> list O -> V -> bool -> M -> Prop) (one : V) (veq : V -> V -> bool).
  Context (f : func V E P) (ls : list loop) (Ho : original f) (Hl : loop_forest f ls) (Hssa : ssa_form uses f).
  Notation f' := (runOnFunction f ls).

  Lemma run_D : exists D, f' = split f D D /\ NoDup D /\ (forall p h, In (p, h) D -> edge f p h) /\
    (forall p b h b', block_of f p = Some b -> In h (succs (bterm b)) -> 2 <= List.length (succs (bterm b)) ->
      block_of f h = Some b' -> phis b' <> [] -> reachable f p -> dominates f h p -> In (p, h) D).
  Proof.
    clear evS prim inv one veq.
    destruct (run_split f ls Ho Hl) as (D & HD & ND & HI). exists D. split; [exact HD|]. split; [exact ND|]. split.
    - intros p h Hin. apply HI in Hin. destruct Hin as (bs & _ & HW). unfold wanted in HW. destruct HW as (_ & _ & HS & _).
      unfold splits in HS. destruct (block_of f p) as [b|] eqn:Eb; [|discriminate]. exists b. split; [assumption|].
      apply andb_true_iff in HS. destruct HS as [_ HS]. apply existsb_exists in HS.
      destruct HS as (x & H1 & H2). destruct (label_eqb_spec h x); congruence.
    - intros p b h b' Hb Hs Hlen Hb' Hph Hr Hd.
      assert (edge f p h) as He by (exists b; auto).
      destruct (loops_back_edges _ _ Hl p h Hr He Hd) as (bs & Hin & Hp). apply HI. exists bs. split; [exact Hin|].
      unfold wanted. cbn. split; [reflexivity|]. split; [exact Hp|]. split.
      + unfold splits. rewrite Hb. apply andb_true_iff. split; [now apply Nat.leb_le|].
        apply existsb_exists. exists h. split; [assumption|apply label_eqb_refl].
      + destruct (phis b') as [|[x inc] phs] eqn:Eph; [congruence|].
        destruct (ssa_phi _ _ Hssa p h b' x inc He Hb') as (e & Hlk & _); [rewrite Eph; now left|].
        exists b', x, inc, e. split; [exact Hb'|]. split; [rewrite Eph; now left|now apply lookup_in].
  Qed.

  Lemma run_ok : ssa_form uses f' /\ (lowered f -> lowered f') /\ normalized f'.
  Proof.
    clear evS prim inv one veq. destruct run_D as (D & -> & ND & HE & HC). split; [apply ssa_split; assumption|].
    split; [apply lowered_split; assumption|]. eapply normalized_split; eauto.
  Qed.
  Lemma run_forward : forall args m t o, behaves evS prim inv one veq f args m t o -> behaves evS prim inv one veq f' args m t o.
  Proof. destruct run_D as (D & -> & ND & HE & HC). apply split_forward; assumption. Qed.
  Lemma run_backward : forall args m t o, behaves evS prim inv one veq f' args m t o ->
    behaves evS prim inv one veq f args m t o \/ exists t1 t2, t = t1 ++ t2 /\ undefined_after evS prim inv one veq f args m t1.
  Proof. destruct run_D as (D & -> & ND & HE & HC). eapply split_backward; eassumption. Qed.
  Lemma run_ub_forward : forall args m t, undefined_after evS prim inv one veq f args m t ->
    exists t', undefined_after evS prim inv one veq f' args m (t ++ t').
  Proof. destruct run_D as (D & -> & ND & HE & HC). eapply split_ub_forward; eassumption. Qed.
  Lemma run_ub_backward : forall args m t, undefined_after evS prim inv one veq f' args m t ->
    exists t1 t2, t = t1 ++ t2 /\ undefined_after evS prim inv one veq f args m t1.
  Proof. destruct run_D as (D & -> & ND & HE & HC). eapply split_ub_backward; eassumption. Qed.

  Lemma run_params : params f' = params f.
  Proof. clear evS prim inv one veq. destruct run_D as (D & -> & _). reflexivity. Qed.
  Lemma run_translate : forall {T} (tr : E -> T) (evT : (string -> V) -> T -> option V) args r0 exn m,
    (forall r rb e v, (forall x, In x (uses e) -> r x = Some (rb x)) -> evS r e = Some v -> evT rb (tr e) = Some v) ->
    lowered f -> List.length args = List.length (params f) ->
    (forall t o, behaves evS prim inv one veq f args m t o -> bbehaves tr evT prim inv one veq f' args r0 exn m t o) /\
    (forall t o, bbehaves tr evT prim inv one veq f' args r0 exn m t o ->
       behaves evS prim inv one veq f args m t o \/
       exists t1 t2, t = t1 ++ t2 /\ undefined_after evS prim inv one veq f args m t1).
  Proof.
    intros T tr evT args r0 exn m Htr Hlow Hlen. destruct run_ok as (H1 & H2 & H3). rewrite <- run_params in Hlen. split; intros t o H.
    - eapply cfg_forward; eauto. apply run_forward, H.
    - destruct (cfg_backward evS uses prim inv one veq tr evT Htr f' H1 (H2 Hlow) H3 args r0 exn m t o Hlen H) as [H4|(t1 & t2 & -> & H4)].
      + apply run_backward, H4.
      + right. destruct (run_ub_backward _ _ _ H4) as (t3 & t4 & -> & H5). exists t3, (t4 ++ t2). split; [now rewrite app_assoc|exact H5].
  Qed.
End Run.

Lemma switch_default : forall {V E M P O T : Type} (tr : E -> T) evT prim inv one veq (f : func V E P) l e d cases,
  exists pre, trans_term tr f l (TSwitch e d cases) = pre ++ [BGoto [BB d]] /\
    (forall s, In s pre -> exists xs ts, s = BAssign xs ts) /\
    forall r ret exn exnv (m : M) (t : list O) s,
      bstep tr evT prim inv one veq f (BRun [BGoto [BB d]] r ret exn exnv m) t s ->
      exists c, code_at tr f (BB d) = Some c /\ s = BRun c r ret exn exnv m.
Proof.
  intros. exists (generatePhiAssigns tr f l (TSwitch e d cases)). split; [reflexivity|]. split.
  - intros s. unfold generatePhiAssigns. destruct (phi_assigns tr f l _); [intros []|]. intros [<-|[]]. eauto.
  - intros r ret exn exnv m t s H. inversion H; subst.
    match goal with X : In _ [BB d] |- _ => destruct X as [<-|[]] end. eauto.
Qed.
Lemma switch_iff : forall {V E P T : Type} (tr : E -> T) (veq : V -> V -> bool) (f : func V E P) l e d cases v,
  select_case veq v d cases = d <->
  goto_targets f l (targets tr (TSwitch (V:=V) (P:=P) e d cases)) = [BB (select_case veq v d cases)].
Proof. intros. cbn. split; [intros ->; reflexivity|congruence]. Qed.
