(** Proving that straight-line code never goes wrong. *)
From Coq Require Import List String Bool.
From Verif.Spec Require Import CFG.
From Verif.Proofs Require Import CFGBase ControlExamples.
Import ListNotations.
Open Scope list_scope.

Section Clean.
  Context {V E M P Ev : Type}.
  Context (ev : (string -> option V) -> E -> option V) (prim : P -> list V -> M -> list Ev -> V -> M -> Prop)
          (inv : P -> list V -> M -> list Ev -> V -> bool -> M -> Prop) (one : V) (veq : V -> V -> bool)
          (f : func V E P) (bad : Ev -> Prop).
  Definition clean (s : lstate V E M P) : Prop := forall t s', lsteps ev prim inv one veq f s t s' ->
    Forall (fun e => ~ bad e) t /\ ~ goes_wrong ev inv one veq f s'.

  Lemma clean_assign : forall l x e k r m v, ev r e = Some v -> clean (LRun l k (upd r x v) m) -> clean (LRun l (SAssign x e :: k) r m).
  Proof.
    intros l x e k r m v He Hk t s' H. apply lsteps_head in H. destruct H as [[<- ->]|(t1 & s1 & t2 & Hs & H & ->)].
    - split; [constructor|]. cbn. congruence.
    - inversion Hs; subst. rewrite He in *. match goal with H : Some _ = Some _ |- _ => injection H as -> end. now apply Hk.
  Qed.
  Lemma clean_prim : forall l x q es k r m vs, evals ev r es = Some vs ->
    (forall t v m', prim q vs m t v m' -> Forall (fun e => ~ bad e) t /\ clean (LRun l k (updo r x v) m')) ->
    clean (LRun l (SPrim x q es :: k) r m).
  Proof.
    intros l x q es k r m vs He Hk t s' H. apply lsteps_head in H. destruct H as [[<- ->]|(t1 & s1 & t2 & Hs & H & ->)].
    - split; [constructor|]. cbn. congruence.
    - inversion Hs; subst. match goal with H : evals ev r es = Some _ |- _ => rewrite He in H; injection H as <- end.
      match goal with H : prim _ _ _ _ _ _ |- _ => destruct (Hk _ _ _ H) as [H1 H2] end.
      destruct (H2 _ _ H) as [H3 H4]. split; [apply Forall_app; auto|exact H4].
  Qed.
  Lemma clean_ret : forall l r m b o, block_of f l = Some b -> bterm b = TRet o ->
    match o with Some e => ev r e <> None | None => True end -> clean (LRun l [] r m).
  Proof.
    intros l r m b o Hb Ht He t s' H. apply lsteps_head in H. destruct H as [[<- ->]|(t1 & s1 & t2 & Hs & H & ->)].
    - split; [constructor|]. cbn. intros (b' & Hb' & Hw). rewrite Hb in Hb'. injection Hb' as <-. rewrite Ht in Hw. destruct o; tauto.
    - inversion Hs; subst; try congruence;
        (apply lsteps_head in H; destruct H as [[<- ->]|(t1 & s1 & t3 & Hs2 & _ & _)]; [split; [constructor|intros []]|inversion Hs2]).
  Qed.
End Clean.
