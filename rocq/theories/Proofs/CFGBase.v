From Coq Require Import List String Bool Arith Lia.
From Verif.Spec Require Import CFG.
From Verif.Model Require Import ControlFlow.
Import ListNotations.

Lemma label_eqb_spec : forall a b, reflect (a = b) (label_eqb a b).
Proof.
  intros a b. apply iff_reflect. revert b.
  induction a as [n|p IHp h IHh]; intros [m|p' h']; cbn; split; try discriminate.
  - intros E. injection E as ->. symmetry. apply Nat.eqb_refl || (now rewrite Nat.eqb_refl).
  - intros E. apply Nat.eqb_eq in E. now subst.
  - intros E. injection E as -> ->. apply andb_true_iff. split; [now apply IHp|now apply IHh].
  - intros E. apply andb_true_iff in E. destruct E as [E1 E2]. apply IHp in E1. apply IHh in E2. now subst.
Qed.
Lemma label_eqb_refl : forall a, label_eqb a a = true.
Proof. intros a. destruct (label_eqb_spec a a); congruence. Qed.
Lemma label_dec : forall a b : label, {a = b} + {a <> b}.
Proof. intros a b. destruct (label_eqb_spec a b); auto. Qed.

Lemma lookup_in : forall A l (bs : list (label * A)) b, lookup l bs = Some b -> In (l, b) bs.
Proof.
  intros A l bs b. induction bs as [|[l' b'] bs IH]; cbn; [discriminate|].
  destruct (label_eqb_spec l l') as [->|]; [intros E; injection E as ->; now left|intros E; right; auto].
Qed.
Lemma lookup_nodup : forall A l (bs : list (label * A)) b, NoDup (map fst bs) -> In (l, b) bs -> lookup l bs = Some b.
Proof.
  intros A l bs b. induction bs as [|[l' b'] bs IH]; cbn; [tauto|]. intros ND HI. inversion ND as [|? ? N1 N2]; subst.
  destruct HI as [E|HI].
  - injection E as -> ->. now rewrite label_eqb_refl.
  - destruct (label_eqb_spec l l') as [->|].
    + exfalso. apply N1. apply in_map_iff. exists (l', b). auto.
    + auto.
Qed.

Section Upd.
  Context {V : Type}.
  Lemma upds_other : forall (l : list (string * V)) r x, ~ In x (map fst l) -> upds r l x = r x.
  Proof.
    induction l as [|[y v] l IH]; intros r x H; [reflexivity|]. cbn [upds]. rewrite IH.
    - unfold upd. destruct (String.eqb_spec y x); [|reflexivity]. subst. exfalso. apply H. now left.
    - intro. apply H. now right.
  Qed.
  Lemma upds_in : forall (l : list (string * V)) r x v, NoDup (map fst l) -> In (x, v) l -> upds r l x = Some v.
  Proof.
    induction l as [|[y w] l IH]; intros r x v ND HI; [destruct HI|]. inversion ND as [|? ? N1 N2]; subst. cbn [upds].
    destruct HI as [E|HI].
    - injection E as -> ->. rewrite upds_other by exact N1. unfold upd. now rewrite String.eqb_refl.
    - auto.
  Qed.
  Lemma bupds_other : forall xs vs (r : string -> V) x, ~ In x xs -> bupds r xs vs x = r x.
  Proof.
    induction xs as [|y xs IH]; intros [|v vs] r x H; try reflexivity. cbn [bupds]. rewrite IH.
    - unfold bupd. destruct (String.eqb_spec y x); [|reflexivity]. subst. exfalso. apply H. now left.
    - intro. apply H. now right.
  Qed.
  Lemma bupds_in : forall xs vs (r : string -> V) x v, NoDup xs -> In (x, v) (combine xs vs) -> bupds r xs vs x = v.
  Proof.
    induction xs as [|y xs IH]; intros [|w vs] r x v ND HI; try destruct HI. 
    - inversion ND; subst. cbn [bupds]. injection H as -> ->. rewrite bupds_other by assumption. unfold bupd.
      now rewrite String.eqb_refl.
    - inversion ND; subst. cbn [bupds]. auto.
  Qed.
  Lemma bupds_params : forall xs vs (r0 : string -> V) x v,
    upds (fun _ => None) (combine xs vs) x = Some v -> NoDup xs -> bupds r0 xs vs x = v.
  Proof.
    intros xs vs r0 x v H ND. apply bupds_in; [assumption|].
    assert (forall (l : list (string * V)) r, upds r l x = Some v -> In (x, v) l \/ r x = Some v) as G.
    { induction l as [|[y w] l IH]; intros r H1; [now right|]. cbn [upds] in H1. destruct (IH _ H1) as [HI|HI]; [left; now right|].
      unfold upd in HI. destruct (String.eqb_spec y x); [|now right]. injection HI as ->. subst. left; now left. }
    destruct (G _ _ H) as [HI|HI]; [exact HI|discriminate].
  Qed.
End Upd.

Lemma all_some_map : forall A B (g : A -> option B) l r, all_some (map g l) = Some r ->
  Forall2 (fun a b => g a = Some b) l r.
Proof.
  intros A B g l. induction l as [|a l IH]; intros r H; cbn in H; [injection H as <-; constructor|].
  destruct (g a) eqn:E; [|discriminate]. destruct (all_some (map g l)) eqn:E2; [|discriminate].
  injection H as <-. constructor; auto.
Qed.
Lemma all_some_forall2 : forall A B (g : A -> option B) l r, Forall2 (fun a b => g a = Some b) l r ->
  all_some (map g l) = Some r.
Proof. intros A B g l r H. induction H; cbn; [reflexivity|]. rewrite H, IHForall2. reflexivity. Qed.

Lemma NoDup_app_intro : forall A (l1 l2 : list A), NoDup l1 -> NoDup l2 -> (forall x, In x l1 -> ~ In x l2) -> NoDup (l1 ++ l2).
Proof.
  intros A l1 l2 H1 H2 H. induction H1 as [|x l1 N1 N2 IH]; [exact H2|]. cbn. constructor.
  - rewrite in_app_iff. intros [?|?]; [contradiction|]. apply (H x); [now left|assumption].
  - apply IH. intros y Hy. apply H. now right.
Qed.
Lemma NoDup_app_l : forall A (l1 l2 : list A), NoDup (l1 ++ l2) -> NoDup l1.
Proof.
  intros A l1 l2 H. induction l1 as [|x l1 IH]; [constructor|]. cbn in H. inversion H; subst. constructor; [|auto].
  intro. apply H2. apply in_app_iff. now left.
Qed.
Lemma map_fst_combine : forall A B (l : list A) (l' : list B), List.length l <= List.length l' -> map fst (combine l l') = l.
Proof.
  intros A B l. induction l as [|a l IH]; intros [|b l'] H; cbn in *; try reflexivity; [lia|]. rewrite IH by lia. reflexivity.
Qed.
