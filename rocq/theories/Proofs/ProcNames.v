(** Names of procedures: proofs about Model/Procedures.v *)
From Coq Require Import String Ascii List Bool Arith Lia DecimalString.
From Verif.Model Require Import Naming.
From Verif.Spec Require Import Procedures.
From Verif.Model Require Import Procedures.
Import ListNotations.
Open Scope string_scope.
Open Scope list_scope.

(** ** Strings *)
Fixpoint without (c : ascii) (s : string) : bool :=
  match s with EmptyString => true | String a s' => negb (Ascii.eqb a c) && without c s' end.
Lemma without_app c a b : without c (a ++ b)%string = without c a && without c b.
Proof. induction a as [|x a IH]; cbn; auto. rewrite IH. apply andb_assoc. Qed.
Lemma app_assoc_s a b c : ((a ++ b) ++ c = a ++ (b ++ c))%string.
Proof. induction a; cbn; f_equal; auto. Qed.
Lemma app_nil_s a : (a ++ "" = a)%string.
Proof. induction a; cbn; f_equal; auto. Qed.
Lemma app_inv_s a : forall b c, (a ++ b = a ++ c)%string -> b = c.
Proof. induction a; cbn; intros b c H; auto. injection H. auto. Qed.
Definition starts (c : ascii) (r : string) : Prop := r = "" \/ exists r', r = String c r'.
Lemma split_eq c : forall a b r1 r2, without c a = true -> without c b = true -> starts c r1 -> starts c r2 ->
  (a ++ r1 = b ++ r2)%string -> a = b /\ r1 = r2.
Proof.
  induction a as [|x a IH]; intros b r1 r2 A B R1 R2 E.
  - destruct b as [|y b]; cbn in E; auto. cbn in B. apply andb_true_iff in B. destruct B as [B _].
    destruct R1 as [->|[r' ->]]; [discriminate|]. injection E as -> _. rewrite Ascii.eqb_refl in B. discriminate.
  - cbn in A. apply andb_true_iff in A. destruct A as [Ax A]. destruct b as [|y b]; cbn in E.
    + destruct R2 as [->|[r' ->]]; [discriminate|]. injection E as -> _. rewrite Ascii.eqb_refl in Ax. discriminate.
    + cbn in B. apply andb_true_iff in B. destruct B as [_ B]. injection E as -> E. destruct (IH b r1 r2 A B R1 R2 E) as [-> ->]. auto.
Qed.
Lemma prefix_app a : forall b, String.prefix a b = true <-> exists r, b = (a ++ r)%string.
Proof.
  induction a as [|x a IH]; intros b; split; intros H; auto.
  - exists b. reflexivity.
  - destruct b; reflexivity.
  - destruct b as [|y b]; cbn in H; [discriminate|]. destruct (ascii_dec x y) as [->|]; [|discriminate]. apply IH in H. destruct H as [r ->]. exists r. reflexivity.
  - destruct H as [r ->]. cbn. destruct (ascii_dec x x); [|congruence]. apply IH. eauto.
Qed.
(** Two continuations of the same string: one of the beginnings begins the other *)
Lemma common_prefix a : forall b r1 r2, (a ++ r1 = b ++ r2)%string -> (exists k, b = a ++ k /\ r1 = k ++ r2)%string \/ (exists k, a = b ++ k /\ r2 = k ++ r1)%string.
Proof.
  induction a as [|x a IH]; intros b r1 r2 E.
  - left. exists b. auto.
  - destruct b as [|y b].
    + right. exists (String x a). auto.
    + injection E as -> E. destruct (IH b r1 r2 E) as [[k [-> ->]]|[k [-> ->]]]; [left|right]; exists k; auto.
Qed.

Lemma digits_without c u : negb (existsb (Ascii.eqb c) ["0"; "1"; "2"; "3"; "4"; "5"; "6"; "7"; "8"; "9"]%char) = true -> without c (NilEmpty.string_of_uint u) = true.
Proof.
  intros H. apply negb_true_iff in H. cbn [existsb] in H. repeat (apply orb_false_iff in H; destruct H as [? H]).
  induction u; cbn [NilEmpty.string_of_uint without]; auto; rewrite IHu, andb_true_r, (Ascii.eqb_sym _ c); apply negb_true_iff; assumption.
Qed.
Lemma dec_without c n : negb (existsb (Ascii.eqb c) ["0"; "1"; "2"; "3"; "4"; "5"; "6"; "7"; "8"; "9"]%char) = true -> without c (dec n) = true.
Proof.
  intros H. unfold dec, NilZero.string_of_uint. destruct (Nat.to_uint n); [|apply (digits_without c); auto ..].
  cbn [without]. apply negb_true_iff in H. cbn [existsb] in H. apply orb_false_iff in H. destruct H as [H _]. rewrite Ascii.eqb_sym, H. reflexivity.
Qed.

Section Types.
  Context (o : options).
  Notation type := (type o).
  (** ** Types are read off a name *)
  Definition scalar (s : string) : Prop := without "." s = true /\ s <> "vec".
  Lemma type_shape t : scalar (type t) \/ exists n e, t = TVec n e.
  Proof.
    destruct t as [|w| | | | | |n e|]; [| | | | | | |right; exists n, e; reflexivity|]; cbn; left; try (destruct (float_enabled o); (split; [reflexivity|discriminate])); try (split; [reflexivity|discriminate]).
    unfold intType. split; [rewrite without_app, dec_without by reflexivity; destruct (bit_precise o); reflexivity|].
    destruct (bit_precise o); discriminate.
  Qed.
  Lemma dot_split a b r1 r2 : scalar a -> starts "." r1 -> (a ++ r1 = "vec." ++ b ++ r2)%string -> False.
  Proof.
    intros [W V] R E. destruct (split_eq "." a "vec" r1 ("." ++ b ++ r2)) as [X _]; auto. right. cbn. eauto.
  Qed.
  Lemma type_read t1 : forall t2 r1 r2, starts "." r1 -> starts "." r2 -> (type t1 ++ r1 = type t2 ++ r2)%string -> type t1 = type t2 /\ r1 = r2.
  Proof.
    assert (S : forall t1 t2 r1 r2, scalar (type t1) -> starts "." r1 -> starts "." r2 -> (type t1 ++ r1 = type t2 ++ r2)%string -> type t1 = type t2 /\ r1 = r2).
    { intros t1' t2 r1 r2 S1 R1 R2 E. destruct (type_shape t2) as [[W2 V2]|[n [e ->]]].
      - destruct S1 as [W1 V1]. apply (split_eq "."); auto.
      - exfalso. cbn [Procedures.type] in E. rewrite !app_assoc_s in E. eapply (dot_split (type t1') (dec n ++ "x" ++ type e)%string r1 r2); eauto.
        rewrite E. rewrite !app_assoc_s. reflexivity. }
    induction t1; intros t2 r1 r2 R1 R2 E; try (apply S; auto; match goal with |- scalar (type ?t) => destruct (type_shape t) as [X|[? [? X]]]; [exact X|discriminate] end).
    destruct (type_shape t2) as [S2|[n' [e' ->]]].
    - symmetry in E. destruct (S t2 (TVec n t1) r2 r1 S2 R2 R1 E); auto.
    - cbn [Procedures.type] in *. rewrite !app_assoc_s in E. apply app_inv_s in E.
      destruct (split_eq "x" (dec n) (dec n') ("x" ++ type t1 ++ r1) ("x" ++ type e' ++ r2)) as [D E2]; auto; try (apply dec_without; reflexivity); try (right; cbn; eauto).
      apply app_inv_s in E2. destruct (IHt1 e' r1 r2 R1 R2 E2) as [-> ->]. rewrite D. auto.
  Qed.
  Definition suffix (ts : list ty) : string := fold_right (fun t s => ("." ++ type t ++ s)%string) "" ts.
  Lemma suffix_starts ts : starts "." (suffix ts).
  Proof. destruct ts; [left; reflexivity|right]. cbn. eauto. Qed.
  Lemma suffix_inj : forall ts1 ts2, suffix ts1 = suffix ts2 -> map type ts1 = map type ts2.
  Proof.
    induction ts1 as [|t1 ts1 IH]; intros [|t2 ts2] E; cbn in E; try discriminate; auto.
    injection E as E. apply type_read in E; try apply suffix_starts. destruct E as [E1 E2]. cbn. rewrite E1. f_equal. auto.
  Qed.
  Lemma procName_suffix f ts : procName_types o f ts = (boogie_name f ++ if vararg f then suffix ts else "")%string.
  Proof.
    unfold procName_types. destruct (vararg f); [|symmetry; apply app_nil_s].
    generalize (boogie_name f). induction ts as [|t ts IH]; intros s; cbn [fold_left suffix fold_right]; [symmetry; apply app_nil_s|].
    rewrite IH, !app_assoc_s. reflexivity.
  Qed.
End Types.
