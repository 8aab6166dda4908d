(** C81: which files of a Cargo build are verified. *)
From Coq Require Import List String Ascii Bool Lia.
From Verif.Spec Require Import Cargo.
From Verif.Model Require Import Cargo.
Import ListNotations.
Open Scope string_scope.
Open Scope list_scope.
Local Notation "a +++ b" := (String.append a b) (right associativity, at level 60).

Lemma replace_dash_ok s : replace_dash s = crate_name s.
Proof. induction s; cbn; congruence. Qed.
Lemma crate_no_dash s : no_dash (crate_name s).
Proof.
  induction s as [|c s IH]; intros a b E; [destruct a; discriminate|]. cbn in E. destruct a as [|x a]; cbn in E.
  - injection E as E _. destruct (Ascii.eqb c "-") eqn:Ec; [discriminate|]. subst. discriminate.
  - injection E as _ E. exact (IH a b E).
Qed.
Lemma startswith_ok s p : startswith s p = true <-> exists r, s = p +++ r.
Proof.
  revert s. induction p as [|a p IH]; cbn.
  - intros s. split; [exists s; auto|destruct s; auto].
  - intros [|b s]; [split; [discriminate|intros [r H]; discriminate]|]. cbn. rewrite andb_true_iff, Ascii.eqb_eq, IH. split.
    + intros [-> [r ->]]. eauto.
    + intros [r H]. injection H as -> ->. eauto.
Qed.
Lemma endswith_ok s p : endswith s p = true <-> exists r, s = r +++ p.
Proof.
  induction s as [|c s IH]; cbn [endswith].
  - rewrite orb_true_iff, String.eqb_eq. split.
    + intros [<-|H]; [exists ""; auto|discriminate].
    + intros [[|] H]; cbn in H; [auto|discriminate].
  - rewrite orb_true_iff, String.eqb_eq, IH. split.
    + intros [<-|[r ->]]; [exists ""; auto|exists (String c r); auto].
    + intros [[|x r] H]; cbn in H; [auto|]. injection H as <- ->. eauto.
Qed.
Lemma sapp_assoc a b c : (a +++ b) +++ c = a +++ b +++ c.
Proof. induction a; cbn; congruence. Qed.
Lemma len_app a b : String.length (a +++ b) = String.length a + String.length b.
Proof. induction a; cbn; auto. Qed.
Lemma cut_suffix q : forall r p s, r +++ s = p +++ q -> String.length s <= String.length q -> exists h, q = h +++ s.
Proof.
  intros r p s. revert r. induction p as [|c p IH]; intros r E Hl; cbn in E.
  - eauto.
  - destruct r as [|x r]; cbn in E.
    + apply (f_equal String.length) in E. cbn in E. rewrite len_app in E. lia.
    + injection E as _ E. eauto.
Qed.
Lemma two_dashes a : forall b x y, no_dash a -> no_dash b -> a +++ "-" +++ x = b +++ "-" +++ y -> a = b.
Proof.
  induction a as [|c a IH]; intros [|d b] x y Ha Hb E; cbn in E; auto.
  - injection E as E _. destruct (Hb "" b). cbn. congruence.
  - injection E as E _. destruct (Ha "" a). cbn. congruence.
  - injection E as -> E. f_equal. eapply IH; [| |exact E].
    + intros p q ->. now apply (Ha (String d p) q).
    + intros p q ->. now apply (Hb (String d p) q).
Qed.

Ltac nowhere E := repeat match type of E with _ = ?p +++ _ => destruct p as [|? p]; [discriminate E|first [discriminate E|injection E as _ E]] end.

(** Of the files of the build those are verified that are the bitcode of the crate of the library, or of the package if
    no library has a name, and no others. *)
Theorem C81_files : forall m entries f,
  In f (linked_files m entries) <-> In f entries /\ bitcode_of (crate_name (match library m with Some n => n | None => package m end)) f.
Proof.
  intros m entries f. unfold linked_files, find_target. rewrite filter_In, andb_true_iff, startswith_ok, endswith_ok, replace_dash_ok.
  set (t := crate_name _). split; intros [Hi H]; split; auto.
  - destruct H as [[r Hr] [r' Hr']]. split; [apply crate_no_dash|].
    destruct (PeanoNat.Nat.le_gt_cases 3 (String.length r)) as [Hl|Hl].
    + destruct (cut_suffix r r' (t +++ "-") ".bc") as [h Hh]; [congruence|exact Hl|]. exists h. rewrite Hr, Hh, sapp_assoc. reflexivity.
    + exfalso. destruct (cut_suffix ".bc" t r' ("-" +++ r)) as [h Hh]; [rewrite <- sapp_assoc; congruence|cbn; lia|]. nowhere Hh.
  - destruct H as [_ [h ->]]. split; [exists (h +++ ".bc"); now rewrite sapp_assoc|exists (t +++ "-" +++ h); now rewrite !sapp_assoc].
Qed.
Print Assumptions C81_files.

(** So no file of another crate is verified with it, even if its name begins in the same way. *)
Theorem C81_others : forall m entries f crate, bitcode_of crate f -> In f (linked_files m entries) ->
  crate = crate_name (match library m with Some n => n | None => package m end).
Proof.
  intros m entries f crate [Hc [h ->]] H. apply C81_files in H. destruct H as [_ [Hd [h' E]]]. eapply two_dashes; eauto.
Qed.
Print Assumptions C81_others.

(** The files are linked once each, in the order of the directory. *)
Theorem C81_order : forall m entries, NoDup entries ->
  NoDup (linked_files m entries) /\
  forall f g, In f (linked_files m entries) -> In g (linked_files m entries) ->
    (exists a b c, entries = a ++ f :: b ++ g :: c) -> exists a b c, linked_files m entries = a ++ f :: b ++ g :: c.
Proof.
  intros m entries H. split; [apply NoDup_filter, H|]. unfold linked_files. intros f g Hf Hg (a & b & c & ->).
  apply filter_In in Hf. apply filter_In in Hg. destruct Hf as [_ Hf], Hg as [_ Hg].
  rewrite filter_app. cbn [filter]. rewrite Hf, filter_app. cbn [filter]. rewrite Hg. eauto.
Qed.
Print Assumptions C81_order.

(** It is not so that the program's own crates are all verified: a binary with a name of its own, in which main is, is not. *)
Theorem C81_binary_refuted :
  ~ (forall m entries f n, In n (binaries m) -> In f entries -> bitcode_of (crate_name n) f -> In f (linked_files m entries)).
Proof.
  intros H. specialize (H (Manifest "app" (Some "app-core") ["run-app"]) ["app_core-1a.bc"; "run_app-2b.bc"] "run_app-2b.bc" "run-app").
  cbn in H. destruct H as [H|[]]; auto; [|discriminate].
  split; [apply (crate_no_dash "run-app")|exists "2b"; reflexivity].
Qed.
Print Assumptions C81_binary_refuted.

Example C81_nonvacuous :
  let m := Manifest "my-app" None ["my-app"] in
  let entries := ["my_app_util-9c.bc"; "my_app-1a.bc"; "my_app-1a.d"; "libc-77.bc"; "my_app-2b.bc"] in
  linked_files m entries = ["my_app-1a.bc"; "my_app-2b.bc"] /\ bitcode_of (crate_name "my-app") "my_app-1a.bc" /\ NoDup entries.
Proof.
  split; [reflexivity|]. split; [split; [apply (crate_no_dash "my-app")|exists "1a"; reflexivity]|].
  repeat constructor; cbn; intuition discriminate.
Qed.
