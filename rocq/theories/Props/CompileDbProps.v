(** C80: compilation databases and Boogie files as input. *)
From Coq Require Import List String Ascii Bool Arith Lia.
From Verif.Spec Require Import CompileDb.
From Verif.Model Require Import CompileDb.
Import ListNotations.
Open Scope string_scope.
Open Scope list_scope.
Local Notation "a +++ b" := (String.append a b) (right associativity, at level 60).

Lemma sapp_assoc a b c : (a +++ b) +++ c = a +++ b +++ c.
Proof. induction a; cbn; congruence. Qed.
Lemma sapp_nil a : a +++ "" = a.
Proof. induction a; cbn; congruence. Qed.
Lemma boundary_ok s : boundary s = true <-> word_ends s.
Proof. destruct s; cbn; [tauto|apply negb_true_iff]. Qed.
Lemma digit_ok d : digit19 d = true <-> 49 <= nat_of_ascii d <= 57.
Proof. unfold digit19. rewrite andb_true_iff, !Nat.leb_le. tauto. Qed.

(** -O1 to -O9 begins here. *)
Definition hit (s : string) : bool :=
  match s with String a (String b (String d rest)) => Ascii.eqb a "-" && Ascii.eqb b "O" && digit19 d && boundary rest | _ => false end.
Lemma hit_ok s : hit s = true <-> exists d b, s = "-O" +++ String d b /\ 49 <= nat_of_ascii d <= 57 /\ word_ends b.
Proof.
  split.
  - destruct s as [|a [|b [|d rest]]]; cbn; try discriminate. rewrite !andb_true_iff, !Ascii.eqb_eq, boundary_ok, digit_ok.
    intros [[[-> ->] Hd] Hb]. eauto.
  - intros (d & b & -> & Hd & Hb). apply digit_ok in Hd. apply boundary_ok in Hb. cbn. now rewrite Hd, Hb.
Qed.
Lemma optimizes_hit s : optimizes s <-> exists a b, s = a +++ b /\ hit b = true.
Proof.
  split.
  - intros (a & d & b & -> & H). exists a, ("-O" +++ String d b). split; auto. apply hit_ok. eauto.
  - intros (a & t & -> & H). apply hit_ok in H. destruct H as (d & b & -> & H). exists a, d, b. auto.
Qed.
Lemma optimizes_cons c s : optimizes (String c s) <-> hit (String c s) = true \/ optimizes s.
Proof.
  rewrite !optimizes_hit. split.
  - intros ([|c' a] & b & E & H); cbn in E; [subst; auto|]. injection E as <- ->. right. eauto.
  - intros [H|(a & b & -> & H)]; [exists "", (String c s); auto|exists (String c a), b; auto].
Qed.
Lemma sub_opt_step c s : sub_opt (String c s) = if hit (String c s) then match s with String b (String d rest) => String c (String b (String "0" (sub_opt rest))) | _ => "" end else String c (sub_opt s).
Proof. destruct s as [|b [|d rest]]; reflexivity. Qed.
Lemma sub_opt_id s : ~ optimizes s -> sub_opt s = s.
Proof.
  induction s as [|c s IH]; auto. rewrite optimizes_cons. intros H. rewrite sub_opt_step.
  destruct (hit (String c s)); [tauto|]. f_equal. tauto.
Qed.
Lemma hd_sub s : boundary (sub_opt s) = boundary s.
Proof. destruct s as [|c s]; auto. rewrite sub_opt_step. destruct (hit (String c s)) eqn:E; auto. destruct s as [|b [|d r]]; cbn in E; try discriminate. auto. Qed.
Lemma not_opt_0 s : ~ optimizes s -> ~ optimizes (String "-" (String "O" (String "0" s))).
Proof. intros H. rewrite !optimizes_cons. intros [E|[E|[E|E]]]; [discriminate E| | |tauto]; (destruct s as [|? [|? ?]]; discriminate E). Qed.
(** A string whose rewriting begins with O and a digit from 1 to 9 began so itself, and nothing there was changed. *)
Lemma tail_hit s : hit (String "-" (sub_opt s)) = true -> hit (String "-" s) = true.
Proof.
  destruct s as [|b s]; [cbn; discriminate|]. rewrite sub_opt_step. destruct (hit (String b s)) eqn:E.
  - destruct s as [|o [|d r]]; cbn in E; try discriminate. rewrite !andb_true_iff, !Ascii.eqb_eq in E. destruct E as [[[-> ->] _] _]. cbn. discriminate.
  - destruct s as [|d s]; [cbn; discriminate|]. rewrite sub_opt_step. destruct (hit (String d s)) eqn:E2.
    + destruct s as [|o [|d2 r]]; cbn in E2; try discriminate. rewrite !andb_true_iff, !Ascii.eqb_eq in E2. destruct E2 as [[[-> ->] _] _].
      cbn. rewrite !andb_true_iff. intuition discriminate.
    + cbn. rewrite hd_sub. auto.
Qed.

(** After the rewriting no -O1 to -O9 is left, and a text without these is not changed. *)
Theorem C80_optimization : forall s, ~ optimizes (sub_opt s) /\ (~ optimizes s -> sub_opt s = s) /\ String.length (sub_opt s) = String.length s.
Proof.
  intros s. split; [|split; [apply sub_opt_id|]].
  - enough (H : forall n s, String.length s <= n -> ~ optimizes (sub_opt s)) by eauto.
    clear s. induction n as [|n IH]; intros [|c s] Hn; cbn in Hn; try lia;
      try (rewrite optimizes_hit; intros ([|] & [|] & E & H); cbn in *; discriminate).
    rewrite sub_opt_step. destruct (hit (String c s)) eqn:E.
    + destruct s as [|o [|d r]]; cbn in E; try discriminate. rewrite !andb_true_iff, !Ascii.eqb_eq in E. destruct E as [[[-> ->] _] _].
      apply not_opt_0, IH. cbn in Hn. lia.
    + rewrite optimizes_cons. intros [H|H]; [|apply (IH s); [lia|exact H]].
      assert (c = "-"%char) as ->.
      { destruct (sub_opt s) as [|b [|d r]]; cbn in H; try discriminate. rewrite !andb_true_iff, !Ascii.eqb_eq in H. tauto. }
      apply tail_hit in H. congruence.
  - enough (H : forall n s, String.length s <= n -> String.length (sub_opt s) = String.length s) by eauto.
    clear s. induction n as [|n IH]; intros [|c s] Hn; cbn in Hn; try lia; auto.
    rewrite sub_opt_step. destruct (hit (String c s)) eqn:E.
    + destruct s as [|o [|d r]]; cbn in E; try discriminate. cbn in *. rewrite IH; lia.
    + cbn. rewrite IH; lia.
Qed.
Print Assumptions C80_optimization.

Lemma sub_opt_app x : forall c y, word_char c = false -> sub_opt (x +++ String c y) = sub_opt x +++ sub_opt (String c y).
Proof.
  enough (H : forall n x, String.length x <= n -> forall c y, word_char c = false -> sub_opt (x +++ String c y) = sub_opt x +++ sub_opt (String c y)) by eauto.
  clear x. induction n as [|n IH]; intros [|a x] Hn c y Hc; cbn in Hn; try lia; auto.
  cbn [String.append]. rewrite (sub_opt_step a (x +++ String c y)), (sub_opt_step a x).
  assert (E : hit (String a (x +++ String c y)) = hit (String a x)).
  { destruct x as [|b [|d r]]; cbn [String.append].
    - destruct y as [|d r]; auto. cbn. destruct (Ascii.eqb c "O") eqn:Ec; [apply Ascii.eqb_eq in Ec; subst; discriminate|]. now rewrite andb_false_r.
    - cbn. destruct (digit19 c) eqn:Ec; [|now rewrite andb_false_r].
      apply digit_ok in Ec. unfold word_char in Hc; cbv zeta in Hc; rewrite !orb_false_iff, !andb_false_iff, !Nat.leb_gt in Hc. lia.
    - cbn. f_equal. destruct r; cbn; auto. now rewrite Hc. }
  rewrite E. destruct (hit (String a x)) eqn:E2.
  - destruct x as [|o [|d r]]; cbn in E2; try discriminate. cbn [String.append]. cbn in Hn. rewrite (IH r) by (auto; lia). reflexivity.
  - cbn [String.append]. rewrite (IH x) by (auto; lia). reflexivity.
Qed.
Lemma skip x s : sub_out (String.length x) (x +++ s) = sub_out 0 s.
Proof. induction x; cbn; auto. Qed.
Lemma token_app u b : no_blank u -> arg_ends b -> token (u +++ ".o" +++ b) = u +++ ".o".
Proof.
  intros Hu Hb. induction u as [|c u IH]; cbn.
  - destruct b; cbn in *; [auto|subst; auto].
  - destruct (Ascii.eqb c " ") eqn:E.
    + apply Ascii.eqb_eq in E. subst. destruct (Hu "" u). reflexivity.
    + f_equal. apply IH. intros x y ->. apply (Hu (String c x) y). reflexivity.
Qed.
Lemma last_o_app u : last_o (u +++ ".o") = Some u.
Proof. induction u as [|c u IH]; [reflexivity|]. cbn [String.append last_o]. now rewrite IH. Qed.
Lemma sub_out_0 c s : sub_out 0 (String c s) =
  match match_out (String c s) with Some u => "-o " +++ u +++ ".bc" +++ sub_out (String.length u + 4) s | None => String c (sub_out 0 s) end.
Proof. reflexivity. Qed.
Lemma len_app a b : String.length (a +++ b) = String.length a + String.length b.
Proof. induction a; cbn; auto. Qed.
Lemma sub_out_hit u b : no_blank u -> arg_ends b -> sub_out 0 ("-o " +++ u +++ ".o" +++ b) = "-o " +++ u +++ ".bc" +++ sub_out 0 b.
Proof.
  intros Hu Hb. pose proof (token_app u b Hu Hb) as Ht. set (r := u +++ ".o" +++ b) in *.
  assert (E : sub_out 0 ("-o " +++ r) = match last_o (token r) with Some u => "-o " +++ u +++ ".bc" +++ sub_out (String.length u + 4) (String "o" (String " " r)) | None => String "-" (sub_out 0 (String "o" (String " " r))) end) by reflexivity.
  rewrite E, Ht, last_o_app.
  replace (String.length u + 4) with (S (S (String.length (u +++ ".o")))) by (rewrite len_app; cbn; lia).
  change (sub_out (S (S (String.length (u +++ ".o")))) (String "o" (String " " r))) with (sub_out (String.length (u +++ ".o")) r).
  replace r with ((u +++ ".o") +++ b) by apply sapp_assoc. now rewrite skip.
Qed.
Lemma sub_out_pre a r : no_output a -> sub_out 0 (a +++ "-o " +++ r) = a +++ sub_out 0 ("-o " +++ r).
Proof.
  induction a as [|c a IH]; intros H; auto. cbn [String.append] in *. rewrite sub_out_0.
  replace (match_out _) with (@None string).
  - f_equal. apply IH. intros x y -> Hy. apply (H (String c x) y); auto.
  - specialize (H "" (String c a) eq_refl ltac:(discriminate)).
    destruct a as [|c1 [|c2 a]]; cbn in *; 
    (destruct (Ascii.eqb c "-") eqn:E1; [apply Ascii.eqb_eq in E1; subst|reflexivity]).
    + reflexivity.
    + destruct (Ascii.eqb c1 "o") eqn:E2; [|reflexivity]. reflexivity.
    + destruct (Ascii.eqb c1 "o") eqn:E2; [apply Ascii.eqb_eq in E2; subst|reflexivity].
      destruct (Ascii.eqb c2 " ") eqn:E3; [apply Ascii.eqb_eq in E3; subst|reflexivity].
      destruct (H (a +++ "-o ")). reflexivity.
Qed.

(** A command with the output u.o, such as cc -O2 -c x.c -o u.o, is run with the output u.bc and with -emit-llvm at its end; what is
    before -o is as before, but for -O1 to -O9. *)
Theorem C80_command : forall a u b, no_output a -> no_blank u -> ~ optimizes u -> arg_ends b ->
  exists b', rewrite_command (a +++ "-o " +++ u +++ ".o" +++ b) = sub_opt a +++ "-o " +++ u +++ ".bc" +++ b' +++ " -emit-llvm" /\
    ~ optimizes b' /\ (b = "" -> b' = "").
Proof.
  intros a u b Ha Hu Ho Hb. exists (sub_opt (sub_out 0 b)). split; [|split; [apply C80_optimization|intros ->; reflexivity]].
  unfold rewrite_command. rewrite sub_out_pre, sub_out_hit by auto.
  change ("-o " +++ u +++ ".bc" +++ sub_out 0 b) with (String "-" ("o " +++ u +++ ".bc" +++ sub_out 0 b)). rewrite sub_opt_app by reflexivity.
  rewrite !sapp_assoc. f_equal.
  change (String "-" ("o " +++ u +++ ".bc" +++ sub_out 0 b)) with ("-o " +++ u +++ String "." ("bc" +++ sub_out 0 b)).
  rewrite <- (sapp_assoc "-o " u), sub_opt_app by reflexivity.
  replace (sub_opt ("-o " +++ u)) with ("-o " +++ u).
  - rewrite !sapp_assoc. do 2 f_equal.
    replace (sub_opt (String "." ("bc" +++ sub_out 0 b))) with (".bc" +++ sub_opt (sub_out 0 b)); [now rewrite sapp_assoc|].
    cbn [String.append]. rewrite (sub_opt_step "."), (sub_opt_step "b"), (sub_opt_step "c").
    destruct (sub_out 0 b) as [|x [|y z]]; reflexivity.
  - cbn [String.append]. rewrite (sub_opt_step "-"), (sub_opt_step "o"), (sub_opt_step " "), (sub_opt_id u Ho). destruct u as [|x [|y z]]; reflexivity.
Qed.
Print Assumptions C80_command.

Lemma bc_name_o u : bc_name (u +++ ".o") = u +++ ".bc".
Proof.
  induction u as [|c u IH]; [reflexivity|]. cbn [String.append bc_name].
  replace (String c (u +++ ".o") =? ".o") with false; [now rewrite IH|].
  symmetry. apply String.eqb_neq. intros E. apply (f_equal String.length) in E. cbn in E. rewrite len_app in E. cbn in E. lia.
Qed.
Lemma linked_app l a : linked (l ++ [a]) = match a with LinkBc fs => Some fs | _ => linked l end.
Proof. unfold linked. rewrite fold_left_app. now destruct a. Qed.
Lemma linked_runs l r : (forall a, In a r -> exists c d, a = Run c d) -> linked (l ++ r) = linked l.
Proof.
  revert l. induction r as [|a r IH]; intros l H; [now rewrite app_nil_r|].
  change (a :: r) with ([a] ++ r). rewrite app_assoc, IH by (intros; apply H; now right). rewrite linked_app.
  destruct (H a (or_introl eq_refl)) as (c & d & ->). reflexivity.
Qed.

(** The commands of the database are run in its order, each in its directory; translated is what the last entry that links does link, with
    u.bc for each u.o. *)
Theorem C80_linked : forall input db1 us db2 l,
  json_frontend [input] (db1 ++ Link (map (fun u => u +++ ".o") us) :: db2) = Some l -> (forall os, ~ In (Link os) db2) ->
  linked l = Some (map (fun u => u +++ ".bc") us) /\
  (forall before c d after, db1 ++ Link (map (fun u => u +++ ".o") us) :: db2 = before ++ Compile c d :: after ->
     nth_error l (List.length before) = Some (Run (rewrite_command c) d)).
Proof.
  intros input db1 us db2 l E Hn. injection E as <-. split.
  - rewrite map_app. cbn [map action_of]. change (?a ++ ?x :: ?b) with (a ++ [x] ++ b). rewrite app_assoc, linked_runs, linked_app.
    + rewrite map_map. f_equal. apply map_ext. apply bc_name_o.
    + intros a Ha. apply in_map_iff in Ha. destruct Ha as ([c d|os] & <- & Hi); [cbn; eauto|destruct (Hn os Hi)].
  - intros before c d after ->. rewrite map_app, nth_error_app2 by (rewrite map_length; lia). rewrite map_length, Nat.sub_diag. reflexivity.
Qed.
Print Assumptions C80_linked.

(** What is verified is the input just if there was nothing in the Boogie file, as in a new temporary one. *)
Theorem C80_boogie : forall file input old, boogie_frontend [file] input old = Some input <-> old = "".
Proof.
  intros file input old. cbn. split.
  - intros E. injection E as E. apply (f_equal String.length) in E. rewrite len_app in E. destruct old; [auto|cbn in E; lia].
  - intros ->. reflexivity.
Qed.
Print Assumptions C80_boogie.

(** Not so with --no-verify, where the file is a.bpl: the second of two runs leaves the program twice in it. *)
Theorem C80_append_refuted :
  ~ (forall file input out out', boogie_frontend [file] input "" = Some out -> boogie_frontend [file] input out = Some out' -> out' = input) /\
  (forall file input, boogie_frontend [file] input input = Some (input +++ input)).
Proof.
  split; [|reflexivity]. intros H. specialize (H "x.bpl" "procedure p();" _ _ eq_refl eq_refl). discriminate.
Qed.
Print Assumptions C80_append_refuted.

Ltac nowhere E := repeat match type of E with _ = ?p +++ _ => destruct p as [|? p]; [discriminate E|first [discriminate E|injection E as _ E]] end.
(** It is not so that files are compiled without optimizations: -Os, -Oz, -Ofast and -O stay. *)
Theorem C80_optimization_refuted :
  ~ (forall c a b, rewrite_command c <> a +++ " -Os" +++ b) /\
  rewrite_command "cc -Ofast -O -c x.c -o x.o" = "cc -Ofast -O -c x.c -o x.bc -emit-llvm".
Proof.
  split; [|reflexivity]. intros H. apply (H "cc -Os -c x.c -o x.o" "cc" " -c x.c -o x.bc -emit-llvm"). reflexivity.
Qed.
Print Assumptions C80_optimization_refuted.

(** It is not so that a command with the output u.o is always run with the output u.bc: a name with -O2 in it is changed, and
    an output given without a blank is not. *)
Theorem C80_output_refuted :
  ~ (forall a u b, no_output a -> no_blank u -> arg_ends b -> exists p q, rewrite_command (a +++ "-o " +++ u +++ ".o" +++ b) = p +++ "-o " +++ u +++ ".bc" +++ q) /\
  rewrite_command "cc -c x.c -ox.o" = "cc -c x.c -ox.o -emit-llvm".
Proof.
  split; [|reflexivity]. intros H. destruct (H "cc " "x-O2" "") as (p & q & E).
  - intros x y Ex Hy z. destruct x as [|? [|? [|? x]]]; cbn in Ex; try (subst y; discriminate); injection Ex as; subst; try discriminate.
    destruct x; [|discriminate]. cbn in *. congruence.
  - intros x y E. nowhere E.
  - exact I.
  - change (rewrite_command _) with "cc -o x-O0.bc -emit-llvm" in E. nowhere E.
Qed.
Print Assumptions C80_output_refuted.

(** It is not so that all that is linked is translated: with two entries that link, the first is lost; with none, there is nothing. *)
Theorem C80_all_refuted :
  ~ (forall input db l os o, json_frontend [input] db = Some l -> In (Link os) db -> In o os -> exists fs, linked l = Some fs /\ In (bc_name o) fs) /\
  (forall input db l, json_frontend [input] db = Some l -> (forall os, ~ In (Link os) db) -> linked l = None).
Proof.
  split.
  - intros H. destruct (H "db.json" [Link ["a.o"]; Link ["b.o"]] _ ["a.o"] "a.o" eq_refl) as (fs & E & Hi); cbn; auto.
    cbn in E. injection E as <-. cbn in Hi. destruct Hi as [Hi|[]]. discriminate.
  - intros input db l E Hn. injection E as <-. change (map action_of db) with ([] ++ map action_of db). rewrite linked_runs; [reflexivity|].
    intros a Ha. apply in_map_iff in Ha. destruct Ha as ([c d|os] & <- & Hi); [cbn; eauto|destruct (Hn os Hi)].
Qed.
Print Assumptions C80_all_refuted.

(** A database with two files. *)
Example C80_nonvacuous :
  let db := [Compile "cc -O2 -c x.c -o x.o" "/src"; Compile "cc -c -o lib/y.o y.c" "/src"; Link ["x.o"; "lib/y.o"]] in
  exists l, json_frontend ["db.json"] db = Some l /\ linked l = Some ["x.bc"; "lib/y.bc"] /\
  l = [Run "cc -O0 -c x.c -o x.bc -emit-llvm" "/src"; Run "cc -c -o lib/y.bc y.c -emit-llvm" "/src"; LinkBc ["x.bc"; "lib/y.bc"]] /\
  optimizes "cc -O2 -c x.c" /\ ~ optimizes "lib/y" /\ no_blank "lib/y" /\ no_output "cc -c " /\ arg_ends " y.c".
Proof.
  eexists. split; [reflexivity|]. split; [reflexivity|]. split; [reflexivity|]. split; [|split; [|split; [|split; [|reflexivity]]]].
  - exists "cc ", "2"%char, " -c x.c". split; [reflexivity|]. split; [cbn; lia|reflexivity].
  - intros (a & d & b & E & _). nowhere E.
  - intros a b E. nowhere E.
  - intros x y Ex Hy z. do 7 (destruct x as [|? x]; [cbn in Ex; subst y; first [discriminate|congruence]|cbn in Ex; first [discriminate Ex|injection Ex as _ Ex]]).
Qed.
