(** The names of missing functions replay.py finds in the linker's output. *)
From Coq Require Import ZArith List String Ascii Bool Lia Arith.
From Verif.Spec Require Import Regex TraceValues Replay.
From Verif.Model Require Import PyRegex ErrTrace Replay.
From Verif.Props Require Import RegexProps.
From Verif.Proofs Require Import TraceText ReplayText.
Import ListNotations.
Open Scope string_scope.
Open Scope list_scope.
Open Scope nat_scope.

Lemma without_app : forall c a b, without c (a +++ b) <-> without c a /\ without c b.
Proof. intros c a b. unfold without. rewrite !all_allc. apply allc_app. Qed.
Lemma has_without : forall c s, has c s = false <-> without c s.
Proof.
  induction s as [|x s IH]; cbn; [tauto|]. rewrite orb_false_iff, IH. unfold without. cbn. now rewrite negb_true_iff.
Qed.
Lemma first_unique : forall c f g r t, without c f -> without c g -> f +++ String c r = g +++ String c t -> f = g.
Proof.
  induction f as [|x f IH]; intros [|y g] r t Hf Hg E; [reflexivity| | |].
  - cbn in E. injection E as <- _. destruct Hg as (Hg & _). rewrite Ascii.eqb_refl in Hg. discriminate.
  - cbn in E. injection E as -> _. destruct Hf as (Hf & _). rewrite Ascii.eqb_refl in Hf. discriminate.
  - cbn in E. injection E as <- E. destruct Hf as (_ & Hf), Hg as (_ & Hg). f_equal. eapply IH; eassumption.
Qed.
Lemma occurs_cut : forall w c a b, without c w -> occurs w (a +++ String c b) -> occurs w a \/ occurs w b.
Proof.
  intros w c a b Hw (u & v & E). destruct (Nat.le_gt_cases (String.length u) (String.length a)) as [L|L].
  - symmetry in E. destruct (prefix_of u (w +++ v) a (String c b) E L) as (m & -> & E2). destruct (Nat.le_gt_cases (String.length w) (String.length m)) as [L2|L2].
    + destruct (prefix_of w v m (String c b) E2 L2) as (n & -> & _). left. now exists u, n.
    + symmetry in E2. destruct (prefix_of m (String c b) w v E2 ltac:(lia)) as (n & -> & E3). destruct n as [|d n]; [rewrite sapp_nil in L2; lia|]. cbn in E3. injection E3 as <- _.
      apply without_app in Hw as (_ & (Hw & _)). rewrite Ascii.eqb_refl in Hw. discriminate.
  - destruct (prefix_of a (String c b) u (w +++ v) E ltac:(lia)) as (m & -> & E2). destruct m as [|d m]; [rewrite sapp_nil in L; lia|]. cbn in E2. injection E2 as <- ->. right. now exists m, v.
Qed.
Lemma unescape_cons : forall c s, c <> "\"%char -> unescape (String c s) = String c (unescape s).
Proof. intros c s H. destruct c as [[|] [|] [|] [|] [|] [|] [|] [|]]; try reflexivity. congruence. Qed.
Lemma unescape_plain : forall s t, without "\" s -> unescape (s +++ t) = s +++ unescape t.
Proof.
  induction s as [|c s IH]; intros t H; [reflexivity|]. destruct H as (Hc & H). cbn [String.append]. rewrite unescape_cons; [now rewrite IH|]. intros ->. discriminate.
Qed.
Lemma unescape_escape : forall q s t, without "\" s -> without q s -> unescape (escape q s +++ t) = s +++ unescape t.
Proof.
  induction s as [|c s IH]; intros t H Hq; [reflexivity|]. destruct H as (Hc & H), Hq as (Hqc & Hq). cbn [escape].
  destruct (Ascii.eqb_spec c newline) as [->|Nc].
  - rewrite sapp_assoc. cbn. now rewrite IH.
  - destruct (Ascii.eqb_spec c "\") as [->|Nb]; [discriminate|]. rewrite Ascii.eqb_sym. destruct (Ascii.eqb q c); [discriminate|]. rewrite sapp_assoc. cbn [String.append]. rewrite unescape_cons by exact Nb. now rewrite IH.
Qed.
Lemma unescape_repr : forall s, without "\" s -> without dquote s ->
  unescape (repr s) = "Exception(" +++ String (if has "'" s then dquote else "'"%char) (s +++ String (if has "'" s then dquote else "'"%char) ")").
Proof.
  intros s Hb Hd. unfold repr. rewrite (proj2 (has_without dquote s) Hd). rewrite andb_true_r.
  set (q := if has "'" s then dquote else "'"%char). assert (without q s) as Hq by (unfold q; destruct (has "'" s) eqn:E; [exact Hd|now apply has_without]).
  assert (q <> "\"%char) as Nq by (unfold q; destruct (has "'" s); discriminate).
  rewrite unescape_plain by (now repeat split). f_equal. rewrite unescape_cons by exact Nq. f_equal. rewrite unescape_escape by assumption. f_equal. rewrite unescape_cons by exact Nq. reflexivity.
Qed.

(** Lines as Python sees them: with the ends of the exception's text. *)
Definition framed (q : ascii) (p : bool) (l : string) (e : bool) : string :=
  (if p then "Exception(" +++ String q l else l) +++ (if e then String q ")" else "").
Fixpoint frames (q : ascii) (p : bool) (lines : list string) : list string :=
  match lines with [] => [] | [x] => [framed q p x true] | x :: l => framed q p x false :: frames q false l end.
Lemma split_frames : forall q lines (p : bool), q <> newline -> lines <> [] -> Forall (without newline) lines ->
  split newline ((if p then "Exception(" +++ String q (text lines) else text lines) +++ String q ")") = frames q p lines.
Proof.
  intros q lines p Nq. revert p. assert (without newline (String q ")")) as Hq by (split; [destruct (Ascii.eqb_spec newline q); [congruence|reflexivity]|now repeat split]).
  induction lines as [|x lines IH]; intros p Hn H; [congruence|]. apply Forall_cons_iff in H as (Hx & H). destruct lines as [|y lines].
  - cbn [frames text]. rewrite split_free; [reflexivity|]. destruct p; rewrite ?without_app.
    + split; [|exact Hq]. split; [now repeat split|]. split; [|exact Hx]. destruct (Ascii.eqb_spec newline q); [congruence|reflexivity].
    + tauto.
  - change (text (x :: y :: lines)) with (x +++ String newline (text (y :: lines))). change (frames q p (x :: y :: lines)) with (framed q p x false :: frames q false (y :: lines)).
    rewrite <- (IH false) by (discriminate || exact H). cbn beta iota.
    replace ((if p then "Exception(" +++ String q (x +++ String newline (text (y :: lines))) else x +++ String newline (text (y :: lines))) +++ String q ")")
      with (framed q p x false +++ String newline (text (y :: lines) +++ String q ")")).
    + rewrite split_cat, split_free; [reflexivity|]. unfold framed. rewrite sapp_nil. destruct p; [|exact Hx]. rewrite without_app. split; [now repeat split|]. split; [|exact Hx]. destruct (Ascii.eqb_spec newline q); [congruence|reflexivity].
    + unfold framed. rewrite sapp_nil. destruct p; rewrite !sapp_assoc; [|reflexivity]. cbn [String.append]. rewrite !sapp_assoc. reflexivity.
Qed.

Lemma split_head : forall sep c s, Ascii.eqb c sep = false -> exists z rest, split sep (String c s) = String c z :: rest.
Proof. intros sep c s H. cbn [split]. rewrite H. destruct (split sep s) as [|a b]; eauto. Qed.
Lemma no_mac : forall q p l e, without dquote l -> py_search missing_mac_re (framed q p l e) = None.
Proof.
  intros q p l e Hl. apply search_none. intros u v E. apply ms_none. intros x y -> L. unfold missing_mac_re in L.
  apply lang_cat in L as (w1 & r1 & -> & L1 & L). apply lang_word in L1 as ->. apply lang_cat in L as (g & w2 & -> & _ & L2). apply lang_word in L2 as ->.
  apply (f_equal (split dquote)) in E.
  replace (u +++ (String dquote "_" +++ g +++ String dquote ", referenced from:") +++ y) with (u +++ String dquote (("_" +++ g) +++ String dquote (", referenced from:" +++ y))) in E
    by (cbn [String.append]; rewrite !sapp_assoc; reflexivity).
  rewrite !split_cat in E.
  assert (exists z rest, split dquote (", referenced from:" +++ y) = String "," z :: rest) as (z & rest & Ez).
  { apply (split_head dquote ","). reflexivity. }
  rewrite Ez in E. pose proof (split_nil dquote u) as N1. pose proof (split_nil dquote ("_" +++ g)) as N2.
  destruct (split dquote u) as [|u1 us]; [congruence|]. destruct (split dquote ("_" +++ g)) as [|g1 gs]; [congruence|]. clear N1 N2.
  assert (split dquote (framed q p l e) = (if Ascii.eqb q dquote then (if p then ["Exception("] else []) ++ [l] ++ (if e then [")"] else []) else [framed q p l e])) as EL.
  { destruct (Ascii.eqb_spec q dquote) as [->|Nq].
    - unfold framed. destruct p, e; rewrite ?sapp_nil, ?sapp_assoc; cbn [String.append].
      + change (split dquote ("Exception(" +++ String dquote (l +++ String dquote ")")) = ["Exception("; l; ")"]). rewrite !split_cat, (split_free dquote l Hl). reflexivity.
      + change (split dquote ("Exception(" +++ String dquote l) = ["Exception("; l]). rewrite split_cat, (split_free dquote l Hl). reflexivity.
      + rewrite split_cat, (split_free dquote l Hl). reflexivity.
      + apply split_free, Hl.
    - apply split_free. assert (without dquote (String q "")) as Hq by (split; [destruct (Ascii.eqb_spec dquote q); [congruence|reflexivity]|exact Coq.Init.Logic.I]).
      unfold framed. apply without_app. split; [destruct p; [apply without_app; split; [now repeat split|]; split; [apply Hq|exact Hl]|exact Hl]|]. destruct e; [split; [apply Hq|now repeat split]|exact Coq.Init.Logic.I]. }
  rewrite EL in E. pose proof (f_equal (@List.length string) E) as EN. rewrite !app_length in EN. cbn [List.length] in EN.
  destruct (Ascii.eqb q dquote); [|cbn [List.length] in EN; rewrite ?app_length in EN; cbn [List.length] in EN; lia].
  destruct p, e; cbn in EN; rewrite ?app_length in EN; cbn in EN; try lia.
  destruct us; [|cbn in EN; lia]. destruct gs; [|cbn in EN; lia]. cbn in E. injection E as _ _ E _. discriminate.
Qed.

Lemma missing_report : forall name pre post, without "`" pre -> without "'" post -> without newline (pre +++ complaint +++ name +++ "'" +++ post) ->
  py_search missing_re (pre +++ complaint +++ name +++ "'" +++ post) = Some (pre, [(1, name)], post).
Proof.
  intros name pre post H1 H2 Hn. apply without_nonl in Hn. apply search_first.
  - unfold missing_re. replace ([(1, name)] : captures) with (([(1, name)] : captures) ++ []) by reflexivity. eapply first_cat; [apply first_word|].
    replace ([(1, name)] : captures) with (([] : captures) ++ [(1, name)]) by reflexivity. apply first_greedy_grp.
    + apply allc_app in Hn as (_ & Hn). apply allc_app in Hn as (_ & Hn). exact Hn.
    + intros u v Ev Hu. apply ms_none. intros x y -> L. apply lang_chr in L as (ch & -> & Hch). apply Ascii.eqb_eq in Hch as <-.
      cbn [String.append] in Ev. destruct (proper_suffix _ _ _ _ Ev Hu) as (u' & Eu'). rewrite Eu' in H2. apply without_app in H2 as (_ & (H2 & _)). discriminate.
    + apply first_chr. reflexivity.
  - intros u v -> Hv. apply ms_chr_cat_nil. intros y E. apply Hv. apply without_app in H1 as (_ & H1).
    change complaint with ("undefined reference to " +++ String "`" "") in E. rewrite !sapp_assoc in E. cbn [String.append] in E.
    change (v +++ ("undefined reference to " +++ String "`" (name +++ String "'" post)) = "undefined reference to " +++ String "`" y) in E.
    rewrite <- sapp_assoc in E. apply first_unique in E; [|apply without_app; split; [exact H1|now repeat split]|now repeat split].
    apply (f_equal String.length) in E. rewrite slen_app in E. destruct v; [reflexivity|cbn in E; lia].
Qed.
Lemma missing_none : forall line, ~ occurs complaint line -> py_search missing_re line = None.
Proof.
  intros line H. apply search_none. intros u v ->. apply ms_chr_cat_nil. intros y ->. apply H. now exists u, y.
Qed.

Lemma framed_other : forall q p l e, (q = dquote \/ q = "'"%char) -> ~ occurs complaint l -> ~ occurs complaint (framed q p l e).
Proof.
  intros q p l e Hq H O. unfold framed in O.
  assert (without q complaint) as Hc by (destruct Hq as [-> | ->]; now repeat split).
  assert (forall s, String.length s < String.length complaint -> ~ occurs complaint s) as Hs.
  { intros s Hl (a & b & ->). rewrite !slen_app in Hl. lia. }
  assert (occurs complaint (if p then "Exception(" +++ String q l else l)) as O1.
  { destruct e; [|now rewrite sapp_nil in O]. apply (occurs_cut _ _ _ _ Hc) in O as [O|O]; [exact O|]. exfalso. revert O. apply Hs. cbn. lia. }
  destruct p; [|exact (H O1)]. apply (occurs_cut _ _ _ _ Hc) in O1 as [O1|O1]; [revert O1; apply Hs; cbn; lia|exact (H O1)].
Qed.
Lemma framed_report : forall p l e name, without newline l -> reports name l -> missing_in (framed dquote p l e) = match py_search missing_mac_re (framed dquote p l e) with None => [name] | _ => missing_in (framed dquote p l e) end.
Proof.
  intros p l e name Hl (pre & post & -> & H1 & H2). destruct (py_search missing_mac_re _) eqn:Em; [reflexivity|]. unfold missing_in. rewrite Em.
  set (pre' := if p then "Exception(" +++ String dquote pre else pre). set (post' := post +++ (if e then String dquote ")" else "")).
  assert (framed dquote p (pre +++ complaint +++ name +++ "'" +++ post) e = pre' +++ complaint +++ name +++ "'" +++ post') as EF.
  { unfold framed, pre', post'. destruct p; rewrite ?sapp_assoc; cbn [String.append]; rewrite ?sapp_assoc; cbn [String.append]; rewrite ?sapp_assoc; reflexivity. }
  rewrite EF, missing_report; [reflexivity| | |].
  - unfold pre'. destruct p; [|exact H1]. apply without_app. split; [now repeat split|]. split; [reflexivity|exact H1].
  - unfold post'. apply without_app. split; [exact H2|]. destruct e; now repeat split.
  - rewrite <- EF. unfold framed. apply without_app. split; [|destruct e; now repeat split]. destruct p; [|exact Hl]. apply without_app. split; [now repeat split|]. split; [reflexivity|exact Hl].
Qed.

Lemma missing_frames : forall q names lines, linker_says names lines -> (q = dquote \/ q = "'"%char) -> (names <> [] -> q = dquote) -> forall p, flat_map missing_in (frames q p lines) = names.
Proof.
  intros q names lines H Hq. induction H as [|name l line ls (Hn & Hd & Hb) Hr H IH|l line ls (Hn & Hd & Hb) Ho H IH]; intros Hne p; [reflexivity| |].
  - rewrite (Hne ltac:(discriminate)) in *. assert (forall e, missing_in (framed dquote p line e) = [name]) as G.
    { intros e. rewrite (framed_report p line e name Hn Hr). now rewrite (no_mac dquote p line e Hd). }
    destruct ls as [|x ls]; [cbn; rewrite G; inversion H; reflexivity|]. change (frames dquote p (line :: x :: ls)) with (framed dquote p line false :: frames dquote false (x :: ls)). cbn [flat_map]. rewrite G, IH by reflexivity. reflexivity.
  - assert (forall e, missing_in (framed q p line e) = []) as G.
    { intros e. unfold missing_in. rewrite (no_mac q p line e Hd), missing_none; [reflexivity|]. now apply framed_other. }
    destruct ls as [|x ls]; [cbn; rewrite G; inversion H; reflexivity|]. change (frames q p (line :: x :: ls)) with (framed q p line false :: frames q false (x :: ls)). cbn [flat_map]. rewrite G, IH by exact Hne. reflexivity.
Qed.
Lemma text_without : forall c lines, c <> newline -> Forall (without c) lines -> without c (text lines).
Proof.
  intros c lines Hc H. induction lines as [|x lines IH]; [exact Coq.Init.Logic.I|]. apply Forall_cons_iff in H as (Hx & H). destruct lines as [|y lines]; [exact Hx|].
  change (text (x :: y :: lines)) with (x +++ String newline (text (y :: lines))). apply without_app. split; [exact Hx|]. split; [|now apply IH]. destruct (Ascii.eqb_spec c newline); [congruence|reflexivity].
Qed.
Lemma text_has : forall c lines x, In x lines -> ~ without c x -> ~ without c (text lines).
Proof.
  intros c lines x Hx Hc. induction lines as [|y lines IH]; [destruct Hx|]. destruct lines as [|z lines].
  - destruct Hx as [->|[]]. exact Hc.
  - change (text (y :: z :: lines)) with (y +++ String newline (text (z :: lines))). rewrite without_app. intros (H1 & (_ & H2)). destruct Hx as [->|Hx]; [auto|]. now apply IH.
Qed.
Lemma missing_said : forall names lines, linker_says names lines -> missing_definitions (text lines) = names.
Proof.
  intros names lines H. destruct lines as [|x lines]; [inversion H; reflexivity|].
  assert (Forall linker_line (x :: lines) /\ (names <> [] -> exists y, In y (x :: lines) /\ ~ without "'" y)) as (Hl & Hne).
  { clear - H. induction H as [|name l line ls Hn Hr H (IH & _)|l line ls Hn Ho H (IH & IH2)]; [split; [constructor|congruence]| |].
    - split; [constructor; assumption|]. intros _. exists line. split; [now left|]. destruct Hr as (pre & post & -> & _ & _). intros W. apply without_app in W as (_ & W). apply without_app in W as (_ & W). apply without_app in W as (_ & W). destruct W as (W & _). discriminate.
    - split; [constructor; assumption|]. intros Hne. destruct (IH2 Hne) as (y & Hy & W). exists y. split; [now right|exact W]. }
  assert (Forall (without newline) (x :: lines) /\ Forall (without dquote) (x :: lines) /\ Forall (without "\") (x :: lines)) as (Hn & Hd & Hb).
  { clear - Hl. repeat split; (eapply Forall_impl; [|exact Hl]); intros a (A1 & A2 & A3); assumption. }
  unfold missing_definitions. rewrite unescape_repr by (apply text_without; [discriminate|assumption]).
  set (q := if has "'" (text (x :: lines)) then dquote else "'"%char).
  assert (q = dquote \/ q = "'"%char) as Hq by (unfold q; destruct (has "'" _); auto).
  assert (q <> newline) as Nq by (destruct Hq as [-> | ->]; discriminate).
  transitivity (flat_map missing_in (frames q true (x :: lines))).
  { f_equal. rewrite <- (split_frames q (x :: lines) true Nq ltac:(discriminate) Hn). reflexivity. }
  apply (missing_frames q names (x :: lines) H Hq). intros Hnn. destruct (Hne Hnn) as (y & Hy & W). unfold q. destruct (has "'" (text (x :: lines))) eqn:E; [reflexivity|].
  apply has_without in E. exfalso. exact (text_has "'" _ y Hy W E).
Qed.
