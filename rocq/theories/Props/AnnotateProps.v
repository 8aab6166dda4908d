From Coq Require Import ZArith List String Ascii Bool Arith Lia.
From Verif.Spec Require Import Regex BoogieSyntax Annotate.
From Verif.Model Require Import PyRegex ErrTrace Driver BoogieAst Annotate.
From Verif.Proofs Require Import BoogieLex BoogieParse.
From Verif.Props Require Import RegexProps PrintProps.
Import ListNotations.
Open Scope nat_scope.
Open Scope string_scope.
Open Scope list_scope.

(** ** Texts *)
Lemma blank_space : forall c, blank c = space c.
Proof. intros [[] [] [] [] [] [] [] []]; reflexivity. Qed.
Lemma every_allc : forall p q s, (forall c, p c = q c) -> every p s <-> allc q s.
Proof. induction s as [|c s IH]; cbn; intros E; [tauto|]. rewrite E, (IH E). tauto. Qed.
Definition notpar (c : ascii) : bool := negb (space c || Ascii.eqb c "(").
Lemma ms_word_in : forall w s c y, In (c, y) (ms (word w) s) -> c = [] /\ s = w +++ y.
Proof.
  induction w as [|x w IH]; intros s c y H; cbn [word ms] in H.
  - destruct H as [E|[]]. injection E as <- <-. auto.
  - apply in_cat in H as (c1 & d & s1 & H1 & H2 & ->). destruct s as [|z s]; [destruct H1|]. unfold is in H1. cbn [ms] in H1. destruct (Ascii.eqb_spec x z) as [->|]; [|destruct H1]. destruct H1 as [E|[]]. injection E as <- <-.
    apply IH in H2 as [-> ->]. auto.
Qed.
Lemma ms_star_in : forall p s c y, In (c, y) (ms (Star (Chr p)) s) -> c = [] /\ exists x, allc p x /\ s = x +++ y.
Proof.
  intros p s c y H. split.
  - rewrite ms_star_chr in H. apply in_map_iff in H as (n & E & _). congruence.
  - destruct (proj1 (ms_lang (Star (Chr p)) s y) (ex_intro _ c H)) as (x & -> & L). apply lang_star_chr in L. eauto.
Qed.
Lemma ms_header : forall s c y, In (c, y) (ms proc_decl s) -> exists h n, s = h +++ y /\ header n h /\ group 1 c = Some n.
Proof.
  intros s c y H. unfold proc_decl in H. cbn [ms Plus] in H.
  apply in_cat in H as (c1 & d1 & s1 & H1 & H & ->). apply ms_word_in in H1 as [-> ->].
  apply (in_cat (ms (Plus (Chr space)) s1)) in H as (c2 & d2 & s2 & H2 & H & ->).
  assert (c2 = [] /\ exists x, allc space x /\ x <> "" /\ s1 = x +++ s2) as (-> & u & Hu & Nu & ->).
  { unfold Plus in H2. cbn [ms] in H2. apply (in_cat (ms (Chr space) s1)) in H2 as (c3 & d3 & s3 & H3 & H2 & ->). destruct s1 as [|z s1]; [destruct H3|]. cbn [ms] in H3. destruct (space z) eqn:Ez; [|destruct H3]. destruct H3 as [E|[]]. injection E as <- <-.
    apply ms_star_in in H2 as (-> & x & Hx & ->). split; [reflexivity|]. exists (String z x). split; [split; assumption|]. split; [discriminate|reflexivity]. }
  apply in_cat in H as (c4 & d4 & s4 & H4 & H & ->). apply in_map_iff in H4 as ([c5 s5] & E & H4). injection E as <- <-. apply ms_star_in in H4 as (-> & n & Hn & ->). rewrite consumed_app.
  apply (in_cat (ms (Star (Chr space)) s5)) in H as (c6 & d6 & s6 & H6 & H & ->). apply ms_star_in in H6 as (-> & v & Hv & ->).
  apply (ms_word_in "(") in H as (-> & ->).
  exists ("procedure" +++ u +++ n +++ v +++ "("), n. split; [now rewrite !sapp_assoc|]. split; [|reflexivity].
  exists u, v. split; [reflexivity|]. split; [exact Nu|]. split; [apply (every_allc blank space); [apply blank_space|exact Hu]|]. split; [apply (every_allc blank space); [apply blank_space|exact Hv]|].
  eapply (every_allc _ notpar); [|exact Hn]. intros z. unfold notpar. now rewrite blank_space.
Qed.
Lemma header_ms : forall n h y, header n h -> ms proc_decl (h +++ y) <> [].
Proof.
  intros n h y (u & v & -> & Nu & Hu & Hv & Hn) E.
  assert (lang proc_decl ("procedure" +++ u +++ n +++ v +++ "(")) as L.
  { apply (every_allc blank space) in Hu, Hv; try apply blank_space. apply (every_allc _ notpar) in Hn; [|intros z; unfold notpar; now rewrite blank_space].
    unfold proc_decl. apply lang_cat. exists "procedure", (u +++ n +++ v +++ "("). split; [reflexivity|]. split; [now apply lang_word|]. apply lang_cat. exists u, (n +++ v +++ "("). split; [reflexivity|]. split.
    - destruct u as [|z u]; [congruence|]. destruct Hu as [H1 H2]. apply lang_cat. exists (String z ""), u. split; [reflexivity|]. split; [apply lang_chr; eauto|now apply lang_star_chr].
    - apply lang_cat. exists n, (v +++ "("). split; [reflexivity|]. split; [apply lang_grp, lang_star_chr, Hn|]. apply lang_cat. exists v, "(". split; [reflexivity|]. split; [now apply lang_star_chr|now apply lang_word]. }
  destruct (proj2 (ms_lang proc_decl (("procedure" +++ u +++ n +++ v +++ "(") +++ y) y)) as (c & Hc); [eauto|]. now rewrite E in Hc.
Qed.
Lemma search_inv : forall r s, match py_search r s with
  | Some (pre, c, rest) => exists t, s = pre +++ t /\ In (c, rest) (ms r t) /\ forall u v, pre = u +++ v -> v <> "" -> ms r (v +++ t) = []
  | None => forall u v, s = u +++ v -> ms r v = [] end.
Proof.
  intros r. induction s as [|x s IH]; cbn [py_search].
  - destruct (ms r "") as [|[c rest] l] eqn:E.
    + intros [|? ?] [|? ?] H; try discriminate H. exact E.
    + exists "". split; [reflexivity|]. split; [rewrite E; now left|]. intros [|? ?] [|? ?] H Hv; try discriminate H. congruence.
  - destruct (ms r (String x s)) as [|[c rest] l] eqn:E.
    + destruct (py_search r s) as [[[pre c] rest]|].
      * destruct IH as (t & -> & Hin & Hno). exists t. split; [reflexivity|]. split; [exact Hin|]. intros [|y u] v H Hv; [cbn in H; subst v; exact E|]. cbn in H. injection H as <- H. eauto.
      * intros [|y u] v H; [cbn in H; now subst v|]. cbn in H. injection H as <- H. eauto.
    + exists (String x s). split; [reflexivity|]. split; [rewrite E; now left|]. intros [|? ?] [|? ?] H Hv; try discriminate H. congruence.
Qed.
Lemma sub_rewritten : forall a k s, String.length s <= k -> exists t, py_sub k proc_decl (annotated a) s = Some t /\ rewritten (procedure_annotation a) s t.
Proof.
  intros a. induction k as [|k IH]; intros s Hk.
  - exists s. split; [reflexivity|]. destruct s; [|cbn in Hk; lia]. apply rw_end. intros [|? ?] h v n E (x & y & -> & _); [discriminate E|discriminate E].
  - cbn [py_sub]. pose proof (search_inv proc_decl s) as H. destruct (py_search proc_decl s) as [[[pre c] rest]|].
    + destruct H as (t & -> & Hin & Hno). apply ms_header in Hin as (h & n & -> & Hh & Hg). destruct (IH rest) as (t & -> & Ht).
      { rewrite !slen_app in Hk. destruct Hh as (x & y & -> & _). rewrite !slen_app in Hk. cbn in Hk. lia. }
      unfold annotated. rewrite Hg. eexists. split; [reflexivity|]. rewrite !sapp_assoc. apply rw_header; [exact Hh| |exact Ht].
      intros u' w h' v' n' E Hw E' Hh'. apply (header_ms _ _ v' Hh'). rewrite <- E'. exact (Hno u' w E Hw).
    + exists s. split; [reflexivity|]. apply rw_end. intros u h v n -> Hh. apply (header_ms _ _ v Hh). now apply (H u).
Qed.

(** ** Marks *)
Lemma alternatives_match : forall l n, l <> [] -> (matches (alternatives l) n = true <-> exists w r, In w l /\ n = w +++ r).
Proof.
  intros l n Hl. assert (matches (alternatives l) n = true <-> exists x y, n = x +++ y /\ lang (alternatives l) x) as ->.
  { unfold matches, py_match. split.
    - destruct (ms (alternatives l) n) as [|[c y] m] eqn:E; [discriminate|]. intros _. destruct (proj1 (ms_lang (alternatives l) n y)) as (x & Hx & L); [exists c; rewrite E; now left|]. eauto.
    - intros (x & y & Hx & L). destruct (proj2 (ms_lang (alternatives l) n y)) as (c & Hc); [eauto|]. destruct (ms (alternatives l) n); [destruct Hc|reflexivity]. }
  assert (forall x, lang (alternatives l) x <-> In x l) as La.
  { induction l as [|w l IH]; [congruence|]. intros x. destruct l as [|w' l]; [cbn [alternatives]; rewrite lang_word; cbn; intuition|]. change (alternatives (w :: w' :: l)) with (Alt (word w) (alternatives (w' :: l))). rewrite lang_alt, lang_word, (IH ltac:(discriminate)). cbn. intuition. }
  split; [intros (x & y & -> & H)|intros (w & r & H & ->)]; [exists x, y|exists w, r]; rewrite La in *; auto.
Qed.
Definition isboogie (a : args) : bool := String.eqb (verifier a) "boogie".
Lemma annotation_marks : forall a n, exists l, marks (entry_points a) (modular a) (isboogie a) (unroll a) n l /\
  procedure_annotation a n +++ " " = match l with [] => " " | _ => print_attrs l end /\ Forall attr_ok l.
Proof.
  intros a n. unfold procedure_annotation, isboogie. destruct (existsb (String.eqb n) (entry_points a)) eqn:Ee.
  - exists [entrypoint]. apply existsb_exists in Ee as (e & He & E). apply String.eqb_eq in E. subst e. split; [now constructor|]. split; [reflexivity|]. constructor; [|constructor]. split; [now apply name_check|constructor].
  - assert (~ In n (entry_points a)) as Ne by (intros H; rewrite (proj2 (existsb_exists _ _)) in Ee; [discriminate|]; exists n; split; [exact H|apply String.eqb_refl]).
    destruct (modular a) eqn:Em; cbn [andb negb].
    + pose proof (alternatives_match inlined_procedures n ltac:(discriminate)) as M. destruct (matches (alternatives inlined_procedures) n).
      * exists [inline 1]. split; [apply marks_library; [assumption|reflexivity|now apply M]|]. split; [reflexivity|]. constructor; [|constructor]. split; [now apply name_check|]. constructor; [exact I|constructor].
      * exists []. split; [apply marks_other; [assumption| |discriminate]; intros _ H; apply M in H; discriminate|]. split; [reflexivity|constructor].
    + destruct (String.eqb (verifier a) "boogie").
      * exists [inline (unroll a)]. split; [now apply marks_bound|]. split; [|constructor; [|constructor]; split; [now apply name_check|]; constructor; [exact I|constructor]].
        unfold print_attrs, print_attr, inline. cbn [map print_seq_nonempty at_name at_vals print_aval print]. unfold print_seq. cbn [join String.append]. repeat progress (rewrite ?sapp_assoc, ?sapp_nil; cbn [String.append]). reflexivity.
      * exists []. split; [apply marks_other; auto; discriminate|]. split; [reflexivity|constructor].
Qed.

(** ** Programs *)
(** The word procedure does not stand before white space. *)
Definition quiet_text (b : string) : Prop := forall u c v, b +++ nl = u +++ "procedure" +++ String c v -> space c = false.
Definition quiet (d : decl) : Prop :=
  match d with
  | DProc p => pr_attrs p = [] /\ exists b, print_decl d = "procedure " +++ b /\ quiet_text b
  | _ => quiet_text (print_decl d)
  end.
Lemma nl_split : forall p q u c v, p +++ nl +++ q = u +++ "procedure" +++ String c v ->
  (exists w, p +++ nl = u +++ "procedure" +++ String c w) \/ (exists u', u = p +++ nl +++ u' /\ q = u' +++ "procedure" +++ String c v).
Proof.
  induction p as [|y p IH]; intros q u c v E.
  - destruct u as [|x u]; [discriminate E|]. cbn in E. injection E as <- E. right. exists u. auto.
  - destruct u as [|x u].
    + left. clear IH. cbn in E. injection E as -> E. do 8 (destruct p as [|? p]; [discriminate E|cbn in E; injection E as -> E]).
      destruct p as [|z p]; cbn in E; injection E as <- E; [exists ""; reflexivity|exists (p +++ nl); reflexivity].
    + cbn in E. injection E as <- E. destruct (IH q u c v E) as [(w & Hw)|(u' & -> & ->)]; [left; exists w; cbn; now rewrite Hw|right; exists u'; auto].
Qed.
Lemma quiet_cat : forall p q, quiet_text p -> quiet_text q -> quiet_text (p +++ nl +++ q).
Proof.
  intros p q Hp Hq u c v E. rewrite !sapp_assoc in E. apply nl_split in E as [(w & Hw)|(u' & _ & Hw)]; [exact (Hp _ _ _ Hw)|exact (Hq _ _ _ Hw)].
Qed.
Lemma quiet_suffix : forall a b, quiet_text (a +++ b) -> quiet_text b.
Proof. intros a b H u c v E. apply (H (a +++ u) c v). now rewrite !sapp_assoc, E. Qed.
Lemma ms_starts : forall s, ms proc_decl s <> [] -> exists c v, s = "procedure" +++ String c v /\ space c = true.
Proof.
  intros s H. destruct (ms proc_decl s) as [|[c y] l] eqn:E; [congruence|]. destruct (ms_header s c y) as (h & n & -> & (u & v & -> & Nu & Hu & _) & _); [rewrite E; now left|].
  destruct u as [|z u]; [congruence|]. destruct Hu as [Hz _]. exists z, (((u +++ n +++ v +++ "(") +++ y)). split; [cbn; reflexivity|]. now rewrite <- blank_space.
Qed.
Definition calm (p : string) : Prop := p = "" \/ exists q, p = q +++ nl /\ quiet_text q.
Lemma calm_none : forall p u v, calm p -> p = u +++ v -> ms proc_decl v = [].
Proof.
  intros p u v [->|(q & -> & Hq)] E.
  - destruct u; [|discriminate E]. cbn in E. subst v. reflexivity.
  - destruct (ms proc_decl v) eqn:Em; [reflexivity|]. destruct (ms_starts v) as (c & w & -> & Hc); [congruence|]. rewrite (Hq u c w E) in Hc. discriminate.
Qed.
Lemma search_header : forall p n r, calm p -> allc notpar n -> py_search proc_decl (p +++ "procedure " +++ n +++ "(" +++ r) = Some (p, [(1, n)], r).
Proof.
  intros p n r Hp Hn. apply search_first.
  - unfold proc_decl. change "procedure " with ("procedure" +++ " "). rewrite sapp_assoc. change [(1, n)] with (((([] ++ []) ++ [(1, n)]) ++ []) ++ [] : captures).
    assert (stops space (n +++ "(" +++ r)) as St by (destruct n as [|z n]; [reflexivity|]; destruct Hn as [Hz _]; cbn; unfold notpar in Hz; destruct (space z); [discriminate|reflexivity]).
    eapply first_cat; [apply first_word|]. eapply first_cat; [apply (first_plus space " "); [split; [reflexivity|exact I]|discriminate|exact St]|].
    eapply first_cat; [apply first_grp, (first_star notpar n ("(" +++ r)); [exact Hn|reflexivity]|]. eapply first_cat; [apply (first_star space "" ("(" +++ r)); [exact I|reflexivity]|]. apply (first_word "(").
  - intros u v E Nv. destruct (ms proc_decl (v +++ "procedure " +++ n +++ "(" +++ r)) eqn:Em; [reflexivity|]. exfalso. destruct (ms_starts (v +++ "procedure " +++ n +++ "(" +++ r)) as (c & w & Ew & Hc); [congruence|].
    destruct Hp as [->|(q & -> & Hq)]; [destruct u, v; try discriminate E; congruence|].
    assert (exists q', v = q' +++ nl) as (q' & ->).
    { clear - E Nv. revert q E. induction u as [|x u IH]; intros q E; [cbn in E; eauto|]. destruct q as [|y q]; cbn in E; injection E as <- E; [destruct u; [|discriminate E]; cbn in E; subst v; congruence|eauto]. }
    rewrite sapp_assoc in Ew. destruct (nl_split q' ("procedure " +++ n +++ "(" +++ r) "" c w Ew) as [(w' & Hw')|(u' & Hu' & _)]; [|destruct q'; discriminate Hu'].
    assert (q +++ nl = u +++ "procedure" +++ String c w') as Y by (rewrite E, Hw'; reflexivity). rewrite (Hq u c w' Y) in Hc. discriminate.
Qed.
Fixpoint lines (l : list string) : string := match l with [] => "" | x :: l' => x +++ nl +++ lines l' end.
Lemma proc_text : forall p, exists b, forall l, print_proc (Proc l (pr_name p) (pr_params p) (pr_rets p) (pr_mods p) (pr_requires p) (pr_ensures p) (pr_locals p) (pr_blocks p)) = "procedure " +++ print_attrs l +++ pr_name p +++ "(" +++ b.
Proof. intros [a x ps rs m rq en ls bs]. eexists. intros l. unfold print_proc. cbn [pr_attrs pr_name pr_params pr_rets pr_mods pr_requires pr_ensures pr_locals pr_blocks]. reflexivity. Qed.
Lemma proc_eta : forall p, pr_attrs p = [] -> p = Proc [] (pr_name p) (pr_params p) (pr_rets p) (pr_mods p) (pr_requires p) (pr_ensures p) (pr_locals p) (pr_blocks p).
Proof. intros [a x ps rs m rq en ls bs] E. cbn in E. now subst. Qed.
Lemma name_notpar : forall x, name x -> allc notpar x.
Proof.
  assert (forall c, ident_char c = true -> notpar c = true) as Hi by (intros [[] [] [] [] [] [] [] []]; vm_compute; congruence).
  intros [|c s] [H _]; [destruct H|]. destruct H as [Hc Hs]. split; [apply Hi; unfold ident_char; now rewrite Hc|]. clear - Hs Hi. induction s as [|z s IH]; [exact I|]. cbn in Hs. apply andb_true_iff in Hs as [H1 H2]. split; auto.
Qed.
Lemma lx_procedure : forall y ts, lx ("procedure " +++ y) ts -> exists ts0, ts = TKw "procedure" :: ts0 /\ lx y ts0.
Proof.
  intros y ts [k0 H]. assert (scan ("procedure " +++ y) = Some (Some (TKw "procedure"), " " +++ y)) as Sc by reflexivity.
  assert (forall k, k0 <= k -> exists ts0, tokens k y = Some ts0 /\ ts = TKw "procedure" :: ts0) as X.
  { intros k Hk. specialize (H (S (S k)) ltac:(lia)). change ("procedure " +++ y) with (String "p" ("rocedure " +++ y)) in *. cbn [tokens] in H. rewrite Sc in H. change (" " +++ y) with (String " " y) in H. cbn [scan white existsb Ascii.eqb Bool.eqb orb] in H.
    change (scan (String " " y)) with (Some (@None token, y)) in H. destruct (tokens k y) as [ts0|]; [|discriminate]. injection H as <-. eauto. }
  destruct (X k0 (le_n _)) as (ts0 & _ & E). exists ts0. split; [exact E|]. exists k0. intros k Hk. destruct (X k Hk) as (ts1 & H1 & E1). congruence.
Qed.
Lemma line_space : forall x ts, line ("procedure " +++ x) ts -> line ("procedure " +++ " " +++ x) ts.
Proof.
  intros x ts H rest tr Hr. specialize (H rest tr Hr). rewrite !sapp_assoc in *. apply lx_procedure in H as (ts0 & -> & H).
  apply (lx_tok _ _ (" " +++ " " +++ x +++ nl +++ rest)); [reflexivity|]. apply (lx_skip _ (" " +++ x +++ nl +++ rest)); [reflexivity|]. apply (lx_skip _ (x +++ nl +++ rest)); [reflexivity|exact H].
Qed.
Definition put (a : args) (d : decl) (x : string * decl) : Prop :=
  marked (entry_points a) (modular a) (isboogie a) (unroll a) d (snd x) /\ decl_ok (snd x) /\ line (fst x) (toks_decl (snd x)).
Lemma sub_lines : forall a l, Forall quiet l -> Forall decl_ok l -> exists xs, Forall2 (put a) l xs /\
  forall p k, calm p -> List.length l <= k -> py_sub k proc_decl (annotated a) (p +++ lines (map print_decl l)) = Some (p +++ lines (map fst xs)).
Proof.
  intros a l Hq Ho. induction l as [|d l IH].
  - exists []. split; [constructor|]. intros p k Hp _. cbn [map lines]. rewrite sapp_nil. destruct k; [reflexivity|]. cbn [py_sub]. rewrite search_none; [reflexivity|]. intros u v E. now apply (calm_none p u v).
  - apply Forall_cons_iff in Hq as [Qd Ql], Ho as [Od Ol]. destruct (IH Ql Ol) as (xs & Hxs & Hsub).
    assert ((exists p, d = DProc p) \/ (forall p, d <> DProc p)) as [(p & ->)|Nd] by (destruct d; try (right; discriminate); left; eauto).
    + cbn [quiet decl_ok] in Qd, Od. destruct Qd as [Ea (b0 & Eb & Qb)]. destruct (proc_text p) as [b Hb]. cbn [print_decl] in Eb. pose proof (Hb []) as Hb0. rewrite <- (proc_eta p Ea) in Hb0. rewrite Hb0 in Eb.
      assert (b0 = pr_name p +++ "(" +++ b) as -> by (now apply (sapp_inj "procedure ") in Eb).
      destruct (annotation_marks a (pr_name p)) as (l0 & Hm & Ht & Ha).
      exists (("procedure " +++ procedure_annotation a (pr_name p) +++ " " +++ pr_name p +++ "(" +++ b, DProc (Proc l0 (pr_name p) (pr_params p) (pr_rets p) (pr_mods p) (pr_requires p) (pr_ensures p) (pr_locals p) (pr_blocks p))) :: xs).
      assert (decl_ok (DProc (Proc l0 (pr_name p) (pr_params p) (pr_rets p) (pr_mods p) (pr_requires p) (pr_ensures p) (pr_locals p) (pr_blocks p)))) as Od' by (destruct Od as (_ & Od); split; [exact Ha|exact Od]).
      split.
      * constructor; [|exact Hxs]. split; [now constructor|]. split; [exact Od'|]. cbn [fst snd]. pose proof (line_decl _ Od') as L. cbn [print_decl] in L. rewrite Hb in L.
        assert (procedure_annotation a (pr_name p) +++ " " +++ pr_name p +++ "(" +++ b = (procedure_annotation a (pr_name p) +++ " ") +++ pr_name p +++ "(" +++ b) as -> by (now rewrite sapp_assoc).
        rewrite Ht. destruct l0 as [|a0 l0]; [apply line_space; exact L|exact L].
      * intros q k Hc Hk. destruct k as [|k]; [cbn in Hk; lia|]. cbn [map lines fst print_decl py_sub]. rewrite Hb0. change (print_attrs []) with "". change ("" +++ pr_name p +++ "(" +++ b) with (pr_name p +++ "(" +++ b). rewrite !sapp_assoc.
        rewrite search_header; [|exact Hc|apply name_notpar; apply Od]. unfold annotated at 1. cbn [group Nat.eqb].
        specialize (Hsub (b +++ nl) k). rewrite !sapp_assoc in Hsub. rewrite Hsub; [now rewrite !sapp_assoc| |cbn in Hk; lia].
        right. exists b. split; [reflexivity|]. rewrite <- sapp_assoc in Qb. now apply quiet_suffix in Qb.
    + exists ((print_decl d, d) :: xs). split; [constructor; [|exact Hxs]; split; [now constructor|]; split; [exact Od|now apply line_decl]|].
      intros q k Hc Hk. cbn [map lines fst]. specialize (Hsub (q +++ print_decl d +++ nl) k). rewrite !sapp_assoc in Hsub. apply Hsub; [|cbn in Hk; lia].
      assert (quiet_text (print_decl d)) as Qt by (destruct d; try exact Qd; elim (Nd p); reflexivity).
      right. exists (q +++ print_decl d). split; [now rewrite sapp_assoc|]. destruct Hc as [->|(q' & -> & Hq')]; [exact Qt|]. rewrite sapp_assoc. now apply quiet_cat.
Qed.
Lemma join_lines : forall l, l <> [] -> join nl l +++ nl = lines l.
Proof.
  induction l as [|x l IH]; [congruence|]. intros _. destruct l as [|y l]; [cbn [join lines]; now rewrite sapp_nil|]. cbn [join lines] in *. rewrite !sapp_assoc, IH by discriminate. reflexivity.
Qed.
Lemma lines_length : forall l, List.length l <= String.length (lines l).
Proof. induction l as [|x l IH]; cbn [lines List.length]; [lia|]. rewrite !slen_app. cbn. lia. Qed.
Lemma lx_comment : forall x r ts, allc nonl x -> lx r ts -> lx ("//" +++ x +++ nl +++ r) ts.
Proof.
  intros x r ts Hx Hr. apply (lx_skip _ (nl +++ r)); [|apply (lx_skip _ r); [reflexivity|exact Hr]].
  assert (snd (span (fun c => negb (Ascii.eqb c "010")) (x +++ nl +++ r)) = nl +++ r) as E.
  { induction x as [|c x IH]; [reflexivity|]. destruct Hx as [H1 H2]. cbn [String.append span]. unfold nonl, newline in H1. change (ascii_of_nat 10) with "010"%char in H1. rewrite H1. specialize (IH H2). destruct (span _ (x +++ nl +++ r)). exact IH. }
  change (scan ("//" +++ x +++ nl +++ r)) with (Some (@None token, snd (span (fun c => negb (Ascii.eqb c "010")) (x +++ nl +++ r)))). now rewrite E.
Qed.

(** ** Theorems *)
(** The file verifiers get reads as the program with each procedure marked, and nothing else
    changed. *)
Theorem C75_program : forall a version argv l, allc nonl version -> allc nonl (verifier a) -> allc nonl argv ->
  Forall decl_ok l -> Forall quiet l ->
  exists t l', annotate_bpl a version argv (print_program l) = Some t /\
    Forall2 (marked (entry_points a) (modular a) (String.eqb (verifier a) "boogie") (unroll a)) l l' /\
    reads_program t (map norm_decl l').
Proof.
  intros a version argv l Hv Hf Ha Ho Hq. destruct (sub_lines a l Hq Ho) as (xs & Hxs & Hsub).
  assert (exists t, py_sub (String.length (print_program l)) proc_decl (annotated a) (print_program l) = Some t /\ lx t (flat_map toks_decl (map snd xs))) as (t & Et & Lt).
  { unfold print_program. destruct l as [|d l].
    - inversion Hxs; subst. exists nl. split; [|apply (lx_skip nl ""); [reflexivity|exact lx_nil]]. specialize (Hsub nl 1). cbn [map lines fst] in Hsub. apply Hsub; [right; exists ""; split; [reflexivity|]|cbn; lia].
      intros u c v E. destruct u as [|x u]; [discriminate E|]. destruct u; discriminate E.
    - rewrite join_lines by discriminate. exists (lines (map fst xs)). split; [apply (Hsub "" _ (or_introl eq_refl)); rewrite <- (map_length print_decl (d :: l)); apply lines_length|].
      clear - Hxs. induction Hxs as [|d' x l' xs' (_ & _ & H) F IH]; [exact lx_nil|]. cbn [map lines flat_map]. apply H. exact IH. }
  exists ("// generated by SMACK version " +++ version +++ " for " +++ verifier a +++ nl +++ "// via " +++ argv +++ nl +++ nl +++ t), (map snd xs).
  split; [unfold annotate_bpl; now rewrite Et|]. split; [clear - Hxs; induction Hxs as [|? ? ? ? (H & _)]; constructor; auto|].
  exists (flat_map toks_decl (map snd xs)). split.
  - change (lx ("// generated by SMACK version " +++ version +++ " for " +++ verifier a +++ nl +++ "// via " +++ argv +++ nl +++ nl +++ t) (flat_map toks_decl (map snd xs))).
    pose proof (lx_comment (" generated by SMACK version " +++ version +++ " for " +++ verifier a) ("// via " +++ argv +++ nl +++ nl +++ t) (flat_map toks_decl (map snd xs))) as L1.
    change ("//" +++ (" generated by SMACK version " +++ version +++ " for " +++ verifier a) +++ nl +++ "// via " +++ argv +++ nl +++ nl +++ t) with ("// generated by SMACK version " +++ (version +++ " for " +++ verifier a) +++ nl +++ "// via " +++ argv +++ nl +++ nl +++ t) in L1.
    rewrite !sapp_assoc in L1. apply L1; [apply allc_app; split; [repeat split|]; apply allc_app; split; [exact Hv|]; apply allc_app; split; [repeat split|exact Hf]|].
    pose proof (lx_comment (" via " +++ argv) (nl +++ t) (flat_map toks_decl (map snd xs))) as L2. apply L2; [apply allc_app; split; [repeat split|exact Ha]|]. apply (lx_skip _ t); [reflexivity|exact Lt].
  - apply p_program_ok. clear - Hxs. induction Hxs as [|? ? ? ? (_ & H & _)]; constructor; auto.
Qed.
Print Assumptions C75_program.

(** For any text: each header of a procedure, and nothing else, is rewritten. *)
Theorem C75_text : forall a version argv s, exists t,
  annotate_bpl a version argv s = Some ("// generated by SMACK version " +++ version +++ " for " +++ verifier a +++ nl +++ "// via " +++ argv +++ nl +++ nl +++ t) /\
  rewritten (procedure_annotation a) s t.
Proof. intros a version argv s. destruct (sub_rewritten a (String.length s) s (le_n _)) as (t & E & H). exists t. unfold annotate_bpl. now rewrite E. Qed.
Print Assumptions C75_text.

(** The entry points are exactly the procedures that get the mark of entry points. *)
Theorem C75_entry : forall a n, procedure_annotation a n = "{:entrypoint}" <-> In n (entry_points a).
Proof.
  intros a n. unfold procedure_annotation. destruct (existsb (String.eqb n) (entry_points a)) eqn:E.
  - apply existsb_exists in E as (e & He & E). apply String.eqb_eq in E. subst e. tauto.
  - split; [|intros H; rewrite (proj2 (existsb_exists _ _)) in E; [discriminate|]; exists n; split; [exact H|apply String.eqb_refl]].
    destruct (modular a && _); [discriminate|]. destruct (negb (modular a) && _); discriminate.
Qed.
Print Assumptions C75_entry.

(** ** Deviations *)
Definition by_boogie : args := Args ["main"] false "boogie" 2.
Definition odd_axiom : list decl := [DAxiom [] (Bin OEq (Var "my_procedure") (Bin OAnd (Var "x") (Var "y")))].
(** A name that ends in procedure before an operator and a parenthesis: the attribute goes into
    the expression, and the text reads as no program. *)
Theorem C75_operator_refuted : Forall decl_ok odd_axiom /\
  print_program odd_axiom = "axiom (my_procedure == (x && y));" +++ nl /\
  forall version argv t l, allc nonl version -> allc nonl argv -> annotate_bpl by_boogie version argv (print_program odd_axiom) = Some t -> ~ reads_program t l.
Proof.
  split; [repeat constructor; cbn; intuition discriminate|]. split; [reflexivity|]. intros version argv t l Hv Ha E (ts & Hl & Hp).
  unfold annotate_bpl in E. assert (py_sub (String.length (print_program odd_axiom)) proc_decl (annotated by_boogie) (print_program odd_axiom) = Some ("axiom (my_procedure {:inline 2} ==(x && y));" +++ nl)) as Es by (vm_compute; reflexivity).
  rewrite Es in E. injection E as <-. change (verifier by_boogie) with "boogie" in Hl.
  assert (exists ts0, lx ("axiom (my_procedure {:inline 2} ==(x && y));" +++ nl) ts0 /\ forall k, p_program (60 + k) ts0 = None) as (ts0 & L & Np).
  { eexists. split; [exists 60%nat; intros k Hk; do 60 (destruct k as [|k]; [lia|]); reflexivity|]. intros k. vm_compute. reflexivity. }
  pose proof (lx_comment (" generated by SMACK version " +++ version +++ " for boogie") _ _ ltac:(apply allc_app; split; [repeat split|]; apply allc_app; split; [exact Hv|repeat split]) (lx_comment (" via " +++ argv) _ _ ltac:(apply allc_app; split; [repeat split|exact Ha]) (lx_skip (nl +++ "axiom (my_procedure {:inline 2} ==(x && y));" +++ nl) _ _ eq_refl L))) as L'.
  rewrite !sapp_assoc in L'. destruct L' as [k1 L'], Hl as [k2 Hl], Hp as [k3 Hp]. specialize (L' (k1 + k2) ltac:(lia)). specialize (Hl (k1 + k2) ltac:(lia)). assert (Some ts0 = Some ts) as Et by exact (eq_trans (eq_sym L') Hl). injection Et as <-.
  specialize (Hp (60 + k3) ltac:(lia)). rewrite Np in Hp. discriminate Hp.
Qed.
Print Assumptions C75_operator_refuted.
(** An entry point that has attributes already gets no mark. *)
Theorem C75_attributes_refuted : forall r, calm r ->
  py_sub 1 proc_decl (annotated by_boogie) (r +++ "procedure {:x} main();") = Some (r +++ "procedure {:x} main();").
Proof.
  intros r Hr. cbn [py_sub]. rewrite search_none; [reflexivity|]. intros u v E.
  destruct (Nat.le_gt_cases (String.length r) (String.length u)) as [L|L].
  - destruct (prefix_of _ _ _ _ E L) as (m & -> & Em). clear - Em. symmetry in Em. do 22 (destruct m as [|? m]; [cbn in Em; subst v; reflexivity|cbn in Em; injection Em as -> Em; try discriminate Em]). 
    destruct m; [|discriminate Em]. cbn in Em. subst v. reflexivity.
  - symmetry in E. destruct (prefix_of _ _ _ _ E) as (m & -> & ->); [lia|]. 
    destruct (ms proc_decl (m +++ "procedure {:x} main();")) eqn:Em; [reflexivity|]. exfalso. destruct (ms_starts (m +++ "procedure {:x} main();")) as (c & w & Ew & Hc); [congruence|].
    destruct Hr as [Hr|(q & Hq & Qq)]; [rewrite slen_app in L; apply (f_equal String.length) in Hr; rewrite slen_app in Hr; cbn in Hr; lia|].
    assert (m <> "") as Nm by (intros ->; rewrite sapp_nil in L; lia).
    assert (exists q', m = q' +++ nl) as (q' & ->).
    { clear - Hq Nm. revert q Hq. induction u as [|x u IH]; intros q Hq; [cbn in Hq; eauto|]. destruct q as [|y q]; cbn in Hq; injection Hq as -> Hq; [destruct u; [|discriminate Hq]; cbn in Hq; subst m; congruence|eauto]. }
    rewrite sapp_assoc in Ew. destruct (nl_split q' _ "" c w Ew) as [(w' & Hw')|(u' & Hu' & _)]; [|destruct q'; discriminate Hu'].
    pose proof (Qq u c w') as X. rewrite <- Hq, Hw' in X. rewrite (X eq_refl) in Hc. discriminate.
Qed.
Print Assumptions C75_attributes_refuted.
(** A command line with a line end in it (in a file name, say) adds to the program. *)
Theorem C75_command_line_refuted : forall t l, let argv := "smack a" +++ nl +++ "axiom false; //.c" in
  annotate_bpl by_boogie "2.8.0" argv (print_program []) = Some t -> reads_program t l -> l = [DAxiom [] (BoolLit false)].
Proof.
  intros t l argv E R. vm_compute in E. injection E as <-. eapply C53_reads_once; [exact R|].
  exists [TKw "axiom"; TKw "false"; TSym ";"]. split; exists 30%nat; intros k Hk; do 30 (destruct k as [|k]; [lia|]); reflexivity.
Qed.
Print Assumptions C75_command_line_refuted.

(** ** Examples *)
Definition small_proc (n : string) (b : list block) : decl := DProc (Proc [] n [] [] [] [] [] [] b).
Definition small : list decl :=
  [DAxiom [] (BoolLit true); small_proc "__SMACK_top_decl" []; small_proc "f" [Block "$bb0" [Assume [] (BoolLit true); Return]]; small_proc "main" [Block "$bb0" [Call [] [] "f" []; Return]]].
Fixpoint loud (s : string) : bool :=
  match s with
  | "" => false
  | String _ r => (String.prefix "procedure" s && match String.get 9 s with Some c => space c | None => false end) || loud r
  end.
Lemma loud_quiet : forall b, loud (b +++ nl) = false -> quiet_text b.
Proof.
  intros b H u c v E. rewrite E in H. clear E. induction u as [|x u IH].
  - cbn in H. destruct (space c); [discriminate|reflexivity].
  - cbn [String.append loud] in H. apply orb_false_iff in H as [_ H]. auto.
Qed.
Example C75_nonvacuous : Forall decl_ok small /\ Forall quiet small /\ allc nonl "smack a.c" /\
  annotate_bpl by_boogie "2.8.0" "smack a.c" (print_program small) = Some (join nl
    ["// generated by SMACK version 2.8.0 for boogie"; "// via smack a.c"; ""; "axiom true;"; "procedure {:inline 2} __SMACK_top_decl();"; "procedure {:inline 2} f()"; "{"; "$bb0:"; "  assume true;"; "  return;"; "}";
     "procedure {:entrypoint} main()"; "{"; "$bb0:"; "  call f();"; "  return;"; "}"; ""]).
Proof.
  split; [unfold small, small_proc; repeat (ok1 || (intros _; reflexivity))|]. split; [|split; [vm_compute; tauto|vm_compute; reflexivity]].
  unfold small, small_proc. repeat (apply Forall_cons || apply Forall_nil); cbn [quiet]; try (apply loud_quiet; vm_compute; reflexivity);
    (split; [reflexivity|eexists; split; [reflexivity|apply loud_quiet; vm_compute; reflexivity]]).
Qed.
