(** C44, C45, C46: verdicts, properties and exit codes. *)
From Coq Require Import NArith Nnat List String Ascii Bool Arith ZArith Lia.
From Verif.Spec Require Import Regex.
From Verif.Model Require Import PyRegex Driver.
From Verif.Props Require Import RegexProps.
Import ListNotations.
Open Scope string_scope.
Open Scope list_scope.

(** ** C44 *)

(** What the text of the back-end says. *)
Definition says_timeout (out : string) : Prop :=
  (exists n, positive_numeral n /\ occurs (n +++ " time out") out) \/ occurs "Z3 ran out of resources" out \/ occurs "timed out" out \/ occurs "ERRORS_TIMEOUT" out.
Definition says_verified (out : string) : Prop :=
  (exists n, positive_numeral n /\ occurs (n +++ " verified, 0 error") out) \/ occurs "no bugs" out \/ occurs "NO_ERRORS_NO_TIMEOUT" out.
Definition says_errors (out : string) : Prop :=
  (exists n, positive_numeral n /\ occurs (" verified, " +++ n +++ " error") out) \/ occurs "can fail" out \/ occurs "ERRORS_NO_TIMEOUT" out.

Lemma lang_positive : forall x, lang positive_re x <-> positive_numeral x.
Proof.
  intros x. unfold positive_re, positive_numeral. rewrite lang_cat. split.
  - intros (u & v & -> & H1 & H2). apply lang_chr in H1 as (c & -> & H1). apply lang_star_chr in H2. exists c, v. rewrite digits_allc. auto.
  - intros (c & v & -> & H1 & H2). rewrite digits_allc in H2. exists (String c ""), v. split; [reflexivity|]. split; [apply lang_chr; eauto|now apply lang_star_chr].
Qed.

Lemma timeout_spec : forall out, searches timeout_re out = true <-> says_timeout out.
Proof.
  intros out. rewrite search_found. unfold timeout_re. rewrite !found_alt, !found_word. unfold says_timeout.
  assert (found (Cat positive_re (word " time out")) out <-> exists n, positive_numeral n /\ occurs (n +++ " time out") out) as ->; [|tauto].
  unfold found, occurs. split.
  - intros (a & x & b & -> & L). apply lang_cat in L as (u & v & -> & L1 & L2). apply lang_positive in L1. apply lang_word in L2 as ->. eauto 6.
  - intros (n & Hn & a & b & ->). exists a, (n +++ " time out"), b. split; [reflexivity|]. apply lang_cat. exists n, " time out". split; [reflexivity|]. split; [now apply lang_positive|now apply lang_word].
Qed.
Lemma verified_spec : forall out, searches verified_re out = true <-> says_verified out.
Proof.
  intros out. rewrite search_found. unfold verified_re. rewrite !found_alt, !found_word. unfold says_verified.
  assert (found (Cat positive_re (Cat (word " verified, 0 error") (Opt (word "s")))) out <-> exists n, positive_numeral n /\ occurs (n +++ " verified, 0 error") out) as ->; [|tauto].
  unfold found, occurs. split.
  - intros (a & x & b & -> & L). apply lang_cat in L as (u & v & -> & L1 & L2). apply lang_positive in L1. apply lang_cat in L2 as (w & z & -> & L2 & _). apply lang_word in L2 as ->.
    exists u. split; [exact L1|]. exists a, (z +++ b). now rewrite !sapp_assoc.
  - intros (n & Hn & a & b & ->). exists a, (n +++ " verified, 0 error" +++ ""), b. split; [now rewrite sapp_nil|]. apply lang_cat. exists n, (" verified, 0 error" +++ ""). split; [reflexivity|].
    split; [now apply lang_positive|]. apply lang_cat. exists " verified, 0 error", "". split; [reflexivity|]. split; [now apply lang_word|]. apply lang_opt. now right.
Qed.
Lemma errors_spec : forall out, searches errors_re out = true <-> says_errors out.
Proof.
  intros out. rewrite search_found. unfold errors_re. rewrite !found_alt, !found_word. unfold says_errors.
  assert (found (Cat (Star (Chr digit)) (Cat (word " verified, ") (Cat positive_re (Cat (word " error") (Opt (word "s")))))) out <-> exists n, positive_numeral n /\ occurs (" verified, " +++ n +++ " error") out) as ->; [|tauto].
  unfold found, occurs. split.
  - intros (a & x & b & -> & L). apply lang_cat in L as (u & v & -> & _ & L). apply lang_cat in L as (w & z & -> & L1 & L). apply lang_word in L1 as ->.
    apply lang_cat in L as (n & y & -> & L1 & L). apply lang_positive in L1. apply lang_cat in L as (e & t & -> & L2 & _). apply lang_word in L2 as ->.
    exists n. split; [exact L1|]. exists (a +++ u), (t +++ b). now rewrite !sapp_assoc.
  - intros (n & Hn & a & b & ->). exists a, (" verified, " +++ n +++ " error"), b. split; [reflexivity|]. apply lang_cat. exists "", (" verified, " +++ n +++ " error"). split; [reflexivity|].
    split; [constructor|]. apply lang_cat. exists " verified, ", (n +++ " error"). split; [reflexivity|]. split; [now apply lang_word|]. apply lang_cat. exists n, " error". split; [reflexivity|].
    split; [now apply lang_positive|]. apply lang_cat. exists " error", "". split; [now rewrite sapp_nil|]. split; [now apply lang_word|]. apply lang_opt. now right.
Qed.

Lemma by_attr_in : forall a r, by_attr a error_props = Some r -> In r [INVALID_DEREF; INVALID_FREE; INVALID_MEMTRACK; OVERFLOW; RUST_PANIC].
Proof.
  intros a r H. unfold error_props, mem_safe_subprops in H. cbn in H.
  repeat match type of H with (if ?b then _ else _) = _ => destruct b; [injection H as <-; cbn; tauto|] end. discriminate.
Qed.

(** The verdict is exactly what the text says, timeouts first, then "verified", then
    errors. *)
Theorem C44_verdict : forall fs out v,
  let r := verification_result fs out v in
  (r = TIMEOUT <-> says_timeout out) /\
  (r = VERIFIED <-> ~ says_timeout out /\ says_verified out) /\
  (In r [ASSERTION_FAILURE; INVALID_DEREF; INVALID_FREE; INVALID_MEMTRACK; OVERFLOW; RUST_PANIC] <-> ~ says_timeout out /\ ~ says_verified out /\ says_errors out) /\
  (r = UNKNOWN <-> ~ says_timeout out /\ ~ says_verified out /\ ~ says_errors out).
Proof.
  intros fs out v. cbv zeta. rewrite <- timeout_spec, <- verified_spec, <- errors_spec. unfold verification_result.
  assert (forall x, In x [ASSERTION_FAILURE; INVALID_DEREF; INVALID_FREE; INVALID_MEMTRACK; OVERFLOW; RUST_PANIC] -> x <> TIMEOUT /\ x <> VERIFIED /\ x <> UNKNOWN) as Hx.
  { intros x Hx. repeat destruct Hx as [<-|Hx]; [..|destruct Hx]; repeat split; discriminate. }
  set (L := [ASSERTION_FAILURE; INVALID_DEREF; INVALID_FREE; INVALID_MEMTRACK; OVERFLOW; RUST_PANIC]) in *.
  assert (~ In TIMEOUT L) as N1 by (intros H; now destruct (Hx _ H)). assert (~ In VERIFIED L) as N2 by (intros H; destruct (Hx _ H) as (_ & H2 & _); now apply H2).
  assert (~ In UNKNOWN L) as N3 by (intros H; destruct (Hx _ H) as (_ & _ & H2); now apply H2).
  assert (TIMEOUT <> VERIFIED /\ TIMEOUT <> UNKNOWN /\ VERIFIED <> UNKNOWN) as (D1 & D2 & D3) by (repeat split; discriminate).
  destruct (searches timeout_re out); [|destruct (searches verified_re out); [|destruct (searches errors_re out)]].
  - clearbody L. intuition congruence.
  - clearbody L. intuition congruence.
  - set (r := match attr_of fs v out with Some _ => _ | None => _ end).
    assert (In r L) as Hr.
    { unfold r. destruct (attr_of fs v out) as [a|]; [|now left]. destruct (by_attr a error_props) as [x|] eqn:E; [|now left]. right. now apply by_attr_in in E. }
    destruct (Hx r Hr) as (X1 & X2 & X3). clearbody L r. intuition congruence.
  - clearbody L. intuition congruence.
Qed.
Print Assumptions C44_verdict.

(** The kind of error an attribute stands for. *)
Definition category (attr : string) : N :=
  if String.eqb attr "valid_deref" then INVALID_DEREF
  else if String.eqb attr "valid_free" then INVALID_FREE
  else if String.eqb attr "valid_memtrack" then INVALID_MEMTRACK
  else if String.eqb attr "overflow" then OVERFLOW
  else if String.eqb attr "rust_panic" then RUST_PANIC
  else ASSERTION_FAILURE.
Lemma by_attr_category : forall a, match by_attr a error_props with Some r => r | None => ASSERTION_FAILURE end = category a.
Proof.
  intros a. unfold category. rewrite !(String.eqb_sym a). unfold error_props, mem_safe_subprops. cbn [by_attr app boogie_attr lookup boogie_attrs prop_result prop_results N.eqb VALID_DEREF VALID_FREE MEMLEAK INTEGER_OVERFLOW RUST_PANICS Pos.eqb].
  repeat match goal with |- context [String.eqb ?x a] => destruct (String.eqb x a); [reflexivity|] end. reflexivity.
Qed.

Definition no_brace (c : ascii) : bool := nonl c && negb (Ascii.eqb "}" c).
Definition at_line_end (s : string) : Prop := s = "" \/ exists t, s = String newline t.

Lemma attr_first : forall a e post, allc nonl a -> a <> "" -> allc no_brace e -> at_line_end post ->
  first attr_re ("assert {:" +++ a +++ "}" +++ e +++ post) [(1, a)] (e +++ post).
Proof.
  intros a e post Ha Hn He Hp. unfold attr_re. change [(1, a)] with ([(1, a)] ++ [] : captures). eapply first_cat; [apply first_word|].
  change ("}" +++ e +++ post) with (String "}" (e +++ post)). apply first_last; auto.
Qed.

Lemma result_error : forall fs out v, ~ says_timeout out -> ~ says_verified out -> says_errors out ->
  verification_result fs out v = match attr_of fs v out with Some attr => category attr | None => ASSERTION_FAILURE end.
Proof.
  intros fs out v H1 H2 H3. rewrite <- timeout_spec in H1. rewrite <- verified_spec in H2. apply errors_spec in H3. apply not_true_iff_false in H1, H2.
  unfold verification_result. rewrite H1, H2, H3. destruct (attr_of fs v out) as [a|]; [apply by_attr_category|reflexivity].
Qed.

(** Corral: the first failing assertion reported gives the category: its attribute, if
    the rest of the line has no closing brace. *)
Theorem C44_corral_category : forall fs pre a e post,
  let mark := "ASSERTION FAILS assert {:" in
  let out := pre +++ mark +++ a +++ "}" +++ e +++ post in
  ~ says_timeout out -> ~ says_verified out -> says_errors out ->
  (forall u v, out = u +++ mark +++ v -> String.length pre <= String.length u) ->
  allc nonl a -> a <> "" -> allc no_brace e -> at_line_end post ->
  verification_result fs out corral = category a.
Proof.
  intros fs pre a e post mark out H1 H2 H3 Hf Ha Hn He Hp. rewrite (result_error fs out corral H1 H2 H3). cbn [attr_of].
  assert (py_search (Cat (word "ASSERTION FAILS ") attr_re) out = Some (pre, [(1, a)], e +++ post)) as E; [|rewrite E; reflexivity].
  unfold out. apply search_first.
  - change [(1, a)] with ([(1, a)] ++ [] : captures). eapply first_cat with (s1 := "assert {:" +++ a +++ "}" +++ e +++ post); [|now apply attr_first].
    change (mark +++ a +++ "}" +++ e +++ post) with ("ASSERTION FAILS " +++ "assert {:" +++ a +++ "}" +++ e +++ post). apply first_word.
  - intros u v -> Hv. apply ms_none. intros x y E L. apply lang_cat in L as (x1 & x2 & -> & L1 & L2). apply lang_word in L1 as ->. apply lang_cat in L2 as (x3 & x4 & -> & L2 & _). apply lang_word in L2 as ->.
    assert (out = u +++ mark +++ (x4 +++ y)) as Eo.
    { unfold out. rewrite sapp_assoc, E. rewrite !sapp_assoc. reflexivity. }
    apply Hf in Eo. rewrite slen_app in Eo. destruct v; [congruence|cbn in Eo; lia].
Qed.
Print Assumptions C44_corral_category.

Ltac norm := repeat first [rewrite sapp_assoc | progress (cbn [String.append])].

(** Boogie: the first message "This assertion might not hold" names a file and a line;
    the attribute of the assertion there gives the category. *)
Theorem C44_boogie_category : forall fs pre file ln col post lines ind a e nl,
  let phrase := "): Error: This assertion might not hold" in
  let out := pre +++ file +++ "(" +++ ln +++ "," +++ col +++ phrase +++ post in
  ~ says_timeout out -> ~ says_verified out -> says_errors out ->
  (forall u v, out = u +++ phrase +++ v -> String.length (pre +++ file +++ "(" +++ ln +++ "," +++ col) <= String.length u) ->
  (pre = "" \/ exists q c, pre = q +++ String c "" /\ filechar c = false) ->
  allc filechar file -> file <> "" -> ends_with ".bpl" file = true -> digits ln -> ln <> "" -> digits col -> col <> "" ->
  fs file = Some lines -> nth_error lines (int_of 0 ln - 1) = Some (ind +++ "assert {:" +++ a +++ "}" +++ e +++ nl) ->
  allc space ind -> allc nonl a -> a <> "" -> allc no_brace e -> at_line_end nl ->
  verification_result fs out boogie = category a.
Proof.
  intros fs pre file ln col post lines ind a e nl phrase out H1 H2 H3 Hf Hpre F1 F2 F3 L1 L2 C1 C2 Hfs Hln I1 A1 A2 A3 A4.
  rewrite (result_error fs out boogie H1 H2 H3). cbn [attr_of]. rewrite digits_allc in L1, C1.
  assert (py_search boogie_re out = Some (pre, [(2, ln); (1, file)], post)) as E.
  { unfold out. apply search_first.
    - unfold boogie_re.
      assert (first (Cat (word ",") (Cat (Plus (Chr digit)) (word phrase))) ("," +++ col +++ phrase +++ post) [] post) as S1.
      { change ([] : captures) with (([] ++ []) ++ [] : captures). eapply first_cat; [apply first_word|]. eapply first_cat; [apply first_plus; [exact C1|exact C2|reflexivity]|apply first_word]. }
      assert (first (Cat (Grp 2 (Plus (Chr digit))) (Cat (word ",") (Cat (Plus (Chr digit)) (word phrase)))) (ln +++ "," +++ col +++ phrase +++ post) [(2, ln)] post) as S2.
      { change [(2, ln)] with ([] ++ [(2, ln)] : captures). eapply first_cat; [apply first_grp, first_plus; [exact L1|exact L2|reflexivity]|exact S1]. }
      assert (first (Cat (word "(") (Cat (Grp 2 (Plus (Chr digit))) (Cat (word ",") (Cat (Plus (Chr digit)) (word phrase))))) ("(" +++ ln +++ "," +++ col +++ phrase +++ post) [(2, ln)] post) as S3.
      { change [(2, ln)] with ([(2, ln)] ++ [] : captures). eapply first_cat; [apply first_word|exact S2]. }
      change [(2, ln); (1, file)] with ([(2, ln)] ++ [(1, file)] : captures). eapply first_cat; [apply first_grp, first_plus; [exact F1|exact F2|reflexivity]|exact S3].
    - intros u v -> Hv. apply ms_none. intros x y E L. unfold boogie_re in L.
      apply lang_cat in L as (f & r1 & -> & Lf & L). apply lang_grp in Lf. apply lang_cat in L as (w1 & r2 & -> & Lw & L). apply lang_word in Lw as ->.
      apply lang_cat in L as (d1 & r3 & -> & Ld & L). apply lang_grp in Ld. apply lang_cat in L as (w2 & r4 & -> & Lw & L). apply lang_word in Lw as ->.
      apply lang_cat in L as (d2 & r5 & -> & Ld2 & L). apply lang_word in L as ->.
      assert (forall p z, lang (Plus (Chr p)) z -> allc p z /\ z <> "") as HP.
      { intros p z Hz. apply lang_cat in Hz as (z1 & z2 & -> & Z1 & Z2). apply lang_chr in Z1 as (c0 & -> & Z1). apply lang_star_chr in Z2. split; [cbn; auto|discriminate]. }
      apply HP in Lf as (Lf & Nf). apply HP in Ld as (Ld & _). apply HP in Ld2 as (Ld2 & _).
      (* the match starts in pre, which ends with a character that is not in a file name, so the name ends before it *)
      destruct Hpre as [Hpre|(q & c & Hq & Hc)]; [destruct u; [destruct v; [congruence|discriminate]|discriminate]|].
      assert (exists v1, v = v1 +++ String c "") as (v1 & Ev).
      { clear - Hq Hv. revert q Hq. induction u as [|k u IH]; intros q Hq; [cbn in Hq; eauto|]. destruct q as [|k' q].
        - cbn in Hq. injection Hq as -> Hu. exfalso. destruct u; [cbn in Hu; congruence|discriminate].
        - cbn in Hq. injection Hq as -> Hq. now apply (IH q). }
      (* everything before the phrase in the match is free of ")" *)
      change "): Error: This assertion might not hold" with phrase in E. clearbody phrase. set (head := f +++ "(" +++ d1 +++ "," +++ d2).
      assert (v +++ file +++ "(" +++ ln +++ "," +++ col +++ phrase +++ post = head +++ phrase +++ y) as E2.
      { rewrite E. unfold head. norm. reflexivity. }
      assert (out = (u +++ head) +++ phrase +++ y) as Eo.
      { unfold out. rewrite (sapp_assoc u v), E2. now rewrite sapp_assoc. }
      apply Hf in Eo. rewrite Ev, !slen_app in Eo. cbn [String.length] in Eo.
      destruct (prefix_of (v1 +++ String c (file +++ "(" +++ ln +++ "," +++ col)) (phrase +++ post) head (phrase +++ y)) as (m & Em & _).
      { rewrite <- E2, Ev. norm. reflexivity. }
      { repeat first [rewrite slen_app | progress (cbn [String.length])]. repeat first [rewrite slen_app in Eo | progress (cbn [String.length] in Eo)]. lia. }
      assert (f = v1 +++ String c file) as Ef.
      { apply (split_unique "(" f (d1 +++ "," +++ d2) (v1 +++ String c file) (ln +++ "," +++ col +++ m)).
        - eapply allc_imp; [|exact Lf]. intros z Hz. apply negb_true_iff, not_true_iff_false. intros Ez. apply Ascii.eqb_eq in Ez as <-. discriminate.
        - apply allc_app. split; [|split; [reflexivity|]]; (eapply allc_imp; [|eassumption]); intros z Hz; apply negb_true_iff, not_true_iff_false; intros Ez; apply Ascii.eqb_eq in Ez as <-; discriminate.
        - change (String "(" (d1 +++ "," +++ d2)) with ("(" +++ d1 +++ "," +++ d2). fold head. rewrite Em. norm. reflexivity. }
      rewrite Ef in Lf. apply allc_app in Lf as (_ & Lf & _). congruence. }
  rewrite E. cbn [group Nat.eqb get]. rewrite F3, Hfs, Hln.
  assert (py_search attr_re (ind +++ "assert {:" +++ a +++ "}" +++ e +++ nl) = Some (ind, [(1, a)], e +++ nl)) as ->; [|reflexivity].
  apply search_first; [now apply attr_first|]. intros u v -> Hv. apply ms_none. intros x y Ex L. unfold attr_re in L. apply lang_cat in L as (x1 & x2 & -> & L & _). apply lang_word in L as ->.
  apply allc_app in I1 as (_ & Iv). destruct v as [|c v]; [congruence|]. cbn in Ex. injection Ex as -> _. destruct Iv as (Iv & _). discriminate.
Qed.
Print Assumptions C44_boogie_category.

(** The time limit of the driver gives a timeout. *)
Theorem C44_time_limit : forall fs name output v, verification_result fs (command_output name output true) v = TIMEOUT.
Proof.
  intros fs name output v. apply C44_verdict. right; right; left. unfold command_output. exists (output +++ String newline (name +++ " ")), ".". norm. reflexivity.
Qed.
Print Assumptions C44_time_limit.

(** Boogie may not have decided every procedure and still the result is "verified":
    counts of inconclusive procedures, and of those out of memory, are not read. *)
Theorem C44_inconclusive_refuted : exists out, occurs "5 verified, 0 errors, 2 inconclusive, 1 out of memory" out /\
  forall fs v, verification_result fs out v = VERIFIED.
Proof.
  exists "Boogie program verifier finished with 5 verified, 0 errors, 2 inconclusive, 1 out of memory". split.
  - exists "Boogie program verifier finished with ", "". reflexivity.
  - intros fs v. apply C44_verdict. split.
    + rewrite <- timeout_spec. vm_compute. discriminate.
    + apply verified_spec. vm_compute. reflexivity.
Qed.
Print Assumptions C44_inconclusive_refuted.

(** Further on the line of the failing assertion a closing brace hides the category. *)
Theorem C44_brace_refuted : exists out, occurs "ASSERTION FAILS assert {:valid_deref} $f({x})" out /\
  forall fs, verification_result fs out corral = ASSERTION_FAILURE.
Proof.
  exists "a.c(3,1): error PF5001: This assertion can fail. Trace: Thread=1 (ASSERTION FAILS assert {:valid_deref} $f({x}))". split.
  - exists "a.c(3,1): error PF5001: This assertion can fail. Trace: Thread=1 (", ")". reflexivity.
  - intros fs. reflexivity.
Qed.
Print Assumptions C44_brace_refuted.

Example C44_nonvacuous :
  let out := "Boogie program verifier finished with 12 verified, 1 error" in
  let corral_out := "a.c(3,1): Trace: Thread=1 (ASSERTION FAILS assert {:overflow} $i0 == $0;" +++ String newline ")
Program has a potential bug: True bug; a.c(3,1): error PF5001: This assertion can fail" in
  let boogie_out := "a.bpl(2,3): Error: This assertion might not hold." +++ String newline out in
  says_errors out /\ ~ says_verified out /\ ~ says_timeout out /\
  verification_result (fun _ => None) corral_out corral = OVERFLOW /\
  verification_result (fun f => if String.eqb f "a.bpl" then Some ["procedure main()"; "  assert {:valid_free} $Alloc[p];"] else None) boogie_out boogie = INVALID_FREE /\
  verification_result (fun _ => None) "Program has no bugs" corral = VERIFIED /\
  verification_result (fun _ => None) "finished with 1 verified, 0 errors, 3 time outs" boogie = TIMEOUT /\
  verification_result (fun _ => None) "finished with 0 verified, 0 errors" boogie = UNKNOWN.
Proof.
  cbv zeta. rewrite <- errors_spec, <- verified_spec, <- timeout_spec. repeat split; vm_compute; congruence.
Qed.

(** ** C45 *)

(** What the user can name with --check, and the checks each stands for (one of the
    first group is the default). *)
Definition stands_for (p : N) (k : check_kind) : Prop :=
  match k with
  | User => p = ASSERTIONS
  | Deref => p = VALID_DEREF \/ p = MEMORY_SAFETY
  | Free => p = VALID_FREE \/ p = MEMORY_SAFETY
  | Leak => p = MEMLEAK \/ p = MEMORY_SAFETY
  | Overflow_ => p = INTEGER_OVERFLOW
  | Panic => p = RUST_PANICS
  end.
Definition choices : list N := [ASSERTIONS; VALID_DEREF; VALID_FREE; MEMLEAK; MEMORY_SAFETY; INTEGER_OVERFLOW; RUST_PANICS].
Definition requested (values : list N) (k : check_kind) : Prop := (exists p, In p values /\ stands_for p k) \/ (values = [] /\ k = User).

(** The assertion is generated and its line is unchanged in the file given to the
    back-end. *)
Definition active (check : N) (k : check_kind) (indent expr : string) : Prop :=
  generated check k = true /\ memsafety_subproperty_selection check [assert_line k indent expr] = [assert_line k indent expr].

(** Expressions: at least one character, no newline, no closing brace, and the first
    character is not blank or an opening brace. *)
Definition ok_expr (e : string) : Prop := allc no_brace e /\ match e with EmptyString => False | String c _ => space c = false /\ c <> "{"%char end.

Lemma semi_first : forall e tail, allc nonl e -> e <> "" -> at_line_end tail -> first (Cat (Grp 4 (Plus any)) (word ";")) (e +++ ";" +++ tail) [(4, e)] tail.
Proof. intros e tail He Hn Ht. change (";" +++ tail) with (String ";" ("" +++ tail)). now apply first_last. Qed.
Lemma brace_nonl : forall e, allc no_brace e -> allc nonl e.
Proof. intros e. apply allc_imp. intros c H. apply andb_true_iff in H. tauto. Qed.

Lemma head_first : forall ind s, allc space ind -> stops space s ->
  first (Grp 1 (Cat (Star (Chr space)) (Cat (word "assert") (Star (Chr space))))) (ind +++ "assert " +++ s) [(1, ind +++ "assert ")] s.
Proof.
  intros ind s Hi Hs. rewrite <- sapp_assoc. apply first_grp. rewrite sapp_assoc. change ([] : captures) with (([] ++ []) ++ [] : captures).
  eapply first_cat; [apply first_star; [exact Hi|reflexivity]|]. change ("assert " +++ s) with ("assert" +++ " " +++ s). eapply first_cat; [apply first_word|]. apply first_star; [repeat constructor|exact Hs].
Qed.

Lemma line_with_attr : forall sel ind a e, allc space ind -> allc no_brace a -> a <> "" -> allc no_brace e ->
  let line := ind +++ "assert " +++ "{:" +++ a +++ "} " +++ e +++ ";" +++ String newline "" in
  select_line sel line = match sel with [] => line | _ => if in_list a sel then line else ind +++ "assert " +++ "true;" +++ String newline "" end.
Proof.
  intros sel ind a e Hi Ha Hn He line.
  assert (first assert_re line [(4, " " +++ e); (2, "{:" +++ a +++ "}"); (3, a); (1, ind +++ "assert ")] (String newline "")) as F.
  { unfold assert_re, line.
    change [(4, " " +++ e); (2, "{:" +++ a +++ "}"); (3, a); (1, ind +++ "assert ")] with (([(4, " " +++ e)] ++ [(2, "{:" +++ a +++ "}"); (3, a)]) ++ [(1, ind +++ "assert ")] : captures).
    eapply first_cat; [apply head_first; [exact Hi|reflexivity]|]. eapply first_cat with (s1 := (" " +++ e) +++ ";" +++ String newline "").
    - apply first_opt. replace ("{:" +++ a +++ "} " +++ e +++ ";" +++ String newline "") with (("{:" +++ a +++ "}") +++ (" " +++ e) +++ ";" +++ String newline "") by (norm; reflexivity).
      apply first_grp. rewrite (sapp_assoc "{:"), sapp_assoc. change [(3, a)] with ([(3, a)] ++ [] : captures). eapply first_cat; [apply first_word|].
      change ("}" +++ (" " +++ e) +++ ";" +++ String newline "") with (String "}" ((" " +++ e) +++ ";" +++ String newline "")).
      replace ((" " +++ e) +++ ";" +++ String newline "") with ((" " +++ e +++ ";") +++ String newline "") by (norm; reflexivity).
      apply first_last; auto; [now apply brace_nonl| |right; eauto]. cbn [String.append allc]. split; [reflexivity|]. apply allc_app. split; [exact He|]. split; [reflexivity|exact I].
    - apply semi_first; [|discriminate|right; eauto]. split; [reflexivity|now apply brace_nonl]. }
  unfold select_line. rewrite (first_match _ _ _ _ F). unfold replace_assertion. cbn [group Nat.eqb get]. destruct sel as [|x sel].
  - unfold line. assert (forall p q, consumed (p +++ q) q +++ q = p +++ q) as EC by (intros; now rewrite consumed_app).
    replace (ind +++ "assert " +++ "{:" +++ a +++ "} " +++ e +++ ";" +++ String newline "") with ((ind +++ "assert " +++ "{:" +++ a +++ "} " +++ e +++ ";") +++ String newline "") by (norm; reflexivity). apply EC.
  - destruct (in_list a (x :: sel)); unfold line; norm; reflexivity.
Qed.

Lemma line_without : forall sel ind e, allc space ind -> ok_expr e ->
  let line := ind +++ "assert " +++ e +++ ";" +++ String newline "" in
  select_line sel line = match sel with [] => line | _ => ind +++ "assert " +++ "true;" +++ String newline "" end.
Proof.
  intros sel ind e Hi (He & Hf) line. destruct e as [|c e]; [destruct Hf|]. destruct Hf as (Hc1 & Hc2).
  assert (first assert_re line [(4, String c e); (1, ind +++ "assert ")] (String newline "")) as F.
  { unfold assert_re, line. change [(4, String c e); (1, ind +++ "assert ")] with (([(4, String c e)] ++ []) ++ [(1, ind +++ "assert ")] : captures).
    eapply first_cat; [apply head_first; [exact Hi|exact Hc1]|]. eapply first_cat.
    - apply first_opt_none, ms_none. intros x y E L. apply lang_grp in L. apply lang_cat in L as (x1 & x2 & -> & L & _). apply lang_word in L as ->. cbn in E. injection E as E _. congruence.
    - apply semi_first; [now apply brace_nonl|discriminate|right; eauto]. }
  unfold select_line. rewrite (first_match _ _ _ _ F). unfold replace_assertion. cbn [group Nat.eqb get]. destruct sel as [|x sel].
  - unfold line. replace (ind +++ "assert " +++ String c e +++ ";" +++ String newline "") with ((ind +++ "assert " +++ String c e +++ ";") +++ String newline "") by (norm; reflexivity). now rewrite consumed_app.
  - norm. reflexivity.
Qed.

(** Lines that do not start with assert (after blanks) are not touched. *)
Theorem C45_other_lines : forall check line, (forall ind s, allc space ind -> line <> ind +++ "assert" +++ s) ->
  memsafety_subproperty_selection check [line] = [line].
Proof.
  intros check line H. unfold memsafety_subproperty_selection. destruct (flag_in MEMORY_SAFETY check); [reflexivity|]. cbn [map]. f_equal. unfold select_line, py_match.
  rewrite (ms_none assert_re line); [reflexivity|]. intros x y E L. unfold assert_re in L. apply lang_cat in L as (x1 & x2 & -> & L & _). apply lang_grp in L.
  apply lang_cat in L as (s1 & s2 & -> & L1 & L2). apply lang_star_chr in L1. apply lang_cat in L2 as (w & s3 & -> & L2 & _). apply lang_word in L2 as ->.
  apply (H s1 (s3 +++ x2 +++ y) L1). rewrite E. norm. reflexivity.
Qed.
Print Assumptions C45_other_lines.

Definition disabled_line (indent : string) : string := indent +++ "assert true;" +++ String newline "".
Lemma lines_differ : forall k ind e, ok_expr e -> e <> "true" -> disabled_line ind <> assert_line k ind e.
Proof.
  intros k ind e He Hn H. unfold disabled_line, assert_line in H. apply sapp_inj in H. change ("assert true;" +++ String newline "") with ("assert " +++ "true;" +++ String newline "") in H. apply sapp_inj in H.
  destruct k; cbn [kind_attr String.append] in H; try discriminate. apply Hn.
  change ("true;" +++ String newline "") with ("true" +++ String ";" (String newline "")) in H. change (String ";" (String newline "")) with (";" +++ String newline "") in H.
  symmetry. apply (sapp_inj_r "true" e _ H).
Qed.

(** All selections can be seen from the bits. *)
Definition all_checks : list N := map N.of_nat (seq 0 64).
Lemma check_bound : forall values, Forall (fun v => In v choices) values -> In (check_option values) all_checks.
Proof.
  intros values H. assert (forall l a, (a < 64)%N -> Forall (fun v => In v choices) l -> (fold_left N.lor l a < 64)%N) as HB.
  { induction l as [|v l IH]; intros a Ha Hl; [exact Ha|]. inversion Hl; subst. cbn [fold_left]. apply IH; [|assumption].
    assert (v < 64)%N as Hv by (repeat match goal with E : In v _ |- _ => cbn in E end; intuition (subst; reflexivity)).
    clear - Ha Hv. destruct (N.eq_dec (N.lor a v) 0) as [->|N0]; [lia|]. apply N.log2_lt_pow2 with (b := 6%N); [lia|]. rewrite N.log2_lor.
    assert (forall z, (z < 64)%N -> (N.log2 z < 6)%N) as HL; [|apply N.max_lub_lt; now apply HL]. intros z Hz. destruct (N.eq_dec z 0) as [->|Nz]; [reflexivity|]. apply N.log2_lt_pow2; [lia|exact Hz]. }
  specialize (HB values 0%N ltac:(lia) H). unfold check_option. apply in_map_iff. set (c := if N.eqb _ 0 then _ else _).
  exists (N.to_nat c). split; [apply Nnat.N2Nat.id|]. apply in_seq. assert (c < 64)%N; [unfold c; destruct (N.eqb (fold_left N.lor values 0%N) 0); [reflexivity|exact HB]|lia].
Qed.
Lemma fold_testbit : forall l a i, N.testbit (fold_left N.lor l a) i = N.testbit a i || existsb (fun v => N.testbit v i) l.
Proof. induction l as [|v l IH]; intros a i; cbn; [now rewrite orb_false_r|]. rewrite IH, N.lor_spec. now rewrite orb_assoc. Qed.

Definition kind_bit (k : check_kind) : N := match k with User => 0 | Deref => 1 | Free => 2 | Leak => 3 | Overflow_ => 4 | Panic => 5 end.
Lemma requested_bit : forall values k, Forall (fun v => In v choices) values -> (requested values k <-> N.testbit (check_option values) (kind_bit k) = true).
Proof.
  intros values k H. unfold requested, check_option. destruct (N.eqb (fold_left N.lor values 0%N) 0) eqn:E.
  - apply N.eqb_eq in E. assert (values = []) as ->.
    { destruct values as [|v values]; [reflexivity|]. exfalso. inversion H as [|? ? Hv _]; subst. assert (exists i, N.testbit v i = true) as (i & Hi).
      { cbn in Hv. repeat destruct Hv as [<-|Hv]; [exists 0%N|exists 1%N|exists 2%N|exists 3%N|exists 1%N|exists 4%N|exists 5%N|destruct Hv]; reflexivity. }
      pose proof (fold_testbit (v :: values) 0 i) as HT. rewrite E in HT. cbn [existsb] in HT. rewrite Hi, N.bits_0 in HT. discriminate. }
    split; [intros [(p & [] & _)|(_ & ->)]; reflexivity|]. intros HK. right. split; [reflexivity|]. destruct k; [reflexivity|discriminate..].
  - rewrite fold_testbit, N.bits_0. cbn [orb]. rewrite existsb_exists.
    assert (forall v, In v choices -> (stands_for v k <-> N.testbit v (kind_bit k) = true)) as HS.
    { intros v Hv. cbn in Hv. repeat destruct Hv as [<-|Hv]; [..|destruct Hv]; destruct k; cbn; split; try (intros; discriminate); try reflexivity; try (intros [X|X]; discriminate); auto. }
    rewrite Forall_forall in H. split.
    + intros [(p & Hp & Hs)|(-> & _)]; [exists p; split; [exact Hp|]; apply HS; auto|discriminate].
    + intros (p & Hp & Hs). left. exists p. split; [exact Hp|]. apply HS; auto.
Qed.

Lemma active_iff : forall check k ind e, allc space ind -> ok_expr e -> e <> "true" ->
  (active check k ind e <-> generated check k = true /\
     (flag_in MEMORY_SAFETY check = true \/ selected_props check = [] \/ exists a, kind_attr k = Some a /\ in_list a (selected_props check) = true)).
Proof.
  intros check k ind e Hi He Hn. unfold active, memsafety_subproperty_selection. destruct (flag_in MEMORY_SAFETY check) eqn:EM; [split; [intros (G & _)|intros (G & _)]; auto|].
  cbn [map]. assert ([select_line (selected_props check) (assert_line k ind e)] = [assert_line k ind e] <-> select_line (selected_props check) (assert_line k ind e) = assert_line k ind e) as -> by (split; congruence).
  pose proof (lines_differ k ind e He Hn) as Hd. destruct (kind_attr k) as [a|] eqn:EK.
  - assert (assert_line k ind e = ind +++ "assert " +++ "{:" +++ a +++ "} " +++ e +++ ";" +++ String newline "") as EL by (unfold assert_line; rewrite EK; norm; reflexivity).
    assert (select_line (selected_props check) (assert_line k ind e) = match selected_props check with [] => assert_line k ind e | _ => if in_list a (selected_props check) then assert_line k ind e else disabled_line ind end) as ->.
    { rewrite EL. rewrite line_with_attr; [reflexivity|exact Hi| | |destruct He; assumption]; destruct k; try discriminate EK; injection EK as <-; first [discriminate|repeat constructor]. }
    destruct (selected_props check) as [|x l]; [split; intros (G & _); auto|]. destruct (in_list a (x :: l)) eqn:EI.
    + split; intros (G & _); split; auto. right; right. eauto.
    + split; [intros (_ & G); congruence|]. intros (_ & [G|[G|(b & Gb & G)]]); [discriminate|discriminate|]. congruence.
  - assert (assert_line k ind e = ind +++ "assert " +++ e +++ ";" +++ String newline "") as EL by (unfold assert_line; rewrite EK; norm; reflexivity).
    assert (select_line (selected_props check) (assert_line k ind e) = match selected_props check with [] => assert_line k ind e | _ => disabled_line ind end) as ->.
    { rewrite EL. rewrite line_without; auto. }
    destruct (selected_props check) as [|x l]; [split; intros (G & _); auto|]. split; [intros (_ & G); congruence|]. intros (_ & [G|[G|(b & Gb & G)]]); discriminate.
Qed.

Definition mem_kind (k : check_kind) : bool := match k with Deref | Free | Leak => true | _ => false end.

(** For every list of properties given with --check: the memory-safety assertions that
    stay active are exactly those of the requested properties. *)
Theorem C45_memory : forall values k ind e, Forall (fun v => In v choices) values -> mem_kind k = true -> allc space ind -> ok_expr e -> e <> "true" ->
  (active (check_option values) k ind e <-> requested values k).
Proof.
  intros values k ind e Hv Hk Hi He Hn. rewrite active_iff, requested_bit by auto. pose proof (check_bound values Hv) as HB. revert HB. generalize (check_option values) as c. intros c HB.
  assert (forallb (fun c => Bool.eqb (generated c k && (flag_in MEMORY_SAFETY c || (match selected_props c with [] => true | _ => false end) || match kind_attr k with Some a => in_list a (selected_props c) | None => false end))
    (N.testbit c (kind_bit k))) all_checks = true) as HA by (destruct k; try discriminate Hk; vm_compute; reflexivity).
  rewrite forallb_forall in HA. specialize (HA c HB). cbv beta in HA. apply Bool.eqb_prop in HA. rewrite <- HA, andb_true_iff, !orb_true_iff.
  assert ((match selected_props c with [] => true | _ => false end) = true <-> selected_props c = []) as -> by (destruct (selected_props c); split; congruence).
  assert (match kind_attr k with Some a => in_list a (selected_props c) | None => false end = true <-> exists a, kind_attr k = Some a /\ in_list a (selected_props c) = true) as ->.
  { destruct (kind_attr k) as [a|]; [split; [eauto|intros (b & E & H); congruence]|split; [discriminate|intros (b & E & _); discriminate]]. }
  tauto.
Qed.
Print Assumptions C45_memory.

(** If all of memory safety or nothing of it is requested, all assertions that stay
    active are exactly those of the requested properties. *)
Theorem C45_selection : forall values k ind e, Forall (fun v => In v choices) values -> allc space ind -> ok_expr e -> e <> "true" ->
  (requested values Deref /\ requested values Free /\ requested values Leak) \/ (~ requested values Deref /\ ~ requested values Free /\ ~ requested values Leak) ->
  (active (check_option values) k ind e <-> requested values k).
Proof.
  intros values k ind e Hv Hi He Hn Hm. rewrite !requested_bit in Hm by auto. rewrite active_iff, requested_bit by auto. pose proof (check_bound values Hv) as HB. revert HB Hm. generalize (check_option values) as c. intros c HB Hm.
  assert (forallb (fun c => negb ((N.testbit c 1 && N.testbit c 2 && N.testbit c 3) || (negb (N.testbit c 1) && negb (N.testbit c 2) && negb (N.testbit c 3))) ||
    Bool.eqb (generated c k && (flag_in MEMORY_SAFETY c || (match selected_props c with [] => true | _ => false end) || match kind_attr k with Some a => in_list a (selected_props c) | None => false end))
    (N.testbit c (kind_bit k))) all_checks = true) as HA by (destruct k; vm_compute; reflexivity).
  rewrite forallb_forall in HA. specialize (HA c HB). cbv beta in HA. apply orb_true_iff in HA as [HA|HA].
  - exfalso. cbn [kind_bit] in Hm. apply negb_true_iff in HA. destruct (N.testbit c 1), (N.testbit c 2), (N.testbit c 3); cbn in HA; try discriminate; intuition congruence.
  - apply Bool.eqb_prop in HA. rewrite <- HA, andb_true_iff, !orb_true_iff.
    assert ((match selected_props c with [] => true | _ => false end) = true <-> selected_props c = []) as -> by (destruct (selected_props c); split; congruence).
    assert (match kind_attr k with Some a => in_list a (selected_props c) | None => false end = true <-> exists a, kind_attr k = Some a /\ in_list a (selected_props c) = true) as ->.
    { destruct (kind_attr k) as [a|]; [split; [eauto|intros (b & E & H); congruence]|split; [discriminate|intros (b & E & _); discriminate]]. }
    tauto.
Qed.
Print Assumptions C45_selection.

(** With only some of the memory-safety properties, the assertions of the other
    requested properties are turned off: those of the user, overflows and panics. *)
Theorem C45_mixed_refuted : exists values, Forall (fun v => In v choices) values /\
  (forall k, In k [User; Overflow_; Panic] -> requested values k /\ generated (check_option values) k = true /\
     memsafety_subproperty_selection (check_option values) [assert_line k "  " "$i1 != $0"] = ["  assert true;" +++ String newline ""]).
Proof.
  exists [ASSERTIONS; VALID_DEREF; INTEGER_OVERFLOW; RUST_PANICS]. split; [repeat constructor; cbn; tauto|].
  intros k Hk. repeat destruct Hk as [<-|Hk]; [..|destruct Hk]; (split; [left; eexists; split; [|reflexivity]; cbn; tauto|split; reflexivity]).
Qed.
Print Assumptions C45_mixed_refuted.

Example C45_nonvacuous :
  let values := [ASSERTIONS; VALID_FREE; VALID_DEREF] in let e := "$Alloc[$base(p)]" in
  Forall (fun v => In v choices) values /\ allc space "    " /\ ok_expr e /\ e <> "true" /\ requested values Free /\ ~ requested values Leak /\
  memsafety_subproperty_selection (check_option values) [assert_line Free "    " e; assert_line Leak "    " e; "  call $free(p);"] =
    [assert_line Free "    " e; "    assert true;" +++ String newline ""; "  call $free(p);"].
Proof.
  cbv zeta. split; [repeat constructor; cbn; tauto|]. split; [repeat constructor|]. split; [split; [repeat constructor|split; [reflexivity|discriminate]]|]. split; [discriminate|].
  split; [left; exists VALID_FREE; split; [cbn; tauto|left; reflexivity]|]. split; [|vm_compute; reflexivity].
  intros [(p & Hp & Hs)|(H & _)]; [|discriminate]. cbn in Hp. destruct Hs as [-> | ->]; destruct Hp as [Hp|[Hp|[Hp|[]]]]; discriminate Hp.
Qed.

(** ** C46 *)
Definition single_results : list N := [VERIFIED; ASSERTION_FAILURE; INVALID_DEREF; INVALID_FREE; INVALID_MEMTRACK; OVERFLOW; RUST_PANIC; TIMEOUT; UNKNOWN].

Lemma result_single : forall fs out v, In (verification_result fs out v) single_results.
Proof.
  intros fs out v. unfold verification_result. destruct (searches timeout_re out); [now do 7 right; left|]. destruct (searches verified_re out); [now left|]. destruct (searches errors_re out); [|now do 8 right; left].
  destruct (attr_of fs v out) as [a|]; [|now do 1 right; left]. destruct (by_attr a error_props) as [x|] eqn:E; [|now do 1 right; left].
  apply by_attr_in in E. do 2 right. destruct E as [<-|[<-|[<-|[<-|[<-|[]]]]]]; [now left|now right; left|now do 2 right; left|now do 3 right; left|now do 4 right; left].
Qed.

(** For every text of the back-end the driver ends with a message and an exit code;
    the exit code is 0 exactly for "no errors", and different verdicts have different
    codes and messages. *)
Theorem C46_exit_codes : forall fs unroll v out, exists m c, verify_bpl fs unroll v out = Some (m, c) /\
  (c = 0%Z <-> ~ says_timeout out /\ says_verified out) /\ (c = 126%Z <-> says_timeout out) /\
  (c = 127%Z <-> ~ says_timeout out /\ ~ says_verified out /\ ~ says_errors out) /\
  ((1 <= c <= 6)%Z <-> ~ says_timeout out /\ ~ says_verified out /\ says_errors out).
Proof.
  intros fs unroll v out. destruct (C44_verdict fs out v) as (H1 & H2 & H3 & H4). cbv zeta in *. unfold verify_bpl. set (r := verification_result fs out v) in *.
  pose proof (result_single fs out v : In r single_results) as Hr.
  assert (forall r, In r single_results -> exists m c, (match message unroll r, return_code r with Some m, Some c => Some (m, c) | _, _ => None end) = Some (m, c) /\
    (c = 0%Z <-> r = VERIFIED) /\ (c = 126%Z <-> r = TIMEOUT) /\ (c = 127%Z <-> r = UNKNOWN) /\ ((1 <= c <= 6)%Z <-> In r [ASSERTION_FAILURE; INVALID_DEREF; INVALID_FREE; INVALID_MEMTRACK; OVERFLOW; RUST_PANIC])) as HC.
  { clear. intros r Hr. destruct Hr as [<-|[<-|[<-|[<-|[<-|[<-|[<-|[<-|[<-|[]]]]]]]]]]; (eexists; eexists; split; [reflexivity|]);
    (split; [|split; [|split]]); split; intros H; try reflexivity; try discriminate H; try (exfalso; lia); try lia;
    first [now left|now right; left|now do 2 right; left|now do 3 right; left|now do 4 right; left|now do 5 right; left|destruct H as [H|[H|[H|[H|[H|[H|[]]]]]]]; discriminate H]. }
  destruct (HC r Hr) as (m & c & E & C0 & C1 & C2 & C3). exists m, c. split; [exact E|]. rewrite C0, C1, C2, C3. auto.
Qed.
Print Assumptions C46_exit_codes.

Theorem C46_distinct : forall r r' unroll, In r single_results -> In r' single_results -> r <> r' ->
  return_code r <> return_code r' /\ message unroll r <> message unroll r'.
Proof.
  intros r r' unroll H H' N. cbn in H, H'.
  repeat destruct H as [<-|H]; try (destruct H); repeat destruct H' as [<-|H']; try (destruct H'); try congruence; (split; [discriminate|]); destruct unroll as [u|]; cbn; try discriminate.
Qed.
Print Assumptions C46_distinct.

(** A result counts as an error exactly if it is one of the six kinds of errors. *)
Theorem C46_errors : forall r, In r single_results -> (flag_in r ERROR = true <-> In r [ASSERTION_FAILURE; INVALID_DEREF; INVALID_FREE; INVALID_MEMTRACK; OVERFLOW; RUST_PANIC]).
Proof.
  intros r H. cbn in H. repeat destruct H as [<-|H]; [..|destruct H]; split; intros H; try reflexivity; try discriminate; cbn in *; try tauto; repeat destruct H as [H|H]; try discriminate; destruct H.
Qed.
Print Assumptions C46_errors.

Example C46_nonvacuous :
  verify_bpl (fun _ => None) (Some "2") corral "Program has no bugs" = Some ("SMACK found no errors with unroll bound 2.", 0%Z) /\
  verify_bpl (fun _ => None) None corral "(ASSERTION FAILS assert {:valid_memtrack} $allocatedCounter == 0) ... can fail" = Some ("SMACK found an error: memory leak.", 4%Z).
Proof. split; reflexivity. Qed.
