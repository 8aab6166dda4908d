(** Proofs for C72 (Props/WitnessProps.v). *)
From Coq Require Import ZArith List String Ascii Bool Lia.
From Verif.Spec Require Import Regex TraceValues Witness.
From Verif.Model Require Import PyRegex ErrTrace.
From Verif.Model Require Naming.
From Verif.Model Require Import Witness.
From Verif.Props Require Import RegexProps TraceProps NamingProps.
From Verif.Proofs Require Import ReplayText.
Import ListNotations.
Open Scope string_scope.
Open Scope list_scope.

(** ** Text *)
Lemma occurs_sep : forall w a c b, ~ occurs (String c "") w -> occurs w (a +++ String c b) -> occurs w a \/ occurs w b.
Proof.
  intros w a c b Hw (u & v & E).
  destruct (Nat.le_gt_cases (String.length (u +++ w)) (String.length a)) as [L|L].
  - rewrite <- sapp_assoc in E. symmetry in E. destruct (prefix_of _ _ _ _ E L) as (m & -> & _). left. exists u, m. now rewrite sapp_assoc.
  - rewrite slen_app in L. destruct (Nat.le_gt_cases (String.length u) (String.length a)) as [L1|L1].
    + symmetry in E. destruct (prefix_of _ _ _ _ E L1) as (m & -> & E1). symmetry in E1. rewrite slen_app in L.
      destruct (prefix_of _ _ _ _ E1) as (m2 & -> & E2); [lia|]. destruct m2 as [|d m2].
      * rewrite sapp_nil in L. lia.
      * injection E2 as <- _. destruct Hw. exists m, m2. reflexivity.
    + destruct (prefix_of _ _ _ _ E) as (m & -> & E1); [lia|]. destruct m as [|d m].
      * rewrite sapp_nil in L1. lia.
      * injection E1 as _ ->. right. exists m, v. reflexivity.
Qed.
Lemma occurs_left : forall w a b, occurs w a -> occurs w (a +++ b).
Proof. intros w a b (u & v & ->). exists u, (v +++ b). now rewrite !sapp_assoc. Qed.
Lemma occurs_right : forall w a b, occurs w b -> occurs w (a +++ b).
Proof. intros w a b (u & v & ->). exists (a +++ u), v. now rewrite sapp_assoc. Qed.
Lemma occurs_char : forall c a b, occurs (String c "") (a +++ b) -> occurs (String c "") a \/ occurs (String c "") b.
Proof.
  intros c a b (u & v & E). revert u E. induction a as [|x a IH]; intros u E; [right; now exists u, v|].
  destruct u as [|y u]; cbn in E; injection E as E1 E2.
  - subst x. left. exists "", a. reflexivity.
  - subst y. destruct (IH u E2) as [(p & q & ->)|H]; [|auto]. left. exists (String x p), q. reflexivity.
Qed.
Lemma free_allc : forall c s, ~ occurs (String c "") s -> allc (fun x => negb (Ascii.eqb c x)) s.
Proof.
  intros c. induction s as [|x s IH]; intros H; [exact I|]. split.
  - destruct (Ascii.eqb_spec c x) as [<-|]; [|reflexivity]. destruct H. exists "", s. reflexivity.
  - apply IH. intros H1. apply H. now apply occurs_tail.
Qed.
Lemma one_line_allc : forall s, one_line s -> allc nonl s.
Proof.
  intros s H. apply free_allc in H. revert H. apply allc_imp. intros c. unfold nonl. now rewrite Ascii.eqb_sym.
Qed.
Lemma prefix_true : forall p s, String.prefix p s = true <-> exists x, s = p +++ x.
Proof.
  induction p as [|c p IH]; intros s.
  - destruct s; (split; [intros _; eexists; reflexivity|reflexivity]).
  - destruct s as [|d s]; [split; [discriminate|intros (x & E); discriminate]|]. cbn [String.prefix]. destruct (ascii_dec c d) as [<-|N].
    + rewrite IH. split; intros (x & E); exists x; [now subst|now injection E].
    + split; [discriminate|]. intros (x & E). injection E as E1 _. congruence.
Qed.
Lemma from_app : forall a b, from (String.length a) (a +++ b) = b.
Proof. induction a as [|c a IH]; intros b; [reflexivity|]. cbn. apply IH. Qed.

(** ** Captures *)
Lemma in_ms_cat : forall a b s c y, In (c, y) (ms (Cat a b) s) -> exists c1 s1 c2, In (c1, s1) (ms a s) /\ In (c2, y) (ms b s1) /\ c = c2 ++ c1.
Proof.
  intros a b s c y H. cbn [ms] in H. apply in_flat_map in H as ((c1 & s1) & H1 & H2). apply in_map_iff in H2 as ((c2 & y2) & E & H2). injection E as <- <-.
  exists c1, s1, c2. auto.
Qed.
Lemma in_ms_grp : forall n a s c y, In (c, y) (ms (Grp n a) s) -> exists x c', s = x +++ y /\ c = (n, x) :: c' /\ lang a x.
Proof.
  intros n a s c y H. cbn [ms] in H. apply in_map_iff in H as ((c' & y') & E & H). injection E as <- <-.
  destruct (proj1 (ms_lang a s y') (ex_intro _ c' H)) as (x & -> & Hx). exists x, c'. rewrite consumed_app. auto.
Qed.
Lemma group_there : forall n x c d, group n (c ++ (n, x) :: d) <> None.
Proof.
  intros n x c d. induction c as [|(k & z) c IH]; cbn [app group]; [rewrite Nat.eqb_refl; discriminate|]. destruct (Nat.eqb k n); [discriminate|exact IH].
Qed.

(** ** py_sub *)
Lemma search_in : forall r s pre c rest, py_search r s = Some (pre, c, rest) -> exists t, s = pre +++ t /\ In (c, rest) (ms r t).
Proof.
  intros r. induction s as [|x s IH]; intros pre c rest H.
  - cbn in H. destruct (ms r "") as [|(c0 & r0) l] eqn:E; [discriminate|]. injection H as <- <- <-. exists "". split; [reflexivity|]. rewrite E. now left.
  - cbn [py_search] in H. destruct (ms r (String x s)) as [|(c0 & r0) l] eqn:E.
    + destruct (py_search r s) as [((pre' & c') & rest')|]; [|discriminate]. injection H as <- <- <-. destruct (IH _ _ _ eq_refl) as (t & -> & Ht). now exists t.
    + injection H as <- <- <-. exists (String x s). split; [reflexivity|]. rewrite E. now left.
Qed.

(** ** formatAssign *)
Definition not_eq (c : ascii) : bool := negb (Ascii.eqb "=" c).
Fixpoint upto (s : string) : string := match s with EmptyString => "" | String c s' => if Ascii.eqb c "=" then "" else String c (upto s') end.
Lemma upto_eq : forall a b b', upto (a +++ String "=" b) = upto (a +++ String "=" b').
Proof. induction a as [|c a IH]; intros b b'; [reflexivity|]. cbn. now rewrite (IH b b'). Qed.
Lemma prefix_upto : forall p s, ~ occurs "=" p -> String.prefix p (upto s) = String.prefix p s.
Proof.
  induction p as [|c p IH]; intros s H; [now rewrite !(proj2 (prefix_true "" _)) by (eexists; reflexivity)|]. destruct s as [|d s]; [reflexivity|]. cbn [upto].
  destruct (Ascii.eqb_spec d "=") as [->|N].
  - cbn. destruct (ascii_dec c "=") as [->|]; [|reflexivity]. destruct H. exists "", p. reflexivity.
  - cbn [String.prefix]. destruct (ascii_dec c d); [|reflexivity]. apply IH. intros H1. apply H. now apply occurs_tail.
Qed.
Definition sub_bv (c : captures) : option string := match group 1 c with Some x => Some ("=" ++ x ++ "U")%string | None => None end.
Lemma bvconst_match : forall s c y, In (c, y) (ms bvconst_re s) -> (exists z, sub_bv c = Some (String "=" z)) /\ exists z, s = String "=" z +++ y /\ occurs "bv" (String "=" z).
Proof.
  intros s c y H. split.
  - unfold bvconst_re in H. apply in_ms_cat in H as (c1 & s1 & c2 & H1 & H2 & ->). apply in_ms_cat in H2 as (c3 & s3 & c4 & H3 & H4 & ->).
    apply in_ms_grp in H3 as (x & c' & -> & -> & _). unfold sub_bv.
    destruct (group 1 ((c4 ++ (1, x) :: c') ++ c1)) as [z|] eqn:E; [eexists; reflexivity|]. rewrite <- app_assoc in E. destruct (group_there _ _ _ _ E).
  - destruct (proj1 (ms_lang bvconst_re s y) (ex_intro _ c H)) as (x & -> & Hx). unfold bvconst_re in Hx.
    apply lang_cat in Hx as (a & b & -> & Ha & Hb). unfold is in Ha. apply lang_chr in Ha as (d & -> & Hd). apply Ascii.eqb_eq in Hd. subst d.
    apply lang_cat in Hb as (b1 & b2 & -> & _ & H2). apply lang_grp, lang_cat in H2 as (e & f & -> & He & _). apply lang_word in He. subst e.
    exists (b1 +++ "bv" +++ f). split; [reflexivity|]. exists (String "=" b1), f. reflexivity.
Qed.
Lemma sub_upto : forall k s, exists t, py_sub k bvconst_re sub_bv s = Some t /\ upto t = upto s.
Proof.
  induction k as [|k IH]; intros s; cbn [py_sub]; [now exists s|]. destruct (py_search bvconst_re s) as [((pre & c) & rest)|] eqn:E; [|now exists s].
  apply search_in in E as (t & -> & Ht). apply bvconst_match in Ht as ((z & Ez) & (z' & -> & _)). rewrite Ez. destruct (IH rest) as (u & Eu & _). rewrite Eu.
  eexists. split; [reflexivity|]. apply upto_eq.
Qed.
Lemma sub_none : forall k s, ~ occurs "bv" s -> py_sub k bvconst_re sub_bv s = Some s.
Proof.
  intros [|k] s H; [reflexivity|]. cbn [py_sub]. destruct (py_search bvconst_re s) as [((pre & c) & rest)|] eqn:E; [|reflexivity].
  apply search_in in E as (t & -> & Ht). apply bvconst_match in Ht as (_ & (z & -> & Hz)). destruct H. apply occurs_right. now apply occurs_left.
Qed.
(** Whatever the note: the part before the sign of equality stays. *)
Lemma in_ms_grp_any : forall n s c y, In (c, y) (ms (Grp n (Star any)) s) -> exists x, s = x +++ y /\ c = [(n, x)].
Proof.
  intros n s c y H. pose proof H as H0. apply in_ms_grp in H0 as (x & c' & -> & -> & _). exists x. split; [reflexivity|].
  cbn [ms] in H. apply in_map_iff in H as ((c2 & y2) & E & H). injection E as _ <- _.
  pose proof (ms_star_chr nonl (x +++ y)) as Es. change (Star (Chr nonl)) with (Star any) in Es. cbn [ms] in Es. rewrite Es in H. apply in_map_iff in H as (k & E & _). injection E as <- _. reflexivity.
Qed.
Lemma format_total : forall s, exists t, formatAssign s = Some t /\ (t = "" \/ upto t = upto s).
Proof.
  intros s. unfold formatAssign. destruct (String.eqb_spec s "") as [->|_]; [exists ""; auto|].
  destruct (py_match assign_re s) as [(c & y)|] eqn:E; [|exists ""; auto]. unfold py_match in E.
  destruct (ms assign_re s) as [|m l] eqn:Em; [discriminate|]. injection E as ->.
  assert (In (c, y) (ms assign_re s)) as H by (rewrite Em; now left). clear Em. unfold assign_re in H.
  apply in_ms_cat in H as (c1 & s1 & c2 & H1 & H2 & ->). apply in_ms_grp_any in H1 as (x & -> & ->).
  apply in_ms_cat in H2 as (c3 & s3 & c4 & H3 & H4 & ->). apply in_ms_grp_any in H4 as (x2 & -> & ->).
  destruct s1 as [|d s1]; [destruct H3|]. cbn [ms is] in H3. destruct (Ascii.eqb_spec "=" d) as [<-|]; [|destruct H3]. destruct H3 as [H3|[]]. injection H3 as <- ->.
  cbn [app group Nat.eqb]. destruct (sub_upto (String.length (x ++ "==" ++ x2)%string) (x ++ "==" ++ x2)%string) as (t & Et & Hu). exists t. split; [exact Et|]. right. rewrite Hu.
  apply upto_eq.
Qed.
Lemma nondet_plain : ~ occurs "=" nondet_prefix.
Proof. intros H. apply contains_occurs in H. discriminate. Qed.
Lemma format_other : forall s, (forall x, s <> nondet_prefix +++ x) -> exists t, formatAssign s = Some t /\ String.prefix nondet_prefix t = false.
Proof.
  intros s H. destruct (format_total s) as (t & Et & Ht). exists t. split; [exact Et|]. destruct Ht as [->|Ht]; [reflexivity|].
  rewrite <- (prefix_upto _ t nondet_plain), Ht, (prefix_upto _ s nondet_plain). destruct (String.prefix nondet_prefix s) eqn:E; [|reflexivity].
  apply prefix_true in E as (x & E). destruct (H x E).
Qed.
Lemma no_eq_match : forall v, ~ occurs "=" v -> ms (Cat (is "=") (Grp 2 (Star any))) v = [].
Proof.
  intros v H. apply ms_none. intros x y -> Hx. apply lang_cat in Hx as (a & b & -> & Ha & _). unfold is in Ha. apply lang_chr in Ha as (c & -> & Hc). apply Ascii.eqb_eq in Hc. subst c.
  apply H. exists "", (b +++ y). now rewrite sapp_assoc.
Qed.
Lemma format_reads : forall f v, simple f -> simple v -> formatAssign (text (Reads f v)) = Some ("smack:ext:" ++ f ++ " == " ++ v)%string.
Proof.
  intros f v (F1 & F2 & F3 & _) (V1 & V2 & V3 & _).
  assert (text (Reads f v) = ("smack:ext:" +++ f +++ " ") +++ String "=" (" " +++ v)) as E by (cbn; now rewrite sapp_assoc).
  unfold formatAssign. replace (String.eqb (text (Reads f v)) "") with false by reflexivity. rewrite E.
  assert (first assign_re (("smack:ext:" +++ f +++ " ") +++ String "=" (" " +++ v)) [(2, " " +++ v); (1, "smack:ext:" +++ f +++ " ")] "") as H.
  { apply (first_greedy_grp 1 _ ("smack:ext:" +++ f +++ " ") (String "=" (" " +++ v)) [(2, " " +++ v)]).
    - apply allc_app. split; [|split; [reflexivity|split; [reflexivity|now apply one_line_allc]]].
      apply allc_app. split; [cbn; tauto|]. apply allc_app. split; [now apply one_line_allc|cbn; tauto].
    - intros u w Ew Hu. apply no_eq_match. intros Ho. apply proper_suffix in Ew as (u' & Ew); [|exact Hu].
      assert (occurs "=" (" " +++ v)) as Hv by (rewrite Ew; now apply occurs_right). apply (occurs_char "=" " " v) in Hv as [Hv|Hv]; [|exact (V1 Hv)].
      apply contains_occurs in Hv. discriminate.
    - apply (first_cat (is "=") (Grp 2 (Star any)) _ [] (" " +++ v) [(2, " " +++ v)] ""); [now apply first_chr|].
      pose proof (first_grp 2 (Star any) (" " +++ v) "" []) as G. rewrite sapp_nil in G. apply G.
      pose proof (first_star nonl (" " +++ v) "") as S. rewrite sapp_nil in S. apply S; [|exact I]. split; [reflexivity|now apply one_line_allc]. }
  apply first_match in H. rewrite H. cbn [group Nat.eqb].
  match goal with |- py_sub _ _ _ ?t = _ => replace t with ("smack:ext:" ++ f ++ " == " ++ v)%string end; [|cbn; now rewrite sapp_assoc].
  apply sub_none. intros Ho.
  assert (forall c, In c [" "; "="; ":"]%char -> ~ occurs (String c "") "bv") as Hc.
  { intros c Hc H1. apply contains_occurs in H1. destruct Hc as [<-|[<-|[<-|[]]]]; discriminate. }
  change ("smack:ext:" ++ f ++ " == " ++ v)%string with ("smack" +++ String ":" ("ext" +++ String ":" (f +++ String " " ("==" +++ String " " v)))) in Ho.
  apply occurs_sep in Ho as [Ho|Ho]; [apply contains_occurs in Ho; discriminate| |apply Hc; cbn; tauto].
  apply occurs_sep in Ho as [Ho|Ho]; [apply contains_occurs in Ho; discriminate| |apply Hc; cbn; tauto].
  apply occurs_sep in Ho as [Ho|Ho]; [exact (F3 Ho)| |apply Hc; cbn; tauto].
  apply occurs_sep in Ho as [Ho|Ho]; [apply contains_occurs in Ho; discriminate|exact (V3 Ho)|apply Hc; cbn; tauto].
Qed.
Lemma eqs_free : forall a, ~ occurs "=" a -> split_eqs a = [a].
Proof.
  induction a as [|c a IH]; intros H; [reflexivity|]. assert (Ascii.eqb c "=" = false) as N.
  { destruct (Ascii.eqb_spec c "=") as [->|]; [|reflexivity]. destruct H. exists "", a. reflexivity. }
  assert (~ occurs "=" a) as Ha by (intros H1; apply H; now apply occurs_tail). specialize (IH Ha). cbn [split_eqs]. destruct a as [|d a]; [now rewrite IH|].
  rewrite N. cbn [andb]. now rewrite IH.
Qed.
Lemma eqs_app : forall a b, ~ occurs "=" a -> split_eqs (a +++ "==" +++ b) = a :: split_eqs b.
Proof.
  induction a as [|c a IH]; intros b H; [reflexivity|]. assert (Ascii.eqb c "=" = false) as N.
  { destruct (Ascii.eqb_spec c "=") as [->|]; [|reflexivity]. destruct H. exists "", a. reflexivity. }
  assert (~ occurs "=" a) as Ha by (intros H1; apply H; now apply occurs_tail). specialize (IH b Ha). cbn [String.append split_eqs] in *.
  destruct a as [|d a]; cbn [String.append] in *; rewrite N; cbn [andb]; now rewrite IH.
Qed.
Lemma trimmed_left : forall p s, trimmed s -> s <> "" -> (exists c x, p = String c x /\ space c = false) -> trimmed (p +++ s).
Proof.
  intros p s (Hl & Hr) Hs (c & x & -> & Hc). split.
  - intros d t E. injection E as <- _. exact Hc.
  - intros t d E. destruct (last_char s) as [->|(s' & e & ->)]; [congruence|]. rewrite <- sapp_assoc in E.
    assert (e = d) as ->; [|exact (Hr s' d eq_refl)]. clear -E. revert t E. generalize (String c x +++ s'). induction s as [|y s IH]; intros [|z t] E; cbn in E.
    + now injection E.
    + injection E as _ E. destruct t; discriminate.
    + injection E as _ E. destruct s; discriminate.
    + injection E as _ E. now apply (IH t).
Qed.
Lemma strip_left : forall s, trimmed s -> strip (s +++ " ") = s.
Proof. intros s H. apply strip_padded; [exact H|]. exists "", " ". split; [reflexivity|]. split; [exact I|]. cbn. auto. Qed.
Lemma strip_right : forall s, trimmed s -> strip (" " +++ s) = s.
Proof. intros s H. apply strip_padded; [exact H|]. exists " ", "". rewrite sapp_nil. split; [reflexivity|]. split; [cbn; auto|exact I]. Qed.
Lemma strip_trimmed : forall s, trimmed s -> strip s = s.
Proof. intros s H. apply strip_padded; [exact H|]. apply padded_refl. Qed.

(** ** Library files *)
Lemma lib_file_iff : forall f, one_line f -> is_lib_file f = true <-> library f.
Proof.
  intros f Hf. unfold is_lib_file. rewrite existsb_exists. split.
  - intros ((c & y) & Hin & Hy). cbn [snd] in Hy. destruct (proj1 (ms_lang lib_re f y) (ex_intro _ c Hin)) as (x & E & Hx).
    assert (y = "") as ->.
    { apply orb_true_iff in Hy as [Hy|Hy]; apply String.eqb_eq in Hy; [exact Hy|]. subst y. destruct Hf. rewrite E. apply occurs_right. exists "", "". reflexivity. }
    rewrite sapp_nil in E. subst x. unfold lib_re in Hx. apply lang_cat in Hx as (a & b & -> & _ & Hx). apply lang_cat in Hx as (u & v & -> & Hu & Hx). apply lang_word in Hu. subst u.
    apply lang_cat in Hx as (u & w & -> & Hu & Hx). apply lang_cat in Hx as (p & q & -> & Hp & Hq). unfold is in Hp. apply lang_chr in Hp as (d & -> & Hd). apply Ascii.eqb_eq in Hd. subst d.
    apply lang_chr in Hq as (e & -> & He). exists a, u, e. split; [reflexivity|]. split.
    + unfold Plus in Hu. apply lang_cat in Hu as (u1 & u2 & -> & Hu & _). unfold any in Hu. apply lang_chr in Hu as (z & -> & _). discriminate.
    + apply existsb_exists in He as (z & Hz & He). apply Ascii.eqb_eq in He. subst z. cbn in Hz. intuition.
  - intros (a & b & c & -> & Hb & Hc).
    assert (exists d, In (d, "") (ms lib_re (a +++ "/smack/lib/" +++ b +++ "." +++ String c ""))) as (d & Hd).
    { apply ms_lang. exists (a +++ "/smack/lib/" +++ b +++ "." +++ String c ""). split; [now rewrite sapp_nil|]. apply one_line_allc in Hf. apply allc_app in Hf as (Ha & Hf).
      apply (allc_app nonl "/smack/lib/") in Hf as (_ & Hf). apply allc_app in Hf as (Hb1 & _).
      unfold lib_re. apply lang_cat. eexists _, _. split; [reflexivity|]. split; [now apply (lang_star_chr nonl)|]. apply lang_cat. eexists _, _. split; [reflexivity|]. split; [now apply lang_word|].
      apply lang_cat. eexists _, _. split; [reflexivity|]. split.
      - destruct b as [|x b]; [congruence|]. unfold Plus. apply lang_cat. exists (String x ""), b. split; [reflexivity|]. destruct Hb1 as (H1 & H2). split; [unfold any; apply lang_chr; eauto|now apply (lang_star_chr nonl)].
      - apply lang_cat. eexists _, _. split; [reflexivity|]. split; [unfold is; apply lang_chr; exists "."%char; split; reflexivity|]. apply lang_chr. exists c. split; [reflexivity|].
        destruct Hc as [->|[->| ->]]; reflexivity. }
    exists (d, ""). split; [exact Hd|reflexivity].
Qed.

(** ** The call stack *)
Definition countedb (f : string) : bool := negb (String.prefix "devirtbounce" f || isSMACKInitFunc f).
Lemma counted_iff : forall f, countedb f = true <-> counted f.
Proof.
  intros f. unfold countedb, counted, isSMACKInitFunc. rewrite negb_true_iff, orb_false_iff, !orb_false_iff, !String.eqb_neq. split.
  - intros (H1 & (H2 & H3) & H4). split; [|auto]. intros x E. rewrite (proj2 (prefix_true _ _)) in H1 by eauto. discriminate.
  - intros (H1 & H2 & H3 & H4). split; [|auto]. destruct (String.prefix "devirtbounce" f) eqn:E; [|reflexivity]. apply prefix_true in E as (x & E). destruct (H1 x E).
Qed.
Definition next_stack (st : list string) (n : note) : option (list string) :=
  match n with
  | Calls f => Some (if countedb f then f :: st else st)
  | Returns f => if countedb f then match st with g :: st' => if String.eqb f g then Some st' else None | [] => None end else Some st
  | _ => Some st
  end.
Fixpoint stack_after (st : list string) (l : list note) : option (list string) :=
  match l with [] => Some st | n :: l' => match next_stack st n with Some st' => stack_after st' l' | None => None end end.
Lemma stack_app : forall a b st, stack_after st (a ++ b) = match stack_after st a with Some st' => stack_after st' b | None => None end.
Proof. induction a as [|n a IH]; intros b st; [reflexivity|]. cbn [app stack_after]. destruct (next_stack st n); [apply IH|reflexivity]. Qed.
Lemma next_other : forall st n, ~ enters_or_leaves n -> next_stack st n = Some st.
Proof.
  intros st [f v|f|f| |s] H; cbn in *; try reflexivity; destruct (countedb f) eqn:E; try reflexivity; apply counted_iff in E; contradiction.
Qed.
Lemma balanced_stack : forall l, balanced l -> forall st, stack_after st l = Some st.
Proof.
  induction 1 as [|n l Hn Hl IH|f a b Hf Ha IHa Hb IHb]; intros st; [reflexivity|cbn [stack_after]; rewrite next_other by exact Hn; apply IH|].
  apply counted_iff in Hf. cbn [stack_after next_stack]. rewrite Hf, stack_app, IHa. cbn [stack_after next_stack]. rewrite Hf, String.eqb_refl. apply IHb.
Qed.
Lemma balanced_app : forall a b, balanced a -> balanced b -> balanced (a ++ b).
Proof.
  intros a b Ha Hb. induction Ha as [|n l Hn Hl IH|f c d Hf Hc IHc Hd IHd]; [exact Hb|now apply bal_other|].
  cbn [app]. rewrite <- app_assoc. cbn [app]. now apply bal_call.
Qed.
Inductive stacked : list note -> list string -> Prop :=
| stk_main : forall l, balanced l -> stacked l []
| stk_call : forall l st f b, stacked l st -> counted f -> balanced b -> stacked (l ++ Calls f :: b) (f :: st).
Lemma stacked_bal : forall l st c, stacked l st -> balanced c -> stacked (l ++ c) st.
Proof.
  intros l st c H Hc. destruct H as [l H|l st f b H Hf Hb]; [constructor; now apply balanced_app|].
  rewrite <- app_assoc. cbn [app]. constructor; [exact H|exact Hf|now apply balanced_app].
Qed.
Lemma stacked_after : forall l st, stacked l st -> stack_after [] l = Some st.
Proof.
  induction 1 as [l H|l st f b H IH Hf Hb]; [now apply balanced_stack|]. rewrite stack_app, IH. cbn [stack_after next_stack]. apply counted_iff in Hf. rewrite Hf. now apply balanced_stack.
Qed.
Lemma stacked_executing : forall l st, stacked l st -> executing l (hd "main" st).
Proof. intros l st [l' H|l' st' f b H Hf Hb]; [now left|]. right. exists l', b. auto. Qed.
Lemma stacked_return : forall l st f, stacked l st -> counted f -> (exists a b, l = a ++ Calls f :: b /\ balanced b) ->
  exists st', st = f :: st' /\ stacked (l ++ [Returns f]) st'.
Proof.
  intros l st f H Hf (a & b & E & Hb). pose proof (stacked_after _ _ H) as Ha. rewrite E, stack_app in Ha. destruct (stack_after [] a) as [st1|]; [|discriminate].
  cbn [stack_after next_stack] in Ha. pose proof Hf as Hf'. apply counted_iff in Hf'. rewrite Hf', balanced_stack in Ha by exact Hb. injection Ha as <-.
  exists st1. split; [reflexivity|]. inversion H as [|l' st' f' b' H1 H2 H3]; subst. rewrite <- app_assoc. cbn [app]. apply stacked_bal; [exact H1|].
  apply (bal_call f b' []); [exact Hf|exact H3|constructor].
Qed.

(** ** The graph *)
Definition A (n : nat) : string := String.append "A" (Naming.dec n).
Lemma A_inj : forall m n, A m = A n -> m = n.
Proof. intros m n E. injection E as E. now apply dec_inj. Qed.
Fixpoint add_all (g : graph) (last : string) (l : list data) : graph * string :=
  match l with
  | [] => (g, last)
  | d :: l' => let '(g1, n) := addGraphNode g [] in add_all (addGraphEdge g1 last n d) n l'
  end.
Definition violate (g : graph) (last line : string) : graph :=
  let '(g1, n) := addGraphNode g [] in addGraphEdge (addKeyTo g1 n "violation" "true") last n [("startline", line)].
Definition as_edge (e : edge) : string * string * data := (e_source e, e_target e, e_data e).
Definition as_witness (g : graph) : witness := Witness (map (fun n => (n_id n, n_data n)) (nodes g)) (map as_edge (edges g)).

Lemma add_all_graph : forall l g k g' last', num g = S k -> add_all g (A k) l = (g', last') ->
  num g' = S k + List.length l /\ last' = A (k + List.length l) /\ g_data g' = g_data g /\
  nodes g' = nodes g ++ map (fun i => Node (A i) []) (seq (S k) (List.length l)) /\
  map as_edge (edges g') = map as_edge (edges g) ++ chain (map A (seq k (S (List.length l)))) l.
Proof.
  induction l as [|d l IH]; intros g k g' last' Hk H.
  - cbn in H. injection H as <- <-. cbn [List.length seq map chain]. rewrite !Nat.add_0_r, !app_nil_r. auto.
  - cbn [add_all addGraphNode] in H. rewrite Hk in H. specialize (IH (addGraphEdge (Graph (S (S k)) (g_data g) (nodes g ++ [Node (A (S k)) []]) (edges g)) (A k) (A (S k)) d) (S k) g' last' eq_refl H).
    cbn [addGraphEdge num nodes edges g_data] in IH. destruct IH as (H1 & H2 & H3 & H4 & H5). cbn [List.length]. rewrite H1, H2, H3, H4, H5.
    split; [lia|]. split; [f_equal; lia|]. split; [reflexivity|]. split.
    + rewrite <- app_assoc. reflexivity.
    + rewrite map_app, <- app_assoc. reflexivity.
Qed.
Definition start_graph (g : graph) (d : data) : Prop := num g = 1 /\ g_data g = d /\ nodes g = [Node (A 0) [("entry", "true")]] /\ edges g = [].
Lemma A_nodup : forall l, NoDup l -> NoDup (map A l).
Proof.
  induction 1 as [|x l Hx Hl IH]; cbn; constructor; [|exact IH]. intros H. apply in_map_iff in H as (y & E & Hy). apply A_inj in E. now subst.
Qed.
Lemma const_map : forall (f : nat -> node) l, (forall x, n_data (f x) = []) -> map n_data (map f l) = repeat [] (List.length l).
Proof. intros f l H. induction l as [|x l IH]; [reflexivity|]. cbn. now rewrite H, IH. Qed.
Lemma path_plain : forall g d l g' last, start_graph g d -> add_all g (A 0) l = (g', last) -> is_path l false (as_witness g') /\ g_data g' = d.
Proof.
  intros g d l g' last (Hn & Hd & Hg & He) H. destruct (add_all_graph l g 0 g' last Hn H) as (_ & _ & H3 & H4 & H5). split; [|congruence].
  rewrite Hg in H4. rewrite He in H5. exists (map A (seq 0 (S (List.length l)))). unfold as_witness. cbn [w_nodes w_edges]. rewrite H4, H5.
  split; [|split; [apply A_nodup, seq_NoDup|split; [now rewrite map_length, seq_length|split; [reflexivity|]]]].
  - rewrite map_map. cbn [app map seq fst n_id]. f_equal. rewrite map_map. reflexivity.
  - rewrite map_map. cbn [app map snd n_data]. f_equal. rewrite map_map. cbn [n_data snd]. clear. generalize 1. induction (List.length l) as [|n IH]; intros k; [reflexivity|]. cbn. now rewrite IH.
Qed.
Lemma chain_snoc : forall ids l a b d, List.length ids = List.length l -> chain (ids ++ [a; b]) (l ++ [d]) = chain (ids ++ [a]) l ++ [(a, b, d)].
Proof.
  induction ids as [|x ids IH]; intros [|e l] a b d H; try discriminate; [reflexivity|]. injection H as H. cbn [app]. specialize (IH l a b d H).
  destruct ids as [|y ids]; cbn [app chain] in *; now rewrite IH.
Qed.
Lemma path_violation : forall g d l g' last line, start_graph g d -> add_all g (A 0) l = (g', last) ->
  is_path (l ++ [[("startline", line)]]) true (as_witness (violate g' last line)) /\ g_data (violate g' last line) = d.
Proof.
  intros g d l g' last line (Hn & Hd & Hg & He) H. destruct (add_all_graph l g 0 g' last Hn H) as (H1 & H2 & H3 & H4 & H5). split; [|cbn; congruence].
  rewrite Hg in H4. rewrite He in H5. cbn [Nat.add] in *. exists (map A (seq 0 (S (S (List.length l))))). unfold violate. cbn [addGraphNode]. rewrite H1.
  change (String.append "A" (Naming.dec (S (List.length l)))) with (A (S (List.length l))).
  unfold as_witness, addGraphEdge, addKeyTo. cbn [num g_data nodes edges w_nodes w_edges].
  assert (map (fun n => if String.eqb (n_id n) (A (S (List.length l))) then Node (n_id n) (n_data n ++ [("violation", "true")]) else n)
      (nodes g' ++ [Node (A (S (List.length l))) []]) = nodes g' ++ [Node (A (S (List.length l))) [("violation", "true")]]) as E.
  { rewrite map_app. cbn [map n_id n_data]. rewrite String.eqb_refl. f_equal. rewrite <- (map_id (nodes g')) at 2. apply map_ext_in. intros n Hin. rewrite H4 in Hin.
    assert (exists i, i < S (List.length l) /\ n_id n = A i) as (i & Hi & ->).
    { cbn [app] in Hin. destruct Hin as [<-|Hin]; [exists 0; split; [lia|reflexivity]|]. apply in_map_iff in Hin as (i & <- & Hi). apply in_seq in Hi. exists i. split; [lia|reflexivity]. }
    destruct (String.eqb_spec (A i) (A (S (List.length l)))) as [Ei|]; [|reflexivity]. apply A_inj in Ei. lia. }
  rewrite E, H4, app_length. cbn [List.length]. split; [|split; [apply A_nodup, seq_NoDup|split; [rewrite map_length, seq_length; lia|split]]].
  - rewrite !map_app, map_map. change (seq 0 (S (S (List.length l)))) with (0 :: seq 1 (S (List.length l))). rewrite seq_S. cbn [map app fst n_id]. f_equal. rewrite !map_app, !map_map. reflexivity.
  - rewrite map_app, H5, H2. cbn [map app].
    change (seq 0 (S (S (List.length l)))) with (0 :: seq 1 (S (List.length l))).
    assert (0 :: seq 1 (S (List.length l)) = seq 0 (List.length l) ++ [List.length l; S (List.length l)]) as ->.
    { change (0 :: seq 1 (S (List.length l))) with (seq 0 (S (S (List.length l)))). rewrite !seq_S, <- app_assoc. reflexivity. }
    rewrite seq_S, !map_app. cbn [map Nat.add]. rewrite chain_snoc by now rewrite map_length, seq_length. reflexivity.
  - rewrite !map_app, !map_map. cbn [map app snd n_data]. f_equal. replace (List.length l + 1 - 1) with (List.length l) by lia. f_equal.
    clear. generalize 1. induction (List.length l) as [|n IH]; intros k; [reflexivity|]. cbn. now rewrite IH.
Qed.

(** ** One entry *)
Lemma not_contains : forall p s, ~ occurs p s -> contains p s = false.
Proof. intros p s H. destruct (contains p s) eqn:E; [|reflexivity]. apply contains_occurs in E. contradiction. Qed.
Definition scope_of (f : string) : string := if contains "." f then hd "" (split "." f) else f.
Lemma scope_source : forall f, source_name f (scope_of f).
Proof.
  intros f. unfold scope_of. destruct (contains "." f) eqn:E.
  - apply contains_occurs in E. assert (forall n s, String.length s = n -> occurs "." s -> exists a x, s = a +++ "." +++ x /\ ~ occurs "." a) as F.
    { induction n as [|n IH]; intros s Hn (a & b & ->); [destruct a; discriminate|]. destruct a as [|c a].
      - exists "", b. split; [reflexivity|]. intros (u & v & Hu). destruct u; discriminate.
      - injection Hn as Hn. destruct (IH _ Hn) as (a' & x & Ex & Ha); [now exists a, b|]. cbn [String.append] in Ex |- *.
        destruct (Ascii.eqb_spec c ".") as [->|Nc].
        + exists "", (a +++ "." +++ b). split; [reflexivity|]. intros (u & v & Hu). destruct u; discriminate.
        + exists (String c a'), x. split; [cbn; now f_equal|]. intros (u & v & Hu). destruct u as [|d u]; [injection Hu as Hu; congruence|]. injection Hu as _ Hu. apply Ha. now exists u, v. }
    destruct (F _ f eq_refl E) as (a & x & -> & Ha). cbn [String.append]. rewrite split_app by exact Ha. cbn [hd]. split; [exact Ha|]. right. now exists x.
  - split; [|now left]. intros H. apply contains_occurs in H. congruence.
Qed.
Definition label (line f v scope : string) : data :=
  [ ("startline", line); ("assumption", "\result == " ++ v ++ ";"); ("assumption.resultfunction", f); ("assumption.scope", scope) ]%string.
Lemma visit_reads : forall t f v g last top st, note_ok (Reads f v) -> e_description t = text (Reads f v) ->
  visit t (State g last (top :: st)) =
    let '(g1, n) := addGraphNode g [] in Some (State (addGraphEdge g1 last n (label (e_line t) f v (scope_of top))) n (top :: st)).
Proof.
  intros t f v g last top st ((x & Hx) & Hf & Hv & (Q1 & Q2 & Q3)) Ht.
  assert (visit_input t (State g last (top :: st)) = let '(g1, n) := addGraphNode g [] in Some (State (addGraphEdge g1 last n (label (e_line t) f v (scope_of top))) n (top :: st))) as E.
  { unfold visit_input. rewrite Ht, format_reads by assumption.
    replace (String.prefix nondet_prefix ("smack:ext:" +++ f +++ " == " +++ v)) with true
      by (symmetry; apply prefix_true; subst f; exists (x +++ " == " +++ v); cbn; repeat f_equal; now rewrite sapp_assoc).
    assert ("smack:ext:" +++ f +++ " == " +++ v = ("smack:ext:" +++ f +++ " ") +++ "==" +++ (" " +++ v)) as -> by (cbn; rewrite !sapp_assoc; reflexivity).
    destruct Hf as (F1 & F2 & F3 & F4), Hv as (V1 & V2 & V3 & V4).
    assert (~ occurs "=" ("smack:ext:" +++ f +++ " ")) as N1.
    { intros H. change ("smack:ext:" +++ f +++ " ") with ("smack:ext:" +++ (f +++ " ")) in H. apply occurs_char in H as [H|H]; [apply contains_occurs in H; discriminate|]. apply occurs_char in H as [H|H]; [contradiction|]. apply contains_occurs in H. discriminate. }
    assert (~ occurs "=" (" " +++ v)) as N2.
    { intros H. apply occurs_char in H as [H|H]; [apply contains_occurs in H; discriminate|contradiction]. }
    rewrite eqs_app by exact N1. rewrite eqs_free by exact N2.
    assert (strip ("smack:ext:" +++ f +++ " ") = "smack:ext:" +++ f) as ->.
    { change ("smack:ext:" +++ f +++ " ") with ("smack:ext:" +++ (f +++ " ")). rewrite <- (sapp_assoc "smack:ext:" f " "). apply strip_left. apply trimmed_left; [exact F4|now subst f|]. eexists _, _. split; reflexivity. }
    rewrite strip_right by exact V4. cbn [callStack]. change (from (String.length "smack:ext:") ("smack:ext:" +++ f)) with f. reflexivity. }
  unfold visit. rewrite E. destruct (addGraphNode g []) as (g1 & n) eqn:Eg. unfold visit_call. rewrite Ht, not_contains by exact Q1.
  unfold visit_return. rewrite Ht, not_contains by exact Q2. reflexivity.
Qed.
Lemma visit_input_other : forall t s, (forall x, e_description t <> nondet_prefix +++ x) -> visit_input t s = Some s.
Proof. intros t s H. unfold visit_input. destruct (format_other _ H) as (u & -> & ->). reflexivity. Qed.
Lemma visit_says : forall t u s, note_ok (Says u) -> e_description t = text (Says u) -> visit t s = Some s.
Proof.
  intros t u s ((Q1 & Q2 & _) & Hu) Ht. cbn [text] in Ht. unfold visit. rewrite visit_input_other by (intros x; rewrite Ht; apply Hu).
  unfold visit_call. rewrite Ht, not_contains by exact Q1. unfold visit_return. rewrite Ht, not_contains by exact Q2. reflexivity.
Qed.
Lemma visit_calls : forall t f g last st, note_ok (Calls f) -> e_description t = text (Calls f) ->
  visit t (State g last st) = Some (State g last (if countedb f then f :: st else st)).
Proof.
  intros t f g last st (Hf & Q2 & _) Ht. unfold visit. rewrite visit_input_other by (intros x; rewrite Ht; discriminate).
  unfold visit_call. rewrite Ht. rewrite (proj2 (contains_occurs "CALL" (text (Calls f)))) by (exists "", (String " " f); reflexivity).
  change (from (String.length "CALL ") (text (Calls f))) with f. rewrite strip_trimmed by exact Hf. unfold countedb.
  destruct (String.prefix "devirtbounce" f); [reflexivity|]. destruct (isSMACKInitFunc f); [reflexivity|]. cbn [orb negb]. unfold visit_return. rewrite Ht, not_contains by exact Q2. reflexivity.
Qed.
Lemma visit_returns : forall t f g last st, note_ok (Returns f) -> e_description t = text (Returns f) ->
  visit t (State g last st) = (if countedb f then match st with [] => None | h :: st' => if String.eqb f h then Some (State g last st') else None end else Some (State g last st)).
Proof.
  intros t f g last st (Hf & Q1 & _) Ht. unfold visit. rewrite visit_input_other by (intros x; rewrite Ht; discriminate).
  unfold visit_call. rewrite Ht, not_contains by exact Q1. unfold visit_return. rewrite Ht.
  rewrite (proj2 (contains_occurs "RETURN from" (text (Returns f)))) by (exists "", (String " " f); reflexivity).
  change (from (String.length "RETURN from ") (text (Returns f))) with f. rewrite strip_trimmed by exact Hf. unfold countedb.
  destruct (String.prefix "devirtbounce" f); [reflexivity|]. destruct (isSMACKInitFunc f); reflexivity.
Qed.

(** ** All entries *)
Definition records (t : entry) (s : step) : Prop := e_file t = s_file s /\ e_line t = s_line s /\ e_description t = text (said s).
Definition step_ok (s : step) : Prop := note_ok (said s) /\ one_line (s_file s).
Lemma picks_app : forall {A} (P : A -> Prop) a k b m, picks P a k -> picks P b m -> picks P (a ++ b) (k ++ m).
Proof. intros A P a k b m H Hb. induction H; cbn [app]; [exact Hb|now constructor|now constructor]. Qed.
Lemma note_not_fails : forall n, note_ok n -> n <> Fails -> contains "ASSERTION FAILS" (text n) = false.
Proof. intros [f v|f|f| |s] H N; try congruence; apply not_contains; cbn [note_ok] in H; [apply H|apply H|apply H|apply H]. Qed.
Lemma loop_labels : forall fa steps ts before past st g last,
  Forall2 records ts steps -> Forall step_ok steps -> (forall s, In s steps -> said s <> Fails) ->
  picks own before past -> stacked (map said past) st ->
  (forall mine, picks own steps mine -> calls_match (map said (past ++ mine))) ->
  exists ds g' last', Spec.Witness.labels before steps ds /\ add_all g last ds = (g', last') /\
    forall rest, exists st', loop fa (ts ++ rest) (State g last (st ++ ["main"])) = loop fa rest (State g' last' st').
Proof.
  intros fa. induction steps as [|s steps IH]; intros ts before past st g last HR HO HF HP HS HM.
  - inversion HR; subst. exists [], g, last. split; [constructor|]. split; [reflexivity|]. intros rest. eauto.
  - inversion HR as [|t s' ts' steps' (R1 & R2 & R3) HR']; subst. inversion HO as [|s' steps' (O1 & O2) HO']; subst.
    assert (contains "ASSERTION FAILS" (e_description t) = false) as Nf by (rewrite R3; apply note_not_fails; [exact O1|apply HF; now left]).
    assert (exists mine, picks own steps mine) as (mine & Hmine).
    { clear - HO'. induction steps as [|x l IHl]; [exists []; constructor|]. inversion HO' as [|x' l' (H1 & H2) H3]; subst. destruct (IHl H3) as (m & Hm).
      destruct (is_lib_file (s_file x)) eqn:E; [exists m; apply pick_no; [intros H; apply H, lib_file_iff; assumption|exact Hm]|].
      exists (x :: m). apply pick_yes; [|exact Hm]. intros H. apply lib_file_iff in H; congruence. }
    destruct (is_lib_file (e_file t)) eqn:El.
    + assert (~ own s) as No. { intros H. apply H. rewrite R1 in El. apply lib_file_iff in El; assumption. }
      destruct (IH ts' (before ++ [s]) past st g last HR' HO') as (ds & g' & last' & L1 & L2 & L3).
      * intros x Hx. apply HF. now right.
      * rewrite <- (app_nil_r past). apply picks_app; [exact HP|]. apply pick_no; [exact No|constructor].
      * exact HS.
      * intros m Hm. apply HM. now apply pick_no.
      * exists ds, g', last'. split; [apply lab_other; [intros (H & _); contradiction|exact L1]|]. split; [exact L2|].
        intros rest. destruct (L3 rest) as (st' & E). exists st'. cbn [app loop]. rewrite Nf, El. exact E.
    + assert (own s) as Ho. { intros H. rewrite R1 in El. apply lib_file_iff in H; congruence. }
      assert (picks own (before ++ [s]) (past ++ [s])) as HP' by (apply picks_app; [exact HP|]; apply pick_yes; [exact Ho|constructor]).
      assert (forall m, picks own steps m -> calls_match (map said ((past ++ [s]) ++ m))) as HM'.
      { intros m Hm. rewrite <- app_assoc. apply HM. now apply pick_yes. }
      assert (forall x, In x steps -> said x <> Fails) as HF' by (intros x Hx; apply HF; now right).
      assert (forall st1, ~ is_input s -> visit t (State g last (st ++ ["main"])) = Some (State g last (st1 ++ ["main"])) -> stacked (map said (past ++ [s])) st1 ->
        exists ds g' last', Spec.Witness.labels before (s :: steps) ds /\ add_all g last ds = (g', last') /\
          forall rest, exists st', loop fa ((t :: ts') ++ rest) (State g last (st ++ ["main"])) = loop fa rest (State g' last' st')) as Step.
      { intros st1 Hi Hv H1. destruct (IH ts' (before ++ [s]) (past ++ [s]) st1 g last HR' HO' HF' HP' H1 HM') as (ds & g' & last' & L1 & L2 & L3).
        exists ds, g', last'. split; [now apply lab_other|]. split; [exact L2|]. intros rest. destruct (L3 rest) as (st' & E). exists st'. cbn [app loop]. rewrite Nf, El, Hv. exact E. }
      rewrite map_app in Step. cbn [map] in Step.
      assert (forall n, said s = n -> ~ enters_or_leaves n -> stacked (map said past ++ [said s]) st) as Stay.
      { intros n En Hn. rewrite En. apply stacked_bal; [exact HS|]. apply bal_other; [exact Hn|constructor]. }
      destruct (said s) as [f v|f|f| |u] eqn:En.
      * assert (exists top st', st ++ ["main"] = top :: st' /\ executing (map said past) top) as (top & st' & Est & Hex).
        { destruct st as [|top st']; [exists "main", []|exists top, (st' ++ ["main"])]; (split; [reflexivity|]); exact (stacked_executing _ _ HS). }
        assert (stacked (map said (past ++ [s])) st) as HS' by (rewrite map_app; cbn [map]; rewrite En; now apply (Stay (Reads f v))).
        rewrite Est in *. destruct (addGraphNode g []) as (g1 & n) eqn:Eg.
        destruct (IH ts' (before ++ [s]) (past ++ [s]) st (addGraphEdge g1 last n (label (e_line t) f v (scope_of top))) n HR' HO' HF' HP' HS' HM') as (ds & g' & last' & L1 & L2 & L3).
        exists (label (e_line t) f v (scope_of top) :: ds), g', last'. split; [|split].
        -- apply lab_input; [split; eauto|exists f, v, top, (scope_of top), past|exact L1].
           split; [exact En|]. split; [exact HP|]. split; [exact Hex|]. split; [apply scope_source|]. unfold label. now rewrite R2.
        -- cbn [add_all]. rewrite Eg. exact L2.
        -- intros rest. destruct (L3 rest) as (st2 & E). exists st2. rewrite Est in E. cbn [app loop]. rewrite Nf, El. rewrite (visit_reads t f v) by assumption. rewrite Eg. exact E.
      * apply (Step (if countedb f then f :: st else st)).
        -- intros (_ & f' & v' & E). congruence.
        -- rewrite (visit_calls t f) by assumption. now destruct (countedb f).
        -- destruct (countedb f) eqn:Ec; [apply counted_iff in Ec; apply (stk_call _ _ f []); [exact HS|exact Ec|constructor]|]. apply (Stay (Calls f) eq_refl). intros H. apply counted_iff in H. congruence.
      * destruct (countedb f) eqn:Ec.
        -- pose proof Ec as Hc. apply counted_iff in Hc. destruct (stacked_return _ st f HS Hc) as (st1 & -> & H1).
           { apply (HM' mine Hmine (map said past) f (map said mine)); [|exact Hc]. rewrite !map_app. cbn [map]. rewrite En, <- app_assoc. reflexivity. }
           apply (Step st1); [intros (_ & f' & v' & E); congruence| |exact H1]. rewrite (visit_returns t f) by assumption. rewrite Ec. cbn [app]. now rewrite String.eqb_refl.
        -- apply (Step st); [intros (_ & f' & v' & E); congruence| |].
           ++ rewrite (visit_returns t f) by assumption. now rewrite Ec.
           ++ apply (Stay (Returns f) eq_refl). intros H. apply counted_iff in H. congruence.
      * destruct (HF s (or_introl eq_refl) En).
      * apply (Step st); [intros (_ & f' & v' & E); congruence| |].
        -- now apply (visit_says t u).
        -- now apply (Stay (Says u)).
Qed.

(** ** Any entries *)
Lemma visit_adds : forall t s s', visit t s = Some s' -> exists l, add_all (tree s) (lastNode s) l = (tree s', lastNode s').
Proof.
  intros t s s' H. unfold visit in H. destruct (visit_input t s) as [s1|] eqn:E1; [|discriminate].
  assert (exists l, add_all (tree s) (lastNode s) l = (tree s1, lastNode s1)) as (l & Hl).
  { unfold visit_input in E1. destruct (formatAssign (e_description t)) as [a|]; [|discriminate]. destruct (String.prefix nondet_prefix a); [|injection E1 as <-; now exists []].
    destruct (split_eqs a) as [|t0 [|t1 ?]]; try discriminate. destruct (callStack s) as [|f st]; [discriminate|].
    destruct (addGraphNode (tree s) []) as (g1 & n) eqn:Eg. injection E1 as <-. eexists [_]. cbn [add_all]. rewrite Eg. reflexivity. }
  exists l. rewrite Hl. clear Hl E1. destruct (visit_call t s1) as (s2 & b) eqn:E2.
  assert (tree s2 = tree s1 /\ lastNode s2 = lastNode s1) as (<- & <-).
  { unfold visit_call in E2. repeat match type of E2 with context [if ?b then _ else _] => destruct b end; injection E2 as <- _; now split. }
  clear E2. destruct b; [now injection H as <-|]. unfold visit_return in H.
  repeat match type of H with context [if ?b then _ else _] => destruct b | context [match callStack ?s with _ => _ end] => destruct (callStack s) end; try discriminate; injection H as <-; reflexivity.
Qed.
Lemma add_all_app : forall a b g last, add_all g last (a ++ b) = let '(g1, last1) := add_all g last a in add_all g1 last1 b.
Proof. induction a as [|d a IH]; intros b g last; [reflexivity|]. cbn [app add_all]. destruct (addGraphNode g []) as (g1 & n). apply IH. Qed.
Lemma loop_shape : forall fa ts s G, loop fa ts s = Some G ->
  exists l g' last', add_all (tree s) (lastNode s) l = (g', last') /\
    ((forall t, In t ts -> ~ occurs "ASSERTION FAILS" (e_description t)) /\ G = g' \/
     (exists t, In t ts /\ occurs "ASSERTION FAILS" (e_description t)) /\ exists line, fa = Some line /\ G = violate g' last' line).
Proof.
  intros fa. induction ts as [|t ts IH]; intros s G H; cbn [loop] in H.
  - injection H as <-. exists [], (tree s), (lastNode s). split; [reflexivity|]. left. split; [intros t []|reflexivity].
  - destruct (contains "ASSERTION FAILS" (e_description t)) eqn:Ef.
    + apply contains_occurs in Ef. destruct fa as [line|]; [|discriminate]. exists [], (tree s), (lastNode s). split; [reflexivity|]. right. split; [exists t; split; [now left|exact Ef]|].
      exists line. split; [reflexivity|]. unfold violate. destruct (addGraphNode (tree s) []). now injection H as <-.
    + assert (~ occurs "ASSERTION FAILS" (e_description t)) as Nf by (intros X; apply contains_occurs in X; congruence).
      assert (exists s1 l1, add_all (tree s) (lastNode s) l1 = (tree s1, lastNode s1) /\ loop fa ts s1 = Some G) as (s1 & l1 & E1 & H1).
      { destruct (is_lib_file (e_file t)); [exists s, []; split; [reflexivity|exact H]|]. destruct (visit t s) as [s1|] eqn:Ev; [|discriminate]. destruct (visit_adds _ _ _ Ev) as (l & Hl). exists s1, l. now split. }
      destruct (IH s1 G H1) as (l2 & g' & last' & E2 & Hg). exists (l1 ++ l2), g', last'. split; [now rewrite add_all_app, E1|].
      destruct Hg as [(Hn & ->)|((t' & Ht & Ho) & Hg)]; [left|right].
      * split; [|reflexivity]. intros t' [<-|Ht]; [exact Nf|now apply Hn].
      * split; [exists t'; split; [now right|exact Ho]|exact Hg].
Qed.
Lemma build_start : forall w b g, buildEmptyXmlGraph w b = Some g ->
  exists g1, addGraphNode g [("entry", "true")] = (g1, A 0) /\ start_graph g1 (g_data g) /\
    In ("witness-type", if b then "violation_witness" else "correctness_witness") (g_data g).
Proof.
  intros w b g H. unfold buildEmptyXmlGraph in H. destruct (py_search arch_re (clang_options w)) as [((p & c) & r)|]; [|discriminate]. destruct (group 1 c); [|discriminate]. injection H as <-.
  eexists. split; [reflexivity|]. split; [repeat split|]. now left.
Qed.

(** ** The notes of Corral's traces *)
Fixpoint has_grp (n : nat) (a r : re) : Prop :=
  match r with
  | Chr _ | Eps => False
  | Cat r1 r2 | Alt r1 r2 => has_grp n a r1 \/ has_grp n a r2
  | Star r1 => has_grp n a r1
  | Grp m r1 => (m = n /\ r1 = a) \/ has_grp n a r1
  end.
Lemma captured : forall r s c y n x, In (c, y) (ms r s) -> In (n, x) c -> exists a, has_grp n a r /\ lang a x.
Proof.
  induction r as [p| |r1 IH1 r2 IH2|r1 IH1 r2 IH2|r IH|m r IH]; intros s c y n x H Hx.
  - cbn in H. destruct s as [|d s]; [destruct H|]. destruct (p d); [|destruct H]. destruct H as [E|[]]. injection E as <- _. destruct Hx.
  - destruct H as [E|[]]. injection E as <- _. destruct Hx.
  - apply in_ms_cat in H as (c1 & s1 & c2 & H1 & H2 & ->). apply in_app_iff in Hx as [Hx|Hx]; [destruct (IH2 _ _ _ _ _ H2 Hx) as (a & Ha & L)|destruct (IH1 _ _ _ _ _ H1 Hx) as (a & Ha & L)]; exists a; cbn; auto.
  - cbn [ms] in H. apply in_app_iff in H as [H|H]; [destruct (IH1 _ _ _ _ _ H Hx) as (a & Ha & L)|destruct (IH2 _ _ _ _ _ H Hx) as (a & Ha & L)]; exists a; cbn; auto.
  - cbn [ms has_grp] in *. revert H. generalize (String.length s). intros k H. revert s c y H Hx.
    induction k as [|k IHk]; intros s c y H Hx; [destruct H as [E|[]]; injection E as <- _; destruct Hx|].
    apply in_app_iff in H as [H|[E|[]]]; [|injection E as <- _; destruct Hx]. apply in_flat_map in H as ((c1 & s1) & H1 & H2).
    destruct (Nat.ltb (String.length s1) (String.length s)); [|destruct H2]. apply in_map_iff in H2 as ((d & s2) & E & H2). injection E as <- <-.
    apply in_app_iff in Hx as [Hx|Hx]; [exact (IHk _ _ _ H2 Hx)|exact (IH _ _ _ _ _ H1 Hx)].
  - pose proof H as H0. apply in_ms_grp in H0 as (z & c' & E1 & E2 & L). subst c. destruct Hx as [Hx|Hx].
    + injection Hx as <- <-. exists r. split; [left; auto|exact L].
    + cbn [ms] in H. apply in_map_iff in H as ((c2 & s2) & E & H). injection E as _ -> ->. destruct (IH _ _ _ _ _ H Hx) as (a & Ha & La). exists a. cbn. auto.
Qed.
Lemma group_in : forall n c x, group n c = Some x -> In (n, x) c.
Proof. intros n c x. induction c as [|(k & z) c IH]; intros H; [discriminate|]. cbn [group] in H. destruct (Nat.eqb_spec k n) as [->|]; [injection H as ->; now left|right; auto]. Qed.

(** Texts that no occurrence of the word can overlap *)
Definition AW : string := "ASSERTION".
Definition outside (c : ascii) : bool := negb (existsb (Ascii.eqb c) ["A"; "S"; "E"; "R"; "T"; "I"; "O"; "N"]%char).
Definition no_S (c : ascii) : bool := negb (Ascii.eqb "S" c).
Definition apart (r : string) : Prop := exists c m d, (r = String c "" \/ r = String c (m +++ String d "")) /\ outside c = true /\ outside d = true /\ allc no_S r.
Lemma outside_free : forall c, outside c = true -> ~ occurs (String c "") AW.
Proof.
  intros c H (a & b & E). unfold outside in H. apply negb_true_iff in H. unfold AW in E.
  do 9 (destruct a as [|? a]; [injection E as <- _; discriminate|injection E as _ E]). destruct a; discriminate.
Qed.
Lemma no_S_free : forall s, allc no_S s -> ~ occurs AW s.
Proof. intros s H. exact (no_char "S" "A" "SERTION" s H). Qed.
Lemma apart_free : forall a r b, apart r -> ~ occurs AW a -> ~ occurs AW b -> ~ occurs AW (a +++ r +++ b).
Proof.
  intros a r b (c & m & d & E & Hc & Hd & HS) Ha Hb H. destruct E as [->|E]; rewrite ?E in *.
  - apply (occurs_sep AW a c b (outside_free c Hc)) in H as [H|H]; contradiction.
  - cbn [String.append] in H. rewrite sapp_assoc in H. cbn [String.append] in H. apply (occurs_sep AW a c _ (outside_free c Hc)) in H as [H|H]; [contradiction|].
    apply (occurs_sep AW m d b (outside_free d Hd)) in H as [H|H]; [|contradiction]. destruct HS as (_ & HS). apply allc_app in HS as (HS & _). exact (no_S_free m HS H).
Qed.
Lemma digits_shape : forall x, lang d1 x -> exists c s, x = String c s /\ digit c = true /\ allc digit s.
Proof.
  intros x H. unfold d1, Plus in H. apply lang_cat in H as (a & b & -> & Ha & Hb). apply lang_chr in Ha as (c & -> & Hc). exists c, b. split; [reflexivity|]. split; [exact Hc|now apply (lang_star_chr digit)].
Qed.
Lemma hexes_shape : forall x, lang h1 x -> exists c s, x = String c s /\ hexdigit c = true /\ allc hexdigit s.
Proof.
  intros x H. unfold h1, Plus in H. apply lang_cat in H as (a & b & -> & Ha & Hb). apply lang_chr in Ha as (c & -> & Hc). exists c, b. split; [reflexivity|]. split; [exact Hc|now apply (lang_star_chr hexdigit)].
Qed.
Lemma digit_outside : forall c, digit c = true -> outside c = true.
Proof. intros c. destruct c as [[] [] [] [] [] [] [] []]; vm_compute; auto. Qed.
Lemma digit_no_S : forall c, digit c = true -> no_S c = true.
Proof. intros c. destruct c as [[] [] [] [] [] [] [] []]; vm_compute; auto. Qed.
Lemma hex_no_S : forall c, hexdigit c = true -> no_S c = true.
Proof. intros c. destruct c as [[] [] [] [] [] [] [] []]; vm_compute; auto. Qed.
Lemma digits_no_S : forall x, lang d1 x -> allc no_S x.
Proof. intros x H. destruct (digits_shape x H) as (c & s & -> & Hc & Hs). split; [now apply digit_no_S|]. revert Hs. apply allc_imp. exact digit_no_S. Qed.
Lemma hexes_no_S : forall x, lang h1 x -> allc no_S x.
Proof. intros x H. destruct (hexes_shape x H) as (c & s & -> & Hc & Hs). split; [now apply hex_no_S|]. revert Hs. apply allc_imp. exact hex_no_S. Qed.
Lemma digits_last : forall x, lang d1 x -> exists m d, x = m +++ String d "" /\ outside d = true.
Proof.
  intros x H. destruct (digits_shape x H) as (c & s & -> & Hc & Hs). destruct (last_char (String c s)) as [E|(m & d & E)]; [discriminate|]. exists m, d. split; [exact E|].
  assert (allc digit (m +++ String d "")) as Ha by (rewrite <- E; split; assumption). apply allc_app in Ha as (_ & (Hd & _)). now apply digit_outside.
Qed.
Lemma apart_mid : forall c x m d, outside c = true -> x = m +++ String d "" -> outside d = true -> allc no_S x -> no_S c = true -> apart (String c x).
Proof. intros c x m d Hc -> Hd HS Hn. exists c, m, d. split; [now right|]. split; [exact Hc|]. split; [exact Hd|]. split; assumption. Qed.
Lemma fp_apart : forall x, lang fp_re x -> apart x.
Proof.
  intros x H. unfold fp_re in H. apply lang_cat in H as (sg & x1 & -> & Hsg & H). apply lang_cat in H as (z & x2 & -> & Hz & H). apply lang_word in Hz. subst z.
  apply lang_cat in H as (mant & ex & -> & Hm & He). apply lang_grp in Hm, Hsg.
  assert (allc no_S mant) as Mm.
  { apply lang_cat in Hm as (i & r & -> & Hi & Hr). apply lang_cat in Hr as (dot & f & -> & Hd & Hf). unfold is in Hd. apply lang_chr in Hd as (dc & -> & Hd). apply Ascii.eqb_eq in Hd. subst dc.
    apply allc_app. split; [now apply hexes_no_S|]. split; [reflexivity|now apply hexes_no_S]. }
  assert (exists m d, ex = m +++ String d "" /\ outside d = true /\ allc no_S ex) as (m & d & Em & Hd & HS).
  { unfold exp_re in He. apply lang_cat in He as (e1 & e2 & -> & H1 & He). apply lang_cat in He as (e3 & e4 & -> & H3 & He). apply lang_cat in He as (e5 & e6 & -> & H5 & He).
    apply lang_cat in He as (e7 & e8 & -> & H7 & He). apply lang_cat in He as (e9 & e10 & -> & H9 & He). apply lang_cat in He as (e11 & e12 & -> & H11 & H12).
    apply lang_grp in H3, H5, H9, H12. unfold is in H1, H7, H11. apply lang_chr in H1 as (k1 & -> & K1), H7 as (k7 & -> & K7), H11 as (k11 & -> & K11). apply Ascii.eqb_eq in K1, K7, K11. subst k1 k7 k11.
    destruct (digits_last _ H12) as (m & d & E & Hd). exists (String "e" "" +++ e3 +++ e5 +++ String "f" "" +++ e9 +++ String "e" "" +++ m), d.
    split; [rewrite E; now rewrite !sapp_assoc|]. split; [exact Hd|].
    assert (allc no_S e3) as M3. { unfold dash in H3. apply lang_opt in H3 as [H3| ->]; [unfold is in H3; apply lang_chr in H3 as (k & -> & K); apply Ascii.eqb_eq in K; subst k; now split|exact I]. }
    apply digits_no_S in H5, H9, H12. rewrite !allc_app. repeat split; assumption. }
  assert (allc no_S ("x" +++ mant +++ ex)) as HX by (rewrite !allc_app; repeat split; assumption).
  unfold dash in Hsg. apply lang_opt in Hsg as [Hs| ->].
  - unfold is in Hs. apply lang_chr in Hs as (k & -> & K). apply Ascii.eqb_eq in K. subst k. apply (apart_mid "-" ("0x" +++ mant +++ ex) ("0x" +++ mant +++ m) d); [reflexivity|rewrite Em; now rewrite !sapp_assoc|exact Hd|now split|reflexivity].
  - apply (apart_mid "0" ("x" +++ mant +++ ex) ("x" +++ mant +++ m) d); [reflexivity|rewrite Em; now rewrite !sapp_assoc|exact Hd|exact HX|reflexivity].
Qed.
Lemma repl_apart : forall show s c y r, (forall x, apart (show x)) -> In (c, y) (ms const_re s) -> repl show c = Some r -> apart r.
Proof.
  intros show s c y r Hshow H E. unfold repl in E. destruct (contains "bv" (match group 1 c with Some x => x | None => "" end)) eqn:Eb.
  - injection E as <-. destruct (group 2 c) as [x|] eqn:G; [|exists "U"%char, "", "L"%char; split; [now right|]; repeat split; reflexivity].
    apply group_in in G. destruct (captured _ _ _ _ _ _ H G) as (a & Ha & L). assert (a = d1) as ->.
    { cbn in Ha. repeat match type of Ha with _ \/ _ => destruct Ha as [Ha|Ha] | _ /\ _ => destruct Ha as (Ha1 & Ha2); try discriminate; try (now subst) end; contradiction. }
    pose proof (digits_no_S _ L) as Hn. destruct (digits_shape _ L) as (k & t & -> & Hk & Ht). destruct Hn as (N1 & N2).
    apply (apart_mid k (t +++ "UL") (t +++ "U") "L"); [now apply digit_outside|now rewrite sapp_assoc|reflexivity| |exact N1]. apply allc_app. split; [exact N2|]. now repeat split.
  - destruct ((53 <? _)%Z || (11 <? _)%Z)%bool eqn:Ew.
    + injection E as <-. unfold const_re in H. apply in_ms_grp in H as (x & c' & -> & -> & L). cbn [group Nat.eqb] in *. apply lang_alt in L as [L|L]; [|now apply fp_apart].
      unfold bv_re in L. apply lang_cat in L as (a & b & -> & _ & L). apply lang_cat in L as (b1 & b2 & -> & L & _). apply lang_word in L. subst b1.
      rewrite (proj2 (contains_occurs "bv" (a +++ "bv" +++ b2))) in Eb by (exists a, b2; reflexivity). discriminate.
    + destruct (at_dot _) as (i & f). destruct (fromhex i f) as [[n m e|]|]; [|discriminate|discriminate]. destruct (pow2 _) as [p|]; [|discriminate].
      destruct (fmul _ _) as [z|]; [|discriminate]. injection E as <-. apply Hshow.
Qed.
Lemma sub_free : forall show, (forall x, apart (show x)) -> forall k s t, py_sub k const_re (repl show) s = Some t -> ~ occurs AW s -> ~ occurs AW t.
Proof.
  intros show Hshow. induction k as [|k IH]; intros s t H Hs; cbn [py_sub] in H; [now injection H as <-|].
  destruct (py_search const_re s) as [((pre & c) & rest)|] eqn:E; [|now injection H as <-]. destruct (repl show c) as [r|] eqn:Er; [|discriminate].
  destruct (py_sub k const_re (repl show) rest) as [u|] eqn:Eu; [|discriminate]. injection H as <-. apply search_in in E as (z & -> & Hz).
  apply apart_free; [now apply (repl_apart show z c rest)| |].
  - intros X. apply Hs. now apply occurs_left.
  - apply (IH rest u Eu). intros X. apply Hs. apply occurs_right. destruct (proj1 (ms_lang const_re z rest) (ex_intro _ c Hz)) as (w & -> & _). now apply occurs_right.
Qed.
Lemma lstrip_part : forall s, exists a, s = a +++ lstrip s.
Proof. induction s as [|c s (a & E)]; [now exists ""|]. cbn [lstrip]. destruct (space c); [exists (String c a); cbn; now rewrite <- E|now exists ""]. Qed.
Lemma rstrip_part : forall s, exists b, s = rstrip s +++ b.
Proof.
  induction s as [|c s (b & E)]; [now exists ""|]. cbn [rstrip]. destruct (rstrip s) as [|d t] eqn:Er.
  - destruct (space c); [now exists (String c s)|now exists s].
  - exists b. rewrite E. reflexivity.
Qed.
Lemma strip_sub : forall w s, occurs w (strip s) -> occurs w s.
Proof.
  intros w s H. unfold strip in H. destruct (lstrip_part s) as (a & E1). destruct (rstrip_part (lstrip s)) as (b & E2). rewrite E1. apply occurs_right. rewrite E2. now apply occurs_left.
Qed.
Lemma split_part : forall sep w s x, In x (split sep s) -> occurs w x -> occurs w s.
Proof.
  intros sep w s x Hin (u & v & ->).
  assert (exists a b, s = a +++ (u +++ w +++ v) +++ b) as (a & b & ->).
  { revert Hin. generalize (u +++ w +++ v). clear. intros x0. assert (forall s, match split sep s with [] => False | y :: l => (exists b, s = y +++ b) /\ forall x, In x l -> exists a b, s = a +++ x +++ b end) as F.
    { clear s. induction s as [|c s IH]; cbn [split]; [split; [now exists ""|intros x []]|]. destruct (split sep s) as [|y l]; [destruct IH|]. destruct IH as ((b & Eb) & IH). destruct (Ascii.eqb c sep).
      - split; [eexists; reflexivity|]. intros z [<-|Hz]; [exists (String c ""), b; cbn; now rewrite <- Eb|]. destruct (IH z Hz) as (p & q & ->). exists (String c p), q. reflexivity.
      - split; [exists b; cbn; now rewrite <- Eb|]. intros z Hz. destruct (IH z Hz) as (p & q & ->). exists (String c p), q. reflexivity. }
    intros Hin. specialize (F s). destruct (split sep s) as [|y l]; [destruct F|]. destruct F as ((b & Eb) & F). destruct Hin as [<-|Hin]; [exists "", b; exact Eb|now apply F]. }
  apply occurs_right, occurs_left. now exists u, v.
Qed.
Lemma transform_free : forall show, (forall x, apart (show x)) -> forall s t, transform show s = Some t -> ~ occurs AW s -> ~ occurs AW t.
Proof.
  intros show Hshow s t H Hs. unfold transform in H. destruct (contains "=" s); [|now injection H as <-].
  destruct (split "=" s) as [|lhs [|rhs l]] eqn:Es; [discriminate|discriminate|]. destruct (reformat_assignment show (strip rhs)) as [u|] eqn:Eu; [|discriminate]. injection H as <-.
  apply (apart_free (strip lhs) " = " u).
  - exists " "%char, "=", " "%char. split; [now right|]. now repeat split.
  - intros X. apply Hs. apply strip_sub in X. apply (split_part "=" AW s lhs); [rewrite Es; now left|exact X].
  - unfold reformat_assignment in Eu. apply (sub_free show Hshow) in Eu; [exact Eu|]. intros X. apply Hs. do 2 apply strip_sub in X. apply (split_part "=" AW s rhs); [rewrite Es; right; now left|exact X].
Qed.
Lemma entries_free : forall show, (forall x, apart (show x)) -> forall steps es, entries show steps = Some es -> forall e, In e es -> ~ occurs AW (e_description e).
Proof.
  intros show Hshow. assert (forall w l es, tokens_entries show w l = Some es -> forall e, In e es -> ~ occurs AW (e_description e)) as F.
  { intros w. induction l as [|t l IH]; intros es H e He; cbn [tokens_entries] in H; [injection H as <-; destruct He|].
    destruct (searches skip_re (strip t)) eqn:Ek; [now apply (IH es)|]. destruct (transform show (strip t)) as [u|] eqn:Eu; [|discriminate].
    destruct (tokens_entries show w l) as [es'|]; [|discriminate]. injection H as <-. destruct He as [<-|He]; [|now apply (IH es')]. cbn [e_description].
    apply (transform_free show Hshow _ _ Eu). intros X. assert (searches skip_re (strip t) = true); [|congruence]. apply search_found. unfold skip_re. rewrite !found_alt. right. right. now apply found_word. }
  induction steps as [|w steps IH]; intros es H e He; cbn [entries] in H; [injection H as <-; destruct He|].
  destruct (step_entries show w) as [a|] eqn:Ea; [|discriminate]. destruct (entries show steps) as [b|]; [|discriminate]. injection H as <-.
  apply in_app_iff in He as [He|He]; [|now apply (IH b)]. unfold step_entries in Ea. destruct (description w); [|discriminate]. now apply (F w _ a Ea).
Qed.
Lemma capital_outside : forall c, negb (andb (Nat.leb 65 (nat_of_ascii c)) (Nat.leb (nat_of_ascii c) 90)) = true -> outside c = true.
Proof. intros c. destruct c as [[] [] [] [] [] [] [] []]; vm_compute; auto. Qed.
Lemma capital_no_S : forall c, negb (andb (Nat.leb 65 (nat_of_ascii c)) (Nat.leb (nat_of_ascii c) 90)) = true -> no_S c = true.
Proof. intros c. destruct c as [[] [] [] [] [] [] [] []]; vm_compute; auto. Qed.
Lemma no_capitals_apart : forall s, no_capitals s -> apart s.
Proof.
  intros s (Hn & Ha). apply all_allc in Ha. destruct s as [|c s]; [congruence|]. pose proof Ha as Ha2. destruct Ha as (Hc & Hs). assert (allc no_S (String c s)) as HS by (revert Ha2; apply allc_imp; exact capital_no_S).
  destruct (last_char s) as [->|(m & d & ->)].
  - exists c, "", c. split; [now left|]. apply capital_outside in Hc. auto.
  - exists c, m, d. split; [now right|]. apply allc_app in Hs as (_ & (Hd & _)). apply capital_outside in Hc, Hd. auto.
Qed.
