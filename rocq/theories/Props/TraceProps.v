(** C48: values and steps of counterexamples. *)
From Coq Require Import ZArith List String Ascii Bool Lia.
From Verif.Spec Require Import Regex TraceValues.
From Verif.Model Require Import PyRegex ErrTrace.
From Verif.Props Require Import RegexProps.
From Verif.Proofs Require Import TraceFloats TraceText.
Import ListNotations.
Open Scope string_scope.
Open Scope list_scope.
Open Scope Z_scope.

(** ** Values *)
Definition denotes (x : pyfloat) (neg : bool) (magnitude : Z * Z) : Prop := exists m k, x = Fin neg m k /\ same_number (m, k) magnitude.

(** What is to be shown for a constant: the digits of a bit-vector; the decimal text of
    the very number of a floating-point constant, or the constant itself if the format
    is larger than binary64. *)
Definition beyond_double (ss es : string) : Prop := 53 < numeral 10 ss \/ 11 < numeral 10 es.
Definition rendered (show : pyfloat -> string) (c : constant) (t : string) : Prop :=
  match c with
  | Bv v w => t = v +++ "UL"
  | Fp n i f en e ss es =>
      (beyond_double ss es -> t = printed c) /\
      (~ beyond_double ss es -> exists x, t = show x /\ denotes x n (fp_magnitude i f en e))
  end.
(** Constants of the formats up to binary64, in any of the usual notations. *)
Definition usual (c : constant) : Prop :=
  match c with
  | Bv _ _ => True
  | Fp n i f en e ss es =>
      beyond_double ss es \/
      binary64 (fp_magnitude i f en e) /\ (String.length i <= 255)%nat /\ (String.length f <= 268)%nat /\ -268 <= exponent en e <= 255
  end.

Lemma contains_occurs : forall x s, contains x s = true <-> occurs x s.
Proof. intros x s. unfold contains. rewrite search_found. apply found_word. Qed.
Lemma contains_not : forall x s, ~ occurs x s -> contains x s = false.
Proof. intros x s H. destruct (contains x s) eqn:E; [|reflexivity]. apply contains_occurs in E. contradiction. Qed.
Lemma at_dot_app : forall i f, allc hexdigit i -> at_dot (i +++ "." +++ f) = (i, f).
Proof.
  induction i as [|c i IH]; intros f H; [reflexivity|]. destruct H as (Hc & H). cbn [String.append at_dot]. destruct (Ascii.eqb_spec c ".") as [->|_]; [discriminate|].
  change (i +++ String "." f) with (i +++ "." +++ f). now rewrite IH.
Qed.
Lemma no_char : forall c p x s, allc (fun d => negb (Ascii.eqb c d)) s -> ~ occurs (p +++ String c x) s.
Proof. intros c p x s H (a & b & ->). rewrite !allc_app in H. destruct H as (_ & (_ & (H & _)) & _). now rewrite Ascii.eqb_refl in H. Qed.
Lemma hex_no_v : forall c, hexdigit c = true -> negb (Ascii.eqb "v" c) = true.
Proof. intros c H. destruct (Ascii.eqb_spec "v" c) as [<-|_]; [discriminate|reflexivity]. Qed.
Lemma digit_no_v : forall c, digit c = true -> negb (Ascii.eqb "v" c) = true.
Proof. intros c H. apply hex_no_v, digit_hex, H. Qed.
Lemma binary64_same : forall a b, same_number a b -> binary64 b -> binary64 a.
Proof. intros a b E (m & k & H1 & H2 & H3). exists m, k. split; [exact H1|]. split; [exact H2|]. eapply same_trans; eassumption. Qed.

Lemma repl_bv : forall show v w, repl show (groups (Bv v w)) = Some (v +++ "UL").
Proof.
  intros show v w. unfold repl. cbn [groups group Nat.eqb].
  assert (contains "bv" (printed (Bv v w)) = true) as -> by (apply contains_occurs; exists v, w; reflexivity). reflexivity.
Qed.
Lemma repl_fp : forall show n i f en e ss es, constant_ok (Fp n i f en e ss es) -> usual (Fp n i f en e ss es) ->
  exists t, repl show (groups (Fp n i f en e ss es)) = Some t /\ rendered show (Fp n i f en e ss es) t.
Proof.
  intros show n i f en e ss es Hok Hu. pose proof Hok as ((Hni & Hi) & (Hnf & Hf) & (Hne & He) & (Hnss & Hss) & (Hnes & Hes)).
  unfold repl. cbn [groups group Nat.eqb]. 
  assert (contains "bv" (printed (Fp n i f en e ss es)) = false) as ->.
  { apply contains_not. apply (no_char "v" "b" ""). unfold printed.
    assert (forall b, allc (fun d => negb (Ascii.eqb "v" d)) (minus b)) as Hm by (intros []; repeat split).
    repeat (apply allc_app; split); try apply Hm; try (now repeat split); try (eapply allc_imp; [apply hex_no_v|assumption]); eapply allc_imp; [apply digit_no_v|eassumption|apply digit_no_v|eassumption|apply digit_no_v|eassumption]. }
  destruct ((53 <? numeral 10 ss) || (11 <? numeral 10 es)) eqn:Es.
  { eexists. split; [reflexivity|]. split; [reflexivity|]. intros H. exfalso. apply H. unfold beyond_double. rewrite orb_true_iff, !Z.ltb_lt in Es. exact Es. }
  assert (~ beyond_double ss es) as Hnb by (unfold beyond_double; rewrite orb_false_iff, !Z.ltb_ge in Es; lia).
  destruct Hu as [Hu|(Hb & Li & Lf & Hex)]; [contradiction|]. rewrite (at_dot_app i f Hi).
  pose proof (significand_exact i f (exponent en e) Hi Hf Li Lf Hb) as Hsig. pose proof (numeral_range (i ++ f)%string (proj2 (all_app _ i f) (conj Hi Hf))) as HN.
  destruct (round_exact false _ _ (proj1 HN) Hsig) as (M & K & EM & HM & Esame). unfold fromhex. rewrite EM.
  assert (negb (String.eqb (minus n) "") = n) as -> by (destruct n; reflexivity).
  assert (4 * (if String.eqb (minus en) "" then 1 else -1) * numeral 10 e = 4 * exponent en e) as -> by (unfold exponent; destruct en; cbn [minus String.eqb]; lia).
  assert (pow2 (4 * exponent en e) = Some (Fin false 1 (4 * exponent en e))) as ->.
  { unfold pow2. destruct (Z.leb_spec 0 (4 * exponent en e)); [rewrite (proj2 (Z.leb_gt _ _)) by lia; reflexivity|]. rewrite (proj2 (Z.leb_le _ _)) by lia. reflexivity. }
  cbn [fmul]. rewrite xorb_false_r.
  assert (same_number (M * 1, K + 4 * exponent en e) (fp_magnitude i f en e)) as Ev.
  { unfold fp_magnitude. apply (same_mul _ _ _ _ 1 (4 * exponent en e)) in Esame. rewrite (Z.mul_1_r (numeral 16 (i ++ f))) in Esame.
    replace (4 * (exponent en e - Z.of_nat (String.length f))) with (-4 * Z.of_nat (String.length f) + 4 * exponent en e) by lia. exact Esame. }
  destruct (round_exact n (M * 1) (K + 4 * exponent en e)) as (M2 & K2 & E2 & _ & S2); [lia|exact (binary64_same _ _ Ev Hb)|]. rewrite E2.
  eexists. split; [reflexivity|]. split; [intros H; contradiction|]. intros _. eexists. split; [reflexivity|]. exists M2, K2. split; [reflexivity|]. eapply same_trans; [exact S2|exact Ev].
Qed.

(** *** White space *)
Lemma lstrip_spaces : forall a s, all space a -> lstrip (a +++ s) = lstrip s.
Proof. induction a as [|c a IH]; intros s H; [reflexivity|]. destruct H as (H1 & H2). cbn [String.append lstrip]. rewrite H1. auto. Qed.
Lemma rstrip_spaces : forall s b, all space b -> rstrip (s +++ b) = rstrip s.
Proof.
  induction s as [|c s IH]; intros b H.
  - cbn. induction b as [|d b IH]; [reflexivity|]. destruct H as (H1 & H2). cbn [rstrip]. rewrite (IH H2). cbn. now rewrite H1.
  - cbn [String.append rstrip]. now rewrite IH.
Qed.
Lemma rstrip_last : forall s c, space c = false -> rstrip (s +++ String c "") = s +++ String c "".
Proof.
  induction s as [|d s IH]; intros c H; cbn [String.append rstrip]; [now rewrite H|]. rewrite (IH c H). destruct s; reflexivity.
Qed.
Lemma last_char : forall s, s = "" \/ exists s' c, s = s' +++ String c "".
Proof.
  induction s as [|c s [->|(s' & d & ->)]]; [now left|right; exists "", c; reflexivity|right; exists (String c s'), d; reflexivity].
Qed.
Lemma strip_padded : forall s p, trimmed s -> padded s p -> strip p = s.
Proof.
  intros s p (Hl & Hr) (a & b & -> & Ha & Hb). unfold strip. rewrite lstrip_spaces by exact Ha. destruct (last_char s) as [->|(s' & c & E)].
  - cbn [String.append]. rewrite <- (sapp_nil b), lstrip_spaces by exact Hb. reflexivity.
  - destruct s as [|d s]; [destruct s'; discriminate|]. cbn [String.append lstrip]. rewrite (Hl d s eq_refl).
    change (String d (s +++ b)) with (String d s +++ b). rewrite rstrip_spaces by exact Hb. rewrite E. apply rstrip_last. now apply (Hr s').
Qed.
Lemma padded_refl : forall s, padded s s.
Proof. intros s. exists "", "". rewrite sapp_nil. repeat split. Qed.

Lemma split_app : forall sep a b, ~ occurs (String sep "") a -> split sep (a +++ String sep b) = a :: split sep b.
Proof.
  induction a as [|c a IH]; intros b H; cbn [String.append split].
  - now rewrite Ascii.eqb_refl.
  - destruct (Ascii.eqb_spec c sep) as [->|N]; [exfalso; apply H; exists "", a; reflexivity|]. rewrite IH; [reflexivity|]. intros (u & v & ->). apply H. exists (String c u), v. reflexivity.
Qed.
Lemma split_one : forall sep a, ~ occurs (String sep "") a -> split sep a = [a].
Proof.
  induction a as [|c a IH]; intros H; cbn [split]; [reflexivity|]. destruct (Ascii.eqb_spec c sep) as [->|N]; [exfalso; apply H; exists "", a; reflexivity|].
  rewrite IH; [reflexivity|]. intros (u & v & ->). apply H. exists (String c u), v. reflexivity.
Qed.

Lemma text_length : forall l tail, (List.length l <= String.length (text_of l tail))%nat.
Proof.
  induction l as [|(s & c) l IH]; intros tail; [cbn; lia|]. change (text_of ((s, c) :: l) tail) with (s +++ printed c +++ text_of l tail). rewrite !slen_app. specialize (IH tail). cbn [List.length].
  assert (1 <= String.length (printed c))%nat; [|lia]. destruct c; unfold printed; rewrite !slen_app; cbn; lia.
Qed.
Lemma ok_constants : forall l tail, text_ok l tail -> Forall (fun sc => constant_ok (snd sc)) l.
Proof.
  assert (forall l tail, text_rest l tail -> Forall (fun sc => constant_ok (snd sc)) l) as H.
  { induction l as [|(s & c) l IH]; intros tail H; [constructor|]. cbn in H. constructor; [tauto|]. apply (IH tail). tauto. }
  intros [|(s & c) l] tail Hok; [constructor|]. cbn in Hok. constructor; [tauto|]. apply (H l tail). tauto.
Qed.

(** Every constant in a value is shown as its number, and the text around is unchanged. *)
Theorem C48_values : forall show l tail line,
  text_ok l tail -> Forall usual (map snd l) -> trimmed (text_of l tail) -> padded (text_of l tail) line ->
  exists ts, Forall2 (rendered show) (map snd l) ts /\ reformat_assignment show line = Some (interleave (combine (map fst l) ts) tail).
Proof.
  intros show l tail line Hok Hu Htrim Hpad. unfold reformat_assignment. rewrite (strip_padded _ _ Htrim Hpad).
  assert (exists ts, Forall2 (rendered show) (map snd l) ts /\ Forall2 (fun sc t => repl show (groups (snd sc)) = Some t) l ts) as (ts & H1 & H2).
  { pose proof (ok_constants l tail Hok) as Hc. clear Hok Htrim Hpad. induction l as [|(s & c) l IH]; [exists []; split; constructor|]. cbn in Hu. inversion Hu; subst. inversion Hc; subst.
    destruct IH as (ts & H5 & H6); [assumption|assumption|]. assert (exists t, repl show (groups c) = Some t /\ rendered show c t) as (t & Ht & Hr).
    { destruct c as [v w|n i f en e ss es]; [eexists; split; [apply repl_bv|reflexivity]|]. now apply repl_fp. }
    exists (t :: ts). split; constructor; assumption. }
  exists ts. split; [exact H1|]. apply sub_text; [exact Hok|exact H2|]. apply text_length.
Qed.
Print Assumptions C48_values.

(** A note name = value *)
Theorem C48_assignment : forall show info name value padded_name padded_value t,
  info = padded_name +++ "=" +++ padded_value ->
  ~ occurs "=" padded_name -> ~ occurs "=" padded_value ->
  trimmed name -> padded name padded_name -> trimmed value -> padded value padded_value ->
  reformat_assignment show value = Some t ->
  transform show info = Some (name +++ " = " +++ t).
Proof.
  intros show info name value pn pv t -> Hn Hv Tn Pn Tv Pv Ht. unfold transform. rewrite (proj2 (contains_occurs _ _)) by (exists pn, pv; reflexivity).
  cbn [String.append]. rewrite (split_app "=" pn pv Hn), (split_one "=" pv Hv). rewrite (strip_padded _ _ Tv Pv), (strip_padded _ _ Tn Pn), Ht. reflexivity.
Qed.
Print Assumptions C48_assignment.
Theorem C48_other_notes : forall show info, ~ occurs "=" info -> transform show info = Some info.
Proof. intros show info H. unfold transform. now rewrite contains_not. Qed.
Print Assumptions C48_other_notes.

(** ** Steps *)
Lemma lang_skip : forall s, searches skip_re s = true <-> internal_note s.
Proof.
  intros s. rewrite search_found. unfold skip_re. rewrite !found_alt, !found_word. unfold internal_note.
  assert (found (Cat (Alt (word "CALL") (word "RETURN from")) (Cat sp1 (Alt (is "$") (word "__SMACK")))) s <->
    exists what gap name, (what = "CALL" \/ what = "RETURN from") /\ gap <> "" /\ all space gap /\ (name = "$" \/ name = "__SMACK") /\ occurs (what +++ gap +++ name) s) as ->; [|tauto].
  unfold found, occurs. split.
  - intros (a & x & b & E & L). apply lang_cat in L as (what & y & -> & L1 & L). apply lang_cat in L as (gap & name & -> & L2 & L3). apply lang_alt in L1. rewrite !lang_word in L1.
    apply lang_cat in L2 as (c1 & g & -> & L2 & L4). apply lang_chr in L2 as (c & -> & Hc). apply lang_star_chr in L4. apply lang_alt in L3. rewrite lang_word in L3.
    assert (name = "$" \/ name = "__SMACK") as Hname by (destruct L3 as [L3|L3]; [left; apply lang_chr in L3 as (d & -> & Hd); apply Ascii.eqb_eq in Hd as <-; reflexivity|now right]).
    exists what, (String c "" +++ g), name. split; [exact L1|]. split; [discriminate|]. split; [split; [exact Hc|exact L4]|]. split; [exact Hname|]. exists a, b. exact E.
  - intros (what & gap & name & Hw & Hg & Hs & Hn & (a & b & E)). exists a, (what +++ gap +++ name), b. split; [exact E|]. apply lang_cat. exists what, (gap +++ name). split; [reflexivity|]. split; [apply lang_alt; rewrite !lang_word; exact Hw|].
    apply lang_cat. exists gap, name. split; [reflexivity|]. split.
    + destruct gap as [|c gap]; [congruence|]. destruct Hs as (Hc & Hs). apply lang_cat. exists (String c ""), gap. split; [reflexivity|]. split; [now constructor|now apply lang_star_chr].
    + apply lang_alt. destruct Hn as [->| ->]; [left; constructor; reflexivity|right; now apply lang_word].
Qed.
Lemma split_join : forall sep l, l <> [] -> Forall (fun p => ~ occurs (String sep "") p) l -> split sep (join (String sep "") l) = l.
Proof.
  intros sep l. induction l as [|p l IH]; intros Hn H; [congruence|]. inversion H; subst. destruct l as [|q l]; [now apply split_one|].
  change (join (String sep "") (p :: q :: l)) with (p +++ String sep (join (String sep "") (q :: l))). rewrite split_app by assumption. f_equal. apply IH; [discriminate|assumption].
Qed.

(** The notes of a step, separated by commas, become entries of its place and thread, in
    order; only the internal ones are left out. *)
Definition of_step (w : raw) (e : entry) : Prop :=
  e_file e = w_file w /\ e_line e = w_line w /\ e_column e = w_column w /\ e_thread e = w_thread w.
Theorem C48_notes : forall show w pieces notes user texts,
  ~ occurs "ASSERTION FAILS" (w_description w) ->
  w_description w = join "," pieces -> pieces <> [] -> Forall (fun p => ~ occurs "," p) pieces ->
  Forall2 (fun p n => trimmed n /\ padded n p) pieces notes ->
  without_internal notes user ->
  Forall2 (fun n t => transform show n = Some t) user texts ->
  exists es, step_entries show w = Some es /\ map e_description es = texts /\ Forall (of_step w) es /\
    Forall (fun e => e_assumption e = if contains "=" (e_description e) then e_description e else "") es.
Proof.
  intros show w pieces notes user texts Hf Hd Hn Hc Hp Hi Ht. unfold step_entries, description. rewrite (contains_not _ _ Hf), Hd, (split_join "," pieces Hn Hc). clear Hd Hn Hc Hf.
  revert pieces Hp texts Ht. induction Hi as [|n l k Hint Hi IH|n l k Hint Hi IH]; intros pieces Hp texts Ht.
  - inversion Hp; subst. inversion Ht; subst. exists []. repeat split; constructor.
  - inversion Hp as [|p ? ps ? (T & P) Hp']; subst. cbn [tokens_entries]. rewrite (strip_padded _ _ T P), (proj2 (lang_skip n) Hint). now apply IH.
  - inversion Hp as [|p ? ps ? (T & P) Hp']; subst. inversion Ht as [|? t ? ts Ht1 Ht2]; subst. cbn [tokens_entries]. rewrite (strip_padded _ _ T P).
    destruct (searches skip_re n) eqn:E; [apply lang_skip in E; contradiction|]. rewrite Ht1. destruct (IH ps Hp' ts Ht2) as (es & -> & <- & H1 & H2).
    eexists. split; [reflexivity|]. split; [reflexivity|]. split; constructor; try assumption; [repeat split|reflexivity].
Qed.
Print Assumptions C48_notes.

(** The failing place: that of the last step that says so. *)
Theorem C48_failing_place : forall l place,
  failsAt l None = Some place <->
  exists before w after, l = before ++ w :: after /\ occurs "ASSERTION FAILS" (w_description w) /\
    Forall (fun w' => ~ occurs "ASSERTION FAILS" (w_description w')) after /\ place = (w_file w, w_line w, w_column w).
Proof.
  intros l place.
  assert (forall acc, failsAt l acc = Some place <-> (exists before w after, l = before ++ w :: after /\ occurs "ASSERTION FAILS" (w_description w) /\
    Forall (fun w' => ~ occurs "ASSERTION FAILS" (w_description w')) after /\ place = (w_file w, w_line w, w_column w)) \/
    acc = Some place /\ Forall (fun w' => ~ occurs "ASSERTION FAILS" (w_description w')) l) as G.
  { induction l as [|w l IH]; intros acc; cbn [failsAt].
    - split; [intros H; right; split; [exact H|constructor]|]. intros [(b & w & a & E & _)|(H & _)]; [destruct b; discriminate|exact H].
    - rewrite IH. clear IH. split.
      + intros [(b & w' & a & -> & H)|(H1 & H2)]; [left; exists (w :: b), w', a; split; [reflexivity|exact H]|].
        destruct (contains "ASSERTION FAILS" (w_description w)) eqn:E.
        * apply contains_occurs in E. left. exists [], w, l. injection H1 as <-. auto.
        * right. split; [exact H1|]. constructor; [|exact H2]. intros X. apply contains_occurs in X. congruence.
      + intros [(b & w' & a & E & H1 & H2 & H3)|(H1 & H2)].
        * destruct b as [|x b]; cbn in E; injection E as -> ->; [|left; exists b, w', a; auto]. right. rewrite (proj2 (contains_occurs _ _) H1). subst place. auto.
        * inversion H2; subst. right. rewrite contains_not by assumption. auto. }
  rewrite G. split; [intros [H|(H & _)]; [exact H|discriminate]|now left].
Qed.
Print Assumptions C48_failing_place.

(** ** Merging *)
Lemma merger_app : forall out x l, merger (out ++ [x]) l = out ++ merger [x] l.
Proof.
  induction out as [|y out IH]; intros x l; [reflexivity|]. cbn [app]. destruct (out ++ [x]) as [|z r] eqn:E; [destruct out; discriminate|]. 
  transitivity (y :: merger (z :: r) l); [reflexivity|]. rewrite <- E, IH. reflexivity.
Qed.
Lemma same_place_dec : forall a b, (String.eqb (e_file a) (e_file b) && String.eqb (e_line a) (e_line b) && String.eqb (e_column a) (e_column b) = true) <-> same_place a b.
Proof. intros a b. rewrite !andb_true_iff, !String.eqb_eq. unfold same_place. tauto. Qed.
Lemma join_app1 : forall l x, l <> [] -> join ", " (l ++ [x]) = join ", " l +++ ", " +++ x.
Proof.
  induction l as [|a l IH]; intros x H; [congruence|]. destruct l as [|b l]; [reflexivity|]. 
  change (join ", " ((a :: b :: l) ++ [x])) with (a +++ ", " +++ join ", " ((b :: l) ++ [x])). rewrite IH by discriminate. change (join ", " (a :: b :: l)) with (a +++ ", " +++ join ", " (b :: l)). now rewrite !sapp_assoc.
Qed.
Lemma says_nonempty : forall l x, In x (says l) -> x <> "".
Proof. intros l x H. apply filter_In in H as (_ & H). apply negb_true_iff in H. now apply String.eqb_neq. Qed.
Lemma join_empty : forall l, (forall x, In x l -> x <> "") -> join ", " l = "" -> l = [].
Proof.
  intros [|a l] H E; [reflexivity|]. exfalso. destruct a as [|c a]; [apply (H "" (or_introl eq_refl)); reflexivity|]. destruct l; cbn in E; discriminate.
Qed.
Lemma change_app : forall out a b, places_change (out ++ [a]) -> ~ same_place a b -> places_change ((out ++ [a]) ++ [b]).
Proof.
  induction out as [|x out IH]; intros a b H N; [cbn; auto|]. cbn [app] in *. destruct out as [|y out]; [cbn in *; tauto|]. cbn [app] in *. destruct H as (H1 & H2). split; [exact H1|]. now apply (IH a b).
Qed.
Lemma change_last : forall out a b, places_change (out ++ [a]) -> same_place a b -> places_change (out ++ [b]).
Proof.
  induction out as [|x out IH]; intros a b H E; [exact I|]. destruct out as [|y out].
  - cbn in *. destruct H as (H & _). split; [|exact I]. intros X. apply H. unfold same_place in *. intuition congruence.
  - cbn [app] in *. destruct H as (H1 & H2). split; [exact H1|]. now apply (IH a b).
Qed.

Theorem C48_merge : forall input, merged input (prettify input).
Proof.
  intros input. unfold prettify. induction input as [|x l IH] using rev_ind.
  - exists []. repeat split; constructor.
  - rewrite fold_left_app. cbn [fold_left]. destruct IH as (groups & EC & HG & HC). destruct (fold_left merger l []) as [|y0 out0] eqn:EO.
    + inversion HG; subst. cbn. exists [[x]]. split; [reflexivity|]. split; [|exact I]. constructor; [|constructor]. exists x, []. split; [reflexivity|]. split; [constructor|]. split; [repeat split|].
      unfold says. cbn. destruct (e_description x); reflexivity.
    + clear EO. assert (y0 :: out0 <> []) as Hne by discriminate. destruct (exists_last Hne) as (out & y & EL). rewrite EL in *. clear EL Hne y0 out0. rewrite merger_app.
      apply Forall2_app_inv_r in HG as (g1 & g2 & HG1 & HG2 & ->). inversion HG2 as [|g ? ? ? HS Hnil]; subst. inversion Hnil; subst. clear HG2 Hnil. cbn [merger].
      destruct (String.eqb (e_file y) (e_file x) && String.eqb (e_line y) (e_line x) && String.eqb (e_column y) (e_column x)) eqn:E.
      * apply same_place_dec in E. exists (g1 ++ [g ++ [x]]). split; [rewrite !concat_app; cbn; now rewrite !app_nil_r, app_assoc|]. split.
        -- apply Forall2_app; [exact HG1|]. constructor; [|constructor]. destruct HS as (first & others & -> & Hsame & Hy & Hdesc).
           exists first, (others ++ [x]). split; [reflexivity|]. split; [apply Forall_app; split; [exact Hsame|]; constructor; [unfold same_place in *; intuition congruence|constructor]|].
           split; [exact Hy|]. cbn [e_description]. unfold says in *. rewrite map_app, filter_app. set (L := filter _ (map e_description (first :: others))) in *. cbn [map filter]. rewrite Hdesc.
           destruct (String.eqb_spec (e_description x) "") as [Ex|Nx]; [cbn [negb]; now rewrite app_nil_r|]. cbn [negb].
           assert (forall z, In z L -> z <> "") as HL by (apply (says_nonempty (first :: others))).
           destruct (String.eqb_spec (join ", " L) "") as [EJ|NJ]; [rewrite (join_empty L HL EJ); reflexivity|]. rewrite join_app1; [reflexivity|]. intros EL. rewrite EL in NJ. apply NJ. reflexivity.
        -- eapply change_last; [exact HC|]. repeat split.
      * exists ((g1 ++ [g]) ++ [[x]]). split; [rewrite !concat_app; cbn; now rewrite !app_nil_r|]. split.
        -- change (out ++ [y; x]) with (out ++ [y] ++ [x]). rewrite app_assoc. apply Forall2_app; [apply Forall2_app; [exact HG1|constructor; [exact HS|constructor]]|]. constructor; [|constructor].
           exists x, []. split; [reflexivity|]. split; [constructor|]. split; [repeat split|]. unfold says. cbn. destruct (e_description x); reflexivity.
        -- change (out ++ [y; x]) with (out ++ [y] ++ [x]). rewrite app_assoc. apply change_app; [exact HC|]. intros X. apply same_place_dec in X. congruence.
Qed.
Print Assumptions C48_merge.

(** ** Where the traces say something else *)
(** The right side of an equality is lost. *)
Theorem C48_equality_refuted : forall show, transform show "x == 3" = Some "x = ".
Proof. intros show. vm_compute. reflexivity. Qed.
Print Assumptions C48_equality_refuted.
(** A note about a variable whose name contains Done is left out. *)
Theorem C48_done_refuted : forall show, step_entries show (Raw "a.c" "3" "1" "1" "isDone = 5bv32") = Some [].
Proof. intros show. vm_compute. reflexivity. Qed.
Print Assumptions C48_done_refuted.
(** Steps of different threads at one place become one entry, of the first thread, with
    the first assumption. *)
Theorem C48_threads_refuted :
  prettify [Entry "a.c" "3" "1" "1" "x = 1UL" "x = 1UL"; Entry "a.c" "3" "1" "2" "x = 2UL" "x = 2UL"] =
  [Entry "a.c" "3" "1" "1" "x = 1UL, x = 2UL" "x = 1UL"].
Proof. vm_compute. reflexivity. Qed.
Print Assumptions C48_threads_refuted.
(** A number of the format that is shown as zero, and one that ends the driver. *)
Theorem C48_underflow_refuted : forall show,
  binary64 (fp_magnitude "8" "0" true "269") /\ reformat_assignment show "0x8.0e-269f53e11" = Some (show (Fin false 0 0)).
Proof. intros show. split; [|vm_compute; f_equal; exact (sapp_nil _)]. exists 2, (-1074). split; [lia|]. split; [lia|]. vm_compute. reflexivity. Qed.
Print Assumptions C48_underflow_refuted.
Theorem C48_overflow_refuted : forall show,
  binary64 (fp_magnitude "0" "8" false "256") /\ reformat_assignment show "0x0.8e256f53e11" = None.
Proof. intros show. split; [|vm_compute; reflexivity]. exists (2 ^ 52), 971. split; [lia|]. split; [lia|]. vm_compute. reflexivity. Qed.
Print Assumptions C48_overflow_refuted.

(** A value with two constants *)
Definition example_text : list (string * constant) := [("(", Bv "5" "32"); (" / ", Fp true "1" "8e" true "3" "53" "11")].
Example C48_nonvacuous :
  text_ok example_text ")" /\ Forall usual (map snd example_text) /\ trimmed (text_of example_text ")") /\ text_of example_text ")" = "(5bv32 / -0x1.8ee-3f53e11)" /\
  (forall show, reformat_assignment show " (5bv32 / -0x1.8ee-3f53e11) " = Some ("(5UL / " +++ show (Fin true (398 * 2 ^ 44) (-64)) +++ ")")).
Proof.
  assert (forall p s, searches (word p) s = false -> ~ occurs p s) as Hno by (intros p s H X; apply contains_occurs in X; unfold contains in X; congruence).
  split; [|split; [|split; [|split]]].
  - cbn. unfold plain, is_numeral. repeat split; try (apply Hno; reflexivity); try discriminate; right; [exists "", "("%char|exists " /", " "%char]; split; reflexivity.
  - constructor; [exact I|]. constructor; [|constructor]. right. split; [|vm_compute; repeat split; try discriminate; lia]. exists 398, (-20). split; [lia|]. split; [lia|]. vm_compute. reflexivity.
  - split; intros; [cbn in H; injection H as <- _; reflexivity|]. change (text_of example_text ")") with ("(5bv32 / -0x1.8ee-3f53e11" +++ ")") in H.
    destruct (last_char s') as [->|(s2 & d & ->)]; [discriminate|].
    assert (forall a b x y, a +++ String x "" = b +++ String y "" -> x = y) as HL.
    { induction a as [|u a IH]; intros [|v b] x y E; cbn in E; [now injection E|destruct b; discriminate|destruct a; discriminate|injection E as _ E; eauto]. }
    apply HL in H. subst. reflexivity.
  - reflexivity.
  - intros show. vm_compute. reflexivity.
Qed.
Example C48_notes_nonvacuous : forall show,
  without_internal ["CALL main"; "x = 5bv32"; "RETURN from $alloc"] ["CALL main"; "x = 5bv32"] /\
  step_entries show (Raw "a.c" "3" "1" "1" "CALL main, x = 5bv32,RETURN from  $alloc") =
    Some [Entry "a.c" "3" "1" "1" "CALL main" ""; Entry "a.c" "3" "1" "1" "x = 5UL" "x = 5UL"].
Proof.
  intros show. split; [|vm_compute; reflexivity].
  assert (forall n, searches skip_re n = false -> ~ internal_note n) as H by (intros n E X; apply lang_skip in X; congruence).
  apply wi_keep; [apply H; reflexivity|]. apply wi_keep; [apply H; reflexivity|]. apply wi_skip; [apply lang_skip; reflexivity|]. constructor.
Qed.
