(** C73: runs for SV-COMP. *)
From Coq Require Import NArith ZArith List String Ascii Bool Lia.
From Verif.Spec Require Import Regex TraceValues.
From Verif.Spec Require Import Svcomp.
From Verif.Model Require Import PyRegex ErrTrace Driver.
From Verif.Model Require Import Svcomp.
From Verif.Props Require Import RegexProps TraceProps DriverProps.
From Verif.Proofs Require TraceText.
From Verif.Proofs Require ReplayText.
From Verif.Proofs Require Import WitnessProofs.
Import ListNotations.
Open Scope string_scope.
Open Scope list_scope.

(** ** Text *)
Lemma skip_app : forall old new a s, replace_from old new (String.length a) (a +++ s) = replace_from old new 0 s.
Proof. intros old new. induction a as [|c a IH]; intros s; [reflexivity|]. cbn [String.length String.append replace_from]. apply IH. Qed.
Lemma replace_inserted : forall w before, w <> "" -> forall s, inserted w before s (replace w (before +++ w) s).
Proof.
  intros w before Hw s. unfold replace. remember (String.length s) as n eqn:En. revert s En. induction n as [n IH] using (well_founded_induction lt_wf). intros [|c s] En; subst n.
  - apply ins_none. intros (a & b & E). destruct a; [destruct w; [congruence|discriminate]|discriminate].
  - cbn [replace_from]. destruct (String.prefix w (String c s)) eqn:Ep.
    + apply prefix_true in Ep as (r & Er). destruct w as [|d w]; [congruence|]. injection Er as <- ->. cbn [String.length]. replace (S (String.length w) - 1)%nat with (String.length w) by lia. rewrite skip_app.
      change (inserted (String c w) before ("" +++ String c w +++ r) ((before +++ String c w) +++ replace_from (String c w) (before +++ String c w) 0 r)). rewrite sapp_assoc.
      apply (ins_one (String c w) before ""); [intros (a & b & E); destruct a; discriminate|]. apply (IH (String.length r)); [cbn; rewrite slen_app; lia|reflexivity].
    + assert (forall x y, String c s = x +++ y -> occurs w x -> x = "" \/ exists c' x', x = String c' x' /\ occurs w x') as Hx.
      { intros x y E (a & b & ->). destruct a as [|c' a]; [|right; exists c', (a +++ w +++ b); split; [reflexivity|now exists a, b]].
        exfalso. cbn [String.append] in E. rewrite sapp_assoc in E. assert (String.prefix w (String c s) = true) by (apply prefix_true; eauto). congruence. }
      assert (inserted w before s (replace_from w (before +++ w) 0 s)) as Hi by (apply (IH (String.length s)); [cbn; lia|reflexivity]).
      revert Hi. generalize (replace_from w (before +++ w) 0 s) as r. intros r Hi. inversion Hi as [s0 Hn E1 E2|p s0 t Hn Hs E1 E2].
      * subst s0 r. apply ins_none. intros Ho. destruct (Hx (String c s) "") as [E|(c' & x' & E & Ho')]; [now rewrite sapp_nil|exact Ho|discriminate|]. injection E as _ <-. contradiction.
      * change (String c (p +++ w +++ s0)) with (String c p +++ w +++ s0). change (String c (p +++ before +++ w +++ t)) with (String c p +++ before +++ w +++ t).
        apply ins_one; [|exact Hs]. intros Ho. destruct (Hx (String c p) (w +++ s0)) as [E|(c' & x' & E & Ho')]; [cbn; now rewrite E1|exact Ho|discriminate|]. injection E as _ <-. contradiction.
Qed.

(** ** The recursion bound *)
Lemma search_before : forall r s pre c rest, py_search r s = Some (pre, c, rest) ->
  exists t, s = pre +++ t /\ In (c, rest) (ms r t) /\ hd_error (ms r t) = Some (c, rest) /\ forall u v, pre = u +++ v -> v <> "" -> ms r (v +++ t) = [].
Proof.
  intros r. induction s as [|x s IH]; intros pre c rest H.
  - cbn in H. destruct (ms r "") as [|(c0 & r0) l] eqn:E; [discriminate|]. injection H as <- <- <-. exists "". split; [reflexivity|]. rewrite E. split; [now left|]. split; [reflexivity|].
    intros u v Eu Nv. destruct u; [|discriminate]. destruct v; [congruence|discriminate].
  - cbn [py_search] in H. destruct (ms r (String x s)) as [|(c0 & r0) l] eqn:E.
    + destruct (py_search r s) as [((pre' & c') & rest')|]; [|discriminate]. injection H as <- <- <-. destruct (IH _ _ _ eq_refl) as (t & -> & Ht & Hh & Hb). exists t. split; [reflexivity|]. split; [exact Ht|]. split; [exact Hh|].
      intros [|y u] v Eu Nv; cbn in Eu; [subst v; exact E|]. injection Eu as _ Eu. now apply (Hb u v).
    + injection H as <- <- <-. exists (String x s). split; [reflexivity|]. rewrite E. split; [now left|]. split; [reflexivity|].
      intros u v Eu Nv. destruct u; [|discriminate]. destruct v; [congruence|discriminate].
Qed.
Definition B : string := "Exhausted recursion bound of ".
Lemma numeral_acc : forall s a, (0 <= a)%Z -> allc digit s -> (a <= numeral_from 10 a s)%Z.
Proof.
  induction s as [|c s IH]; intros a Ha Hs; cbn [numeral_from]; [lia|]. destruct Hs as (Hc & Hs). assert (0 <= TraceValues.digit_value c)%Z as Hd by (revert Hc; clear; destruct c as [[] [] [] [] [] [] [] []]; vm_compute; congruence).
  etransitivity; [|apply IH; [lia|exact Hs]]. lia.
Qed.
Lemma numeral_app : forall a b acc, numeral_from 10 acc (a +++ b) = numeral_from 10 (numeral_from 10 acc a) b.
Proof. induction a as [|c a IH]; intros b acc; [reflexivity|]. cbn [String.append numeral_from]. apply IH. Qed.
Lemma numeral_nonneg : forall s a, (0 <= a)%Z -> allc digit s -> (0 <= numeral_from 10 a s)%Z.
Proof. intros s a Ha Hs. pose proof (numeral_acc s a Ha Hs). lia. Qed.
Lemma positive_allc : forall n, positive_numeral n -> allc digit n.
Proof.
  intros n (c & s & -> & Hc & Hs). apply digits_allc in Hs. split; [|exact Hs]. revert Hc. destruct c as [[] [] [] [] [] [] [] []]; vm_compute; auto.
Qed.
(** The first match takes all digits. *)
Lemma bound_match : forall n v, positive_numeral n -> stops digit v -> hd_error (ms bound_re (B +++ n +++ v)) = Some ([(1%nat, n)], v).
Proof.
  intros n v (c & s & -> & Hc & Hs) Hv. apply digits_allc in Hs.
  assert (first bound_re (B +++ String c s +++ v) ([(1%nat, String c s)] ++ []) v) as (l & ->); [|reflexivity].
  eapply first_cat; [apply first_word|]. apply (first_grp 1 positive_re (String c s)). change ([] : captures) with ([] ++ [] : captures).
  unfold positive_re. eapply first_cat; [apply (first_chr _ c (s +++ v) Hc)|now apply first_star].
Qed.
Lemma digit_run : forall z, exists m v, z = m +++ v /\ allc digit m /\ stops digit v.
Proof.
  induction z as [|c z (m & v & -> & Hm & Hv)]; [exists "", ""; repeat split|]. destruct (digit c) eqn:E; [exists (String c m), v; repeat split; assumption|exists "", (String c (m +++ v)); repeat split; exact E].
Qed.
Lemma past_body : forall body q x v, ~ occurs "E" body -> q +++ String "E" x = body +++ v -> exists q', v = q' +++ String "E" x.
Proof.
  induction body as [|c body IH]; intros q x v Hb E; [now exists q|]. destruct q as [|d q]; cbn in E; injection E as E1 E2.
  - subst c. destruct Hb. exists "", body. reflexivity.
  - apply (IH q x v); [|exact E2]. intros H. apply Hb. now apply ReplayText.occurs_tail.
Qed.
Lemma digits_no_E : forall m, allc digit m -> ~ occurs "E" m.
Proof. intros m H (a & b & ->). rewrite !allc_app in H. destruct H as (_ & (H & _) & _). discriminate. Qed.
Lemma found_bound : forall n s, positive_numeral n -> occurs (B +++ n) s -> found bound_re s.
Proof.
  intros n s Hn (a & b & ->). exists a, (B +++ n), b. split; [reflexivity|]. unfold bound_re. apply lang_cat. exists B, n. split; [reflexivity|]. split; [now apply lang_word|]. apply lang_grp. now apply lang_positive.
Qed.
Lemma bound_list : forall K k s, (String.length s <= k)%nat ->
  ((exists c n, In c (finditer k bound_re s) /\ group 1 c = Some n /\ (K <= numeral 10 n)%Z) <-> exists n, positive_numeral n /\ occurs (B +++ n) s /\ (K <= numeral 10 n)%Z).
Proof.
  intros K. induction k as [|k IH]; intros s Hk.
  - split; [intros (c & n & [] & _)|]. intros (n & _ & (a & b & ->) & _). exfalso. rewrite !slen_app in Hk. cbn in Hk. lia.
  - cbn [finditer]. destruct (py_search bound_re s) as [((pre & c) & rest)|] eqn:Es.
    + destruct (search_before _ _ _ _ _ Es) as (t & -> & Hin & Hhd & Hb).
      destruct (proj1 (ms_lang bound_re t rest) (ex_intro _ c Hin)) as (x & Et & Lx). unfold bound_re in Lx. apply lang_cat in Lx as (b0 & m0 & -> & Lb & Lm). apply lang_word in Lb. subst b0. apply lang_grp, lang_positive in Lm.
      destruct (digit_run (m0 +++ rest)) as (m & v & Em & Hm & Hv).
      assert (positive_numeral m) as Pm.
      { pose proof Lm as (c0 & s0 & E0 & Hc0 & _). rewrite E0 in Em. destruct m as [|c1 m]; [destruct v as [|c2 v]; [discriminate|]; injection Em as <- _; apply positive_allc in Lm; rewrite E0 in Lm; destruct Lm as (Lm & _); cbn in Hv; congruence|].
        injection Em as <- _. exists c0, m. split; [reflexivity|]. split; [exact Hc0|]. apply digits_allc. now destruct Hm. }
      assert (t = B +++ m +++ v) as -> by (rewrite Et, <- Em; now rewrite sapp_assoc). rewrite bound_match in Hhd by assumption. injection Hhd as <- <-.
      assert (String.length v <= k)%nat as Lv by (rewrite !slen_app in Hk; cbn in Hk; lia). specialize (IH v Lv). split.
      * intros (c & n & [<-|Hc] & Hg & HK).
        -- cbn in Hg. injection Hg as <-. exists m. split; [exact Pm|]. split; [|exact HK]. exists pre, v. now rewrite !sapp_assoc.
        -- destruct (proj1 IH) as (n' & P1 & P2 & P3); [now exists c, n|]. exists n'. split; [exact P1|]. split; [|exact P3]. now do 3 apply occurs_right.
      * intros (n & Pn & (u & w & E) & HK).
        destruct (Nat.lt_ge_cases (String.length u) (String.length pre)) as [L|L].
        -- symmetry in E. destruct (prefix_of _ _ _ _ E) as (q & -> & E1); [lia|]. exfalso. assert (q <> "") as Nq by (intros ->; rewrite sapp_nil in L; lia). specialize (Hb u q eq_refl Nq). rewrite <- E1 in Hb.
           assert (exists c0, In (c0, w) (ms bound_re ((B +++ n) +++ w))) as (c0 & H0).
           { apply ms_lang. exists (B +++ n). split; [reflexivity|]. unfold bound_re. apply lang_cat. exists B, n. split; [reflexivity|]. split; [now apply lang_word|]. apply lang_grp. now apply lang_positive. }
           rewrite Hb in H0. destruct H0.
        -- destruct (prefix_of _ _ _ _ E L) as (q & -> & E1). destruct q as [|d q].
           ++ cbn [String.append] in E1. rewrite sapp_assoc in E1. assert (m +++ v = n +++ w) as E2 by (clear - E1; cbn in E1; now injection E1).
              assert (exists q, m = n +++ q) as (q & ->).
              { destruct (Nat.le_gt_cases (String.length n) (String.length m)) as [Ln|Ln]; [symmetry in E2; destruct (prefix_of _ _ _ _ E2 Ln) as (q & -> & _); now exists q|].
                destruct (prefix_of _ _ _ _ E2) as (q & -> & E3); [lia|]. exfalso. destruct q as [|d q]; [rewrite sapp_nil in Ln; lia|]. apply positive_allc in Pn. apply allc_app in Pn as (_ & (Hd & _)). subst v. cbn in Hv. congruence. }
              exists [(1%nat, n +++ q)], (n +++ q). split; [now left|]. split; [reflexivity|]. unfold numeral in *. rewrite numeral_app. apply allc_app in Hm as (Hn' & Hq). pose proof (numeral_acc q _ (numeral_nonneg n 0 (Z.le_refl 0) Hn') Hq). lia.
           ++ cbn [String.append] in E1. injection E1 as _ E1. change ("xhausted recursion bound of " +++ (m +++ v) = q +++ (B +++ n) +++ w) in E1. rewrite <- sapp_assoc in E1. symmetry in E1.
              change ((B +++ n) +++ w) with (String "E" (("xhausted recursion bound of " +++ n) +++ w)) in E1. apply past_body in E1 as (q' & ->).
              ** destruct (proj2 IH) as (c & n' & P1 & P2 & P3); [exists n; split; [exact Pn|]; split; [now exists q', w|exact HK]|]. exists c, n'. split; [now right|]. now split.
              ** intros H. apply occurs_char in H as [H|H]; [apply contains_occurs in H; discriminate|]. exact (digits_no_E m Hm H).
    + split; [intros (c & n & [] & _)|]. intros (n & Pn & Ho & _). exfalso. apply (found_bound n s Pn) in Ho. apply search_found in Ho. unfold searches in Ho. rewrite Es in Ho. discriminate.
Qed.
Definition larger (m : Z) (c : captures) : Z := match group 1 c with Some n => if Z.ltb m (numeral 10 n) then numeral 10 n else m | None => m end.
Lemma larger_ge : forall K l m, (K <= fold_left larger l m)%Z <-> (K <= m)%Z \/ exists c n, In c l /\ group 1 c = Some n /\ (K <= numeral 10 n)%Z.
Proof.
  intros K. induction l as [|c l IH]; intros m; cbn [fold_left].
  - split; [auto|]. intros [H|(c & n & [] & _)]. exact H.
  - rewrite IH. unfold larger at 1. split.
    + intros [H|(c' & n & H1 & H2)]; [|right; exists c', n; split; [now right|exact H2]]. destruct (group 1 c) as [n|] eqn:E; [|now left]. destruct (Z.ltb_spec m (numeral 10 n)); [right; exists c, n; split; [now left|now split]|now left].
    + intros [H|(c' & n & [<-|H1] & H2 & H3)].
      * left. destruct (group 1 c) as [n|]; [|exact H]. destruct (Z.ltb_spec m (numeral 10 n)); lia.
      * left. rewrite H2. destruct (Z.ltb_spec m (numeral 10 n)); lia.
      * right. now exists c', n.
Qed.

(** The text from the last phase on *)
Lemma last_phase : forall s, occurs phase s -> exists a t, s = a +++ phase +++ t /\ ~ occurs phase t.
Proof.
  intros s. remember (String.length s) as n eqn:En. revert s En. induction n as [n IH] using (well_founded_induction lt_wf). intros s -> (a & b & ->).
  destruct (contains phase b) eqn:E.
  - apply contains_occurs in E. destruct (IH (String.length b)) with (s := b) as (a' & t & -> & Ht); [rewrite !slen_app; cbn; lia|reflexivity|exact E|].
    exists (a +++ phase +++ a'), t. split; [now rewrite !sapp_assoc|exact Ht].
  - exists a, b. split; [reflexivity|]. intros H. apply contains_occurs in H. congruence.
Qed.
Lemma phase_greedy : forall a t, ~ occurs phase t -> first (Cat (Star dotall) (word phase)) (a +++ phase +++ t) [] t.
Proof.
  intros a t Ht. assert (first (word phase) (phase +++ t) [] t) as Hf by apply first_word.
  assert (forall u v, phase +++ t = u +++ v -> u <> "" -> ms (word phase) v = []) as Hb.
  { intros u v E Nu. apply ms_none. intros x y -> Lx. apply lang_word in Lx. subst x. destruct u as [|d u]; [congruence|]. cbn in E. injection E as _ E.
    assert (forall body q w, ~ occurs "V" body -> q +++ String "V" w = body +++ t -> exists q', t = q' +++ String "V" w) as P.
    { clear. induction body as [|c body IH]; intros q w Hb E; [now exists q|]. destruct q as [|d q]; cbn in E; injection E as E1 E2.
      - subst c. destruct Hb. exists "", body. reflexivity.
      - apply (IH q w); [|exact E2]. intros H. apply Hb. now apply ReplayText.occurs_tail. }
    symmetry in E. destruct (P "erifying program while tracking" u ("erifying program while tracking" +++ y)) as (q' & ->); [intros H; apply contains_occurs in H; discriminate|exact E|].
    apply Ht. exists q', y. reflexivity. }
  pose proof (ms_star_chr (fun _ => true) (a +++ phase +++ t)) as E. rewrite ReplayText.run_all in E by (clear; induction (a +++ phase +++ t); cbn; auto). rewrite slen_app in E.
  destruct (downto_split (String.length a + String.length (phase +++ t)) (String.length a)) as (l1 & l2 & El & Hl); [lia|].
  rewrite El, map_app in E. cbn [map] in E. rewrite drop_app in E. change (Star (Chr (fun _ => true))) with (Star dotall) in E.
  change ([] : captures) with ([] ++ [] : captures). eapply TraceText.first_cat_back; [exact E| |exact Hf].
  intros c' z Hz. apply in_map_iff in Hz as (k & Ek & Hk). injection Ek as <- <-. apply Hl in Hk.
  replace k with (String.length a + (k - String.length a))%nat by lia. rewrite ReplayText.drop_len.
  destruct (ReplayText.drop_suffix (k - String.length a) (phase +++ t)) as (u & Eu & Hu). apply (Hb u _ Eu). intros ->. cbn [String.length] in Hu. lia.
Qed.
Lemma unroll_spec : forall out, exists m, unrollMax out = Some m /\ forall K, (0 < K)%Z -> (K <= m <-> exists k, reached out k /\ K <= k)%Z.
Proof.
  intros out. unfold unrollMax. change tracking with phase. destruct (contains phase out) eqn:Ec.
  - apply contains_occurs in Ec. destruct (last_phase out Ec) as (a & t & -> & Ht).
    assert (py_sub (String.length (a +++ phase +++ t)) (Cat (Star dotall) (word phase)) (fun _ => Some phase) (a +++ phase +++ t) = Some (phase +++ t)) as ->.
    { assert (exists k, String.length (a +++ phase +++ t) = S k) as (k & ->) by (rewrite !slen_app; cbn; eexists; rewrite Nat.add_succ_r; reflexivity). cbn [py_sub].
      assert (py_search (Cat (Star dotall) (word phase)) (a +++ phase +++ t) = Some ("", [], t)) as ->
        by (apply (search_first _ "" (a +++ phase +++ t) [] t (phase_greedy a t Ht)); intros u v E Nv; destruct u; [destruct v; [congruence|discriminate]|discriminate]).
      assert (py_search (Cat (Star dotall) (word phase)) t = None) as Hs.
      { apply search_none. intros u v ->. apply ms_none. intros x y -> L. apply lang_cat in L as (p & q & -> & _ & L). apply lang_word in L. subst q. apply Ht. exists (u +++ p), y. now rewrite !sapp_assoc. }
      assert (py_sub k (Cat (Star dotall) (word phase)) (fun _ => Some phase) t = Some t) as ->; [|reflexivity]. destruct k; [reflexivity|]. cbn [py_sub]. now rewrite Hs. }
    eexists. split; [reflexivity|]. intros K HK. change (K <= fold_left larger (finditer (String.length (phase +++ t)) bound_re (phase +++ t)) 0 <-> exists k, reached (a +++ phase +++ t) k /\ K <= k)%Z. rewrite larger_ge, bound_list by reflexivity. split.
    + intros [H|(n & Pn & Ho & Hn)]; [lia|]. exists (numeral 10 n). split; [|exact Hn]. exists a, t, n. split; [reflexivity|]. split; [exact Ht|]. split; [exact Pn|]. split; [|reflexivity].
      destruct Ho as (u & v & E). symmetry in E. change ((B +++ n) +++ v) with (String "E" (("xhausted recursion bound of " +++ n) +++ v)) in E. apply past_body in E as (q & ->); [now exists q, v|]. intros H. apply contains_occurs in H. discriminate.
    + intros (k & (a' & t' & n & E & Ht' & Pn & Ho & <-) & Hn). right. exists n. split; [exact Pn|]. split; [|exact Hn]. apply occurs_right.
      assert (t = t') as ->; [|exact Ho]. clear - E Ht Ht'. destruct (Nat.le_gt_cases (String.length a) (String.length a')) as [L|L].
      * destruct (prefix_of _ _ _ _ E L) as (q & -> & E1). destruct q as [|d q]; [cbn in E1; now injection E1|]. exfalso. cbn in E1. injection E1 as _ E1.
        assert (forall body q w, ~ occurs "V" body -> body +++ t = q +++ String "V" w -> exists q', t = q' +++ String "V" w) as P.
        { clear. induction body as [|c body IH]; intros q w Hb E; [now exists q|]. destruct q as [|d q]; cbn in E; injection E as E1 E2; [subst c; destruct Hb; exists "", body; reflexivity|]. apply (IH q w); [|exact E2]. intros H. apply Hb. now apply ReplayText.occurs_tail. }
        destruct (P "erifying program while tracking" q ("erifying program while tracking" +++ t')) as (q' & ->); [intros H; apply contains_occurs in H; discriminate|exact E1|]. apply Ht. exists q', t'. reflexivity.
      * symmetry in E. destruct (prefix_of _ _ _ _ E) as (q & -> & E1); [lia|]. destruct q as [|d q]; [rewrite sapp_nil in L; lia|]. exfalso. cbn in E1. injection E1 as _ E1.
        assert (forall body q w, ~ occurs "V" body -> body +++ t' = q +++ String "V" w -> exists q', t' = q' +++ String "V" w) as P.
        { clear. induction body as [|c body IH]; intros q w Hb E; [now exists q|]. destruct q as [|d q]; cbn in E; injection E as E1 E2; [subst c; destruct Hb; exists "", body; reflexivity|]. apply (IH q w); [|exact E2]. intros H. apply Hb. now apply ReplayText.occurs_tail. }
        destruct (P "erifying program while tracking" q ("erifying program while tracking" +++ t)) as (q' & ->); [intros H; apply contains_occurs in H; discriminate|exact E1|]. apply Ht'. exists q', t. reflexivity.
  - exists 0%Z. split; [reflexivity|]. intros K HK. split; [lia|]. intros (k & (a & t & n & -> & _) & _). rewrite (proj2 (contains_occurs phase _)) in Ec by (now exists a, t). discriminate.
Qed.

(** ** Verdicts *)
(** The verdict in terms of what Corral's output says. *)
Theorem C73_verdict : forall fs out, exists o, verify_bpl_svcomp fs out = Some o /\
  (result o = VERIFIED <-> (~ says_timeout out /\ says_verified out) \/ (says_timeout out /\ exists k, reached out k /\ (13 <= k)%Z)) /\
  (result o = TIMEOUT <-> says_timeout out /\ forall k, reached out k -> (k < 13)%Z) /\
  (In (result o) [ASSERTION_FAILURE; INVALID_DEREF; INVALID_FREE; INVALID_MEMTRACK; OVERFLOW; RUST_PANIC] <-> ~ says_timeout out /\ ~ says_verified out /\ says_errors out) /\
  (result o = UNKNOWN <-> ~ says_timeout out /\ ~ says_verified out /\ ~ says_errors out) /\
  (~ says_timeout out -> result o = verification_result fs out corral) /\
  (waits o = true <-> result o = TIMEOUT).
Proof.
  intros fs out. destruct (C44_verdict fs out corral) as (H1 & H2 & H3 & H4). cbv zeta in *. unfold verify_bpl_svcomp. pose proof (result_single fs out corral) as Hr. pose proof (C46_errors _ Hr) as He.
  set (r := verification_result fs out corral) in *.
  destruct (flag_in r ERROR) eqn:Ee.
  - exists (Outcome r false). assert (In r [ASSERTION_FAILURE; INVALID_DEREF; INVALID_FREE; INVALID_MEMTRACK; OVERFLOW; RUST_PANIC]) as Hin by now apply He.
    assert (r <> TIMEOUT /\ r <> VERIFIED /\ r <> UNKNOWN) as (N1 & N2 & N3) by (clear - Hin; cbn in Hin; repeat destruct Hin as [<-|Hin]; try (destruct Hin); repeat split; discriminate).
    cbn [result waits]. split; [reflexivity|]. pose proof (proj1 H3 Hin) as (T & V & E). split; [split; [congruence|tauto]|]. split; [split; [congruence|tauto]|]. split; [exact H3|]. split; [exact H4|]. split; [auto|]. split; [discriminate|congruence].
  - assert (~ In r [ASSERTION_FAILURE; INVALID_DEREF; INVALID_FREE; INVALID_MEMTRACK; OVERFLOW; RUST_PANIC]) as Hin by (rewrite <- He; congruence).
    destruct (N.eqb_spec r TIMEOUT) as [Et|Nt].
    + pose proof (proj1 H1 Et) as T. destruct (unroll_spec out) as (m & -> & Hm). specialize (Hm 13%Z ltac:(lia)). change loopUnrollBar with 13%Z. destruct (Z.leb_spec 13 m) as [L|L].
      * exists (Outcome VERIFIED false). split; [reflexivity|]. cbn [result waits]. apply Hm in L as (k & Hk & Lk). split; [split; [intros _; right; eauto|reflexivity]|]. split; [split; [discriminate|intros (_ & X); specialize (X k Hk); lia]|].
        split; [split; [cbn; intros X; repeat destruct X as [X|X]; try discriminate; destruct X|tauto]|]. split; [split; [discriminate|tauto]|]. split; [tauto|]. split; discriminate.
      * exists (Outcome r true). split; [reflexivity|]. cbn [result waits]. assert (forall k, reached out k -> (k < 13)%Z) as Hk by (intros k Hk; destruct (Z.lt_ge_cases k 13); [assumption|]; assert (13 <= m)%Z by (apply Hm; exists k; split; [assumption|lia]); lia).
        split; [rewrite Et; split; [discriminate|intros [(X & _)|(_ & k & X & Y)]; [contradiction|specialize (Hk k X); lia]]|]. split; [rewrite Et; split; [auto|reflexivity]|]. split; [exact H3|]. split; [exact H4|]. split; [tauto|]. split; auto.
    + exists (Outcome r false). split; [reflexivity|]. cbn [result waits]. assert (~ says_timeout out) as T by tauto. split; [rewrite H2; tauto|]. split; [rewrite H1; tauto|]. split; [exact H3|]. split; [exact H4|]. split; [auto|]. split; [discriminate|congruence].
Qed.
Print Assumptions C73_verdict.

(** The exit code says the verdict. *)
Theorem C73_exit : forall witness threads o, In (result o) single_results -> result o <> TIMEOUT \/ witness = false \/ threads = true ->
  exists c, exit_code witness threads o = Some c /\ return_code (result o) = Some c /\
    forall o' c', In (result o') single_results -> exit_code witness threads o' = Some c' -> (c = c' <-> result o = result o').
Proof.
  intros witness threads o Ho Hw. unfold exit_code.
  assert (witness && negb threads && N.eqb (result o) TIMEOUT = false) as ->.
  { destruct Hw as [H|[->| ->]]; [apply N.eqb_neq in H; rewrite H; now rewrite andb_false_r|reflexivity|destruct witness; reflexivity]. }
  destruct (return_code (result o)) as [c|] eqn:Ec; [|exfalso; cbn in Ho; repeat destruct Ho as [E|Ho]; [..|destruct Ho]; rewrite <- E in Ec; discriminate].
  exists c. split; [reflexivity|]. split; [reflexivity|]. intros o' c' Ho' E'. destruct (witness && negb threads && N.eqb (result o') TIMEOUT); [discriminate|]. split; [|congruence].
  intros <-. destruct (N.eq_dec (result o) (result o')) as [|N]; [assumption|]. destruct (C46_distinct _ _ None Ho Ho' N) as (D & _). congruence.
Qed.
Print Assumptions C73_exit.

(** ** Properties *)
(** Which assertions the property file leaves active, and whether reaching an error call
    is made a failure. *)
Theorem C73_property : forall p check,
  match svcomp_check_property (Some p) check with
  | None => ~ occurs "valid-deref" p /\ ~ occurs "valid-memcleanup" p /\ ~ occurs "overflow" p /\ ~ occurs "reach_error" p
  | Some check' =>
      (occurs "valid-deref" p /\ forall k ind e, allc space ind -> ok_expr e -> e <> "true" -> (active check' k ind e <-> k = Deref)) \/
      (occurs "valid-memcleanup" p /\ injects check' = false /\ forall k ind e, allc space ind -> ok_expr e -> e <> "true" -> (active check' k ind e <-> k = Leak)) \/
      (occurs "overflow" p /\ injects check' = false /\ forall k ind e, allc space ind -> ok_expr e -> e <> "true" -> (active check' k ind e <-> k = Overflow_)) \/
      (occurs "reach_error" p /\ check' = check)
  end.
Proof.
  intros p check. unfold svcomp_check_property.
  assert (forall c K, (forall k, (generated c k && (flag_in MEMORY_SAFETY c || (match selected_props c with [] => true | _ => false end) || match kind_attr k with Some a => in_list a (selected_props c) | None => false end)) = true <-> k = K) ->
    forall k ind e, allc space ind -> ok_expr e -> e <> "true" -> (active c k ind e <-> k = K)) as Act.
  { intros c K HK k ind e Hi He Hn. rewrite active_iff by assumption. rewrite <- (HK k). rewrite andb_true_iff, !orb_true_iff.
    assert ((match selected_props c with [] => true | _ => false end) = true <-> selected_props c = []) as -> by (destruct (selected_props c); split; congruence).
    assert (match kind_attr k with Some a => in_list a (selected_props c) | None => false end = true <-> exists a, kind_attr k = Some a /\ in_list a (selected_props c) = true) as ->; [|tauto].
    destruct (kind_attr k) as [a|]; [|split; [discriminate|intros (a & E & _); discriminate]]. split; [eauto|]. intros (a' & E & H). injection E as ->. exact H. }
  destruct (contains "valid-deref" p) eqn:E1; [left; split; [now apply contains_occurs|apply Act; intros []; vm_compute; split; congruence]|].
  destruct (contains "valid-memcleanup" p) eqn:E2; [right; left; split; [now apply contains_occurs|]; split; [reflexivity|apply Act; intros []; vm_compute; split; congruence]|].
  destruct (contains "overflow" p) eqn:E3; [right; right; left; split; [now apply contains_occurs|]; split; [reflexivity|apply Act; intros []; vm_compute; split; congruence]|].
  assert (forall q, contains q p = false -> ~ occurs q p) as No by (intros q H X; apply contains_occurs in X; congruence).
  destruct (contains "reach_error" p) eqn:E4; [right; right; right; split; [now apply contains_occurs|reflexivity]|]. auto.
Qed.
Print Assumptions C73_property.

(** All the checks of [f] are among those of [check]. *)
Definition asks (f check : N) : Prop := forall i, N.testbit f i = true -> N.testbit check i = true.
Lemma flag_asks : forall f check, flag_in f check = true <-> asks f check.
Proof.
  intros f check. unfold flag_in. rewrite N.eqb_eq. split.
  - intros E i Hi. rewrite <- E, N.land_spec in Hi. now apply andb_true_iff in Hi.
  - intros H. apply N.bits_inj. intros i. rewrite N.land_spec. specialize (H i). destruct (N.testbit f i); [now rewrite H|reflexivity].
Qed.
(** Unless memory safety, leaks or overflows are to be checked, every call of reach_error gets a
    failing assertion in front; with one of them the text is unchanged. *)
Theorem C73_injection : forall check content,
  (~ asks MEMORY_SAFETY check -> ~ asks MEMLEAK check -> ~ asks INTEGER_OVERFLOW check -> inserted "call reach_error();" "assert false; " content (bpl_text check content)) /\
  (asks MEMORY_SAFETY check \/ asks MEMLEAK check \/ asks INTEGER_OVERFLOW check -> bpl_text check content = content) /\ injects ASSERTIONS = true.
Proof.
  intros check content. unfold bpl_text, injects. rewrite <- !flag_asks. split; [|split; [|reflexivity]].
  - intros H1 H2 H3. apply not_true_is_false in H1, H2, H3. rewrite H1, H2, H3. unfold inject_assert_false. apply (replace_inserted "call reach_error();" "assert false; "). discriminate.
  - intros [->|[->| ->]]; rewrite ?orb_true_r; reflexivity.
Qed.
Print Assumptions C73_injection.

(** ** Deviations *)
(** A run that times out is reported as verified, with exit code 0. *)
Theorem C73_timeout_verified_refuted : exists out, says_timeout out /\ ~ says_verified out /\
  forall fs, verify_bpl_svcomp fs out = Some (Outcome VERIFIED false) /\ exit_code true false (Outcome VERIFIED false) = Some 0%Z.
Proof.
  exists "Verifying program while tracking: {}Exhausted recursion bound of 13corral timed out.".
  split; [apply timeout_spec; vm_compute; reflexivity|]. split; [rewrite <- verified_spec; vm_compute; discriminate|].
  intros fs. split; [|reflexivity]. vm_compute. reflexivity.
Qed.
Print Assumptions C73_timeout_verified_refuted.

(** With a witness file asked for, a timeout ends in an exception. *)
Theorem C73_timeout_exception_refuted : forall fs out o, verify_bpl_svcomp fs out = Some o -> result o = TIMEOUT -> exit_code true false o = None.
Proof. intros fs out o _ H. unfold exit_code. now rewrite H. Qed.
Print Assumptions C73_timeout_exception_refuted.

(** With the property file for memory safety (three lines: valid-free, valid-deref,
    valid-memtrack) only accesses are checked: the assertions about frees and leaks are
    made trivially true; and reaching an error call is a failure though it is not asked
    about. *)
Theorem C73_memory_safety_refuted :
  let p := "CHECK( init(main()), LTL(G valid-free) ) CHECK( init(main()), LTL(G valid-deref) ) CHECK( init(main()), LTL(G valid-memtrack) )" in
  exists check, svcomp_check_property (Some p) ASSERTIONS = Some check /\
    memsafety_subproperty_selection check [assert_line Free "  " "$i1 != $0"] = ["  assert true;" +++ String newline ""] /\
    memsafety_subproperty_selection check [assert_line Leak "  " "$i1 != $0"] = ["  assert true;" +++ String newline ""] /\
    bpl_text check "  call reach_error();" = "  assert false; call reach_error();".
Proof. exists VALID_DEREF. repeat split; vm_compute; reflexivity. Qed.
Print Assumptions C73_memory_safety_refuted.

(** A call of an error function that has a result is not made a failure. *)
Theorem C73_result_refuted : forall check r, ~ occurs "call reach_error();" r ->
  bpl_text check ("call $i0 := reach_error();" +++ r) = "call $i0 := reach_error();" +++ r.
Proof.
  intros check r Hr. unfold bpl_text. destruct (injects check); [|reflexivity]. unfold inject_assert_false.
  pose proof (replace_inserted "call reach_error();" "assert false; " ltac:(discriminate) ("call $i0 := reach_error();" +++ r)) as H.
  assert (~ occurs "call reach_error();" ("call $i0 := reach_error();" +++ r)) as N.
  { intros (a & b & E). assert (a = "" \/ exists q, a = "call $i0 := reach_error();" +++ q) as [->|(q & ->)].
    - do 26 (destruct a as [|? a]; [try (now left); discriminate|injection E as <- E]). right. now exists a.
    - discriminate.
    - cbn in E. injection E as E. apply Hr. now exists q, b. }
  change ("assert false; " +++ "call reach_error();") with "assert false; call reach_error();" in H.
  revert H. generalize (replace "call reach_error();" "assert false; call reach_error();" ("call $i0 := reach_error();" +++ r)) as t. intros t H.
  inversion H as [s Hs E1 E2|p s t' Hp Hs E1 E2]; [reflexivity|]. exfalso. apply N. exists p, s. now symmetry.
Qed.
Print Assumptions C73_result_refuted.

Example C73_nonvacuous :
  verify_bpl_svcomp (fun _ => None) "Program has no bugs" = Some (Outcome VERIFIED false) /\
  verify_bpl_svcomp (fun _ => None) "(ASSERTION FAILS assert false;) can fail" = Some (Outcome ASSERTION_FAILURE false) /\
  verify_bpl_svcomp (fun _ => None) "Exhausted recursion bound of 99 Verifying program while tracking: {} Exhausted recursion bound of 12 corral timed out." = Some (Outcome TIMEOUT true) /\
  svcomp_check_property (Some "CHECK( init(main()), LTL(G ! overflow) )") ASSERTIONS = Some INTEGER_OVERFLOW /\
  reached "Verifying program while tracking: {} Exhausted recursion bound of 12 " 12.
Proof.
  repeat (split; [vm_compute; reflexivity|]). exists "", ": {} Exhausted recursion bound of 12 ", "12". split; [reflexivity|]. split; [intros H; apply contains_occurs in H; discriminate|].
  split; [exists "1"%char, "2"; repeat split|]. split; [|reflexivity]. exists ": {} ", " ". reflexivity.
Qed.
