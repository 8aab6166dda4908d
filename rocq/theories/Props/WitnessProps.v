(** C72: violation witnesses. *)
From Coq Require Import ZArith List String Ascii Bool Lia.
From Verif.Spec Require Import Regex TraceValues.
From Verif.Model Require Import PyRegex ErrTrace.
From Verif.Model Require Import Witness.
From Verif.Spec Require Import Witness.
From Verif.Props Require Import RegexProps TraceProps.
From Verif.Proofs Require Import WitnessProofs.
Import ListNotations.
Open Scope string_scope.
Open Scope list_scope.

(** Whatever the trace: if a file is written it is a path from the entry, with different
    nodes; there is a violation at its end if and only if a note of the trace says that an
    assertion fails (and there is a bug and the program has no threads). *)
Theorem C72_always_a_path : forall w line ts bug threads G,
  smackJsonToXmlGraph w (line, ts) bug threads = Some G ->
  In ("witness-type", if bug then "violation_witness" else "correctness_witness") (g_data G) /\
  exists l v, is_path l v (as_witness G) /\
    (v = true <-> bug = true /\ threads = false /\ exists t, In t ts /\ occurs "ASSERTION FAILS" (e_description t)).
Proof.
  intros w line ts bug threads G H. unfold smackJsonToXmlGraph in H. destruct (buildEmptyXmlGraph w bug) as [g|] eqn:Eg; [|discriminate].
  destruct (build_start _ _ _ Eg) as (g1 & E1 & Hs & Hd). rewrite E1 in H. cbn [fst snd] in H. destruct bug, threads; cbn [andb negb] in H;
    try (injection H as <-; destruct (path_plain g1 _ [] g1 (A 0) Hs eq_refl) as (P & Q); split; [now rewrite Q|]; exists [], false; split; [exact P|]; split; [discriminate|intuition discriminate]).
  apply loop_shape in H as (l & g' & last' & Ha & [(Hn & ->)|(Hf & line' & -> & ->)]); cbn [tree lastNode] in Ha.
  - destruct (path_plain _ _ _ _ _ Hs Ha) as (P & Q). split; [now rewrite Q|]. exists l, false. split; [exact P|]. split; [discriminate|]. intros (_ & _ & t & Ht & Ho). destruct (Hn t Ht Ho).
  - destruct (path_violation _ _ _ _ _ line' Hs Ha) as (P & Q). split; [now rewrite Q|]. eexists _, true. split; [exact P|]. split; auto.
Qed.
Print Assumptions C72_always_a_path.

(** A trace in which calls and returns match: the path has one edge for each input that the
    program itself read, in order, with its line, value, function and scope; and an edge to
    the violation if a note says so. *)
Theorem C72_inputs : forall w g line ts steps,
  buildEmptyXmlGraph w true = Some g ->
  Forall2 records ts steps -> Forall step_ok steps ->
  (forall mine, picks own steps mine -> calls_match (map said mine)) ->
  (forall s, In s steps -> said s <> Fails) ->
  exists ds, labels [] steps ds /\
    (exists G, smackJsonToXmlGraph w (line, ts) true false = Some G /\ is_path ds false (as_witness G)) /\
    forall place f after, line = Some place -> occurs "ASSERTION FAILS" (e_description f) ->
      exists G, smackJsonToXmlGraph w (line, ts ++ f :: after) true false = Some G /\
        is_path (ds ++ [[("startline", place)]]) true (as_witness G).
Proof.
  intros w g line ts steps Hg HR HO HM HF. destruct (build_start _ _ _ Hg) as (g1 & E1 & Hs & _).
  destruct (loop_labels line steps ts [] [] [] g1 (A 0) HR HO HF (pick_nil _) (stk_main [] bal_nil) HM) as (ds & g' & last' & L1 & L2 & L3).
  exists ds. split; [exact L1|]. split.
  - destruct (L3 []) as (st' & E). rewrite app_nil_r in E. exists g'. split; [|now apply (path_plain _ _ _ _ _ Hs L2)]. unfold smackJsonToXmlGraph. rewrite Hg, E1. exact E.
  - intros place f after -> Hf. destruct (L3 (f :: after)) as (st' & E). cbn [loop] in E. rewrite (proj2 (contains_occurs _ _) Hf) in E.
    exists (violate g' last' place). split; [|now apply (path_violation _ _ _ _ _ place Hs L2)]. unfold smackJsonToXmlGraph. rewrite Hg, E1. cbn [andb negb fst snd]. cbn [app] in E. rewrite E. unfold violate. cbn [tree lastNode]. now destruct (addGraphNode g' []).
Qed.
Print Assumptions C72_inputs.

(** The value of an input is the constant of Corral's trace with UL for the width: a
    bit-vector as an unsigned number. *)
Theorem C72_values : forall show w f k n,
  w_description w = text (Reads f (printed (Bv k n))) ->
  constant_ok (Bv k n) -> simple f -> (exists x, f = "__VERIFIER_nondet" +++ x) -> ~ occurs "," f -> ~ internal_note (w_description w) ->
  exists e, step_entries show w = Some [e] /\ records e (Step (w_file w) (w_line w) (Reads f (k +++ "UL"))).
Proof.
  intros show w f k n Ew (Hk & Hn) (F1 & F2 & F3 & F4) (x & Ex) Fc Hi.
  assert (forall c, digit c = false -> ~ occurs (String c "") (printed (Bv k n)) \/ c = "b"%char \/ c = "v"%char) as Nd.
  { intros c Hc. destruct (Ascii.eqb_spec c "b") as [->|Nb]; [auto|]. destruct (Ascii.eqb_spec c "v") as [->|Nv]; [auto|]. left. intros H. unfold printed in H.
    assert (forall s, is_numeral digit s -> ~ occurs (String c "") s) as Z.
    { intros s (_ & Hs) (a & b & ->). apply (ReplayText.all_allc digit) in Hs. rewrite !allc_app in Hs. destruct Hs as (_ & (Hs & _) & _). congruence. }
    apply occurs_char in H as [H|H]; [destruct (Z k Hk H)|]. apply occurs_char in H as [H|H]; [|destruct (Z n Hn H)]. destruct H as (a & b & E).
    destruct a as [|? [|? [|]]]; cbn in E; injection E; intros; subst; try congruence; discriminate. }
  assert (forall c, c <> "b"%char -> c <> "v"%char -> digit c = false -> ~ occurs (String c "") "smack:ext:" -> ~ occurs (String c "") f -> ~ occurs (String c "") " = " -> ~ occurs (String c "") (w_description w)) as Nw.
  { intros c Nb Nv Hc N1 N2 N3 H. rewrite Ew in H. cbn [text] in H. apply occurs_char in H as [H|H]; [contradiction|]. apply occurs_char in H as [H|H]; [contradiction|]. apply occurs_char in H as [H|H]; [contradiction|].
    destruct (Nd c Hc) as [X|[X|X]]; contradiction. }
  assert (forall s, is_numeral digit s -> trimmed s) as Tn.
  { intros s (_ & Hs). apply (ReplayText.all_allc digit) in Hs. assert (forall c, digit c = true -> space c = false) as Ds by (intros c; destruct c as [[] [] [] [] [] [] [] []]; vm_compute; auto; discriminate).
    split; intros; subst s; [destruct Hs as (Hs & _)|apply allc_app in Hs as (_ & (Hs & _))]; now apply Ds. }
  assert (trimmed (printed (Bv k n))) as Tv.
  { destruct (Tn k Hk) as (T1 & _), (Tn n Hn) as (_ & T2). unfold printed. destruct Hk as (Nk & _), Hn as (Nn & _). split.
    - intros c s' E. destruct k as [|d k]; [congruence|]. injection E as <- _. now apply (T1 d k).
    - intros s' c E. destruct (last_char n) as [->|(n' & d & ->)]; [congruence|]. assert (d = c) as <-; [|now apply (T2 n' d)].
      rewrite <- !sapp_assoc in E. revert E. generalize ((k +++ "bv") +++ n'). clear. intros a. revert s'. induction a as [|u a IH]; intros [|v b] E; cbn in E; [now injection E|destruct b; discriminate|destruct a; discriminate|injection E as _ E; now apply (IH b)]. }
  assert (text_ok [("", Bv k n)] "") as Hok.
  { cbn. unfold plain, ends_apart, starts_apart. repeat split; try (intros (a & b & E); destruct a; discriminate); try discriminate; try (apply Hk); try (apply Hn); try (intros; discriminate); try exact I; try (intros s' c E; destruct s'; discriminate). now left. }
  destruct (C48_values show [("", Bv k n)] "" (printed (Bv k n)) Hok) as (ts & Hts & Er); [repeat constructor| | |].
  { unfold text_of. cbn [map interleave fst snd]. now rewrite sapp_nil. }
  { unfold text_of. cbn [map interleave fst snd]. rewrite sapp_nil. apply padded_refl. }
  destruct ts as [|t [|t2 ts]]; [inversion Hts| |inversion Hts as [|? ? ? ? _ X]; inversion X]. assert (t = k +++ "UL") as -> by (inversion Hts; assumption). cbn [map fst combine interleave] in Er.
  assert (transform show (w_description w) = Some (text (Reads f (k +++ "UL")))) as Et.
  { assert (reformat_assignment show (printed (Bv k n)) = Some (k +++ "UL")) as Er' by (rewrite Er; f_equal; apply sapp_nil).
    rewrite (C48_assignment show (w_description w) ("smack:ext:" +++ f) (printed (Bv k n)) (("smack:ext:" +++ f) +++ " ") (" " +++ printed (Bv k n)) (k +++ "UL")).
    - cbn [text]. now rewrite !sapp_assoc.
    - rewrite Ew. cbn [text]. now rewrite !sapp_assoc.
    - intros H. apply occurs_char in H as [H|H]; [|apply contains_occurs in H; discriminate]. apply occurs_char in H as [H|H]; [apply contains_occurs in H; discriminate|contradiction].
    - intros H. apply occurs_char in H as [H|H]; [apply contains_occurs in H; discriminate|]. destruct (Nd "="%char eq_refl) as [X|[X|X]]; [contradiction|discriminate|discriminate].
    - apply trimmed_left; [exact F4|now rewrite Ex|]. eexists _, _. split; reflexivity.
    - exists "", " ". split; [reflexivity|]. split; [exact I|]. now repeat split.
    - exact Tv.
    - exists " ", "". rewrite sapp_nil. split; [reflexivity|]. split; [now repeat split|exact I].
    - exact Er'. }
  assert (~ occurs "ASSERTION FAILS" (w_description w)) as Nf.
  { intros (a & b & E). apply Hi. right. left. exists a, (" FAILS" +++ b). rewrite E. reflexivity. }
  unfold step_entries, description. rewrite contains_not by exact Nf. rewrite split_one.
  - cbn [tokens_entries]. assert (strip (w_description w) = w_description w) as ->.
    { apply strip_trimmed. rewrite Ew. cbn [text]. rewrite <- !sapp_assoc. apply trimmed_left; [exact Tv| |eexists _, _; split; [reflexivity|reflexivity]]. intros E. destruct Hk as (Hk & _). destruct k; [congruence|discriminate]. }
    destruct (searches skip_re (w_description w)) eqn:Es; [apply lang_skip in Es; contradiction|]. rewrite Et. eexists. split; [reflexivity|]. repeat split.
  - apply Nw; try discriminate; try reflexivity; [intros H; apply contains_occurs in H; discriminate|exact Fc|intros H; apply contains_occurs in H; discriminate].
Qed.
Print Assumptions C72_values.

(** ** Deviations *)
(** The trace of Corral is read by a function that leaves out the notes about the failing
    assertion: the witness for a bug never has a violation. *)
Theorem C72_no_violation_refuted : forall show w steps G,
  (forall x, no_capitals (show x)) ->
  write_error_file show w steps false = Some G ->
  In ("witness-type", "violation_witness") (g_data G) /\ exists l, is_path l false (as_witness G).
Proof.
  intros show w steps G Hshow H. unfold write_error_file in H. destruct (entries show steps) as [es|] eqn:Ee; [|discriminate].
  destruct (C72_always_a_path _ _ _ _ _ _ H) as (Hd & l & v & Hp & Hv). split; [exact Hd|]. exists l. destruct v; [|exact Hp].
  destruct (proj1 Hv eq_refl) as (_ & _ & t & Ht & (a & b & E)). exfalso.
  apply (entries_free show (fun x => no_capitals_apart _ (Hshow x)) steps es Ee t Ht). exists a, (" FAILS" +++ b). rewrite E. reflexivity.
Qed.
Print Assumptions C72_no_violation_refuted.

(** Values are given as unsigned long: for a negative input of a narrower type what the
    witness says about it is false, for every such value. *)
Theorem C72_negative_input_refuted : forall show w f k width m n x,
  w_description w = text (Reads f (printed (Bv k width))) ->
  constant_ok (Bv k width) -> simple f -> (exists y, f = "__VERIFIER_nondet" +++ y) -> ~ occurs "," f -> ~ internal_note (w_description w) ->
  (0 < n < m -> - 2 ^ (n - 1) <= x < 2 ^ (n - 1) -> numeral 10 k = x mod 2 ^ n ->
  exists e, step_entries show w = Some [e] /\ records e (Step (w_file w) (w_line w) (Reads f (k +++ "UL"))) /\
    (equals_in_c m x (numeral 10 k) <-> 0 <= x))%Z.
Proof.
  intros show w f k width m n x H1 H2 H3 H4 H5 H6 Hn Hx ->. destruct (C72_values show w f k width H1 H2 H3 H4 H5 H6) as (e & E1 & E2). exists e. split; [exact E1|]. split; [exact E2|].
  unfold equals_in_c. assert (2 ^ n = 2 * 2 ^ (n - 1))%Z as En by (rewrite <- Z.pow_succ_r by lia; f_equal; lia).
  assert (2 * 2 ^ n <= 2 ^ m)%Z as Em by (rewrite <- Z.pow_succ_r by lia; apply Z.pow_le_mono_r; lia). assert (0 < 2 ^ (n - 1))%Z by (apply Z.pow_pos_nonneg; lia). clear - En Em H Hx. split.
  - intros E. destruct (Z.le_gt_cases 0 x) as [|L]; [assumption|]. exfalso.
    rewrite <- (Z.mod_unique x (2 ^ m) (-1) (x + 2 ^ m)) in E by lia. rewrite <- (Z.mod_unique x (2 ^ n) (-1) (x + 2 ^ n)) in E by lia. lia.
  - intros H0. rewrite !Z.mod_small by lia. reflexivity.
Qed.
Print Assumptions C72_negative_input_refuted.

Definition here : world := World "2.8" "" "/a.c" "0" "-m64" "".
Definition at_line (n d : string) : entry := Entry "/a.c" n "1" "1" d "".
(** A return from a function whose name contains CALL is taken for a call: no witness. *)
Theorem C72_call_name_refuted :
  smackJsonToXmlGraph here (Some "9", [at_line "3" "CALL doCALL"; at_line "4" "RETURN from doCALL"; at_line "5" "ASSERTION FAILS"]) true false = None /\
  smackJsonToXmlGraph here (Some "9", [at_line "3" "CALL docall"; at_line "4" "RETURN from docall"; at_line "5" "ASSERTION FAILS"]) true false <> None.
Proof. split; vm_compute; [reflexivity|discriminate]. Qed.
Print Assumptions C72_call_name_refuted.

(** ** Examples *)
Definition input_step : raw := Raw "/a.c" "3" "1" "1" "smack:ext:__VERIFIER_nondet_int = 4294967295bv32".
Definition fail_step : raw := Raw "/a.c" "5" "1" "1" "ASSERTION FAILS assert false;".
Definition a_read : step := Step "/a.c" "3" (Reads "__VERIFIER_nondet_int" "7UL").
Example C72_nonvacuous :
  (exists G, write_error_file (fun _ => "0") here [input_step; fail_step] false = Some G /\
     edges G = [Edge "A0" "A1" [("startline", "3"); ("assumption", "\result == 4294967295UL;"); ("assumption.resultfunction", "__VERIFIER_nondet_int"); ("assumption.scope", "main")]]) /\
  (exists g, buildEmptyXmlGraph here true = Some g) /\
  Forall2 records [at_line "2" "CALL get.5"; at_line "3" "smack:ext:__VERIFIER_nondet_int = 7UL"] [Step "/a.c" "2" (Calls "get.5"); a_read] /\
  Forall step_ok [Step "/a.c" "2" (Calls "get.5"); a_read] /\
  (forall mine, picks own [Step "/a.c" "2" (Calls "get.5"); a_read] mine -> calls_match (map said mine)) /\
  labels [] [Step "/a.c" "2" (Calls "get.5"); a_read]
    [[("startline", "3"); ("assumption", "\result == 7UL;"); ("assumption.resultfunction", "__VERIFIER_nondet_int"); ("assumption.scope", "get")]].
Proof.
  assert (forall s p, contains p s = false -> ~ occurs p s) as No by (intros s p H X; apply contains_occurs in X; congruence).
  assert (forall s, lstrip s = s -> rstrip s = s -> trimmed s) as Tr.
  { intros s H1 H2. split; intros.
    - subst s. cbn [lstrip] in H1. destruct (space c) eqn:E; [|reflexivity]. exfalso. destruct (lstrip_part s') as (a & Ea). rewrite H1 in Ea. assert (String.length s' = String.length (a +++ String c s')) as L by congruence. rewrite slen_app in L. cbn in L. lia.
    - subst s. destruct (space c) eqn:E; [|reflexivity]. exfalso. rewrite rstrip_spaces in H2 by (cbn; auto). destruct (rstrip_part s') as (b & Eb). assert (String.length (rstrip s') = String.length (s' +++ String c "")) as L by congruence. rewrite slen_app in L. cbn in L.
      assert (String.length s' = String.length (rstrip s' +++ b)) as L2 by congruence. rewrite slen_app in L2. lia. }
  assert (~ library "/a.c") as Nl by (intros H; apply lib_file_iff in H; [discriminate|apply No; reflexivity]).
  assert (counted "get.5") as Cg by (apply counted_iff; reflexivity).
  split; [eexists; split; vm_compute; reflexivity|]. split; [eexists; vm_compute; reflexivity|]. split; [repeat constructor|]. split; [|split].
  - repeat constructor; cbn [said note_ok s_file]; unfold simple, quiet, one_line; try (apply No; vm_compute; reflexivity); try (apply Tr; reflexivity); try (now exists "_int").
    all: try (eapply Tr; [reflexivity|reflexivity|reflexivity]).
    all: try (eapply (proj2 (Tr _ eq_refl eq_refl)); eassumption).
  - intros mine Hm a f b E Hf. exfalso. assert (In (Returns f) (map said mine)) as Hin by (rewrite E; apply in_app_iff; right; now left).
    apply in_map_iff in Hin as (s & Es & Hs). assert (In s [Step "/a.c" "2" (Calls "get.5"); a_read]) as Hin.
    { clear - Hm Hs. induction Hm as [|x l k Hx Hm IH|x l k Hx Hm IH]; [destruct Hs|destruct Hs as [<-|Hs]; [now left|right; auto]|right; auto]. }
    destruct Hin as [<-|[<-|[]]]; discriminate.
  - apply lab_other; [intros (_ & f & v & E); discriminate|]. apply lab_input; [split; [exact Nl|now eexists _, _]| |constructor].
    eexists _, _, "get.5", "get", [Step "/a.c" "2" (Calls "get.5")]. split; [reflexivity|]. split; [apply pick_yes; [exact Nl|constructor]|]. split; [right; exists [], []; split; [reflexivity|]; split; [exact Cg|constructor]|].
    split; [|reflexivity]. split; [apply No; reflexivity|right; now exists "5"].
Qed.
