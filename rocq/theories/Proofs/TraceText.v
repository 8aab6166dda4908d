(** Where the expression of reformat_assignment matches, and what it remembers. *)
From Coq Require Import ZArith List String Ascii Bool Lia Arith.
From Verif.Spec Require Import Regex TraceValues.
From Verif.Model Require Import PyRegex ErrTrace.
From Verif.Props Require Import RegexProps.
Import ListNotations.
Open Scope string_scope.
Open Scope list_scope.
Open Scope nat_scope.

Lemma first_cat_back : forall a b s l1 c1 s1 l2 c2 s2, ms a s = l1 ++ (c1, s1) :: l2 -> (forall c y, In (c, y) l1 -> ms b y = []) -> first b s1 c2 s2 -> first (Cat a b) s (c2 ++ c1) s2.
Proof.
  intros a b s l1 c1 s1 l2 c2 s2 H Hb (l & Hf). unfold first. cbn [ms]. rewrite H, flat_map_app.
  assert (forall f : captures * string -> list (captures * string), (forall z, In z l1 -> f z = []) -> flat_map f l1 = []) as G.
  { clear. induction l1 as [|z l1 IH]; intros f H; [reflexivity|]. cbn. rewrite H by now left. apply IH. intros; apply H; now right. }
  eexists. etransitivity; [apply (f_equal2 (@app _)); [apply G|reflexivity]|].
  - intros (c & y) Hz. now rewrite (Hb c y Hz).
  - cbn. rewrite Hf. reflexivity.
Qed.
Lemma ms_cat_map : forall p b s c, p c = true -> ms (Cat (Chr p) b) (String c s) = map (fun '(d, s2) => (d ++ [], s2)) (ms b s).
Proof. intros p b s c H. cbn [ms]. rewrite H. cbn [flat_map]. apply app_nil_r. Qed.
Lemma ms_plus_chr : forall p c T, p c = true -> ms (Plus (Chr p)) (String c T) = map (fun k => ([], drop k T)) (downto (char_run p T)).
Proof. intros p c T H. unfold Plus. rewrite ms_cat_map by exact H. rewrite ms_star_chr, map_map. reflexivity. Qed.

(** A character behind a run of others. *)
Lemma drop_run : forall p T j, j < char_run p T -> exists d y, drop j T = String d y /\ p d = true.
Proof.
  induction T as [|c T IH]; intros j H; cbn in H; [lia|]. destruct (p c) eqn:E; [|lia]. destruct j as [|j]; [cbn; eauto|]. cbn. apply IH. lia.
Qed.
Lemma downto_le : forall n z, In z (downto n) -> z <= n.
Proof. induction n as [|n IH]; cbn [downto In]; intros z [<-|H]; [lia|destruct H|lia|apply IH in H; lia]. Qed.

(** (hex digits) . (hex digits): only the repetition behind the dot leaves a choice. *)
Lemma ms_significand : forall i c T, allc hexdigit i -> i <> "" -> hexdigit c = true ->
  ms (Cat h1 (Cat (is ".") h1)) (i +++ String "." (String c T)) = map (fun k => ([], drop k T)) (downto (char_run hexdigit T)).
Proof.
  intros [|d i] c T Hi Hn Hc; [congruence|]. destruct Hi as (Hd & Hi). assert (forall X, stops hexdigit (String "." X)) as Hst by reflexivity.
  assert (forall X, ms (Cat (is ".") h1) (String "." X) = map (fun '(d, s2) => (d ++ [], s2)) (ms h1 X)) as HD by (intros; now apply ms_cat_map).
  transitivity (flat_map (fun '(c0, s1) => map (fun '(d0, s2) => (d0 ++ c0, s2)) (ms (Cat (is ".") h1) s1)) (ms h1 (String d (i +++ String "." (String c T))))); [reflexivity|].
  unfold h1 at 2. rewrite (ms_plus_chr hexdigit d _ Hd), (run_app hexdigit i _ Hi (Hst _)).
  assert (forall k, k < String.length i -> ms (Cat (is ".") h1) (drop k (i +++ String "." (String c T))) = []) as Hk.
  { intros k Hk. destruct (drop_run hexdigit (i +++ String "." (String c T)) k) as (x & y & E & Hx); [rewrite (run_app hexdigit i _ Hi (Hst _)); exact Hk|]. rewrite E. cbn [ms is].
    destruct (Ascii.eqb_spec "." x) as [<-|N]; [discriminate|reflexivity]. }
  assert (forall n, n <= String.length i -> flat_map (fun '(c0, s1) => map (fun '(d0, s2) => (d0 ++ c0, s2)) (ms (Cat (is ".") h1) s1)) (map (fun k => ([], drop k (i +++ String "." (String c T)))) (downto n)) =
    if Nat.eqb n (String.length i) then map (fun k => ([], drop k T)) (downto (char_run hexdigit T)) else []) as G.
  { induction n as [|n IH]; intros Hle.
    - cbn [downto map flat_map]. rewrite app_nil_r. destruct (String.length i) eqn:El.
      + destruct i; [|discriminate]. cbn [Nat.eqb drop String.append]. rewrite HD. unfold h1. rewrite (ms_plus_chr hexdigit c T Hc), !map_map. apply map_ext. reflexivity.
      + cbn [Nat.eqb]. rewrite Hk by lia. reflexivity.
    - cbn [downto map flat_map]. rewrite IH by lia. rewrite (proj2 (Nat.eqb_neq n (String.length i))) by lia. rewrite app_nil_r.
      destruct (Nat.eqb_spec (S n) (String.length i)) as [El|El].
      + rewrite El, drop_app. rewrite HD. unfold h1. rewrite (ms_plus_chr hexdigit c T Hc), !map_map. apply map_ext. reflexivity.
      + rewrite Hk by lia. reflexivity. }
  rewrite G by lia. now rewrite Nat.eqb_refl.
Qed.

(** Behind the significand. *)
Lemma lang_exp : forall x, lang exp_re x -> exists en e ss es, x = "e" +++ minus en +++ e +++ "f" +++ ss +++ "e" +++ es /\ allc digit e /\ e <> "" /\ allc digit ss /\ ss <> "" /\ allc digit es /\ es <> "".
Proof.
  assert (forall x, lang d1 x -> allc digit x /\ x <> "") as HP.
  { intros x H. unfold d1, Plus in H. apply lang_cat in H as (u & v & -> & H1 & H2). apply lang_chr in H1 as (c & -> & Hc). apply lang_star_chr in H2. split; [cbn; auto|discriminate]. }
  assert (forall c x, lang (is c) x -> x = String c "") as HI by (intros c x H; apply lang_chr in H as (d & -> & E); apply Ascii.eqb_eq in E as <-; reflexivity).
  intros x H. unfold exp_re in H.
  apply lang_cat in H as (x1 & y & -> & H1 & H). apply HI in H1 as ->. apply lang_cat in H as (x2 & y2 & -> & H1 & H). apply lang_grp in H1. apply lang_opt in H1.
  assert (exists en, x2 = minus en) as (en & ->) by (destruct H1 as [H1| ->]; [apply HI in H1 as ->; exists true; reflexivity|exists false; reflexivity]).
  apply lang_cat in H as (e & y3 & -> & H2 & H). apply lang_grp, HP in H2. apply lang_cat in H as (x3 & y4 & -> & H3 & H). apply HI in H3 as ->.
  apply lang_cat in H as (ss & y5 & -> & H4 & H). apply lang_grp, HP in H4. apply lang_cat in H as (x4 & es & -> & H5 & H6). apply HI in H5 as ->. apply lang_grp, HP in H6.
  exists en, e, ss, es. tauto.
Qed.

Lemma digit_not : forall c, digit c = true -> c <> "e"%char /\ c <> "f"%char /\ c <> "-"%char /\ c <> "b"%char /\ c <> "x"%char /\ c <> "."%char /\ c <> "v"%char.
Proof. intros c H. repeat split; intros ->; discriminate. Qed.
Lemma digit_hex : forall c, digit c = true -> hexdigit c = true.
Proof. intros c H. unfold hexdigit. now rewrite H. Qed.
Lemma stops_digit : forall s, stops hexdigit s -> stops digit s.
Proof. intros [|c s] H; cbn in *; [exact I|]. unfold hexdigit in H. destruct (digit c); [discriminate|reflexivity]. Qed.
(** Two ways to begin with digits. *)
Lemma digits_split : forall a b x y, allc digit a -> allc digit b -> stops digit x -> stops digit y -> a +++ x = b +++ y -> a = b /\ x = y.
Proof.
  intros a b x y Ha Hb Hx Hy E. pose proof (f_equal (char_run digit) E) as EL. rewrite !run_app in EL by assumption.
  destruct (prefix_of a x b y E) as (m & -> & ->); [lia|]. rewrite slen_app in EL. destruct m; [|cbn in EL; lia]. now rewrite sapp_nil.
Qed.

(** A longer significand leaves no exponent. *)
Lemma no_late_exponent : forall en e ss es rest j, allc digit e -> e <> "" -> allc digit ss -> ss <> "" -> allc digit es -> es <> "" -> stops hexdigit rest ->
  1 <= j <= char_run hexdigit ("e" +++ minus en +++ e +++ "f" +++ ss +++ "e" +++ es +++ rest) ->
  ms exp_re (drop j ("e" +++ minus en +++ e +++ "f" +++ ss +++ "e" +++ es +++ rest)) = [].
Proof.
  intros en e ss es rest j He Hne Hss Hnss Hes Hnes Hr (Hj1 & Hj2). apply ms_none. intros x y E L. apply lang_exp in L as (en' & e' & ss' & es' & -> & He' & Hne' & _).
  destruct j as [|j]; [lia|]. cbn [drop String.append] in E. destruct en.
  { (* a minus sign follows *) cbn [minus String.append char_run] in Hj2. change (hexdigit "e") with true in Hj2. change (hexdigit "-") with false in Hj2. cbv iota in Hj2. assert (j = 0) as -> by lia. cbn in E. discriminate. }
  cbn [minus String.append] in E, Hj2. assert (hexdigit "e" = true) as Ee by reflexivity. cbn [char_run] in Hj2. rewrite Ee in Hj2.
  assert (char_run hexdigit (e +++ String "f" (ss +++ String "e" (es +++ rest))) = String.length (e +++ String "f" (ss +++ String "e" es))) as ER.
  { replace (e +++ String "f" (ss +++ String "e" (es +++ rest))) with ((e +++ String "f" (ss +++ String "e" es)) +++ rest) by (rewrite !sapp_assoc; cbn; rewrite !sapp_assoc; reflexivity).
    apply run_app; [|exact Hr]. apply allc_app. split; [eapply allc_imp; [|exact He]; apply digit_hex|]. split; [reflexivity|]. apply allc_app. split; [eapply allc_imp; [|exact Hss]; apply digit_hex|]. split; [reflexivity|].
    eapply allc_imp; [|exact Hes]; apply digit_hex. }
  rewrite ER in Hj2. clear ER. rewrite !slen_app in Hj2. cbn [String.length] in Hj2. rewrite slen_app in Hj2. cbn [String.length] in Hj2.
  (* dropping within e *)
  assert (forall d k X, allc digit d -> k < String.length d -> drop k (d +++ X) = ("e" +++ minus en' +++ e' +++ "f" +++ ss' +++ "e" +++ es') +++ y -> False) as Hin.
  { intros d k X Hd Hk Eq. revert k Hk Eq. induction d as [|c d IH]; intros k Hk Eq; [cbn in Hk; lia|]. destruct Hd as (Hc & Hd). destruct k as [|k].
    - cbn in Eq. injection Eq as -> _. discriminate.
    - cbn in Eq, Hk. eapply IH; [exact Hd| |exact Eq]. lia. }
  assert (forall d k X, drop (String.length d + k) (d +++ X) = drop k X) as Hdr by (induction d as [|c d IH]; intros k X; cbn; [reflexivity|apply IH]).
  destruct (Nat.lt_ge_cases j (String.length e)) as [H1|H1]; [eapply Hin; [exact He|exact H1|exact E]|].
  replace j with (String.length e + (j - String.length e)) in E by lia. rewrite Hdr in E. destruct (j - String.length e) as [|j2] eqn:Ej2; [cbn in E; discriminate|]. cbn [drop String.append] in E.
  destruct (Nat.lt_ge_cases j2 (String.length ss)) as [H2|H2]; [eapply Hin; [exact Hss|exact H2|exact E]|].
  replace j2 with (String.length ss + (j2 - String.length ss)) in E by lia. rewrite Hdr in E. destruct (j2 - String.length ss) as [|j3] eqn:Ej3.
  - cbn in E. injection E as E. destruct en'.
    + cbn in E. destruct es as [|c es]; [congruence|]. cbn in E. injection E as -> _. destruct Hes as (X & _). discriminate.
    + cbn in E. assert (stops digit rest) as Hrd by now apply stops_digit. assert (stops digit (String "f" ((ss' +++ String "e" es') +++ y))) as Hfd by reflexivity.
      rewrite sapp_assoc in E. cbn in E. destruct (digits_split _ _ _ _ Hes He' Hrd Hfd E) as (_ & ->). cbn in Hr. discriminate.
  - cbn [drop String.append] in E. destruct (Nat.lt_ge_cases j3 (String.length es)) as [H3|H3]; [eapply Hin; [exact Hes|exact H3|exact E]|].
    assert (j3 = String.length es + 0) as -> by lia. rewrite Hdr in E. destruct rest as [|c rest]; cbn in E; [discriminate|]. injection E as -> _. discriminate.
Qed.

Lemma first_d1 : forall n x s, allc digit x -> x <> "" -> stops digit s -> first (Grp n d1) (x +++ s) [(n, x)] s.
Proof. intros n x s H Hn Hs. apply first_grp, first_plus; assumption. Qed.
Lemma first_dash : forall n b T, stops (Ascii.eqb "-") T -> first (Grp n dash) (minus b +++ T) [(n, minus b)] T.
Proof.
  intros n b T H. apply first_grp. destruct b; cbn [minus String.append].
  - apply first_opt. apply first_chr. reflexivity.
  - apply first_opt_none. destruct T as [|c s]; [reflexivity|]. cbn [stops] in H. cbn [ms is]. now rewrite H.
Qed.
Lemma digits_no_dash : forall e X, allc digit e -> e <> "" -> stops (Ascii.eqb "-") (e +++ X).
Proof. intros [|c e] X H Hn; [congruence|]. destruct H as (H & _). cbn [String.append stops]. apply Ascii.eqb_neq. apply digit_not in H. intros <-. tauto. Qed.

Lemma first_exp : forall en e ss es rest, allc digit e -> e <> "" -> allc digit ss -> ss <> "" -> allc digit es -> es <> "" -> stops digit rest ->
  first exp_re ("e" +++ minus en +++ e +++ "f" +++ ss +++ "e" +++ es +++ rest) [(8, es); (7, ss); (6, e); (5, minus en)] rest.
Proof.
  intros en e ss es rest He Hne Hss Hnss Hes Hnes Hr. unfold exp_re.
  replace [(8, es); (7, ss); (6, e); (5, minus en)] with ((((((([(8, es)] ++ []) ++ [(7, ss)]) ++ []) ++ [(6, e)]) ++ [(5, minus en)]) ++ []) : captures) by reflexivity.
  eapply first_cat; [apply first_chr; reflexivity|]. fold (String.append).
  eapply first_cat; [apply first_dash; now apply digits_no_dash|].
  eapply first_cat. { change (String "f" ("" +++ ss +++ "e" +++ es +++ rest)) with (String "f" (ss +++ "e" +++ es +++ rest)). apply first_d1; [assumption|assumption|reflexivity]. }
  eapply first_cat; [apply first_chr; reflexivity|]. eapply first_cat; [apply first_d1; [assumption|assumption|reflexivity]|].
  eapply first_cat; [apply first_chr; reflexivity|]. now apply first_d1.
Qed.

Lemma run_app_ge : forall p x s, allc p x -> char_run p (x +++ s) = String.length x + char_run p s.
Proof. induction x as [|c x IH]; intros s H; [reflexivity|]. destruct H as (H1 & H2). cbn. rewrite H1, IH by exact H2. reflexivity. Qed.
Lemma drop_past : forall d k X, drop (String.length d + k) (d +++ X) = drop k X.
Proof. induction d as [|c d IH]; intros k X; cbn; [reflexivity|apply IH]. Qed.

Lemma first_fp : forall n i f en e ss es rest, constant_ok (Fp n i f en e ss es) -> stops hexdigit rest ->
  first fp_re (printed (Fp n i f en e ss es) +++ rest) [(8, es); (7, ss); (6, e); (5, minus en); (4, i +++ "." +++ f); (3, minus n)] rest.
Proof.
  intros n i f en e ss es rest ((Hni & Hi) & (Hnf & Hf) & (Hne & He) & (Hnss & Hss) & (Hnes & Hes)) Hr.
  change (allc hexdigit i) in Hi. change (allc hexdigit f) in Hf. change (allc digit e) in He. change (allc digit ss) in Hss. change (allc digit es) in Hes.
  set (EXP := "e" +++ minus en +++ e +++ "f" +++ ss +++ "e" +++ es +++ rest).
  assert (printed (Fp n i f en e ss es) +++ rest = minus n +++ "0x" +++ i +++ "." +++ f +++ EXP) as ->.
  { unfold printed, EXP. rewrite !sapp_assoc. reflexivity. }
  replace [(8, es); (7, ss); (6, e); (5, minus en); (4, i +++ "." +++ f); (3, minus n)] with ((([(8, es); (7, ss); (6, e); (5, minus en)] ++ [(4, i +++ "." +++ f)]) ++ []) ++ [(3, minus n)] : captures) by reflexivity.
  unfold fp_re. eapply first_cat; [now apply first_dash|]. eapply first_cat; [apply first_word|].
  destruct f as [|c f]; [congruence|]. destruct Hf as (Hc & Hf).
  set (S0 := i +++ "." +++ String c f +++ EXP).
  assert (ms (Grp 4 (Cat h1 (Cat (is ".") h1))) S0 = map (fun k => ([(4, consumed S0 (drop k (f +++ EXP)))], drop k (f +++ EXP))) (downto (char_run hexdigit (f +++ EXP)))) as EM.
  { transitivity (map (fun '(c0, s1) => ((4, consumed S0 s1) :: c0, s1)) (ms (Cat h1 (Cat (is ".") h1)) S0)); [reflexivity|].
    unfold S0 at 2. cbn [String.append]. rewrite (ms_significand i c (f +++ EXP) Hi Hni Hc), map_map. reflexivity. }
  rewrite (run_app_ge hexdigit f EXP Hf) in EM. destruct (downto_split (String.length f + char_run hexdigit EXP) (String.length f)) as (l1 & l2 & El & Hl); [lia|].
  rewrite El, map_app in EM. cbn [map] in EM. rewrite drop_app in EM.
  assert (consumed S0 EXP = i +++ "." +++ String c f) as EC.
  { unfold S0. replace (i +++ "." +++ String c f +++ EXP) with ((i +++ "." +++ String c f) +++ EXP) by (rewrite !sapp_assoc; reflexivity). apply consumed_app. }
  rewrite EC in EM. eapply first_cat_back; [exact EM| |apply first_exp; try assumption; now apply stops_digit].
  intros c0 y Hin. apply in_map_iff in Hin as (z & Ez & Hz). injection Ez as _ <-. apply Hl in Hz. replace z with (String.length f + (z - String.length f)) by lia. rewrite drop_past.
  apply no_late_exponent; try assumption. fold EXP. lia.
Qed.

Lemma first_alt1 : forall a b s c y, first a s c y -> first (Alt a b) s c y.
Proof. intros a b s c y (l & H). unfold first. cbn [ms]. rewrite H. cbn. eauto. Qed.
Lemma first_alt2 : forall a b s c y, ms a s = [] -> first b s c y -> first (Alt a b) s c y.
Proof. intros a b s c y H0 (l & H). unfold first. cbn [ms]. rewrite H0, H. cbn. eauto. Qed.

Lemma lang_d1 : forall x, lang d1 x -> allc digit x /\ x <> "".
Proof. intros x H. unfold d1, Plus in H. apply lang_cat in H as (u & v & -> & H1 & H2). apply lang_chr in H1 as (c & -> & Hc). apply lang_star_chr in H2. split; [cbn; auto|discriminate]. Qed.
Lemma lang_bv : forall x, lang bv_re x -> exists v w, x = v +++ "bv" +++ w /\ allc digit v /\ v <> "".
Proof.
  intros x H. apply lang_cat in H as (v & y & -> & H1 & H). apply lang_grp, lang_d1 in H1 as (H1 & H2). apply lang_cat in H as (b & w & -> & H3 & _). apply lang_word in H3 as ->. eauto 6.
Qed.
Lemma lang_fp : forall x, lang fp_re x -> exists b y, x = minus b +++ "0x" +++ y.
Proof.
  intros x H. apply lang_cat in H as (v & y & -> & H1 & H). apply lang_grp, lang_opt in H1. apply lang_cat in H as (b & w & -> & H3 & _). apply lang_word in H3 as ->.
  destruct H1 as [H1| ->]; [|exists false, w; reflexivity]. apply lang_chr in H1 as (c & -> & E). apply Ascii.eqb_eq in E as <-. exists true, w. reflexivity.
Qed.
Lemma lang_const : forall x, lang const_re x -> (exists v w, x = v +++ "bv" +++ w /\ allc digit v /\ v <> "") \/ exists b y, x = minus b +++ "0x" +++ y.
Proof. intros x H. apply lang_grp, lang_alt in H as [H|H]; [left; now apply lang_bv|right; now apply lang_fp]. Qed.

(** What a constant gives to the replacement. *)
Definition groups (c : constant) : captures :=
  (1, printed c) ::
  match c with
  | Bv v w => [(2, v)]
  | Fp n i f en e ss es => [(8, es); (7, ss); (6, e); (5, minus en); (4, i +++ "." +++ f); (3, minus n)]
  end.
Lemma first_const : forall c rest, constant_ok c -> stops hexdigit rest -> first const_re (printed c +++ rest) (groups c) rest.
Proof.
  intros c rest Hc Hr. unfold const_re, groups. apply first_grp. destruct c as [v w|n i f en e ss es].
  - apply first_alt1. destruct Hc as ((Hv & Hv2) & (Hw & Hw2)). unfold printed. rewrite !sapp_assoc. unfold bv_re. change [(2, v)] with (([] ++ []) ++ [(2, v)] : captures).
    eapply first_cat; [apply first_d1; [exact Hv2|exact Hv|reflexivity]|]. eapply first_cat; [apply first_word|]. apply first_plus; [exact Hw2|exact Hw|now apply stops_digit].
  - apply first_alt2; [|now apply first_fp]. apply ms_none. intros x y E L. apply lang_bv in L as (v & w & -> & Hv & Hn).
    unfold printed in E. destruct v as [|c v]; [congruence|]. destruct Hv as (Hc1 & Hv). destruct n; cbn in E; injection E as <- E; [discriminate|].
    destruct v as [|c v]; cbn in E; injection E as E1 _; [discriminate|]. subst c. destruct Hv as (X & _). discriminate.
Qed.

(** Text before a constant. *)
Definition wordchar (c : ascii) : bool := negb (apart c).
Lemma ends_within : forall w y v t, allc wordchar w -> ends_apart v -> v <> "" -> w +++ y = v +++ t -> exists m, v = w +++ m.
Proof.
  intros w y v t Hw [->|(v' & c & -> & Hc)] Hn E; [congruence|]. destruct (Nat.le_gt_cases (String.length w) (String.length (v' +++ String c ""))) as [H|H].
  - destruct (prefix_of _ _ _ _ E H) as (m & Em & _). eauto.
  - destruct (prefix_of _ _ _ _ (eq_sym E)) as (m & -> & _); [lia|]. rewrite !allc_app in Hw. destruct Hw as ((_ & (X & _)) & _). unfold wordchar in X. rewrite Hc in X. discriminate.
Qed.
Lemma digit_word : forall c, digit c = true -> wordchar c = true.
Proof. intros c H. unfold wordchar, apart. rewrite H. reflexivity. Qed.
Lemma ends_suffix : forall u v, ends_apart (u +++ v) -> v <> "" -> ends_apart v.
Proof.
  intros u v [E|(s & c & E & Hc)] Hv; [destruct u; [|discriminate]; cbn in E; congruence|].
  right. destruct (Nat.le_gt_cases (String.length u) (String.length s)) as [H|H].
  - destruct (prefix_of _ _ _ _ E H) as (m & -> & ->). eauto.
  - exfalso. pose proof (f_equal String.length E) as EL. rewrite !slen_app in EL. cbn in EL. assert (String.length v >= 1) by (destruct v; [congruence|cbn; lia]). lia.
Qed.
Lemma plain_no_match : forall s t u v, plain s -> ends_apart s -> s = u +++ v -> v <> "" -> ms const_re (v +++ t) = [].
Proof.
  intros s t u v (Hb & Hx) He -> Hv. apply (ends_suffix u v) in He; [|exact Hv]. apply ms_none. intros x y E L.
  apply lang_const in L as [(d & w & -> & Hd & Hn)|(b & w & ->)].
  - apply Hb. replace ((d +++ "bv" +++ w) +++ y) with ((d +++ "bv") +++ w +++ y) in E by now rewrite !sapp_assoc.
    destruct (ends_within (d +++ "bv") (w +++ y) v t) as (m & ->); auto; [apply allc_app; split; [eapply allc_imp; [apply digit_word|exact Hd]|repeat split]|].
    exists (u +++ d), m. rewrite !sapp_assoc. reflexivity.
  - apply Hx. replace ((minus b +++ "0x" +++ w) +++ y) with ((minus b +++ "0x") +++ w +++ y) in E by now rewrite !sapp_assoc.
    destruct (ends_within (minus b +++ "0x") (w +++ y) v t) as (m & ->); auto; [destruct b; repeat split|].
    exists (u +++ minus b), m. rewrite !sapp_assoc. reflexivity.
Qed.
Lemma plain_none : forall s, plain s -> py_search const_re s = None.
Proof.
  intros s (Hb & Hx). apply search_none. intros u v ->. apply ms_none. intros x y -> L. apply lang_const in L as [(d & w & -> & Hd & Hn)|(b & w & ->)].
  - apply Hb. exists (u +++ d), (w +++ y). rewrite !sapp_assoc. reflexivity.
  - apply Hx. exists (u +++ minus b), (w +++ y). rewrite !sapp_assoc. reflexivity.
Qed.
Lemma search_const : forall s c rest, plain s -> ends_apart s -> constant_ok c -> stops hexdigit rest -> py_search const_re (s +++ printed c +++ rest) = Some (s, groups c, rest).
Proof. intros s c rest Hs He Hc Hr. apply search_first; [now apply first_const|]. intros u v E Hv. now apply (plain_no_match s _ u). Qed.

Lemma starts_stops : forall s, starts_apart s -> stops hexdigit s.
Proof.
  intros [|c s] H; [exact I|]. cbn in *. unfold hexdigit. unfold apart in H. apply negb_true_iff in H. apply orb_false_iff in H as (H & _). apply orb_false_iff in H as (H & H3). apply orb_false_iff in H as (H1 & H2).
  rewrite H1. cbn. assert (forall a b b', between a b' c = false -> nat_of_ascii b <= nat_of_ascii b' -> between a b c = false) as Hb.
  { intros a b b' X Hle. unfold between in *. apply andb_false_iff in X as [X|X]; [now rewrite X|]. apply andb_false_iff. right. apply Nat.leb_gt in X. apply Nat.leb_gt. lia. }
  rewrite (Hb "a"%char "f"%char "z"%char H2), (Hb "A"%char "F"%char "Z"%char H3); [reflexivity|apply Nat.leb_le; reflexivity|apply Nat.leb_le; reflexivity].
Qed.
Lemma rest_starts : forall l tail, text_rest l tail -> starts_apart (text_of l tail).
Proof.
  intros [|(s & c) l] tail H; [exact (proj2 H)|]. cbn in H. destruct H as (_ & Hn & Hs & _). destruct s; [congruence|]. exact Hs.
Qed.

(** re.sub over a text with constants. *)
Lemma sub_text : forall f l tail ts k, text_ok l tail -> Forall2 (fun sc t => f (groups (snd sc)) = Some t) l ts -> List.length l <= k ->
  py_sub k const_re f (text_of l tail) = Some (interleave (combine (map fst l) ts) tail).
Proof.
  intros f l. induction l as [|(s & c) l IH]; intros tail ts k Hok Hts Hk.
  - inversion Hts; subst. destruct k; [reflexivity|]. cbn [py_sub]. change (text_of [] tail) with tail. rewrite (plain_none tail Hok). reflexivity.
  - inversion Hts as [|? t ? ts' Ht Hts']; subst. cbn [List.length] in Hk. destruct k as [|k]; [lia|]. destruct Hok as (Hs & He & Hc & Hr).
    change (text_of ((s, c) :: l) tail) with (s +++ printed c +++ text_of l tail). cbn [py_sub]. rewrite (search_const s c _ Hs He Hc (starts_stops _ (rest_starts _ _ Hr))). cbn in Ht. rewrite Ht.
    rewrite (IH tail ts' k); [reflexivity| |exact Hts'|lia]. destruct l as [|(s' & c') l]; cbn in Hr |- *; tauto.
Qed.
