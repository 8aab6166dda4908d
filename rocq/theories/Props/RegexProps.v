(** The matcher finds exactly the matches of the language. *)
From Coq Require Import List String Ascii Bool Arith Lia.
From Verif.Spec Require Import Regex.
From Verif.Model Require Import PyRegex.
Import ListNotations.
Open Scope string_scope.
Open Scope list_scope.

Notation "a +++ b" := (String.append a b) (at level 60, right associativity).

Lemma sapp_assoc : forall a b c : string, (a +++ b) +++ c = a +++ b +++ c.
Proof. induction a; cbn; intros; congruence. Qed.
Lemma sapp_nil : forall a, a +++ "" = a.
Proof. induction a; cbn; congruence. Qed.
Lemma slen_app : forall a b, String.length (a +++ b) = String.length a + String.length b.
Proof. induction a; cbn; intros; [reflexivity|]. now rewrite IHa. Qed.
Lemma sapp_inj : forall a b c, a +++ b = a +++ c -> b = c.
Proof. induction a; cbn; intros b c H; [exact H|]. injection H as H. auto. Qed.
Lemma sapp_inj_r : forall a b c, a +++ c = b +++ c -> a = b.
Proof.
  induction a as [|x a IH]; intros [|y b] c H; [reflexivity| | |].
  - exfalso. apply (f_equal String.length) in H. cbn in H. rewrite slen_app in H. lia.
  - exfalso. apply (f_equal String.length) in H. cbn in H. rewrite slen_app in H. lia.
  - cbn in H. injection H as -> H. f_equal. eauto.
Qed.

Definition star_ms (a : re) : nat -> string -> list (captures * string) :=
  fix star (k : nat) (s : string) : list (captures * string) :=
    match k with
    | O => [([], s)]
    | S k' =>
        flat_map (fun '(c, s1) => if Nat.ltb (String.length s1) (String.length s) then map (fun '(d, s2) => (d ++ c, s2)) (star k' s1) else []) (ms a s)
        ++ [([], s)]
    end.
Lemma ms_star : forall a s, ms (Star a) s = star_ms a (String.length s) s.
Proof. reflexivity. Qed.

Lemma in_cat : forall (X : list (captures * string)) (g : string -> list (captures * string)) c y,
  In (c, y) (flat_map (fun '(c, s1) => map (fun '(d, s2) => (d ++ c, s2)) (g s1)) X) <-> exists c1 d s1, In (c1, s1) X /\ In (d, y) (g s1) /\ c = d ++ c1.
Proof.
  intros X g c y. rewrite in_flat_map. split.
  - intros ((c1 & s1) & H1 & H2). apply in_map_iff in H2 as ((d & s2) & E & H2). injection E as <- <-. eauto 8.
  - intros (c1 & d & s1 & H1 & H2 & ->). exists (c1, s1). split; [exact H1|]. apply in_map_iff. exists (d, y). auto.
Qed.

Lemma star_grow : forall a k s c y, In (c, y) (star_ms a k s) -> String.length y <= String.length s.
Proof.
  intros a k. induction k as [|k IH]; intros s c y H; cbn [star_ms] in H.
  - destruct H as [E|[]]. injection E as <- <-. lia.
  - apply in_app_or in H as [H|[E|[]]]; [|injection E as <- <-; lia]. apply in_flat_map in H as ((c1 & s1) & _ & H).
    destruct (Nat.ltb (String.length s1) (String.length s)) eqn:E; [|destruct H]. apply in_map_iff in H as ((d & s2) & E2 & H). injection E2 as <- <-. apply IH in H. apply Nat.ltb_lt in E. lia.
Qed.

(** A star iteration that matches nothing can be left out. *)
Lemma lang_star_nonempty : forall a x, lang (Star a) x -> x = "" \/ exists u v, x = u +++ v /\ u <> "" /\ lang a u /\ lang (Star a) v.
Proof.
  intros a x H. remember (Star a) as r eqn:E. induction H; try discriminate; injection E as ->; [now left|].
  destruct x as [|c x]; [cbn; apply IHlang2; reflexivity|]. right. exists (String c x), y. repeat split; auto. discriminate.
Qed.

Theorem ms_lang : forall r s y, (exists c, In (c, y) (ms r s)) <-> exists x, s = x +++ y /\ lang r x.
Proof.
  induction r as [p| |a IHa b IHb|a IHa b IHb|a IHa|n a IHa]; intros s y.
  - cbn. split.
    + intros (c & H). destruct s as [|d s]; [destruct H|]. destruct (p d) eqn:E; [|destruct H]. destruct H as [H|[]]. injection H as <- <-. exists (String d ""). split; [reflexivity|now constructor].
    + intros (x & -> & H). inversion H; subst. cbn. match goal with E : p _ = true |- _ => rewrite E end. eexists. now left.
  - cbn. split.
    + intros (c & [E|[]]). injection E as <- <-. exists "". split; [reflexivity|constructor].
    + intros (x & -> & H). inversion H; subst. eexists. now left.
  - cbn [ms]. split.
    + intros (c & H). apply in_cat in H as (c1 & d & s1 & H1 & H2 & ->).
      destruct (proj1 (IHa s s1) (ex_intro _ c1 H1)) as (x1 & -> & L1). destruct (proj1 (IHb s1 y) (ex_intro _ d H2)) as (x2 & -> & L2).
      exists (x1 +++ x2). split; [now rewrite sapp_assoc|now constructor].
    + intros (x & -> & H). inversion H as [| |? ? x1 x2 L1 L2| | | | |]; subst. destruct (proj2 (IHa ((x1 +++ x2) +++ y) (x2 +++ y))) as (c1 & H1); [exists x1; split; [apply sapp_assoc|exact L1]|].
      destruct (proj2 (IHb (x2 +++ y) y)) as (d & H2); [exists x2; auto|]. exists (d ++ c1). apply in_cat. eauto 8.
  - cbn [ms]. split.
    + intros (c & H). apply in_app_or in H as [H|H]; [destruct (proj1 (IHa s y) (ex_intro _ c H)) as (x & -> & L)|destruct (proj1 (IHb s y) (ex_intro _ c H)) as (x & -> & L)];
        exists x; (split; [reflexivity|]); [now apply l_alt1|now apply l_alt2].
    + intros (x & -> & H). inversion H; subst; [destruct (proj2 (IHa (x +++ y) y)) as (c & Hc); [eauto|]|destruct (proj2 (IHb (x +++ y) y)) as (c & Hc); [eauto|]];
        exists c; apply in_or_app; [now left|now right].
  - rewrite ms_star. split.
    + intros (c & H). remember (String.length s) as k eqn:Ek. clear Ek. revert c s y H. induction k as [|k IH]; intros c s y H; cbn [star_ms] in H.
      * destruct H as [E|[]]. injection E as <- <-. exists "". split; [reflexivity|constructor].
      * apply in_app_or in H as [H|[E|[]]]; [|injection E as <- <-; exists ""; split; [reflexivity|constructor]].
        apply in_flat_map in H as ((c1 & s1) & H1 & H). destruct (Nat.ltb (String.length s1) (String.length s)); [|destruct H].
        apply in_map_iff in H as ((d & s2) & E & H). injection E as <- <-. destruct (proj1 (IHa s s1) (ex_intro _ c1 H1)) as (x1 & -> & L1).
        fold (star_ms a) in H. destruct (IH d s1 s2 H) as (x2 & -> & L2). exists (x1 +++ x2). split; [now rewrite sapp_assoc|now constructor].
    + intros (x & -> & H). remember (String.length (x +++ y)) as k eqn:Ek. assert (String.length (x +++ y) <= k) as Hk by lia. clear Ek.
      revert x H Hk. induction k as [|k IH]; intros x H Hk.
      * assert (x = "") as -> by (destruct x; [reflexivity|cbn in Hk; lia]). eexists. now left.
      * cbn [star_ms]. destruct (lang_star_nonempty a x H) as [->|(u & v & -> & Hu & L1 & L2)]; [eexists; apply in_or_app; right; now left|].
        assert (String.length u >= 1) as Lu by (destruct u; [congruence|cbn; lia]). rewrite !slen_app in Hk.
        destruct (IH v L2) as (d & Hd); [rewrite slen_app; lia|]. destruct (proj2 (IHa ((u +++ v) +++ y) (v +++ y))) as (c1 & Hc1); [exists u; split; [apply sapp_assoc|exact L1]|].
        exists (d ++ c1). apply in_or_app. left. apply in_flat_map. exists (c1, v +++ y). split; [exact Hc1|].
        assert (Nat.ltb (String.length (v +++ y)) (String.length ((u +++ v) +++ y)) = true) as -> by (apply Nat.ltb_lt; rewrite !slen_app; lia).
        apply in_map_iff. exists (d, y). auto.
  - cbn [ms]. split.
    + intros (c & H). apply in_map_iff in H as ((d & s2) & E & H). injection E as <- <-. destruct (proj1 (IHa s s2) (ex_intro _ d H)) as (x & -> & L). exists x. split; [reflexivity|now constructor].
    + intros (x & -> & H). inversion H; subst. destruct (proj2 (IHa (x +++ y) y)) as (c & Hc); [eauto|]. eexists. apply in_map_iff. exists (c, y). auto.
Qed.

(** re.search succeeds exactly if some part of the text is in the language. *)
Theorem search_found : forall r s, searches r s = true <-> found r s.
Proof.
  intros r s. unfold searches. induction s as [|x s IH]; cbn [py_search].
  - destruct (ms r "") as [|(c & y) l] eqn:E.
    + split; [discriminate|]. intros (a & w & b & E1 & L). destruct a; [|discriminate]. destruct (proj2 (ms_lang r "" b)) as (c & Hc); [exists w; auto|]. rewrite E in Hc. destruct Hc.
    + split; [|reflexivity]. intros _. destruct (proj1 (ms_lang r "" y)) as (w & E1 & L); [exists c; rewrite E; now left|]. exists "", w, y. auto.
  - destruct (ms r (String x s)) as [|(c & y) l] eqn:E.
    + destruct (py_search r s) as [((p & c) & y)|] eqn:Es.
      * split; [|reflexivity]. intros _. destruct (proj1 IH eq_refl) as (a & w & b & -> & L). exists (String x a), w, b. auto.
      * split; [discriminate|]. intros (a & w & b & E1 & L). destruct a as [|x' a].
        -- destruct (proj2 (ms_lang r (String x s) b)) as (c & Hc); [exists w; auto|]. rewrite E in Hc. destruct Hc.
        -- cbn in E1. injection E1 as -> ->. apply IH. exists a, w, b. auto.
    + split; [|reflexivity]. intros _. destruct (proj1 (ms_lang r (String x s) y)) as (w & E1 & L); [exists c; rewrite E; now left|]. exists "", w, y. auto.
Qed.
Print Assumptions search_found.

(** ** What languages are *)
Lemma lang_word : forall w x, lang (word w) x <-> x = w.
Proof.
  induction w as [|c w IH]; intros x; cbn [word]; split.
  - intros H. now inversion H.
  - intros ->. constructor.
  - intros H. inversion H as [| |? ? u v L1 L2| | | | |]; subst. inversion L1; subst. apply IH in L2 as ->.
    match goal with E : Ascii.eqb _ _ = true |- _ => apply Ascii.eqb_eq in E as -> end. reflexivity.
  - intros ->. change (String c w) with (String c "" +++ w). constructor; [constructor; apply Ascii.eqb_refl|now apply IH].
Qed.
Lemma lang_alt : forall a b x, lang (Alt a b) x <-> lang a x \/ lang b x.
Proof. intros a b x. split; [intros H; inversion H; auto|intros [H|H]; [now apply l_alt1|now apply l_alt2]]. Qed.
Lemma lang_cat : forall a b x, lang (Cat a b) x <-> exists u v, x = u +++ v /\ lang a u /\ lang b v.
Proof. intros a b x. split; [intros H; inversion H; subst; eauto 6|intros (u & v & -> & H1 & H2); now constructor]. Qed.
Lemma lang_chr : forall p x, lang (Chr p) x <-> exists c, x = String c "" /\ p c = true.
Proof. intros p x. split; [intros H; inversion H; subst; eauto|intros (c & -> & H); now constructor]. Qed.
Lemma lang_grp : forall n a x, lang (Grp n a) x <-> lang a x.
Proof. intros n a x. split; [intros H; inversion H; auto|now constructor]. Qed.
Lemma lang_opt : forall a x, lang (Opt a) x <-> lang a x \/ x = "".
Proof. intros a x. unfold Opt. rewrite lang_alt. split; (intros [H|H]; [now left|right]); [inversion H; reflexivity|subst; constructor]. Qed.
Fixpoint allc (p : ascii -> bool) (s : string) : Prop := match s with EmptyString => True | String c s' => p c = true /\ allc p s' end.
Lemma lang_star_chr : forall p x, lang (Star (Chr p)) x <-> allc p x.
Proof.
  intros p x. split.
  - intros H. remember (Star (Chr p)) as r eqn:E. induction H; try discriminate; injection E as ->; [exact I|]. apply lang_chr in H as (c & -> & H). cbn. auto.
  - induction x as [|c x IH]; intros H; [constructor|]. destruct H as (H1 & H2). change (String c x) with (String c "" +++ x). constructor; [now constructor|auto].
Qed.
Lemma digits_allc : forall s, digits s <-> allc digit s.
Proof. induction s; cbn; tauto. Qed.
Lemma allc_app : forall p a b, allc p (a +++ b) <-> allc p a /\ allc p b.
Proof. induction a as [|c a IH]; intros b; cbn; [tauto|]. rewrite IH. tauto. Qed.

Lemma found_alt : forall a b s, found (Alt a b) s <-> found a s \/ found b s.
Proof.
  intros a b s. unfold found. split.
  - intros (u & x & v & E & L). apply lang_alt in L as [L|L]; [left|right]; eauto 6.
  - intros [(u & x & v & E & L)|(u & x & v & E & L)]; exists u, x, v; (split; [exact E|]); apply lang_alt; auto.
Qed.
Lemma found_word : forall w s, found (word w) s <-> occurs w s.
Proof.
  intros w s. unfold found, occurs. split.
  - intros (u & x & v & E & L). apply lang_word in L as ->. eauto.
  - intros (u & v & E). exists u, w, v. split; [exact E|now apply lang_word].
Qed.

(** ** The first match *)
Definition char_run := fix run (p : ascii -> bool) (s : string) : nat :=
  match s with EmptyString => 0 | String c s' => if p c then S (run p s') else 0 end.
Definition drop := fix drop (n : nat) (s : string) : string := match n, s with S n', String _ s' => drop n' s' | _, _ => s end.
Fixpoint downto (n : nat) : list nat := match n with O => [0] | S k => S k :: downto k end.

Lemma star_chr_fuel : forall p k s, char_run p s <= k -> star_ms (Chr p) k s = map (fun n => ([], drop n s)) (downto (char_run p s)).
Proof.
  intros p k. induction k as [|k IH]; intros s H.
  - cbn [star_ms]. destruct (char_run p s) eqn:E; [|lia]. cbn [downto map]. destruct s; reflexivity.
  - cbn [star_ms]. destruct s as [|c s]; [reflexivity|]. cbn [ms char_run] in *. destruct (p c) eqn:E; [|reflexivity].
    cbn [flat_map]. rewrite (proj2 (Nat.ltb_lt _ _)) by (cbn; lia). rewrite IH by lia. rewrite app_nil_r, map_map. cbn [downto map].
    clear. generalize (char_run p s) as n. induction n as [|n IH]; [reflexivity|]. cbn [downto map app]. f_equal. exact IH.
Qed.
Lemma run_le : forall p s, char_run p s <= String.length s.
Proof. induction s as [|c s IH]; cbn; [lia|]. destruct (p c); lia. Qed.
Lemma ms_star_chr : forall p s, ms (Star (Chr p)) s = map (fun n => ([], drop n s)) (downto (char_run p s)).
Proof. intros p s. rewrite ms_star. apply star_chr_fuel, run_le. Qed.

Lemma hd_flat_map : forall A B (f : A -> list B) l1 x l2, (forall z, In z l1 -> f z = []) -> f x <> [] -> hd_error (flat_map f (l1 ++ x :: l2)) = hd_error (f x).
Proof.
  induction l1 as [|z l1 IH]; intros x l2 H Hx; cbn [app flat_map].
  - destruct (f x); [congruence|reflexivity].
  - rewrite H by now left. apply IH; auto. intros; apply H; now right.
Qed.
Lemma drop_app : forall a b, drop (String.length a) (a +++ b) = b.
Proof. induction a as [|c a IH]; intros b; cbn; [destruct b; reflexivity|apply IH]. Qed.
Lemma consumed_app : forall a b, consumed (a +++ b) b = a.
Proof.
  intros a b. unfold consumed. rewrite slen_app. replace (String.length a + String.length b - String.length b) with (String.length a) by lia.
  induction a as [|c a IH]; cbn; [destruct b; reflexivity|]. now rewrite IH.
Qed.

(** [y] is left by the first match, with captures [c]. *)
Definition first (r : re) (s : string) (c : captures) (y : string) : Prop := exists l, ms r s = (c, y) :: l.
Lemma first_match : forall r s c y, first r s c y -> py_match r s = Some (c, y).
Proof. intros r s c y (l & H). unfold py_match. now rewrite H. Qed.
Lemma first_cat : forall a b s c1 s1 c2 s2, first a s c1 s1 -> first b s1 c2 s2 -> first (Cat a b) s (c2 ++ c1) s2.
Proof. intros a b s c1 s1 c2 s2 (l1 & H1) (l2 & H2). unfold first. cbn [ms]. rewrite H1. cbn [flat_map]. rewrite H2. cbn. eauto. Qed.
Lemma first_eps : forall s, first Eps s [] s.
Proof. intros s. exists []. reflexivity. Qed.
Lemma first_chr : forall p c s, p c = true -> first (Chr p) (String c s) [] s.
Proof. intros p c s H. exists []. cbn. now rewrite H. Qed.
Lemma first_word : forall w s, first (word w) (w +++ s) [] s.
Proof.
  induction w as [|c w IH]; intros s; cbn [word String.append]; [apply first_eps|].
  change ([] : captures) with ([] ++ [] : captures). eapply first_cat; [apply first_chr, Ascii.eqb_refl|apply IH].
Qed.
Lemma first_grp : forall n a x s c, first a (x +++ s) c s -> first (Grp n a) (x +++ s) ((n, x) :: c) s.
Proof. intros n a x s c (l & H). unfold first. cbn [ms]. rewrite H. cbn [map]. rewrite consumed_app. eauto. Qed.
Definition stops (p : ascii -> bool) (s : string) : Prop := match s with EmptyString => True | String c _ => p c = false end.
Lemma run_app : forall p x s, allc p x -> stops p s -> char_run p (x +++ s) = String.length x.
Proof.
  induction x as [|c x IH]; intros s Hx Hs; cbn in *; [destruct s; cbn in *; [reflexivity|now rewrite Hs]|]. destruct Hx as (H1 & H2). rewrite H1. f_equal. auto.
Qed.
Lemma first_star : forall p x s, allc p x -> stops p s -> first (Star (Chr p)) (x +++ s) [] s.
Proof.
  intros p x s Hx Hs. unfold first. rewrite ms_star_chr, (run_app p x s Hx Hs). pose proof (drop_app x s) as E. destruct (String.length x); cbn [downto map]; rewrite E; eauto.
Qed.
Lemma first_plus : forall p x s, allc p x -> x <> "" -> stops p s -> first (Plus (Chr p)) (x +++ s) [] s.
Proof.
  intros p [|c x] s Hx Hn Hs; [congruence|]. destruct Hx as (H1 & H2). change ([] : captures) with ([] ++ [] : captures). eapply first_cat; [apply (first_chr p c (x +++ s) H1)|now apply first_star].
Qed.
Lemma first_opt : forall a s c y, first a s c y -> first (Opt a) s c y.
Proof. intros a s c y (l & H). unfold first. cbn [Opt ms]. rewrite H. cbn. eauto. Qed.
Lemma first_opt_none : forall a s, ms a s = [] -> first (Opt a) s [] s.
Proof. intros a s H. unfold first. cbn [Opt ms]. rewrite H. cbn. eauto. Qed.
Lemma ms_none : forall r s, (forall x y, s = x +++ y -> ~ lang r x) -> ms r s = [].
Proof.
  intros r s H. destruct (ms r s) as [|(c & y) l] eqn:E; [reflexivity|]. exfalso. destruct (proj1 (ms_lang r s y)) as (x & -> & L); [exists c; rewrite E; now left|]. now apply (H x y).
Qed.

Lemma downto_split : forall n k, k <= n -> exists l1 l2, downto n = l1 ++ k :: l2 /\ forall z, In z l1 -> k < z <= n.
Proof.
  induction n as [|n IH]; intros k H.
  - assert (k = 0) as -> by lia. exists [], []. split; [reflexivity|intros z []].
  - destruct (Nat.eq_dec k (S n)) as [->|N]; [exists [], (downto n); split; [reflexivity|intros z []]|].
    destruct (IH k) as (l1 & l2 & E & H1); [lia|]. exists (S n :: l1), l2. cbn [downto app]. rewrite E. split; [reflexivity|]. intros z [<-|Hz]; [lia|]. specialize (H1 z Hz). lia.
Qed.

(** (.+) and then a character: up to its last occurrence before the end of the line. *)
Definition nonl (c : ascii) : bool := negb (Ascii.eqb c newline).
Lemma first_last : forall n a sep e tail, allc nonl a -> a <> "" -> allc (fun c => nonl c && negb (Ascii.eqb sep c)) e -> nonl sep = true ->
  (tail = "" \/ exists t, tail = String newline t) ->
  first (Cat (Grp n (Plus any)) (word (String sep ""))) (a +++ String sep (e +++ tail)) [(n, a)] (e +++ tail).
Proof.
  intros n a sep e tail Ha Hn He Hs Ht. destruct a as [|c a]; [congruence|]. destruct Ha as (Hc & Ha). unfold first.
  assert (forall T, ms (Plus any) (String c T) = map (fun k => ([], drop k T)) (downto (char_run nonl T))) as EP.
  { intros T. unfold Plus, any. fold nonl. cbn [ms]. fold nonl. rewrite Hc. cbn [flat_map]. change (ms (Star (Chr nonl)) T) with (ms (Star (Chr nonl)) T).
    assert (forall X : list (captures * string), map (fun '(d, s2) => (d ++ [], s2)) X ++ [] = map (fun '(d, s2) => (d, s2)) X) as EX.
    { intros X. rewrite app_nil_r. apply map_ext. intros (d & s2). now rewrite app_nil_r. }
    pose proof (ms_star_chr nonl T) as EE. cbn [ms] in EE. fold nonl in EE. 
    transitivity (map (fun '(d, s2) => (d ++ [], s2)) (ms (Star (Chr nonl)) T) ++ []); [reflexivity|]. rewrite EX, ms_star_chr, map_map. reflexivity. }
  set (T := a +++ String sep (e +++ tail)). change (String c a +++ String sep (e +++ tail)) with (String c T).
  assert (char_run nonl T = String.length a + S (String.length e)) as ER.
  { unfold T. replace (a +++ String sep (e +++ tail)) with ((a +++ String sep e) +++ tail) by (rewrite sapp_assoc; reflexivity). rewrite run_app.
    - rewrite slen_app. reflexivity.
    - apply allc_app. split; [exact Ha|]. split; [exact Hs|]. clear - He. induction e as [|d e IH]; [exact I|]. destruct He as (H1 & H2). apply andb_true_iff in H1. split; [tauto|auto].
    - destruct Ht as [->|(t & ->)]; [exact I|]. reflexivity. }
  destruct (downto_split (char_run nonl T) (String.length a)) as (l1 & l2 & El & Hl); [lia|].
  change (ms (Cat (Grp n (Plus any)) (word (String sep ""))) (String c T)) with
    (flat_map (fun '(c0, s1) => map (fun '(d, s2) => (d ++ c0, s2)) (ms (word (String sep "")) s1)) (map (fun '(c0, s1) => ((n, consumed (String c T) s1) :: c0, s1)) (ms (Plus any) (String c T)))).
  rewrite EP, map_map, El, map_app. cbn [map].
  assert (drop (String.length a) T = String sep (e +++ tail)) as ED by apply drop_app.
  rewrite ED. assert (consumed (String c T) (String sep (e +++ tail)) = String c a) as EC.
  { change (String c T) with (String c a +++ String sep (e +++ tail)). apply consumed_app. }
  rewrite EC.
  assert (forall L (g : captures * string -> list (captures * string)), (forall z, In z L -> g z = []) -> flat_map g L = []) as Hfm.
  { induction L as [|z L IH]; intros g Hz; [reflexivity|]. cbn. rewrite Hz by now left. apply IH. intros; apply Hz; now right. }
  rewrite flat_map_app, Hfm.
  - cbn [app flat_map]. destruct (first_word (String sep "") (e +++ tail)) as (l & Ew). change (String sep "" +++ e +++ tail) with (String sep (e +++ tail)) in Ew. rewrite Ew. cbn. eauto.
  - intros z Hz. apply in_map_iff in Hz as (k & <- & Hk). apply Hl in Hk. assert (ms (word (String sep "")) (drop k T) = []) as ->; [|reflexivity].
    apply ms_none. intros x y E L. apply lang_word in L as ->. cbn in E.
    assert (exists j, k = String.length a + S j /\ j <= String.length e) as (j & -> & Hj) by (exists (k - String.length a - 1); lia).
    assert (drop (String.length a + S j) T = drop j (e +++ tail)) as E2.
    { unfold T. clear. induction a as [|d a IH]; cbn; [destruct (e +++ tail); reflexivity|exact IH]. }
    rewrite E2 in E. clear - E He Hj Ht Hs. revert j E Hj. induction e as [|d e IH]; intros j E Hj.
    + cbn in Hj. assert (j = 0) as -> by lia. cbn in E. destruct Ht as [->|(t & ->)]; [discriminate|]. cbn in E. injection E as <- _. discriminate.
    + destruct He as (H1 & H2). destruct j as [|j]; cbn in E; [injection E as -> _; rewrite Ascii.eqb_refl, andb_false_r in H1; discriminate|]. apply (IH H2 j E). cbn in Hj. lia.
Qed.

(** re.search finds the first position. *)
Lemma search_first : forall r a t c y, first r t c y -> (forall u v, a = u +++ v -> v <> "" -> ms r (v +++ t) = []) -> py_search r (a +++ t) = Some (a, c, y).
Proof.
  intros r a t c y (l & H) Hn. induction a as [|x a IH].
  - cbn [String.append]. destruct t; cbn [py_search]; rewrite H; reflexivity.
  - cbn [String.append py_search]. pose proof (Hn "" (String x a) eq_refl ltac:(discriminate)) as E. cbn [String.append] in E. rewrite E, IH; [reflexivity|].
    intros u v -> Hv. apply (Hn (String x u) v); auto.
Qed.
Lemma search_none : forall r s, (forall u v, s = u +++ v -> ms r v = []) -> py_search r s = None.
Proof.
  intros r s H. induction s as [|x s IH]; cbn [py_search].
  - now rewrite (H "" "").
  - rewrite (H "" (String x s)) by reflexivity. rewrite IH; [reflexivity|]. intros u v ->. apply (H (String x u) v). reflexivity.
Qed.

Lemma prefix_of : forall a b c d, a +++ b = c +++ d -> String.length a <= String.length c -> exists m, c = a +++ m /\ b = m +++ d.
Proof.
  induction a as [|x a IH]; intros b c d H Hl; [exists c; auto|]. destruct c as [|y c]; [cbn in Hl; lia|]. cbn in H. injection H as -> H.
  destruct (IH b c d H) as (m & -> & E); [cbn in Hl; lia|]. exists m. auto.
Qed.
(** The only occurrence of a character. *)
Lemma split_unique : forall c f r w t, allc (fun x => negb (Ascii.eqb c x)) f -> allc (fun x => negb (Ascii.eqb c x)) r -> f +++ String c r = w +++ String c t -> f = w /\ r = t.
Proof.
  induction f as [|x f IH]; intros r w t Hf Hr E.
  - destruct w as [|y w]; cbn in E; [injection E as ->; auto|]. injection E as <- ->. exfalso. apply allc_app in Hr as (_ & H & _). now rewrite Ascii.eqb_refl in H.
  - destruct Hf as (H1 & H2). destruct w as [|y w]; cbn in E; injection E as -> E; [now rewrite Ascii.eqb_refl in H1|]. destruct (IH r w t H2 Hr E) as (-> & ->). auto.
Qed.
Lemma allc_imp : forall (p q : ascii -> bool) s, (forall c, p c = true -> q c = true) -> allc p s -> allc q s.
Proof. induction s as [|c s IH]; cbn; [auto|]. intros H (H1 & H2). auto. Qed.
