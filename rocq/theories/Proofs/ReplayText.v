(** What replay.py reads from the verifier's and the linker's output. *)
From Coq Require Import ZArith List String Ascii Bool Lia Arith.
From Verif.Spec Require Import Regex TraceValues Replay.
From Verif.Model Require Import PyRegex ErrTrace Replay.
From Verif.Props Require Import RegexProps.
From Verif.Proofs Require Import TraceText.
Import ListNotations.
Open Scope string_scope.
Open Scope list_scope.
Open Scope nat_scope.

Lemma all_allc : forall p s, all p s <-> allc p s.
Proof. induction s as [|c s IH]; cbn; [tauto|]. now rewrite IH. Qed.
Lemma without_nonl : forall s, without newline s <-> allc nonl s.
Proof.
  intros s. unfold without. rewrite all_allc. induction s as [|c s IH]; cbn; [tauto|]. rewrite IH. unfold nonl. now rewrite Ascii.eqb_sym.
Qed.
Lemma run_all : forall p s, allc p s -> char_run p s = String.length s.
Proof. induction s as [|c s IH]; intros H; [reflexivity|]. destruct H as (Hc & H). cbn. rewrite Hc. f_equal. now apply IH. Qed.
Lemma drop_len : forall a t k, drop (String.length a + k) (a +++ t) = drop k t.
Proof. induction a as [|c a IH]; intros t k; [reflexivity|]. cbn. apply IH. Qed.
Lemma drop_suffix : forall k s, exists u, s = u +++ drop k s /\ (k <= String.length s -> String.length u = k).
Proof.
  induction k as [|k IH]; intros s; [exists ""; split; [now destruct s|reflexivity]|]. destruct s as [|c s]; [exists ""; split; [reflexivity|cbn; lia]|].
  destruct (IH s) as (u & E & Hu). exists (String c u). cbn. split; [now rewrite <- E|]. intros. rewrite Hu; lia.
Qed.
Lemma ms_chr_cat_nil : forall w b s, (forall y, s <> w +++ y) -> ms (Cat (word w) b) s = [].
Proof.
  intros w b s H. apply ms_none. intros x y -> L. apply lang_cat in L as (u & v & -> & Lu & _). apply lang_word in Lu as ->. apply (H (v +++ y)). now rewrite sapp_assoc.
Qed.

(** w.*b : the last place where b matches *)
Lemma first_greedy : forall b a t c y, allc nonl (a +++ t) -> (forall u v, t = u +++ v -> u <> "" -> ms b v = []) -> first b t c y ->
  first (Cat (Star any) b) (a +++ t) c y.
Proof.
  intros b a t c y Hn Hb Hf. pose proof (ms_star_chr nonl (a +++ t)) as E. rewrite run_all in E by exact Hn. rewrite slen_app in E.
  destruct (downto_split (String.length a + String.length t) (String.length a)) as (l1 & l2 & El & Hl); [lia|].
  rewrite El, map_app in E. cbn [map] in E. rewrite drop_app in E.
  change (Star (Chr nonl)) with (Star any) in E.
  replace c with (c ++ []) by apply app_nil_r. eapply first_cat_back; [exact E| |exact Hf].
  intros c' z Hz. apply in_map_iff in Hz as (k & Ek & Hk). injection Ek as <- <-. apply Hl in Hk.
  replace k with (String.length a + (k - String.length a)) by lia. rewrite drop_len.
  destruct (drop_suffix (k - String.length a) t) as (u & Eu & Hu). apply (Hb u _ Eu). intros ->. cbn in Hu. lia.
Qed.
Lemma first_greedy_grp : forall n b a t c y, allc nonl (a +++ t) -> (forall u v, t = u +++ v -> u <> "" -> ms b v = []) -> first b t c y ->
  first (Cat (Grp n (Star any)) b) (a +++ t) (c ++ [(n, a)]) y.
Proof.
  intros n b a t c y Hn Hb Hf. pose proof (ms_star_chr nonl (a +++ t)) as E. rewrite run_all in E by exact Hn. rewrite slen_app in E.
  destruct (downto_split (String.length a + String.length t) (String.length a)) as (l1 & l2 & El & Hl); [lia|].
  rewrite El, map_app in E. cbn [map] in E. rewrite drop_app in E.
  change (Star (Chr nonl)) with (Star any) in E.
  assert (ms (Grp n (Star any)) (a +++ t) = map (fun '(c, s1) => ((n, consumed (a +++ t) s1) :: c, s1)) (ms (Star any) (a +++ t))) as EG by reflexivity.
  rewrite E, map_app in EG. cbn [map] in EG. rewrite consumed_app in EG.
  eapply first_cat_back; [exact EG| |exact Hf].
  intros c' z Hz. apply in_map_iff in Hz as ((d & z') & Ez & Hz). injection Ez as <- <-. apply in_map_iff in Hz as (k & Ek & Hk). injection Ek as <- <-. apply Hl in Hk.
  replace k with (String.length a + (k - String.length a)) by lia. rewrite drop_len.
  destruct (drop_suffix (k - String.length a) t) as (u & Eu & Hu). apply (Hb u _ Eu). intros ->. cbn in Hu. lia.
Qed.
Lemma ms_word_all : forall w s, ms (word w) (w +++ s) = [([], s)].
Proof. induction w as [|c w IH]; intros s; [reflexivity|]. cbn. rewrite Ascii.eqb_refl. cbn. rewrite IH. reflexivity. Qed.
Lemma first_greedy_word : forall n w b a t c y, allc nonl (a +++ t) -> (forall u v, t = u +++ v -> u <> "" -> ms b v = []) -> first b t c y ->
  first (Cat (Grp n (Cat (word w) (Star any))) b) (w +++ a +++ t) (c ++ [(n, w +++ a)]) y.
Proof.
  intros n w b a t c y Hn Hb Hf. pose proof (ms_star_chr nonl (a +++ t)) as E. rewrite run_all in E by exact Hn. rewrite slen_app in E.
  destruct (downto_split (String.length a + String.length t) (String.length a)) as (l1 & l2 & El & Hl); [lia|].
  rewrite El, map_app in E. cbn [map] in E. rewrite drop_app in E.
  change (Star (Chr nonl)) with (Star any) in E.
  assert (ms (Cat (word w) (Star any)) (w +++ a +++ t) = map (fun '(d, s2) => (d ++ [], s2)) (ms (Star any) (a +++ t))) as EW.
  { transitivity (flat_map (fun '(c, s1) => map (fun '(d, s2) => (d ++ c, s2)) (ms (Star any) s1)) (ms (word w) (w +++ a +++ t))); [reflexivity|]. rewrite ms_word_all. cbn [flat_map]. apply app_nil_r. }
  assert (ms (Grp n (Cat (word w) (Star any))) (w +++ a +++ t) = map (fun '(c, s1) => ((n, consumed (w +++ a +++ t) s1) :: c, s1)) (ms (Cat (word w) (Star any)) (w +++ a +++ t))) as EG by reflexivity.
  rewrite EW, E, !map_app in EG. cbn [map app] in EG. rewrite <- (sapp_assoc w a t), consumed_app, sapp_assoc in EG.
  eapply first_cat_back; [exact EG| |exact Hf].
  intros c' z Hz. apply in_map_iff in Hz as ((d & z') & Ez & Hz). injection Ez as <- <-. apply in_map_iff in Hz as ((d' & z) & Ez & Hz). injection Ez as <- <-. apply in_map_iff in Hz as (k & Ek & Hk). injection Ek as <- <-. apply Hl in Hk.
  replace k with (String.length a + (k - String.length a)) by lia. rewrite drop_len.
  destruct (drop_suffix (k - String.length a) t) as (u & Eu & Hu). apply (Hb u _ Eu). intros ->. cbn in Hu. lia.
Qed.

(** Suffixes *)
Lemma occurs_tail : forall w c s, occurs w s -> occurs w (String c s).
Proof. intros w c s (a & b & ->). now exists (String c a), b. Qed.
Lemma proper_suffix : forall c t u v, String c t = u +++ v -> u <> "" -> exists u', t = u' +++ v.
Proof. intros c t [|d u] v E Hu; [congruence|]. injection E as _ ->. eauto. Qed.

Lemma extract_line : forall r line, shows r line -> (exists k, key r = "smack:" +++ k) -> extract line = Some (key r, value r).
Proof.
  intros r line (pre & post & E & Hn & H1 & H2 & H3) (k & Ek). apply without_nonl in Hn. rewrite E, Ek in Hn. unfold extract.
  assert (forall u v, u +++ v = k +++ " = " +++ value r +++ ")" +++ post -> allc nonl v) as Hsuf.
  { intros u v Euv. apply allc_app in Hn as (_ & Hn). cbn in Hn. do 7 (destruct Hn as (_ & Hn)). assert (allc nonl (u +++ v)) as G by (rewrite Euv; exact Hn). apply allc_app in G. tauto. }
  assert (first record_re line [(2, value r); (1, key r)] "") as Hf.
  { rewrite E, Ek. unfold record_re. apply first_greedy; [exact Hn| |].
    - intros u v Ev Hu. apply ms_none. intros x y -> L.
      apply lang_cat in L as (p & q & -> & Lp & Lq). apply lang_cat in Lq as (g & q' & -> & Lg & _). apply lang_grp, lang_cat in Lg as (w & w' & -> & Lw & _).
      apply lang_word in Lw as ->. apply lang_chr in Lp as (ch & -> & Hch). apply Ascii.eqb_eq in Hch as <-.
      cbn [String.append] in Ev. destruct (proper_suffix _ _ _ _ Ev Hu) as (u' & Eu'). apply H1. rewrite Ek.
      exists u', (w' +++ q' +++ y). cbn [String.append]. rewrite Eu'. f_equal. rewrite !sapp_assoc. reflexivity.
    - replace [(2, value r); (1, "smack:" +++ k)] with (([(2, value r); (1, "smack:" +++ k)] : captures) ++ []) by reflexivity.
      eapply first_cat; [apply first_chr; reflexivity|].
      replace [(2, value r); (1, "smack:" +++ k)] with (([(2, value r)] : captures) ++ [(1, "smack:" +++ k)]) by reflexivity.
      rewrite sapp_assoc. apply first_greedy_word.
      + apply (Hsuf ""). reflexivity.
      + intros u v Ev Hu. apply ms_chr_cat_nil. intros y ->. apply H2. cbn [String.append] in Ev. destruct (proper_suffix _ _ _ _ Ev Hu) as (u' & Eu').
        exists u', y. exact Eu'.
      + replace ([(2, value r)] : captures) with (([(2, value r)] : captures) ++ []) by reflexivity.
        eapply first_cat; [apply first_word|].
        replace [(2, value r)] with (([] : captures) ++ [(2, value r)]) by reflexivity. apply first_greedy_grp.
        * apply (Hsuf (k +++ " = ")). rewrite sapp_assoc. reflexivity.
        * intros u v Ev Hu. apply ms_none. intros x y -> L. apply lang_cat in L as (p & q & -> & Lp & _). apply lang_chr in Lp as (ch & -> & Hch). apply Ascii.eqb_eq in Hch as <-.
          cbn [String.append] in Ev. destruct (proper_suffix _ _ _ _ Ev Hu) as (u' & Eu'). unfold without in H3. rewrite Eu' in H3. apply all_allc, allc_app in H3 as (_ & (H3 & _)). discriminate.
        * replace ([] : captures) with (([] : captures) ++ []) by reflexivity. eapply first_cat; [apply first_chr; reflexivity|].
          replace post with (post +++ "") by apply sapp_nil. apply first_star; [|exact Coq.Init.Logic.I].
          apply (Hsuf (k +++ " = " +++ value r +++ ")")). rewrite !sapp_assoc. reflexivity. }
  assert (py_search record_re line = Some ("", [(2, value r); (1, key r)], "")) as ->; [|reflexivity].
  apply (search_first record_re "" line _ _ Hf). intros [|] [|] Huv Hv; [congruence|discriminate|discriminate|discriminate].
Qed.

Lemma extract_other : forall line, other_line line -> extract line = None.
Proof.
  intros line (H & _). unfold extract. rewrite search_none; [reflexivity|]. intros u v ->. apply ms_none. intros x y -> L.
  apply lang_cat in L as (p0 & q0 & -> & _ & L). apply lang_cat in L as (p & q & -> & Lp & Lq). apply lang_cat in Lq as (g & q' & -> & Lg & _). apply lang_grp, lang_cat in Lg as (w & w' & -> & Lw & _).
  apply lang_word in Lw as ->. apply lang_chr in Lp as (ch & -> & Hch). apply Ascii.eqb_eq in Hch as <-.
  apply H. exists (u +++ p0), (w' +++ q' +++ y). rewrite !sapp_assoc. reflexivity.
Qed.

(** Splitting at a character *)
Lemma split_cat : forall sep a b, split sep (a +++ String sep b) = split sep a ++ split sep b.
Proof.
  intros sep a b. induction a as [|c a IH]; cbn [String.append split].
  - now rewrite Ascii.eqb_refl.
  - destruct (Ascii.eqb c sep); [now rewrite IH|]. rewrite IH. destruct (split sep a) as [|x l] eqn:E; [|reflexivity].
    destruct a as [|d a]; [discriminate|]. cbn in E. destruct (Ascii.eqb d sep); [discriminate|]. destruct (split sep a); discriminate.
Qed.
Lemma split_nil : forall sep s, split sep s <> [].
Proof. intros sep [|c s]; [discriminate|]. cbn. destruct (Ascii.eqb c sep); [discriminate|]. destruct (split sep s); discriminate. Qed.
Lemma split_free : forall sep s, without sep s -> split sep s = [s].
Proof.
  intros sep s H. induction s as [|c s IH]; [reflexivity|]. destruct H as (Hc & H). cbn. rewrite Ascii.eqb_sym. destruct (Ascii.eqb sep c); [discriminate|]. now rewrite IH.
Qed.
Lemma split_ends : forall sep a w, without sep w -> exists l x, split sep (a +++ w) = l ++ [x +++ w].
Proof.
  intros sep a w Hw. induction a as [|c a (l & x & IH)].
  - exists [], "". now rewrite split_free.
  - cbn [String.append split]. rewrite IH. destruct (Ascii.eqb c sep); [now exists ("" :: l), x|]. destruct l as [|y l]; [now exists [], (String c x)|]. now exists (String c y :: l), x.
Qed.
Lemma split_text : forall lines, lines <> [] -> Forall (without newline) lines -> split newline (text lines) = lines.
Proof.
  induction lines as [|x lines IH]; intros Hn H; [congruence|]. apply Forall_cons_iff in H as (Hx & H). destruct lines as [|y lines]; [now apply split_free|].
  change (text (x :: y :: lines)) with (x +++ String newline (text (y :: lines))). rewrite split_cat, split_free by exact Hx. cbn. f_equal. apply IH; [discriminate|exact H].
Qed.

(** The keys *)
Lemma key_split : forall r, names_ok r -> split ":" (key r) =
  match r with Ext f _ => ["smack"; "ext"; f] | Entry fn _ => ["smack"; "entry"; fn] | Arg fn x _ => ["smack"; "arg"; fn; x] end.
Proof.
  intros [f t|fn t|fn x t] H; unfold key.
  - change ("smack:ext:" +++ f) with ("smack" +++ String ":" ("ext" +++ String ":" f)). rewrite !split_cat. cbn [names_ok] in H. now rewrite (split_free ":" f H).
  - change ("smack:entry:" +++ fn) with ("smack" +++ String ":" ("entry" +++ String ":" fn)). rewrite !split_cat. cbn [names_ok] in H. now rewrite (split_free ":" fn H).
  - change ("smack:arg:" +++ fn +++ ":" +++ x) with ("smack" +++ String ":" ("arg" +++ String ":" (fn +++ String ":" x))). rewrite !split_cat. destruct H as (H1 & H2). now rewrite (split_free ":" fn H1), (split_free ":" x H2).
Qed.
Lemma contains_occurs : forall x s, contains x s = true <-> occurs x s.
Proof. intros x s. unfold contains. rewrite search_found. apply found_word. Qed.
Lemma occurs_parts : forall w s, without ":" w -> occurs ("smack:" +++ w +++ ":") s -> exists l x m, split ":" s = l ++ (x +++ "smack") :: w :: m /\ m <> [].
Proof.
  intros w s Hw (a & b & ->). replace (a +++ ("smack:" +++ w +++ ":") +++ b) with ((a +++ "smack") +++ String ":" (w +++ String ":" b)).
  - rewrite !split_cat. destruct (split_ends ":" a "smack") as (l & x & E); [now repeat split|]. rewrite E, (split_free ":" w Hw). exists l, x, (split ":" b). rewrite <- app_assoc. split; [reflexivity|apply split_nil].
  - rewrite !sapp_assoc. cbn. rewrite ?sapp_assoc. reflexivity.
Qed.
Lemma kinds : forall r, names_ok r ->
  contains "smack:entry:" (key r) = (match r with Entry _ _ => true | _ => false end) /\
  (match r with Entry _ _ => True | _ => contains "smack:arg:" (key r) = (match r with Arg _ _ _ => true | _ => false end) end) /\
  (match r with Ext _ _ => contains "smack:ext:" (key r) = true | _ => True end).
Proof.
  intros r H. pose proof (key_split r H) as E.
  assert (forall w, without ":" w -> contains ("smack:" +++ w +++ ":") (key r) = true -> exists l x m, split ":" (key r) = l ++ (x +++ "smack") :: w :: m /\ m <> []) as G.
  { intros w Hw Hc. apply contains_occurs in Hc. now apply occurs_parts. }
  assert (forall x, x +++ "smack" <> "arg") as Hx by (intros x Ex; apply (f_equal String.length) in Ex; rewrite slen_app in Ex; cbn in Ex; lia).
  split; [|split].
  - destruct r as [f t|fn t|fn a t].
    + apply not_true_iff_false. intros Hc. destruct (G "entry" ltac:(now repeat split) Hc) as (l & x & m & Es & Hm). rewrite E in Es.
      destruct l as [|l0 [|l1 [|l2 l]]]; cbn in Es; try discriminate Es; [injection Es; intros; subst; congruence|destruct l; discriminate].
    + apply contains_occurs. now exists "", fn.
    + apply not_true_iff_false. intros Hc. destruct (G "entry" ltac:(now repeat split) Hc) as (l & x & m & Es & Hm). rewrite E in Es.
      destruct l as [|l0 [|l1 [|l2 [|l3 l]]]]; cbn in Es; try discriminate Es.
      * injection Es; intros. apply (Hx x). congruence.
      * injection Es; intros; subst; congruence.
      * destruct l; discriminate.
  - destruct r as [f t|fn t|fn a t]; [|exact Coq.Init.Logic.I|].
    + apply not_true_iff_false. intros Hc. destruct (G "arg" ltac:(now repeat split) Hc) as (l & x & m & Es & Hm). rewrite E in Es.
      destruct l as [|l0 [|l1 [|l2 l]]]; cbn in Es; try discriminate Es; [injection Es; intros; subst; congruence|destruct l; discriminate].
    + apply contains_occurs. exists "", (fn +++ ":" +++ a). reflexivity.
  - destruct r as [f t|fn t|fn a t]; [|exact Coq.Init.Logic.I|exact Coq.Init.Logic.I]. apply contains_occurs. now exists "", f.
Qed.

(** ** The dictionaries *)
Lemma lookup_set : forall d k v k', lookup (set_key d k v) k' = if String.eqb k k' then Some v else lookup d k'.
Proof.
  induction d as [|(x, w) d IH]; intros k v k'; [reflexivity|]. cbn [set_key]. destruct (String.eqb_spec x k) as [->|N].
  - cbn [lookup]. destruct (String.eqb k k'); reflexivity.
  - cbn [lookup]. rewrite IH. destruct (String.eqb_spec x k') as [->|N']; [|reflexivity]. destruct (String.eqb_spec k k') as [->|]; [congruence|reflexivity].
Qed.
Lemma keys_set : forall d k v, map fst (set_key d k v) = match lookup d k with Some _ => map fst d | None => map fst d ++ [k] end.
Proof.
  induction d as [|(x, w) d IH]; intros k v; [reflexivity|]. cbn. destruct (String.eqb_spec x k) as [->|N]; [reflexivity|]. cbn. rewrite IH. destruct (lookup d k); reflexivity.
Qed.
Fixpoint fold_records (l : list record) (d : dict * dict) : option (dict * dict) :=
  match l with [] => Some d | r :: l => match add_value (key r) (value r) d with Some d => fold_records l d | None => None end end.
Lemma prefix_key : forall r, exists k, key r = "smack:" +++ k.
Proof. intros [f t|fn t|fn x t]; cbn; eauto. Qed.
Lemma add_prints : forall recs lines, prints recs lines -> forall d, add_lines lines d = fold_records recs d.
Proof.
  intros recs lines H. induction H as [|r l line ls Hn Hs H IH|l line ls Ho H IH]; intros d; cbn [add_lines fold_records]; [reflexivity| |].
  - rewrite (extract_line r line Hs (prefix_key r)). destruct (add_value (key r) (value r) d); [apply IH|reflexivity].
  - now rewrite (extract_other line Ho).
Qed.
Lemma prints_lines : forall recs lines, prints recs lines -> Forall (without newline) lines /\ Forall names_ok recs.
Proof. intros recs lines H. induction H as [|r l line ls Hn (pre & post & _ & Hw & _) H (IH1 & IH2)|l line ls (_ & Hw) H (IH1 & IH2)]; split; auto. Qed.
Lemma extract_values_prints : forall recs lines, prints recs lines -> extract_values (text lines) = fold_records recs ([], []).
Proof.
  intros recs lines H. destruct lines as [|x lines].
  - inversion H; subst. reflexivity.
  - unfold extract_values. rewrite split_text; [now apply add_prints|discriminate|now apply (prints_lines _ _ H)].
Qed.
Lemma add_record : forall r d, names_ok r -> add_value (key r) (value r) d =
  match r with
  | Ext f t => Some (fst d, set_key (snd d) f (match lookup (snd d) f with Some l => l | None => [] end ++ [t]))
  | Entry fn t => Some (set_key (fst d) fn [], snd d)
  | Arg fn x t => match lookup (fst d) fn with Some l => Some (set_key (fst d) fn (l ++ [t]), snd d) | None => None end
  end.
Proof.
  intros r (A & R) H. destruct (kinds r H) as (K1 & K2 & K3). pose proof (key_split r H) as E. unfold add_value.
  destruct r as [f t|fn t|fn x t]; rewrite K1.
  - rewrite K2, K3, E. reflexivity.
  - rewrite E. reflexivity.
  - rewrite K2, E. reflexivity.
Qed.
