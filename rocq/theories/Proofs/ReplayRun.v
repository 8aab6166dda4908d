(** The harness and its run. *)
From Coq Require Import ZArith List String Ascii Bool Lia.
From Verif.Spec Require Import Regex TraceValues Replay.
From Verif.Model Require Import PyRegex ErrTrace Replay.
From Verif.Props Require Import RegexProps.
From Verif.Proofs Require Import TraceText ReplayText ReplayMissing.
Import ListNotations.
Open Scope string_scope.
Open Scope list_scope.
Open Scope Z_scope.

Lemma fold_value : forall l R A, Forall names_ok l -> (forall a fn x t b, l = a ++ Arg fn x t :: b -> lookup A fn <> None \/ exists v, In (Entry fn v) a) ->
  exists A' R', fold_records l (A, R) = Some (A', R') /\
    (forall f, lookup R' f = match lookup R f, values_of f l with Some v, w => Some (v ++ w) | None, [] => None | None, w => Some w end) /\
    (forall fn, lookup A' fn = fold_left (fun a r =>
       match r with
       | Entry g _ => if String.eqb g fn then Some [] else a
       | Arg g _ t => if String.eqb g fn then match a with Some v => Some (v ++ [t]) | None => None end else a
       | _ => a
       end) l (lookup A fn)).
Proof.
  induction l as [|r l IH]; intros R A Hn Ho.
  - exists A, R. split; [reflexivity|]. split; [|reflexivity]. intros f. cbn. destruct (lookup R f) as [v|]; [now rewrite app_nil_r|reflexivity].
  - apply Forall_cons_iff in Hn as (Hr & Hn). cbn [fold_records]. rewrite (add_record r (A, R) Hr). cbn [fst snd]. destruct r as [f t|fn t|fn x t].
    + destruct (IH (set_key R f (match lookup R f with Some l => l | None => [] end ++ [t])) A Hn) as (A' & R' & E & H1 & H2).
      { intros a fn x t' b ->. destruct (Ho (Ext f t :: a) fn x t' b eq_refl) as [H|(v & [H|H])]; [now left|discriminate|right; eauto]. }
      exists A', R'. split; [exact E|]. split; [|exact H2]. intros g. rewrite H1, lookup_set. cbn [values_of flat_map]. fold (values_of g l). destruct (String.eqb_spec f g) as [->|N].
      * destruct (lookup R g); cbn; rewrite <- ?app_assoc; reflexivity.
      * reflexivity.
    + destruct (IH R (set_key A fn []) Hn) as (A' & R' & E & H1 & H2).
      { intros a fn' x t' b ->. rewrite lookup_set. destruct (String.eqb_spec fn fn') as [->|N]; [left; discriminate|]. destruct (Ho (Entry fn t :: a) fn' x t' b eq_refl) as [H|(v & [H|H])]; [now left|congruence|right; eauto]. }
      exists A', R'. split; [exact E|]. split; [exact H1|]. intros g. rewrite H2, lookup_set. reflexivity.
    + destruct (Ho [] fn x t l eq_refl) as [H|(v & [])]. destruct (lookup A fn) as [w|] eqn:EA; [|congruence].
      destruct (IH R (set_key A fn (w ++ [t])) Hn) as (A' & R' & E & H1 & H2).
      { intros a fn' x' t' b ->. rewrite lookup_set. destruct (String.eqb_spec fn fn') as [->|N]; [left; discriminate|]. destruct (Ho (Arg fn x t :: a) fn' x' t' b eq_refl) as [H'|(v & [H'|H'])]; [now left|discriminate|right; eauto]. }
      exists A', R'. split; [exact E|]. split; [exact H1|]. intros g. rewrite H2, lookup_set. cbn [fold_left]. destruct (String.eqb_spec fn g) as [->|N]; [now rewrite EA|reflexivity].
Qed.

(** Decimal constants *)
Lemma c_digits_numeral : forall d, is_numeral digit d -> c_digits d = Some (numeral 10 d).
Proof.
  intros d (Hn & H). unfold c_digits. assert (all_digits d = true) as E.
  { clear Hn. induction d as [|c d IH]; [reflexivity|]. destruct H as (Hc & H). cbn. now rewrite Hc, IH. }
  rewrite E. destruct d; [congruence|reflexivity].
Qed.
Lemma c_value_digit : forall c d, digit c = true -> c_value (String c d) = c_digits (String c d).
Proof. intros c d H. destruct c as [[|] [|] [|] [|] [|] [|] [|] [|]]; try reflexivity; discriminate. Qed.
Lemma c_value_decimal : forall t v, decimal t v -> c_value t = Some v.
Proof.
  intros t v (neg & d & -> & Hd & ->). destruct neg; cbn [minus String.append].
  - cbn. now rewrite (c_digits_numeral d Hd).
  - pose proof (c_digits_numeral d Hd) as E. destruct Hd as (Hn & H). destruct d as [|c d]; [congruence|]. destruct H as (Hc & _). now rewrite c_value_digit.
Qed.
Lemma c_values_decimal : forall ts vs, Forall2 decimal ts vs -> c_values ts = Some vs.
Proof. intros ts vs H. induction H as [|t v ts vs Ht H IH]; [reflexivity|]. cbn. now rewrite (c_value_decimal t v Ht), IH. Qed.

(** Conversions *)
Lemma convert_in : forall ty v, 0 < snd ty -> in_type ty (convert ty v).
Proof.
  intros (sg, w) v Hw. unfold in_type, convert. cbn [fst snd] in *. pose proof (Z.mod_pos_bound v (2 ^ w) ltac:(apply Z.pow_pos_nonneg; lia)) as Hm.
  destruct sg; [|exact Hm]. cbn [andb]. assert (2 ^ w = 2 * 2 ^ (w - 1)) as E by (rewrite <- Z.pow_succ_r by lia; f_equal; lia).
  destruct (2 ^ (w - 1) <=? v mod 2 ^ w) eqn:L; [apply Z.leb_le in L|apply Z.leb_gt in L]; lia.
Qed.
Lemma convert_id : forall ty v, 0 < snd ty -> in_type ty v -> convert ty v = v.
Proof.
  intros (sg, w) v Hw. unfold in_type, convert. cbn [fst snd] in *. intros H.
  assert (2 ^ w = 2 * 2 ^ (w - 1)) as E by (rewrite <- Z.pow_succ_r by lia; f_equal; lia).
  destruct sg; cbn [andb].
  - destruct (Z_lt_le_dec v 0) as [N|N].
    + replace (v mod 2 ^ w) with (v + 2 ^ w) by (apply (Z.mod_unique_pos v (2 ^ w) (-1)); lia).
      rewrite (proj2 (Z.leb_le _ _)) by lia. lia.
    + rewrite Z.mod_small by lia. rewrite (proj2 (Z.leb_gt _ _)) by lia. reflexivity.
  - now apply Z.mod_small.
Qed.
Lemma convert_mod : forall ty v, 0 <= snd ty -> exists k, convert ty v = v + k * 2 ^ snd ty.
Proof.
  intros (sg, w) v Hw. unfold convert. cbn [fst snd] in *. pose proof (Z.div_mod v (2 ^ w)) as D. assert (2 ^ w <> 0) as N by (apply Z.pow_nonzero; lia). specialize (D N).
  destruct (sg && _); [exists (- (v / 2 ^ w) - 1)|exists (- (v / 2 ^ w))]; lia.
Qed.
Lemma convert_add : forall ty v k, 0 <= snd ty -> convert ty (v + k * 2 ^ snd ty) = convert ty v.
Proof. intros (sg, w) v k Hw. unfold convert. cbn [fst snd] in *. rewrite Z.mod_add by (apply Z.pow_nonzero; lia). reflexivity. Qed.
Lemma convert_int : forall ty v, 0 < snd ty <= 32 -> in_type ty v -> convert ty (convert int_type v) = v.
Proof.
  intros ty v Hw H. destruct (convert_mod int_type v ltac:(cbn; lia)) as (k & E). rewrite E. cbn [int_type snd].
  replace (2 ^ 32) with (2 ^ (32 - snd ty) * 2 ^ snd ty) by (rewrite <- Z.pow_add_r by lia; f_equal; lia). rewrite Z.mul_assoc, convert_add by lia. apply convert_id; [lia|exact H].
Qed.

(** The harness *)
Lemma in_distinct : forall x l, In x (distinct l) <-> In x l.
Proof.
  intros x l. induction l as [|y l IH]; [tauto|]. cbn. rewrite filter_In, IH. split; [tauto|]. intros [->|H]; [now left|]. destruct (String.eqb_spec y x) as [->|N]; [now left|]. right. tauto.
Qed.
Definition stub (R : dict) (f : string) := match lookup R f with Some vals => Table f vals | None => Void f end.
Lemma compile_stubs : forall R fn texts args L, c_values texts = Some args -> forallb fits_int args = true ->
  (forall f vals, In f L -> lookup R f = Some vals -> exists vs, c_values vals = Some vs) ->
  exists tables, compile (map (stub R) L ++ [Wrapper fn texts]) = Some (tables, [(fn, args)]) /\
    forall f vals vs, In f L -> lookup R f = Some vals -> c_values vals = Some vs -> table_of tables f = Some (map (convert int_type) vs).
Proof.
  intros R fn texts args L Ht Hf. induction L as [|f L IH]; intros H.
  - cbn. rewrite Ht, Hf. exists []. split; [reflexivity|]. intros f vals vs [].
  - destruct IH as (tables & E & Hl); [intros g vals Hg; apply H; now right|]. cbn [map app]. unfold stub at 1. cbn [compile]. rewrite E. destruct (lookup R f) as [vals|] eqn:El.
    + destruct (H f vals (or_introl eq_refl) El) as (vs & Ev). rewrite Ev. eexists. split; [reflexivity|]. intros g vals' vs' Hg Eg Ev'. cbn [table_of]. destruct (String.eqb_spec f g) as [->|N].
      * assert (vals' = vals) as -> by congruence. congruence.
      * destruct Hg as [->|Hg]; [congruence|]. eapply Hl; eassumption.
    + exists tables. split; [reflexivity|]. intros g vals' vs' Hg Eg Ev'. destruct Hg as [->|Hg]; [congruence|]. eapply Hl; eassumption.
Qed.

(** The run *)
Definition answers (f : string) (l : list event) : list Z :=
  flat_map (fun e => match e with Answer g v => if String.eqb g f then [v] else [] | _ => [] end) l.
Section Run.
  Context {S : Type} (step : S -> act S) (types : string -> bool * Z) (junk : string -> nat -> Z).
  Lemma run_fails : forall tables events,
    (forall f v, In (Answer f v) events -> 0 < snd (types f) <= 32 /\ in_type (types f) v /\ table_of tables f = Some (map (convert int_type) (answers f events))) ->
    forall s l, fails step s l -> forall done idx out, events = done ++ l -> (forall f, idx f = List.length (answers f done)) ->
    exists fuel out', run step types junk fuel tables s idx out = Some (Exit 0 (out' +++ "error reached!" +++ String newline "")).
  Proof.
    intros tables events Ht s l H. induction H as [s f k v l E H IH|s s' l E H IH|s s' l E H IH|s t s' l E H IH|s a s' l E H IH|s s' E]; intros done idx out Hd Hi.
    - destruct (Ht f v) as (Hw & Hv & Htab); [rewrite Hd; apply in_or_app; right; now left|].
      destruct (IH (done ++ [Answer f v]) (bump idx f) out) as (fuel & out' & IH'); [now rewrite <- app_assoc| |].
      { intros g. unfold bump, answers. rewrite flat_map_app, app_length. cbn. rewrite Hi. destruct (String.eqb f g); cbn; unfold answers; lia. }
      exists (Datatypes.S fuel), out'. cbn [run]. rewrite E. unfold result. rewrite Htab, Hi.
      assert (nth_error (map (convert int_type) (answers f events)) (List.length (answers f done)) = Some (convert int_type v)) as ->.
      { rewrite Hd. unfold answers. rewrite flat_map_app, map_app, nth_error_app2 by (rewrite map_length; lia). rewrite map_length, Nat.sub_diag. cbn. now rewrite String.eqb_refl. }
      rewrite (proj2 (Z.leb_le _ _)) by lia. rewrite convert_int by assumption. exact IH'.
    - destruct (IH done idx out Hd Hi) as (fuel & out' & IH'). exists (Datatypes.S fuel), out'. cbn [run]. rewrite E. exact IH'.
    - destruct (IH done idx out Hd Hi) as (fuel & out' & IH'). exists (Datatypes.S fuel), out'. cbn [run]. rewrite E. exact IH'.
    - destruct (IH done idx (out +++ t) Hd Hi) as (fuel & out' & IH'). exists (Datatypes.S fuel), out'. cbn [run]. rewrite E. exact IH'.
    - destruct (IH (done ++ [Entered a]) idx out) as (fuel & out' & IH'); [now rewrite <- app_assoc| |].
      { intros g. rewrite Hi. unfold answers. rewrite flat_map_app. cbn. now rewrite app_nil_r. }
      exists (Datatypes.S fuel), out'. cbn [run]. rewrite E. exact IH'.
    - exists 1%nat, out. cbn [run]. rewrite E. reflexivity.
  Qed.
  Lemma result_in : forall tables f i v, 0 < snd (types f) -> result types junk tables f i = Some v -> in_type (types f) v.
  Proof.
    intros tables f i v Hw. unfold result. destruct (table_of tables f) as [vals|]; [destruct (nth_error vals i); [|discriminate]|]; [destruct (_ <=? _)|]; intros H; injection H as <-; now apply convert_in.
  Qed.
  Lemma run_sound : (forall f, 0 < snd (types f)) -> forall tables fuel s idx out o, run step types junk fuel tables s idx out = Some (Exit 0 o) ->
    (exists events, fails step s events /\ forall f v, In (Answer f v) events -> in_type (types f) v) \/ (exists t, returns step s t /\ o = out +++ t).
  Proof.
    intros Hw tables. induction fuel as [|fuel IH]; intros s idx out o H; [discriminate|]. cbn [run] in H. destruct (step s) as [f k|[|] s'|[|] s'|t s'|a s'|] eqn:E.
    - destruct (result types junk tables f (idx f)) as [v|] eqn:Er; [|discriminate]. destruct (IH _ _ _ _ H) as [(events & Hf & Hv)|(t & Hr & Ho)].
      + left. exists (Answer f v :: events). split; [econstructor; eassumption|]. intros g w [Eg|Hg]; [injection Eg as <- <-; eapply result_in; [apply Hw|exact Er]|now apply Hv].
      + right. exists t. split; [econstructor; eassumption|exact Ho].
    - destruct (IH _ _ _ _ H) as [(events & Hf & Hv)|(t & Hr & Ho)]; [left; exists events; split; [eapply f_assume; eassumption|exact Hv]|right; exists t; split; [eapply r_assume; eassumption|exact Ho]].
    - discriminate.
    - destruct (IH _ _ _ _ H) as [(events & Hf & Hv)|(t & Hr & Ho)]; [left; exists events; split; [eapply f_assert; eassumption|exact Hv]|right; exists t; split; [eapply r_assert; eassumption|exact Ho]].
    - left. exists []. split; [eapply f_now; eassumption|intros f v []].
    - destruct (IH _ _ _ _ H) as [(events & Hf & Hv)|(t' & Hr & Ho)]; [left; exists events; split; [eapply f_print; eassumption|exact Hv]|right; exists (t +++ t'); split; [eapply r_print; eassumption|now rewrite Ho, sapp_assoc]].
    - destruct (IH _ _ _ _ H) as [(events & Hf & Hv)|(t & Hr & Ho)]; [left; exists (Entered a :: events); split; [eapply f_enter; eassumption|intros f v [Eg|Hg]; [discriminate|now apply Hv]]|right; exists t; split; [eapply r_enter; eassumption|exact Ho]].
    - right. exists "". split; [now apply r_now|]. injection H as <-. now rewrite sapp_nil.
  Qed.
End Run.
