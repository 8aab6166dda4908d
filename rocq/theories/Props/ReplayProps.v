(** C63: replaying an error trace runs the program on the values of the trace. *)
From Coq Require Import ZArith List String Ascii Bool Lia.
From Verif.Spec Require Import Regex TraceValues Replay.
From Verif.Model Require Import PyRegex ErrTrace Replay.
From Verif.Props Require Import RegexProps.
From Verif.Proofs Require Import TraceText ReplayText ReplayMissing ReplayRun.
Import ListNotations.
Open Scope string_scope.
Open Scope list_scope.
Open Scope Z_scope.

(** The tables and arguments are those of the trace: for each function the values of its
    calls, in order; for each entry point the arguments of its last call. *)
Theorem C63_values : forall recs lines, prints recs lines -> in_order recs ->
  exists arguments return_values, extract_values (text lines) = Some (arguments, return_values) /\
    (forall f, lookup return_values f = match values_of f recs with [] => None | l => Some l end) /\
    (forall fn, lookup arguments fn = args_of fn recs).
Proof.
  intros recs lines H Ho. rewrite (extract_values_prints recs lines H). destruct (prints_lines recs lines H) as (_ & Hn).
  destruct (fold_value recs [] [] Hn) as (A & R & E & H1 & H2).
  { intros a fn x t b Hl. right. eapply Ho, Hl. }
  exists A, R. split; [exact E|]. split; [|exact H2]. intros f. rewrite H1. reflexivity.
Qed.
Print Assumptions C63_values.

(** The functions with stubs are those the linker misses. *)
Theorem C63_missing : forall names lines, linker_says names lines -> missing_definitions (text lines) = names.
Proof. exact missing_said. Qed.
Print Assumptions C63_missing.

(** *** The replay of a failing execution *)
Section Records.
  Variables (fn : string) (params : list string) (inside : string -> Z -> list record -> Prop) (called : string -> Prop).
  Hypothesis Hin : forall f v i r, inside f v i -> In r i -> exists g t z, r = Ext g t /\ decimal t z /\ ~ called g.
  Lemma emits_ext : forall events recs, emits fn params inside events recs -> (forall a, ~ In (Entered a) events) ->
    (forall f v, In (Answer f v) events -> called f /\ is_recorded f = true) ->
    (forall r, In r recs -> exists g t z, r = Ext g t /\ decimal t z) /\
    (forall f, called f -> Forall2 decimal (values_of f recs) (answers f events)).
  Proof.
    intros events recs H. induction H as [|f v t i l r Hi Ht H IH|args e l r He H IH]; intros Hno Hc.
    - split; [intros r []|constructor].
    - destruct IH as (IH1 & IH2); [intros a Ha; apply (Hno a); now right|intros g w Hg; apply (Hc g w); now right|].
      destruct (Hc f v (or_introl eq_refl)) as (Hf & Hr). rewrite Hr. split.
      + intros x Hx. apply in_app_or in Hx as [Hx|[<-|Hx]]; [|exists f, t, v; auto|auto]. destruct (Hin f v i x Hi Hx) as (g & u & z & -> & Hz & _). eauto.
      + intros g Hg. unfold values_of. rewrite flat_map_app. fold (values_of g i).
        assert (values_of g i = []) as ->.
        { assert (forall x, In x i -> exists h u z, x = Ext h u /\ decimal u z /\ ~ called h) as Hx by (intros x; apply (Hin f v i x Hi)). clear - Hx Hg. induction i as [|x i IHi]; [reflexivity|].
          cbn. fold (values_of g i). rewrite IHi by (intros; apply Hx; now right). destruct (Hx x (or_introl eq_refl)) as (h & u & z & -> & _ & Nh). destruct (String.eqb_spec h g) as [->|]; [contradiction|reflexivity]. }
        cbn. fold (values_of g r). fold (answers g l). destruct (String.eqb f g); cbn; [constructor; [exact Ht|]|]; now apply IH2.
    - exfalso. apply (Hno args). now left.
  Qed.
End Records.
Lemma fold_app : forall a b d, fold_records (a ++ b) d = match fold_records a d with Some d => fold_records b d | None => None end.
Proof. induction a as [|r a IH]; intros b d; [reflexivity|]. cbn. destruct (add_value (key r) (value r) d); [apply IH|reflexivity]. Qed.
Lemma fold_args : forall fn params args l, args_recorded fn params args l -> Forall names_ok l ->
  exists ts, Forall2 decimal ts args /\ forall old R, fold_records l ([(fn, old)], R) = Some ([(fn, old ++ ts)], R).
Proof.
  intros fn. induction params as [|x params IH]; intros [|v args] l H Hn; cbn in H; try contradiction.
  - subst l. exists []. split; [constructor|]. intros old R. cbn. now rewrite app_nil_r.
  - destruct H as (t & l' & -> & Ht & H). apply Forall_cons_iff in Hn as (Hx & Hn). destruct (IH args l' H Hn) as (ts & Hts & Hf). exists (t :: ts). split; [now constructor|]. intros old R.
    cbn [fold_records]. rewrite (add_record _ _ Hx). cbn [fst snd lookup set_key]. rewrite String.eqb_refl. rewrite Hf. now rewrite <- app_assoc.
Qed.
Lemma fold_exts : forall l A R, Forall names_ok l -> (forall r, In r l -> exists g t z, r = Ext g t /\ decimal t z) ->
  exists R', fold_records l (A, R) = Some (A, R') /\
    forall f, lookup R' f = match lookup R f, values_of f l with Some v, w => Some (v ++ w) | None, [] => None | None, w => Some w end.
Proof.
  induction l as [|r l IH]; intros A R Hn H.
  - exists R. split; [reflexivity|]. intros f. cbn. destruct (lookup R f); [now rewrite app_nil_r|reflexivity].
  - apply Forall_cons_iff in Hn as (Hr & Hn). cbn [fold_records]. rewrite (add_record _ _ Hr). destruct (H r (or_introl eq_refl)) as (g & t & z & -> & _). cbn [fst snd].
    destruct (IH A (set_key R g (match lookup R g with Some l => l | None => [] end ++ [t])) Hn) as (R' & E & HR); [intros; apply H; now right|].
    exists R'. split; [exact E|]. intros f. rewrite HR, lookup_set. cbn [values_of flat_map]. fold (values_of f l). destruct (String.eqb_spec g f) as [->|N]; [|reflexivity].
    destruct (lookup R f); cbn; rewrite <- ?app_assoc; reflexivity.
Qed.
Lemma values_decimal : forall l f, (forall r, In r l -> exists g t z, r = Ext g t /\ decimal t z) -> exists vs, Forall2 decimal (values_of f l) vs.
Proof.
  induction l as [|r l IH]; intros f H; [exists []; constructor|]. destruct (IH f) as (vs & Hv); [intros; apply H; now right|]. destruct (H r (or_introl eq_refl)) as (g & t & z & -> & Hz).
  cbn. fold (values_of f l). destruct (String.eqb g f); [exists (z :: vs); now constructor|exists vs; exact Hv].
Qed.

Lemma named_recorded : forall f rest, f = "__VERIFIER" +++ rest \/ f = "__SMACK" +++ rest -> is_recorded f = true.
Proof. intros f rest [-> | ->]; destruct rest; reflexivity. Qed.

Section Replay.
  Context {S : Type} (step : S -> act S) (types : string -> bool * Z) (junk : string -> nat -> Z) (start : string -> list Z -> S).

  (** If the verifier's trace shows an execution in which an assertion fails, the replay
      fails it too: the functions whose results are inputs are recorded, have types of
      at most 32 bits and no definition, and the library does not call them by itself. *)
  Theorem C63_replay : forall fn params (inside : string -> Z -> list record -> Prop) args events recs lines names linker_lines,
    fails step (start fn args) events ->
    (forall a, ~ In (Entered a) events) ->
    Forall (fun v => - 2 ^ 31 <= v < 2 ^ 31) args ->
    (forall f v, In (Answer f v) events ->
       In f names /\ f <> "__VERIFIER_assert" /\ f <> "__VERIFIER_assume" /\ (exists rest, f = "__VERIFIER" +++ rest \/ f = "__SMACK" +++ rest) /\ 0 < snd (types f) <= 32 /\ in_type (types f) v) ->
    (forall f v i r, inside f v i -> In r i -> exists g t z, r = Ext g t /\ decimal t z /\ forall w, ~ In (Answer g w) events) ->
    emits fn params inside (Entered args :: events) recs -> prints recs lines -> linker_says names linker_lines ->
    exists fuel, replay step types junk start fuel (text lines) (text linker_lines) = Some true.
  Proof.
    intros fn params inside args events recs lines names linker_lines Hfail Hno Hargs Hans Hin He Hp Hl.
    unfold replay. rewrite (missing_said names linker_lines Hl), (extract_values_prints recs lines Hp).
    destruct (prints_lines recs lines Hp) as (_ & Hn).
    inversion He as [| |args' e l r Hent Hem]; subst. destruct Hent as (t0 & l' & -> & Hargrec). apply Forall_app in Hn as (Hn1 & Hn2). apply Forall_cons_iff in Hn1 as (Hn0 & Hn1).
    set (called := fun f => exists v, In (Answer f v) events).
    destruct (emits_ext fn params inside called) with (events := events) (recs := r) as (Hx1 & Hx2).
    { intros f v i x Hi Hx. destruct (Hin f v i x Hi Hx) as (g & t & z & -> & Hz & Hg). exists g, t, z. split; [reflexivity|]. split; [exact Hz|]. intros (w & Hw). exact (Hg w Hw). }
    { exact Hem. } { exact Hno. } { intros f v Hf. split; [now exists v|]. apply Hans in Hf. destruct Hf as (_ & _ & _ & (rest & Hr) & _). now apply (named_recorded f rest). }
    destruct (fold_args fn params args l' Hargrec Hn1) as (ts & Hts & Hft).
    assert (fold_records (Entry fn t0 :: l') ([], []) = Some ([(fn, ts)], [])) as E1.
    { cbn [fold_records]. rewrite (add_record _ _ Hn0). cbn [fst snd set_key]. apply (Hft [] []). }
    destruct (fold_exts r [(fn, ts)] [] Hn2 Hx1) as (R & ER & HR).
    assert (fold_records ((Entry fn t0 :: l') ++ r) ([], []) = Some ([(fn, ts)], R)) as EF by (rewrite fold_app, E1; exact ER). rewrite EF.
    assert (forall f vals, lookup R f = Some vals -> vals = values_of f r) as HRv.
    { intros f vals Hv. rewrite HR in Hv. cbn in Hv. destruct (values_of f r); [discriminate|congruence]. }
    destruct (compile_stubs R fn ts args (filter (fun f => negb (member f special_names)) (distinct names)) (c_values_decimal _ _ Hts)) as (tables & EC & HT).
    { apply forallb_forall. intros x Hx. rewrite Forall_forall in Hargs. specialize (Hargs x Hx). unfold fits_int. apply andb_true_iff. split; [now apply Z.leb_le|now apply Z.ltb_lt]. }
    { intros f vals _ Hv. rewrite (HRv f vals Hv). destruct (values_decimal r f Hx1) as (vs & Hvs). exists vs. now apply c_values_decimal. }
    unfold harness. cbn [map fst snd]. change (fun f => match lookup R f with Some vals => Table f vals | None => Void f end) with (stub R). rewrite EC. cbn beta iota.
    destruct (run_fails step types junk tables events) with (s := start fn args) (l := events) (done := @nil event) (idx := fun _ : string => O) (out := "") as (fuel & out' & Hrun).
    { intros f v Hf. destruct (Hans f v Hf) as (H1 & H2 & H3 & H4 & H5 & H6). split; [exact H5|]. split; [exact H6|].
      assert (Forall2 decimal (values_of f r) (answers f events)) as HV by (apply Hx2; now exists v).
      assert (answers f events <> []) as Hne.
      { clear - Hf. induction events as [|e l IH]; [destruct Hf|]. cbn. destruct Hf as [->|Hf]; [rewrite String.eqb_refl; discriminate|]. intros E. apply app_eq_nil in E as (_ & E). now apply (IH Hf). }
      apply (HT f (values_of f r) (answers f events)).
      - apply filter_In. split; [now apply in_distinct|]. unfold member, special_names. cbn. rewrite orb_false_r. apply negb_true_iff, orb_false_iff. split; now apply String.eqb_neq.
      - rewrite HR. cbn. destruct (values_of f r); [inversion HV; congruence|reflexivity].
      - now apply c_values_decimal. }
    { exact Hfail. } { reflexivity. } { reflexivity. }
    exists fuel. rewrite Hrun. cbn [Z.eqb andb]. f_equal. apply contains_occurs. now exists out', (String newline "").
  Qed.

  (** A successful replay is a real failure of the program, from the trace's arguments, on
      inputs of their types; unless the program itself prints "error reached!". *)
  Theorem C63_success : (forall f, 0 < snd (types f)) -> forall fuel verifier_output linker_output,
    replay step types junk start fuel verifier_output linker_output = Some true ->
    exists fn args, Forall (fun v => - 2 ^ 31 <= v < 2 ^ 31) args /\
      ((exists events, fails step (start fn args) events /\ forall f v, In (Answer f v) events -> in_type (types f) v) \/
       (exists t, returns step (start fn args) t /\ occurs "error reached!" t)).
  Proof.
    intros Hw fuel vo lo H. unfold replay in H. destruct (extract_values vo) as [(A & R)|]; [|discriminate].
    destruct (compile _) as [(tables & [|(fn & args) [|]])|] eqn:EC; try discriminate. destruct (run _ _ _ _ _ _ _) as [[code out|]|] eqn:ER; try discriminate.
    injection H as H. apply andb_true_iff in H as (H1 & H2). apply Z.eqb_eq in H1 as ->. apply contains_occurs in H2. exists fn, args. split.
    - clear - EC. assert (forall l tables ws, compile l = Some (tables, ws) -> Forall (fun w => forallb fits_int (snd w) = true) ws) as G.
      { induction l as [|d l IH]; intros tb ws E; cbn in E; [injection E as <- <-; constructor|]. destruct (compile l) as [(t1 & w1)|]; [|discriminate]. specialize (IH t1 w1 eq_refl).
        destruct d as [f vals|f|f vals]; [destruct (c_values vals); [|discriminate]; injection E as <- <-; exact IH|injection E as <- <-; exact IH|].
        destruct (c_values vals) as [vs|]; [|discriminate]. destruct (forallb fits_int vs) eqn:Ef; [|discriminate]. injection E as <- <-. constructor; assumption. }
      apply G in EC. apply Forall_cons_iff in EC as (E & _). cbn in E. rewrite forallb_forall in E. apply Forall_forall. intros x Hx. specialize (E x Hx). unfold fits_int in E. apply andb_true_iff in E as (E1 & E2). apply Z.leb_le in E1. apply Z.ltb_lt in E2. lia.
    - destruct (run_sound step types junk Hw _ _ _ _ _ _ ER) as [Hf|(t & Hr & Ho)]; [now left|]. right. exists t. split; [exact Hr|]. cbn in Ho. now rewrite <- Ho.
  Qed.
End Replay.
Print Assumptions C63_replay.
Print Assumptions C63_success.

(** *** Examples *)
Lemma shows_by : forall pre post r, has newline (pre +++ "(" +++ key r +++ " = " +++ value r +++ ")" +++ post) = false ->
  contains "(smack:" (key r +++ " = " +++ value r +++ ")" +++ post) = false -> contains " = " ("= " +++ value r +++ ")" +++ post) = false -> has ")" post = false ->
  shows r (pre +++ "(" +++ key r +++ " = " +++ value r +++ ")" +++ post).
Proof.
  intros pre post r H1 H2 H3 H4. exists pre, post. split; [reflexivity|]. split; [now apply has_without|]. split; [rewrite <- contains_occurs, H2; discriminate|]. split; [rewrite <- contains_occurs, H3; discriminate|now apply has_without].
Qed.
Definition line (r : record) : string := "a.c(9): (" +++ key r +++ " = " +++ value r +++ ")".
Lemma prints_line : forall r l ls, names_ok r -> has newline (line r) = false -> contains "(smack:" (key r +++ " = " +++ value r +++ ")") = false -> contains " = " ("= " +++ value r +++ ")") = false ->
  prints l ls -> prints (r :: l) (line r :: ls).
Proof. intros r l ls Hn H1 H2 H3 H. constructor; [exact Hn| |exact H]. apply (shows_by "a.c(9): " "" r H1 H2 H3 eq_refl). Qed.
Ltac printed_lines := repeat (apply prints_line; [now repeat split|reflexivity|reflexivity|reflexivity|]); constructor.
Ltac dec := first [exists false; eexists; split; [reflexivity|]; split; [now repeat split|reflexivity]|exists true; eexists; split; [reflexivity|]; split; [now repeat split|reflexivity]].
Definition int_fn := "__VERIFIER_nondet_int".
Definition ld (f : string) : string := "a.c: undefined reference to `" +++ f +++ "'".
Lemma ld_says : forall f l ls, without "'" f -> without newline f -> without "034" f -> without "\" f -> linker_says l ls -> linker_says (f :: l) (ld f :: ls).
Proof.
  intros f l ls H0 H1 H2 H3 H. constructor; [|exists "a.c: ", ""; split; [reflexivity|]; split; now repeat split|exact H].
  unfold linker_line, ld. rewrite !without_app. repeat (split; [split; [now repeat split|]; split; [assumption|now repeat split]|]). split; [now repeat split|]. split; [assumption|now repeat split].
Qed.

(** int main(int n) { x = nondet_int(); assume(x < 0); y = nondet_int(); assert(x + y + n != 10); } *)
Inductive st := P0 (n : Z) | P1 (n x : Z) | P2 (n x : Z) | P3 (n x y : Z) | Stop.
Definition prog (s : st) : act st :=
  match s with
  | P0 n => Input int_fn (fun x => P1 n x)
  | P1 n x => Assume (x <? 0) (P2 n x)
  | P2 n x => Input int_fn (fun y => P3 n x y)
  | P3 n x y => Assert (negb (x + y + n =? 10)) Stop
  | Stop => Return
  end.
Definition ints (f : string) : bool * Z := (true, 32).
Definition begins (fn : string) (args : list Z) : st := match args with [n] => P0 n | _ => Stop end.
Definition no_inside (f : string) (v : Z) (l : list record) : Prop := l = [].
Example C63_nonvacuous : exists fuel,
  replay prog ints (fun _ _ => 0) begins fuel
    (text [line (Entry "main" "main"); line (Arg "main" "n" "3"); "a.c(10): x"; line (Ext int_fn "-5"); line (Ext int_fn "12")])
    (text [ld int_fn; ld "__VERIFIER_assert"; "linker failed"]) = Some true.
Proof.
  apply (C63_replay prog ints (fun _ _ => 0) begins "main" ["n"] no_inside [3] [Answer int_fn (-5); Answer int_fn 12]
    [Entry "main" "main"; Arg "main" "n" "3"; Ext int_fn "-5"; Ext int_fn "12"] _ [int_fn; "__VERIFIER_assert"]).
  - eapply f_input; [reflexivity|]. eapply f_assume; [reflexivity|]. eapply f_input; [reflexivity|]. eapply f_now. reflexivity.
  - intros a [H|[H|[]]]; discriminate.
  - constructor; [lia|constructor].
  - intros f v [H|[H|[]]]; injection H as <- <-; (split; [now left|]; split; [discriminate|]; split; [discriminate|]; split; [exists "_nondet_int"; now left|]; split; [cbn; lia|cbn; lia]).
  - intros f v i r -> [].
  - change ([Entry "main" "main"; Arg "main" "n" "3"; Ext int_fn "-5"; Ext int_fn "12"]) with ([Entry "main" "main"; Arg "main" "n" "3"] ++ [] ++ [Ext int_fn "-5"] ++ [] ++ [Ext int_fn "12"] ++ []).
    apply e_enter; [do 2 eexists; split; [reflexivity|]; do 2 eexists; split; [reflexivity|]; split; [dec|reflexivity]|].
    apply (e_answer "main" ["n"] no_inside int_fn (-5) "-5" []); [reflexivity|dec|]. apply (e_answer "main" ["n"] no_inside int_fn 12 "12" []); [reflexivity|dec|constructor].
  - do 2 (apply prints_line; [now repeat split|reflexivity|reflexivity|reflexivity|]). apply p_other; [split; [|now repeat split]; rewrite <- contains_occurs; discriminate|]. printed_lines.
  - do 2 (apply ld_says; [now repeat split|now repeat split|now repeat split|now repeat split|]). apply s_other; [now repeat split|rewrite <- contains_occurs; discriminate|constructor].
Qed.

(** *** Where the replay does not follow the trace *)
Lemma replay_with : forall S step types junk start recs lines names linker_lines A R fuel, prints recs lines -> linker_says names linker_lines -> fold_records recs ([], []) = Some (A, R) ->
  @replay S step types junk start fuel (text lines) (text linker_lines) =
    match compile (harness A R names) with
    | Some (tables, [(fn, args)]) =>
        match run step types junk fuel tables (start fn args) (fun _ => O) "" with
        | Some (Exit code out) => Some ((code =? 0) && contains "error reached!" out)
        | _ => None
        end
    | _ => Some false
    end.
Proof. intros S step types junk start recs lines names linker_lines A R fuel H1 H2 H3. unfold replay. now rewrite (missing_said _ _ H2), (extract_values_prints _ _ H1), H3. Qed.
(** int main() { x = f(); assert(x != 5); } *)
Inductive st1 := Q0 | Q1 (x : Z) | Q2.
Definition prog1 (f : string) (bad : Z) (s : st1) : act st1 :=
  match s with Q0 => Input f Q1 | Q1 x => Assert (negb (x =? bad)) Q2 | Q2 => Return end.
Definition begins1 (fn : string) (args : list Z) : st1 := Q0.
Lemma prog1_fails : forall f bad, fails (prog1 f bad) Q0 [Answer f bad].
Proof. intros f bad. eapply f_input; [reflexivity|]. eapply f_now. cbn. rewrite Z.eqb_refl. reflexivity. Qed.
Ltac linked := repeat (apply ld_says; [now repeat split|now repeat split|now repeat split|now repeat split|]); constructor.

(** With bit vectors the trace has 5bv32, which is no C constant. *)
Theorem C63_bitvector_refuted : exists lines, prints [Entry "main" "main"; Ext int_fn "5bv32"] lines /\
  forall fuel, replay (prog1 int_fn 5) ints (fun _ _ => 0) begins1 fuel (text lines) (text [ld int_fn]) = Some false.
Proof.
  eexists. split; [printed_lines|]. intros fuel. erewrite replay_with; [|printed_lines|linked|reflexivity]. reflexivity.
Qed.
Print Assumptions C63_bitvector_refuted.
(** Values of 64 bits lose their upper half. *)
Theorem C63_long_refuted : exists lines, prints [Entry "main" "main"; Ext "__VERIFIER_nondet_long" "4294967296"] lines /\
  fails (prog1 "__VERIFIER_nondet_long" (2 ^ 32)) Q0 [Answer "__VERIFIER_nondet_long" (2 ^ 32)] /\
  replay (prog1 "__VERIFIER_nondet_long" (2 ^ 32)) (fun _ => (true, 64)) (fun _ _ => 0) begins1 9 (text lines) (text [ld "__VERIFIER_nondet_long"]) = Some false.
Proof.
  eexists. split; [printed_lines|]. split; [apply prog1_fails|]. erewrite replay_with; [|printed_lines|linked|reflexivity]. vm_compute. reflexivity.
Qed.
Print Assumptions C63_long_refuted.
(** Results of functions that are not named __VERIFIER... or __SMACK... are not recorded. *)
Theorem C63_unrecorded_refuted : exists lines, emits "main" [] no_inside [Entered []; Answer "input" 5] [Entry "main" "main"] /\ prints [Entry "main" "main"] lines /\
  fails (prog1 "input" 5) Q0 [Answer "input" 5] /\
  replay (prog1 "input" 5) ints (fun _ _ => 0) begins1 9 (text lines) (text [ld "input"]) = Some false.
Proof.
  eexists. split.
  { change [Entry "main" "main"] with ([Entry "main" "main"] ++ [] ++ (if is_recorded "input" then [Ext "input" "5"] else []) ++ []). apply e_enter; [do 2 eexists; split; reflexivity|].
    apply (e_answer "main" [] no_inside "input" 5 "5" []); [reflexivity|dec|constructor]. }
  split; [printed_lines|]. split; [apply prog1_fails|]. erewrite replay_with; [|printed_lines|linked|reflexivity]. vm_compute. reflexivity.
Qed.
Print Assumptions C63_unrecorded_refuted.
Definition prog2 (s : st1) : act st1 :=
  match s with Q0 => Input "__VERIFIER_nondet_bool" (fun _ => Q2) | Q2 => Input int_fn Q1 | Q1 x => if x =? 5 then Assert false Q2 else Return end.
Definition bool_inside (f : string) (v : Z) (l : list record) : Prop :=
  if String.eqb f "__VERIFIER_nondet_bool" then exists t, decimal t v /\ l = [Ext "__SMACK_nondet_int" t; Ext int_fn t]
  else exists t, decimal t v /\ l = [Ext "__SMACK_nondet_int" t].
(** __VERIFIER_nondet_bool calls __VERIFIER_nondet_int (smack.c:1578-1582), which is
    recorded too: in b = nondet_bool(); x = nondet_int(); assert(x != 5) the replay gives
    x the value of b. *)
Theorem C63_library_refuted : exists recs lines,
  fails prog2 Q0 [Answer "__VERIFIER_nondet_bool" 1; Answer int_fn 5] /\
  emits "main" [] bool_inside [Entered []; Answer "__VERIFIER_nondet_bool" 1; Answer int_fn 5] recs /\ prints recs lines /\
  replay prog2 ints (fun _ _ => 0) begins1 9 (text lines) (text [ld "__VERIFIER_nondet_bool"; ld int_fn]) = Some false.
Proof.
  exists [Entry "main" "main"; Ext "__SMACK_nondet_int" "1"; Ext int_fn "1"; Ext "__VERIFIER_nondet_bool" "1"; Ext "__SMACK_nondet_int" "5"; Ext int_fn "5"].
  eexists. split; [eapply f_input; [reflexivity|]; eapply f_input; [reflexivity|]; eapply f_now; reflexivity|]. split.
  { apply (e_enter "main" [] bool_inside [] [Entry "main" "main"]); [do 2 eexists; split; reflexivity|].
    apply (e_answer "main" [] bool_inside "__VERIFIER_nondet_bool" 1 "1" [Ext "__SMACK_nondet_int" "1"; Ext int_fn "1"]); [exists "1"; split; [dec|reflexivity]|dec|].
    apply (e_answer "main" [] bool_inside int_fn 5 "5" [Ext "__SMACK_nondet_int" "5"]); [exists "5"; split; [dec|reflexivity]|dec|constructor]. }
  split; [printed_lines|]. erewrite replay_with; [|printed_lines|linked|reflexivity]. vm_compute. reflexivity.
Qed.
Print Assumptions C63_library_refuted.
Inductive st2 := F (n : Z) | G | H.
Definition prog3 (s : st2) : act st2 := match s with F n => if n =? 0 then Return else Enter [0] G | G => Assert false H | H => Return end.
Definition begins3 (fn : string) (args : list Z) : st2 := match args with [n] => F n | _ => H end.
(** If the entry point calls itself, the replay starts with the last call's arguments:
    f(n) { if (n) { f(0); assert(0); } } *)
Theorem C63_recursion_refuted : exists recs lines, fails prog3 (F 1) [Entered [0]] /\ emits "f" ["n"] no_inside [Entered [1]; Entered [0]] recs /\ prints recs lines /\
  replay prog3 ints (fun _ _ => 0) begins3 9 (text lines) (text [ld "__VERIFIER_assert"]) = Some false.
Proof.
  exists [Entry "f" "f"; Arg "f" "n" "1"; Entry "f" "f"; Arg "f" "n" "0"]. eexists. split; [eapply f_enter; [reflexivity|]; eapply f_now; reflexivity|]. split.
  { apply (e_enter "f" ["n"] no_inside [1] [Entry "f" "f"; Arg "f" "n" "1"]); [do 2 eexists; split; [reflexivity|]; do 2 eexists; split; [reflexivity|]; split; [dec|reflexivity]|].
    apply (e_enter "f" ["n"] no_inside [0] [Entry "f" "f"; Arg "f" "n" "0"]); [do 2 eexists; split; [reflexivity|]; do 2 eexists; split; [reflexivity|]; split; [dec|reflexivity]|constructor]. }
  split; [printed_lines|]. erewrite replay_with; [|printed_lines|linked|reflexivity]. vm_compute. reflexivity.
Qed.
Print Assumptions C63_recursion_refuted.
Definition prog4 (s : st1) : act st1 := match s with Q0 => Print "no error reached!" Q2 | _ => Return end.
(** A program that prints "error reached!" and never fails is replayed successfully. *)
Theorem C63_print_refuted : exists lines, prints [Entry "main" "main"] lines /\ (forall events, ~ fails prog4 Q0 events) /\
  replay prog4 ints (fun _ _ => 0) begins1 9 (text lines) (text [ld "puts"]) = Some true.
Proof.
  eexists. split; [printed_lines|]. split.
  - intros events Hf. inversion Hf as [| | |s t s' l E Hf'| |]; subst; try discriminate. injection E as <- <-. inversion Hf'; discriminate.
  - erewrite replay_with; [|printed_lines|linked|reflexivity]. vm_compute. reflexivity.
Qed.
Print Assumptions C63_print_refuted.
(** Of two records on a line only the last is seen; what follows a value on the line up to
    the last parenthesis is part of it. *)
Theorem C63_lines_refuted : extract "(smack:ext:f = 1), (smack:ext:g = 2)" = Some ("smack:ext:g", "2") /\ extract "(smack:ext:f = 1, RETURN from g )" = Some ("smack:ext:f", "1, RETURN from g ").
Proof. split; vm_compute; reflexivity. Qed.
Print Assumptions C63_lines_refuted.
(** Backslashes of a name are doubled. *)
Theorem C63_backslash_refuted : missing_definitions (text ["a.c: undefined reference to `f\g'"; "failed"]) = ["f\\g"].
Proof. vm_compute. reflexivity. Qed.
Print Assumptions C63_backslash_refuted.
(** If the linker's output has quotes of both kinds, Python escapes the one that ends a
    name. *)
Theorem C63_quotes_refuted : missing_definitions (text [String dquote "a.c" +++ String dquote ": undefined reference to `f'"; "failed"]) = ["f\"].
Proof. vm_compute. reflexivity. Qed.
Print Assumptions C63_quotes_refuted.
