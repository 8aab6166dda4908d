(** C47: removal of dead definitions. *)
From Coq Require Import List String Bool Arith Lia.
From Verif.Spec Require Import CallGraph.
From Verif.Model Require Import MemorySafetyChecker RemoveDeadDefs.
Import ListNotations.
Open Scope string_scope.
Open Scope list_scope.

Lemma prefix_app : forall p n, String.prefix p n = true <-> exists y : string, (n = p ++ y)%string.
Proof.
  induction p as [|c p IH]; intros n.
  - split; [intros _; exists n; reflexivity|]. intros _. destruct n; reflexivity.
  - destruct n as [|d n]; cbn; [split; [discriminate|intros (y & H); discriminate]|]. destruct (Ascii.ascii_dec c d) as [->|N].
    + rewrite IH. split; intros (y & H); exists y; [now rewrite H|congruence].
    + split; [discriminate|]. intros (y & H). congruence.
Qed.
Lemma contains_occurs : forall p n, contains p n = true <-> occurs p n.
Proof.
  intros p. induction n as [|c n IH]; cbn [contains]; rewrite orb_true_iff, prefix_app.
  - split; [intros [(y & H)|H]; [exists EmptyString, y; exact H|discriminate]|]. intros (x & y & H). left. destruct x; [now exists y|discriminate].
  - rewrite IH. split.
    + intros [(y & H)|(x & y & H)]; [exists EmptyString, y; exact H|exists (String c x), y; cbn; congruence].
    + intros ([|d x] & y & H); [left; now exists y|right]. cbn in H. injection H as _ H. now exists x, y.
Qed.

(** The functions that are never removed: the entry points, those with __SMACK_ in
    their name and those with __VERIFIER_assume in it. *)
Definition root (entries : list string) (f : string) : Prop :=
  In f entries \/ occurs "__SMACK_" f \/ occurs "__VERIFIER_assume" f.

Lemma dead_spec : forall entries s F, dead entries s F = true <->
  ~ root entries (f_name F) /\ ((forall r, In r (uses s (f_name F)) -> is_block r = true) /\ f_droppable F = true \/ uses s (f_name F) = []).
Proof.
  intros entries s F. unfold dead, root, trivially_dead, no_uses, is_entry_point. rewrite !andb_true_iff, orb_true_iff, !negb_true_iff, andb_true_iff, forallb_forall.
  rewrite <- !contains_occurs.
  assert (existsb (String.eqb (f_name F)) entries = true <-> In (f_name F) entries) as E.
  { rewrite existsb_exists. split; [intros (x & H1 & H2); apply String.eqb_eq in H2; now rewrite H2|intros H; exists (f_name F); split; [exact H|apply String.eqb_refl]]. }
  rewrite <- E.
  assert (match uses s (f_name F) with [] => true | _ => false end = true <-> uses s (f_name F) = []) as -> by (destruct (uses s (f_name F)); split; congruence).
  rewrite <- !not_true_iff_false. tauto.
Qed.

Lemma in_uses : forall s f r, In r (uses s f) <-> ref_name r = f /\ ((exists g, In g (live s) /\ In r (f_refs g)) \/ In r (fixed s) \/ In r (lingering s)).
Proof.
  intros s f r. unfold uses. rewrite filter_In, !in_app_iff, in_flat_map, String.eqb_eq. split; [intros ([(g & H)|H] & E); eauto|intros (E & [(g & H)|H]); eauto].
Qed.

Lemma named_alive : forall entries s F r, In F (live s) -> names (f_name F) r -> (exists g, In g (live s) /\ In r (f_refs g)) \/ In r (fixed s) -> dead entries s F = false.
Proof.
  intros entries s F r HF Hn Hr. apply not_true_iff_false. rewrite dead_spec. intros (_ & H).
  assert (In r (uses s (f_name F))) as Hu. { apply in_uses. split; [destruct Hn as [-> | ->]; reflexivity|tauto]. }
  destruct H as [(H & _)|H]; [specialize (H r Hu); destruct Hn as [-> | ->]; discriminate|rewrite H in Hu; destruct Hu].
Qed.

(** Reachable functions survive a round. *)
Lemma erase_keeps : forall entries M s, globals M = fixed s -> NoDup (map f_name (funcs M)) -> incl (live s) (funcs M) ->
  (forall F, In F (funcs M) -> reachable M (root entries) (f_name F) -> In F (live s)) ->
  forall F, In F (funcs M) -> reachable M (root entries) (f_name F) -> In F (live (erase entries s)).
Proof.
  intros entries M s Hg Hd Hi Hk F HF HR. cbn [erase live]. apply filter_In. split; [now apply Hk|]. apply negb_true_iff.
  inversion HR as [f Hin Hroot E|f r Hr Hn E|g f r Hgm Hgr Hr Hn E]; subst f.
  - apply not_true_iff_false. rewrite dead_spec. tauto.
  - apply named_alive with (r := r); [now apply Hk|exact Hn|]. right. now rewrite <- Hg.
  - apply named_alive with (r := r); [now apply Hk|exact Hn|]. left. exists g. split; [now apply Hk|exact Hr].
Qed.

Lemma filter_le : forall A (f : A -> bool) l, List.length (filter f l) <= List.length l.
Proof. induction l as [|a l IH]; cbn; [lia|]. destruct (f a); cbn; lia. Qed.
Lemma filter_length_lt : forall A (f : A -> bool) l, existsb f l = true -> List.length (filter (fun x => negb (f x)) l) < List.length l.
Proof.
  induction l as [|a l IH]; cbn; intros H; [discriminate|]. destruct (f a) eqn:E; cbn in *.
  - pose proof (filter_le _ (fun x => negb (f x)) l). lia.
  - specialize (IH H). lia.
Qed.

Lemma rounds_inv : forall (P : state -> Prop) entries, (forall s, P s -> P (erase entries s)) ->
  forall fuel s, P s -> List.length (live s) < fuel ->
  exists s', rounds fuel entries s = Some s' /\ P s' /\ exists s0, P s0 /\ s' = erase entries s0 /\ forall F, In F (live s0) -> dead entries s0 F = false.
Proof.
  intros P entries HP. induction fuel as [|k IH]; intros s Hs Hf; [lia|]. cbn [rounds]. destruct (existsb (dead entries s) (live s)) eqn:E.
  - apply IH; [now apply HP|]. cbn [erase live]. pose proof (filter_length_lt _ _ _ E). lia.
  - exists (erase entries s). split; [reflexivity|]. split; [now apply HP|]. exists s. split; [exact Hs|]. split; [reflexivity|]. intros F HF.
    apply not_true_iff_false. intros H. assert (existsb (dead entries s) (live s) = true); [apply existsb_exists; eauto|congruence].
Qed.

Lemma filter_all : forall A (f : A -> bool) l, (forall x, In x l -> f x = true) -> filter f l = l.
Proof. induction l as [|a l IH]; cbn; intros H; [reflexivity|]. rewrite H by now left. f_equal. apply IH. intros; apply H; now right. Qed.

(** Some functions are left out, the others stay as they are and in order. *)
Inductive sublist {A} : list A -> list A -> Prop :=
| sub_nil : sublist [] []
| sub_keep : forall x l l', sublist l l' -> sublist (x :: l) (x :: l')
| sub_drop : forall x l l', sublist l l' -> sublist l (x :: l').
Lemma sub_trans : forall A (b c : list A), sublist b c -> forall a, sublist a b -> sublist a c.
Proof.
  induction 1; intros a Ha; [exact Ha| |]; [|constructor; auto]. inversion Ha; subst; constructor; auto.
Qed.
Lemma sub_filter : forall A (f : A -> bool) l, sublist (filter f l) l.
Proof. induction l as [|a l IH]; cbn; [constructor|]. destruct (f a); constructor; auto. Qed.
Lemma sub_refl : forall A (l : list A), sublist l l.
Proof. induction l; constructor; auto. Qed.
Lemma sub_incl : forall A (a b : list A), sublist a b -> incl a b.
Proof. induction 1 as [|x l l' H IH|x l l' H IH]; intros y Hy; [exact Hy| |]; [destruct Hy as [<-|Hy]; [now left|right; auto]|right; auto]. Qed.

(** The pass ends for every module.  It changes nothing in the functions it keeps, and
    keeps every function that can be reached from an entry point, from a function that
    is never removed, or from the initializer of a global. *)
Theorem C47_reachable_kept : forall entries M fuel, NoDup (map f_name (funcs M)) -> List.length (funcs M) < fuel ->
  exists M', remove_dead_defs fuel entries M = Some M' /\ globals M' = globals M /\ sublist (funcs M') (funcs M) /\
  forall F, In F (funcs M) -> reachable M (root entries) (f_name F) -> In F (funcs M').
Proof.
  intros entries M fuel Hd Hf.
  set (P := fun s => fixed s = globals M /\ sublist (live s) (funcs M) /\ forall F, In F (funcs M) -> reachable M (root entries) (f_name F) -> In F (live s)).
  destruct (rounds_inv P entries) with (fuel := fuel) (s := start M) as (s' & H & HP & _).
  - intros s (P1 & P2 & P3). split; [exact P1|]. split; [|apply erase_keeps; auto using sub_incl].
    eapply sub_trans; [exact P2|]. cbn [erase live]. apply sub_filter.
  - split; [reflexivity|]. split; [apply sub_refl|auto].
  - exact Hf.
  - exists (finish s'). unfold remove_dead_defs. rewrite H. destruct HP as (P1 & P2 & P3). repeat split; auto.
Qed.
Print Assumptions C47_reachable_kept.

(** No function or global that is kept refers to a function that was removed, and
    every function that is kept is never removed, or something refers to it: a kept
    function, a global, or a constant expression or block address that occurred in a
    function. *)
Theorem C47_closed : forall entries M M' fuel, NoDup (map f_name (funcs M)) -> remove_dead_defs fuel entries M = Some M' -> List.length (funcs M) < fuel ->
  (forall F r, In F (funcs M) -> names (f_name F) r -> (exists g, In g (funcs M') /\ In r (f_refs g)) \/ In r (globals M') -> In F (funcs M')) /\
  (forall F, In F (funcs M') -> root entries (f_name F) \/
     exists r, ref_name r = f_name F /\
       ((exists g, In g (funcs M') /\ In r (f_refs g)) \/ In r (globals M') \/ exists g, In g (funcs M) /\ In r (f_refs g) /\ r <> Direct (f_name F))).
Proof.
  intros entries M M' fuel Hd HM Hf.
  set (P := fun s => fixed s = globals M /\ incl (live s) (funcs M) /\
    (forall F r, In F (funcs M) -> names (f_name F) r -> (exists g, In g (live s) /\ In r (f_refs g)) \/ In r (fixed s) -> In F (live s)) /\
    (forall r, In r (lingering s) -> is_direct r = false /\ exists g, In g (funcs M) /\ In r (f_refs g))).
  destruct (rounds_inv P entries) with (fuel := fuel) (s := start M) as (s' & H & HP & s0 & HP0 & E0 & Hnd).
  - intros s (P1 & P2 & P3 & P4). split; [exact P1|]. split; [|split].
    + intros F HF. cbn [erase live] in HF. apply filter_In in HF as (HF & _). now apply P2.
    + intros F r HF Hn Hr. cbn [erase live fixed] in *. assert ((exists g, In g (live s) /\ In r (f_refs g)) \/ In r (fixed s)) as Hr'.
      { destruct Hr as [(g & Hg & Hrg)|Hr]; [|now right]. apply filter_In in Hg as (Hg & _). left. eauto. }
      pose proof (P3 F r HF Hn Hr') as Hl. apply filter_In. split; [exact Hl|]. apply negb_true_iff. now apply named_alive with (r := r).
    + intros r Hr. cbn [erase lingering] in Hr. apply in_app_or in Hr as [Hr|Hr]; [now apply P4|]. apply filter_In in Hr as (Hr & Hb). apply in_flat_map in Hr as (g & Hg & Hr).
      apply filter_In in Hg as (Hg & _). split; [now apply negb_true_iff|]. exists g. split; [now apply P2|exact Hr].
  - split; [reflexivity|]. split; [apply incl_refl|]. split; [|intros r []]. intros F r HF _ _. exact HF.
  - exact Hf.
  - unfold remove_dead_defs in HM. rewrite H in HM. cbn in HM. injection HM as <-. destruct HP as (P1 & P2 & P3 & P4). cbn [finish funcs globals]. split; [exact P3|].
    intros F HF. assert (live s' = live s0) as EL. { subst s'. cbn [erase live]. apply filter_all. intros x Hx. now rewrite Hnd. }
    rewrite EL in HF. pose proof (Hnd F HF) as Hn. apply not_true_iff_false in Hn. rewrite dead_spec in Hn.
    destruct (uses s0 (f_name F)) as [|r rs] eqn:Eu.
    + left. destruct (is_entry_point entries (f_name F)) eqn:E1; [left|].
      { unfold is_entry_point in E1. apply existsb_exists in E1 as (x & X1 & X2). apply String.eqb_eq in X2. now rewrite X2. }
      destruct (contains "__SMACK_" (f_name F)) eqn:E2; [right; left; now apply contains_occurs|].
      destruct (contains "__VERIFIER_assume" (f_name F)) eqn:E3; [right; right; now apply contains_occurs|].
      exfalso. apply Hn. split; [|now right]. unfold root. rewrite <- !contains_occurs, E2, E3. intros [X|[X|X]]; [|discriminate|discriminate].
      apply not_true_iff_false in E1. apply E1. apply existsb_exists. exists (f_name F). split; [exact X|apply String.eqb_refl].
    + right. assert (In r (uses s0 (f_name F))) as Hr by (rewrite Eu; now left). apply in_uses in Hr as (R1 & R2). exists r. split; [exact R1|].
      destruct HP0 as (Q1 & Q2 & Q3 & Q4). rewrite EL, P1, <- Q1. destruct R2 as [R2|[R2|R2]]; [now left|right; now left|]. right; right. destruct (Q4 r R2) as (D & g & Hg1 & Hg2).
      exists g. split; [exact Hg1|]. split; [exact Hg2|]. intros ->. discriminate.
Qed.
Print Assumptions C47_closed.

(** main calls f, f calls g; h and k are not reachable, h calls k; loop calls itself:
    h goes in the first round, k in the second, loop stays. *)
Example C47_nonvacuous :
  let fs := [Func "main" false [Direct "f"; Direct "__SMACK_value"] 1; Func "f" true [InConstant "g"] 2; Func "g" true [] 3;
             Func "h" true [Direct "k"] 4; Func "k" false [BlockOf "g"] 5; Func "loop" true [Direct "loop"] 6; Func "__SMACK_init" false [] 7] in
  NoDup (map f_name fs) /\ reachable (Mod fs []) (root ["main"]) "g" /\
  option_map (fun M => map f_name (funcs M)) (remove_dead_defs 8 ["main"] (Mod fs [])) = Some ["main"; "f"; "g"; "loop"; "__SMACK_init"].
Proof.
  cbv zeta. split; [|split; [|reflexivity]].
  - repeat constructor; cbn; intuition discriminate.
  - eapply reach_ref with (g := Func "f" true [InConstant "g"] 2) (r := InConstant "g"); [cbn; auto| |now left|now right].
    eapply reach_ref with (g := Func "main" false [Direct "f"; Direct "__SMACK_value"] 1) (r := Direct "f"); [cbn; auto| |now left|now left].
    apply reach_root; [cbn; auto|]. left. now left.
Qed.
