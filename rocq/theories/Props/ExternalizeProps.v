From Coq Require Import ZArith List String Bool Arith Lia.
From Verif.Spec Require Import Linking.
From Verif.Model Require Import Externalize.
Import ListNotations.
Open Scope string_scope.
Open Scope list_scope.

(** ** Lists *)
Lemma named_in : forall n m f, named n m = Some f -> fname f = n /\ exists p, In (p, f) m.
Proof.
  induction m as [|[p g] m IH]; cbn; intros f H; [discriminate|]. destruct (String.eqb_spec (fname g) n) as [E|N].
  - injection H as <-. eauto.
  - destruct (IH f H) as (H1 & q & H2). eauto.
Qed.
Lemma in_named : forall m p f, NoDup (map (fun q => fname (snd q)) m) -> In (p, f) m -> named (fname f) m = Some f.
Proof.
  induction m as [|[q g] m IH]; cbn; intros p f Hd Hi; [contradiction|]. apply NoDup_cons_iff in Hd as [H1 H2]. destruct Hi as [E|Hi].
  - injection E as <- <-. now rewrite String.eqb_refl.
  - destruct (String.eqb_spec (fname g) (fname f)) as [E|N]; [|eauto]. exfalso. apply H1. rewrite E. apply (in_map (fun q => fname (snd q)) m (p, f) Hi).
Qed.
Lemma name_of_in : forall m p f, NoDup (map fst m) -> In (p, f) m -> name_of m p = Some (fname f).
Proof.
  induction m as [|[q g] m IH]; cbn; intros p f Hd Hi; [contradiction|]. apply NoDup_cons_iff in Hd as [H1 H2]. destruct Hi as [E|Hi].
  - injection E as <- <-. now rewrite Nat.eqb_refl.
  - destruct (Nat.eqb_spec q p) as [->|N]; [|eauto]. exfalso. apply H1. apply (in_map fst m (p, f) Hi).
Qed.
Lemma in_name_of : forall m p n, name_of m p = Some n -> exists f, In (p, f) m /\ fname f = n.
Proof.
  induction m as [|[q g] m IH]; cbn; intros p n H; [discriminate|]. destruct (Nat.eqb_spec q p) as [->|N].
  - injection H as <-. eauto.
  - destruct (IH _ _ H) as (f & H1 & H2). eauto.
Qed.
Lemma getFunction_named : forall m e, named e m = match getFunction m e with Some (_, f) => Some f | None => None end.
Proof. induction m as [|[p f] m IH]; cbn; intros e; [reflexivity|]. now destruct (String.eqb (fname f) e). Qed.
Lemma getFunction_in : forall m e p f, getFunction m e = Some (p, f) -> In (p, f) m /\ fname f = e.
Proof.
  induction m as [|[q g] m IH]; cbn; intros e p f H; [discriminate|]. destruct (String.eqb_spec (fname g) e) as [E|N].
  - injection H as <- <-. auto.
  - destruct (IH _ _ _ H). auto.
Qed.
Lemma fresh_new : forall m p, In p (map fst m) -> p < fresh m.
Proof. intros m p H. unfold fresh. pose proof (proj1 (list_max_le (map fst m) (list_max (map fst m))) (le_n _)) as F. rewrite Forall_forall in F. specialize (F p H). lia. Qed.

(** ** One function *)
Definition ren_body (p q : nat) (b : option (Z -> code)) : option (Z -> code) :=
  match b with Some b => Some (fun a => replace_uses p q (b a)) | None => None end.
Definition swapped (p q : nat) (e : string) (x : nat * func) : nat * func :=
  if Nat.eqb (fst x) p then (q, Func e Strong (ren_body p q (fbody (snd x))))
  else (fst x, Func (fname (snd x)) (flink (snd x)) (ren_body p q (fbody (snd x)))).
Lemma rest_swapped : forall p q e m, ~ In p (map fst m) -> ~ In q (map fst m) ->
  setName q e (removeFromParent p (replaceAllUsesWith p q m)) = map (swapped p q e) m.
Proof.
  induction m as [|[x f] m IH]; intros Hp Hq; [reflexivity|]. cbn [map fst In] in Hp, Hq. unfold replaceAllUsesWith, removeFromParent, setName in *. cbn [map filter fst snd].
  destruct (Nat.eqb_spec x p) as [->|N]; [tauto|]. cbn [negb map fst snd]. destruct (Nat.eqb_spec x q) as [->|N']; [tauto|]. unfold swapped at 1. cbn [fst snd]. apply Nat.eqb_neq in N. rewrite N.
  f_equal. apply IH; tauto.
Qed.
Lemma one_swapped : forall m p f e, NoDup (map fst m) -> In (p, f) m ->
  let '(m1, q) := externalizeFunction m p f in setName q e (removeFromParent p m1) = map (swapped p (fresh m) e) m.
Proof.
  intros m p f e Hd Hi. unfold externalizeFunction. pose proof (fresh_new m) as Hf. set (q := fresh m) in *. clearbody q.
  assert (forall x, In x m -> fst x <> q) as Hq by (intros x Hx E; apply (in_map fst) in Hx; apply Hf in Hx; lia). clear Hf.
  induction m as [|[x g] m IH]; [contradiction|]. cbn [insert_before fst]. cbn [map fst] in Hd. apply NoDup_cons_iff in Hd as [H1 H2].
  assert (~ In q (map fst m)) as Nq by (intros X; apply in_map_iff in X as (y & E & Hy); apply (Hq y); [now right|exact E]).
  destruct (Nat.eqb_spec x p) as [->|N].
  - destruct Hi as [E|Hi]; [injection E as ->|exfalso; apply H1; apply (in_map fst m (p, f) Hi)]. pose proof (Hq _ (or_introl eq_refl)) as Npq. cbn in Npq.
    unfold replaceAllUsesWith, removeFromParent, setName in *. cbn [map filter fst snd fname flink fbody].
    destruct (Nat.eqb_spec q p) as [E|_]; [congruence|]. rewrite Nat.eqb_refl. cbn [negb map fst snd]. rewrite Nat.eqb_refl. unfold swapped at 1. cbn [fst snd flink fbody]. rewrite Nat.eqb_refl.
    f_equal. now apply (rest_swapped p q e m).
  - destruct Hi as [E|Hi]; [injection E as -> ->; congruence|]. specialize (IH H2 Hi (fun y Hy => Hq y (or_intror Hy))). pose proof (Hq _ (or_introl eq_refl)) as Nxq. cbn in Nxq.
    unfold replaceAllUsesWith, removeFromParent, setName in *. cbn [map filter fst snd fname flink fbody].
    destruct (Nat.eqb_spec x p) as [E|_]; [congruence|]. cbn [negb map fst snd]. destruct (Nat.eqb_spec x q) as [E|_]; [congruence|]. unfold swapped at 1. cbn [fst snd flink fbody]. apply Nat.eqb_neq in N. rewrite N. f_equal. exact IH.
Qed.

(** ** Files that say the same *)
Inductive rel (m m' : file) : code -> code -> Prop :=
| rel_ret v : rel m m' (Ret v) (Ret v)
| rel_do x a k k' : (forall r, rel m m' (k r) (k' r)) -> rel m m' (Do x a k) (Do x a k')
| rel_call p p' a k k' : name_of m p = name_of m' p' -> (forall r, rel m m' (k r) (k' r)) -> rel m m' (Call p a k) (Call p' a k').
Lemma rel_sym : forall m m' c c', rel m m' c c' -> rel m' m c' c.
Proof. induction 1; constructor; auto. Qed.
Lemma rel_trans : forall m m' m'' c c' c'', rel m m' c c' -> rel m' m'' c' c'' -> rel m m'' c c''.
Proof.
  intros m m' m'' c c' c'' H. revert c''. induction H; intros c'' H'; inversion H'; subst; constructor; auto; congruence.
Qed.
Lemma rel_refl : forall m c, rel m m c c.
Proof. intros m. induction c; constructor; auto. Qed.
Definition body_rel (m m' : file) (b b' : option (Z -> code)) : Prop :=
  match b, b' with
  | Some b, Some b' => forall a, rel m m' (b a) (b' a)
  | None, None => True
  | _, _ => False
  end.
Definition same (P : string -> bool) (m m' : file) : Prop := forall n,
  match named n m, named n m' with
  | Some f, Some f' => flink f' = (if P n then Strong else flink f) /\ body_rel m m' (fbody f) (fbody f')
  | None, None => True
  | _, _ => False
  end.

Lemma ren_rel : forall m m' p q e, name_of m p = Some e -> name_of m' q = Some e -> (forall x, In x (map fst m) -> x <> p -> name_of m' x = name_of m x) ->
  forall c, (forall x, refers c x -> In x (map fst m)) -> rel m m' c (replace_uses p q c).
Proof.
  intros m m' p q e Hp Hq Hx. induction c as [v|x a k IH|f a k IH]; intros Hr; cbn.
  - constructor.
  - constructor. intros r. apply IH. intros y Hy. apply Hr. now apply r_do with r.
  - constructor; [|intros r; apply IH; intros y Hy; apply Hr; now apply r_call with r].
    destruct (Nat.eqb_spec f p) as [->|N]; [congruence|]. symmetry. apply Hx; [apply Hr; constructor|assumption].
Qed.

Lemma swapped_names : forall p q e m, (forall f, In (p, f) m -> fname f = e) -> map (fun x => fname (snd x)) (map (swapped p q e) m) = map (fun x => fname (snd x)) m.
Proof.
  intros p q e m H. rewrite map_map. apply map_ext_in. intros [x f] Hx. unfold swapped. cbn [fst snd]. destruct (Nat.eqb_spec x p) as [->|N]; cbn; [symmetry; auto|reflexivity].
Qed.
Lemma replace_refers : forall p q c x, refers (replace_uses p q c) x -> x = q \/ (x <> p /\ refers c x).
Proof.
  induction c as [v|y a k IH|f a k IH]; cbn; intros x H; inversion H; subst.
  - match goal with X : refers (replace_uses _ _ _) _ |- _ => destruct (IH _ _ X) as [?|[? ?]]; [tauto|right; split; [assumption|econstructor; eassumption]] end.
  - destruct (Nat.eqb_spec f p) as [->|N]; [now left|]. right. split; [assumption|constructor].
  - match goal with X : refers (replace_uses _ _ _) _ |- _ => destruct (IH _ _ X) as [?|[? ?]]; [tauto|right; split; [assumption|econstructor; eassumption]] end.
Qed.

Lemma one_same : forall m e, well_formed m -> well_formed (externalize_one m e) /\ same (String.eqb e) m (externalize_one m e).
Proof.
  intros m e W. unfold externalize_one. destruct (getFunction m e) as [[p f]|] eqn:Eg.
  2:{ split; [exact W|]. intros n. pose proof (getFunction_named m e) as Hn. rewrite Eg in Hn. destruct (named n m) as [g|] eqn:En; [|trivial]. destruct (String.eqb_spec e n) as [->|N]; [congruence|]. split; [reflexivity|]. unfold body_rel. destruct (fbody g); auto using rel_refl. }
  destruct (getFunction_in _ _ _ _ Eg) as [Hin Hname]. unfold hasExternalLinkage. destruct (flink f) eqn:El.
  1:{ split; [exact W|]. intros n. destruct (named n m) as [g|] eqn:En; [|trivial]. split; [|unfold body_rel; destruct (fbody g); auto using rel_refl]. destruct (String.eqb_spec e n) as [->|N]; [|reflexivity]. rewrite getFunction_named, Eg in En. congruence. }
  all: pose proof (one_swapped m p f e (wf_ids _ W) Hin) as Hs; destruct (externalizeFunction m p f) as [m1 q0]; rewrite Hs; clear m1 q0 Hs.
  all: pose proof (fresh_new m) as Hf; set (q := fresh m) in *; clearbody q.
  all: assert (forall g, In (p, g) m -> g = f) as Up by (intros g Hg; pose proof (in_named m p f (wf_names _ W) Hin) as N1; pose proof (in_named m p g (wf_names _ W) Hg) as N2; pose proof (name_of_in m p f (wf_ids _ W) Hin) as M1; pose proof (name_of_in m p g (wf_ids _ W) Hg) as M2; congruence).
  all: assert (forall x, In x (map fst m) -> x <> q) as Hq by (intros x Hx E; apply Hf in Hx; lia).
  all: assert (NoDup (map fst (map (swapped p q e) m))) as Wi.
  1,3: (rewrite map_map; pose proof (wf_ids _ W) as Hd; clear - Hd Hq; induction m as [|[x g] m IH]; [constructor|]; cbn [map fst] in *; apply NoDup_cons_iff in Hd as [H1 H2]; constructor; [|apply IH; auto with datatypes];
    intros Hx; apply in_map_iff in Hx as ([y h] & E & Hy); unfold swapped in E; cbn [fst snd] in E; pose proof (in_map fst _ _ Hy) as Hy'; cbn in Hy';
    destruct (Nat.eqb_spec y p) as [->|N]; destruct (Nat.eqb_spec x p) as [->|N']; cbn in E; subst; [contradiction| | |contradiction];
    [apply (Hq x); [now left|reflexivity]|apply (Hq q); [now right|reflexivity]]).
  all: assert (name_of (map (swapped p q e) m) q = Some e) as Nq by (apply (name_of_in _ q (Func e Strong (ren_body p q (fbody f))) Wi); apply in_map_iff; exists (p, f); split; [unfold swapped; cbn [fst snd]; now rewrite Nat.eqb_refl|exact Hin]).
  all: assert (name_of m p = Some e) as Np by (rewrite (name_of_in m p f (wf_ids _ W) Hin); congruence).
  all: assert (forall x, In x (map fst m) -> x <> p -> name_of (map (swapped p q e) m) x = name_of m x) as Nx
    by (intros x Hx Hxp; apply in_map_iff in Hx as ([x' g] & Ex & Hg); cbn in Ex; subst x'; rewrite (name_of_in m x g (wf_ids _ W) Hg); apply (name_of_in _ x (Func (fname g) (flink g) (ren_body p q (fbody g))) Wi); apply in_map_iff; exists (x, g); split; [unfold swapped; cbn [fst snd]; apply Nat.eqb_neq in Hxp; now rewrite Hxp|exact Hg]).
  all: assert (NoDup (map (fun x => fname (snd x)) (map (swapped p q e) m))) as Wn by (rewrite swapped_names; [apply (wf_names _ W)|intros g Hg; rewrite (Up g Hg); exact Hname]).
  all: assert (forall x g, In (x, g) m -> body_rel m (map (swapped p q e) m) (fbody g) (ren_body p q (fbody g))) as Hb
    by (intros x g Hg; unfold body_rel, ren_body; destruct (fbody g) as [b|] eqn:Eb; [|trivial]; intros a; apply (ren_rel m _ p q e Np Nq Nx); intros y Hy; exact (wf_refs _ W x g b a y Hg Eb Hy)).
  all: split; [constructor; [exact Wi|exact Wn| |]|].
  1,4: (intros x g b a y Hg Eb Hy; apply in_map_iff in Hg as ([x' g'] & E & Hg);
    assert (exists b0, fbody g' = Some b0 /\ b = fun a => replace_uses p q (b0 a)) as (b0 & E0 & ->)
      by (unfold swapped in E; cbn [fst snd] in E; destruct (Nat.eqb x' p); injection E as <- <-; cbn [fbody] in Eb; destruct (fbody g') as [b0|]; try discriminate; cbn in Eb; injection Eb as <-; eauto);
    apply replace_refers in Hy as [->|[Hyp Hy]];
    [rewrite map_map; apply in_map_iff; exists (p, f); split; [unfold swapped; cbn [fst snd]; now rewrite Nat.eqb_refl|exact Hin]|];
    pose proof (wf_refs _ W x' g' b0 a y Hg E0 Hy) as Hm; apply in_map_iff in Hm as ([y' h] & Ey & Hh); cbn in Ey; subst y'; rewrite map_map; apply in_map_iff; exists (y, h); split; [unfold swapped; cbn [fst snd]; apply Nat.eqb_neq in Hyp; now rewrite Hyp|exact Hh]).
  1,3: (intros x g Hg Eb; apply in_map_iff in Hg as ([x' g'] & E & Hg); unfold swapped in E; cbn [fst snd] in E; destruct (Nat.eqb x' p); injection E as <- <-; [reflexivity|]; cbn [fbody flink] in *; apply (wf_decl _ W x' g' Hg); destruct (fbody g'); [discriminate|reflexivity]).
  all: intros n; destruct (named n m) as [g|] eqn:En.
  1,3: (destruct (named_in _ _ _ En) as (Hgn & x & Hg); destruct (Nat.eq_dec x p) as [->|Nxp];
    [pose proof (Up g Hg) as ->; assert (e = n) as <- by congruence; rewrite String.eqb_refl;
     pose proof (in_named (map (swapped p q e) m) q (Func e Strong (ren_body p q (fbody f))) Wn) as HH; cbn [fname] in HH; rewrite HH;
       [split; [reflexivity|cbn [fbody]; apply (Hb p f Hg)]|apply in_map_iff; exists (p, f); split; [unfold swapped; cbn [fst snd]; now rewrite Nat.eqb_refl|exact Hin]]
    |assert (e <> n) as Ne by (intros ->; apply Nxp; rewrite getFunction_named, Eg in En; injection En as <-; pose proof (wf_ids _ W) as Hd; pose proof (wf_names _ W) as Hdn; clear - Hg Hin Hdn;
       induction m as [|[y h] m IH]; [contradiction|]; cbn [map snd] in Hdn; apply NoDup_cons_iff in Hdn as [D1 D2]; destruct Hg as [E1|Hg]; destruct Hin as [E2|Hin]; [congruence| | |auto];
       exfalso; apply D1; [injection E1 as -> ->; apply (in_map (fun q => fname (snd q)) _ _ Hin)|injection E2 as -> ->; apply (in_map (fun q => fname (snd q)) _ _ Hg)]);
     apply String.eqb_neq in Ne; rewrite Ne;
     pose proof (in_named (map (swapped p q e) m) x (Func (fname g) (flink g) (ren_body p q (fbody g))) Wn) as HH; cbn [fname] in HH; rewrite Hgn in HH; rewrite HH;
       [split; [reflexivity|cbn [fbody]; apply (Hb x g Hg)]|apply in_map_iff; exists (x, g); split; [unfold swapped; cbn [fst snd]; apply Nat.eqb_neq in Nxp; rewrite Nxp; now rewrite Hgn|exact Hg]]]).
  all: destruct (named n (map (swapped p q e) m)) as [g|] eqn:En'; [|trivial]; exfalso; destruct (named_in _ _ _ En') as (Hgn & x & Hg); apply (in_map (fun q => fname (snd q))) in Hg; rewrite swapped_names in Hg by (intros h Hh; rewrite (Up h Hh); exact Hname);
    apply in_map_iff in Hg as ([y h] & E & Hh); cbn in E; rewrite Hgn in E; pose proof (in_named m y h (wf_names _ W) Hh) as HH; rewrite E in HH; congruence.
Qed.

(** ** All entry points *)
Lemma same_trans : forall P Q m m' m'', same P m m' -> same Q m' m'' -> same (fun n => P n || Q n) m m''.
Proof.
  intros P Q m m' m'' H H' n. specialize (H n). specialize (H' n). destruct (named n m) as [f|], (named n m') as [f'|], (named n m'') as [f''|]; try contradiction; trivial.
  destruct H as [L B], H' as [L' B']. split.
  - rewrite L', L. destruct (P n), (Q n); reflexivity.
  - unfold body_rel in *. destruct (fbody f), (fbody f'), (fbody f''); try contradiction; trivial. intros a. eapply rel_trans; [apply B|apply B'].
Qed.
Lemma same_refl : forall m, same (fun _ => false) m m.
Proof. intros m n. destruct (named n m) as [f|]; [|trivial]. split; [reflexivity|]. unfold body_rel. destruct (fbody f); auto using rel_refl. Qed.
Lemma same_ext : forall P Q m m', (forall n, P n = Q n) -> same P m m' -> same Q m m'.
Proof. intros P Q m m' E H n. specialize (H n). now rewrite <- E. Qed.
Definition among (eps : list string) (n : string) : bool := existsb (fun e => String.eqb e n) eps.
Lemma run_same : forall eps m, well_formed m -> well_formed (runOnModule eps m) /\ same (among eps) m (runOnModule eps m).
Proof.
  induction eps as [|e eps IH]; intros m W.
  - split; [exact W|apply same_refl].
  - cbn. destruct (one_same m e W) as [W1 S1]. destruct (IH _ W1) as [W2 S2]. split; [exact W2|]. eapply same_ext; [|exact (same_trans _ _ _ _ _ S1 S2)]. reflexivity.
Qed.
Lemma among_in : forall eps n, among eps n = true <-> In n eps.
Proof. intros eps n. unfold among. rewrite existsb_exists. split; [intros (e & H & E); apply String.eqb_eq in E; now subst|intros H; exists n; split; [assumption|apply String.eqb_refl]]. Qed.

(** ** Linked files *)
Definition target_rel (ms ms' : list file) (d d' : option (nat * (Z -> code))) : Prop :=
  match d, d' with
  | Some (j, b), Some (j', b') => j = j' /\ forall a, rel (nth j ms []) (nth j ms' []) (b a) (b' a)
  | None, None => True
  | _, _ => False
  end.
Lemma target_sym : forall ms ms' d d', target_rel ms ms' d d' -> target_rel ms' ms d' d.
Proof. intros ms ms' [[j b]|] [[j' b']|]; cbn; try tauto. intros [-> H]. split; [reflexivity|]. intros a. apply rel_sym, H. Qed.
Lemma name_named : forall m p n, name_of m p = Some n -> named n m <> None.
Proof.
  induction m as [|[q g] m IH]; cbn; intros p n H; [discriminate|]. destruct (String.eqb_spec (fname g) n) as [E|N]; [discriminate|]. destruct (Nat.eqb q p); [congruence|eauto].
Qed.
Lemma sim : forall ms ms', (forall i n, named n (nth i ms []) <> None -> target_rel ms ms' (denotes ms i n) (denotes ms' i n)) ->
  forall i c t v, obs ms i c t v -> forall c', rel (nth i ms []) (nth i ms' []) c c' -> obs ms' i c' t v.
Proof.
  intros ms ms' D i c t v H. induction H; intros c' R.
  - constructor.
  - inversion R; subst. constructor.
  - inversion R; subst. constructor. auto.
  - inversion R; subst. match goal with E : name_of _ _ = name_of _ _ |- _ => rename E into En end. pose proof (D i n (name_named _ _ _ H)) as T. rewrite H0 in T. destruct (denotes ms' i n) as [[j' b']|] eqn:Ed; [|contradiction]. destruct T as [<- T].
    eapply o_call; [rewrite <- En; exact H|exact Ed|apply IHobs1, T|apply IHobs2; auto].
  - inversion R; subst. match goal with E : name_of _ _ = name_of _ _ |- _ => rename E into En end. pose proof (D i n (name_named _ _ _ H)) as T. rewrite H0 in T. destruct (denotes ms' i n) as [[j' b']|] eqn:Ed; [|contradiction]. destruct T as [<- T].
    eapply o_in; [rewrite <- En; exact H|exact Ed|apply IHobs, T].
  - inversion R; subst. match goal with E : name_of _ _ = name_of _ _ |- _ => rename E into En end. pose proof (D i n (name_named _ _ _ H)) as T. rewrite H0 in T. destruct (denotes ms' i n) as [[j' b']|] eqn:Ed; [contradiction|].
    eapply o_unknown; [rewrite <- En; exact H|exact Ed|apply IHobs; auto].
Qed.

Definition same_at (n : string) (m m' : file) : Prop :=
  match named n m, named n m' with
  | Some f, Some f' => flink f' = flink f /\ body_rel m m' (fbody f) (fbody f')
  | None, None => True
  | _, _ => False
  end.
Lemma first_def_rel : forall lk n ms ms', Forall2 (same_at n) ms ms' -> forall j0,
  match first_def lk ms j0 n, first_def lk ms' j0 n with
  | Some (j, b), Some (j', b') => j = j' /\ j0 <= j /\ forall a, rel (nth (j - j0) ms []) (nth (j - j0) ms' []) (b a) (b' a)
  | None, None => True
  | _, _ => False
  end.
Proof.
  induction 1 as [|m m' ms ms' S F IH]; intros j0; cbn [first_def]; [trivial|]. specialize (IH (Datatypes.S j0)).
  assert (match first_def lk ms (Datatypes.S j0) n, first_def lk ms' (Datatypes.S j0) n with
    | Some (j, b), Some (j', b') => j = j' /\ j0 <= j /\ forall a, rel (nth (j - j0) (m :: ms) []) (nth (j - j0) (m' :: ms') []) (b a) (b' a)
    | None, None => True | _, _ => False end) as IH'.
  { destruct (first_def lk ms _ n) as [[j b]|], (first_def lk ms' _ n) as [[j' b']|]; try contradiction; trivial. destruct IH as (E & L & R). split; [exact E|]. split; [lia|]. replace (j - j0) with (Datatypes.S (j - Datatypes.S j0)) by lia. exact R. }
  clear IH. unfold same_at in S. destruct (named n m) as [[x lf bf]|], (named n m') as [[x' lf' bf']|]; try contradiction.
  - cbn [flink fbody] in S. destruct S as [-> B]. destruct bf as [b|], bf' as [b'|]; try contradiction; destruct lf, lk; try exact IH'; (split; [reflexivity|]; split; [lia|]; rewrite Nat.sub_diag; exact B).
  - exact IH'.
Qed.
Definition defined (m : file) (n : string) : Prop := exists f b, named n m = Some f /\ fbody f = Some b.
Lemma first_def_only : forall lk n ms i x b, i < List.length ms -> named n (nth i ms []) = Some (Func x lk (Some b)) -> lk <> Static ->
  (forall j, j <> i -> ~ defined (nth j ms []) n) -> forall j0, first_def lk ms j0 n = Some (j0 + i, b).
Proof.
  induction ms as [|m ms IH]; intros i x b Hi Hn Hs Ho j0; cbn in Hi; [lia|]. cbn [first_def]. destruct i as [|i].
  - cbn in Hn. rewrite Hn, Nat.add_0_r. destruct lk; congruence.
  - assert (first_def lk ms (S j0) n = Some (j0 + S i, b)) as E.
    { rewrite (IH i x b); [f_equal; f_equal; lia|lia|exact Hn|exact Hs|]. intros j Hj. apply (Ho (S j)). congruence. }
    destruct (named n m) as [[y lf [b'|]]|] eqn:En; [exfalso; apply (Ho 0); [discriminate|]; exists (Func y lf (Some b')), b'; split; [exact En|reflexivity]|..]; (destruct lk; [| |congruence]; try destruct lf; exact E).
Qed.
Lemma first_def_none : forall lk n ms, (forall i x b, i < List.length ms -> named n (nth i ms []) = Some (Func x lk (Some b)) -> False) -> forall j0, first_def lk ms j0 n = None.
Proof.
  induction ms as [|m ms IH]; intros H j0; [reflexivity|]. cbn [first_def].
  assert (first_def lk ms (S j0) n = None) as E by (apply IH; intros i x b Hi Hn; apply (H (S i) x b); [cbn; lia|exact Hn]).
  destruct (named n m) as [[y lf [b'|]]|] eqn:En; [|destruct lf, lk; exact E|destruct lk; exact E].
  destruct lf, lk; try exact E; exfalso; (eapply (H 0); [cbn; lia|exact En]).
Qed.

(** ** Theorems *)
(** An entry point that is not seen by the other files as a strong function is not
    mentioned in another file; if it is weak, it may be declared in others. *)
Definition apart (eps : list string) (user libs : list file) : Prop :=
  forall e i f, In e eps -> i < List.length user -> named e (nth i user []) = Some f -> flink f <> Strong ->
  forall j g, j <> i -> named e (nth j (user ++ libs) []) = Some g -> flink f = Weak /\ fbody g = None.

Section Linked.
  Variables (eps : list string) (user libs : list file).
  Hypothesis wfu : forall m, In m user -> well_formed m.
  Hypothesis wfl : forall m, In m libs -> well_formed m.
  Hypothesis Hap : apart eps user libs.
  Let ms := user ++ libs.
  Let ms' := link_bc_files eps user libs.
  Let P (i : nat) (n : string) : bool := Nat.ltb i (List.length user) && among eps n.

  Lemma each : forall i, well_formed (nth i ms []) /\ well_formed (nth i ms' []) /\ same (P i) (nth i ms []) (nth i ms' []).
  Proof.
    assert (well_formed []) as W0 by (constructor; cbn; try constructor; contradiction).
    intros i. unfold ms, ms', link_bc_files, P. destruct (Nat.ltb_spec i (List.length user)) as [L|L].
    - rewrite (app_nth1 user) by assumption. rewrite app_nth1 by (now rewrite map_length). rewrite (nth_indep (map (runOnModule eps) user) [] (runOnModule eps [])) by (now rewrite map_length). rewrite map_nth.
      assert (well_formed (nth i user [])) as W by (apply wfu, nth_In, L). destruct (run_same eps _ W). auto.
    - rewrite (app_nth2 user) by assumption. rewrite app_nth2 by (rewrite map_length; lia). rewrite map_length. cbn [andb].
      assert (well_formed (nth (i - List.length user) libs [])) as W by (destruct (nth_in_or_default (i - List.length user) libs []) as [H| ->]; auto). split; [exact W|]. split; [exact W|]. apply same_refl.
  Qed.
  Lemma len : List.length ms' = List.length ms.
  Proof. unfold ms, ms', link_bc_files. now rewrite !app_length, map_length. Qed.
  (** A name whose linkage changes. *)
  Definition changes (n : string) (i : nat) (f : func) : Prop := P i n = true /\ named n (nth i ms []) = Some f /\ flink f <> Strong.
  Lemma changes_apart : forall n i f, changes n i f -> i < List.length ms /\ forall j g, j <> i -> named n (nth j ms []) = Some g -> flink f = Weak /\ fbody g = None.
  Proof.
    intros n i f (Hp & Hn & Hl). unfold P in Hp. apply andb_true_iff in Hp as [H1 H2]. apply Nat.ltb_lt in H1. apply among_in in H2. unfold ms in *. split; [rewrite app_length; lia|]. intros j g Hj Hg.
    rewrite app_nth1 in Hn by assumption. exact (Hap n i f H2 H1 Hn Hl j g Hj Hg).
  Qed.
  Lemma changes_body : forall n i f, changes n i f -> exists b, fbody f = Some b.
  Proof.
    intros n i f (_ & Hn & Hl). destruct (fbody f) as [b|] eqn:E; [eauto|]. destruct (named_in _ _ _ Hn) as (_ & p & Hi). elim Hl. exact (wf_decl _ (proj1 (each i)) p f Hi E).
  Qed.
  Lemma changes_dec : forall n, (exists i f, changes n i f) \/ Forall2 (same_at n) ms ms'.
  Proof.
    intros n.
    assert (forall k, (exists i f, changes n i f) \/ forall i, i < k -> same_at n (nth i ms []) (nth i ms' [])) as H.
    { induction k as [|k [IH|IH]]; [right; intros; lia|now left|]. pose proof (proj2 (proj2 (each k)) n) as S. destruct (named n (nth k ms [])) as [f|] eqn:En.
      - destruct (named n (nth k ms' [])) as [f'|] eqn:En'; [|contradiction]. destruct S as [Sl Sb]. destruct (P k n) eqn:Ep.
        + destruct (flink f) eqn:El; [|left; exists k, f; repeat split; [assumption|assumption|congruence]|left; exists k, f; repeat split; [assumption|assumption|congruence]].
          right. intros i Hi. destruct (Nat.eq_dec i k) as [->|]; [|apply IH; lia]. unfold same_at. rewrite En, En'. split; [congruence|assumption].
        + right. intros i Hi. destruct (Nat.eq_dec i k) as [->|]; [|apply IH; lia]. unfold same_at. rewrite En, En'. auto.
      - destruct (named n (nth k ms' [])) as [f'|] eqn:En'; [contradiction|]. right. intros i Hi. destruct (Nat.eq_dec i k) as [->|]; [|apply IH; lia]. unfold same_at. now rewrite En, En'. }
    destruct (H (List.length ms)) as [X|X]; [now left|right]. clear H. pose proof len as L. clearbody ms ms'. clear - X L. revert ms' L X. induction ms as [|m l IH]; intros [|m' l'] L X; try discriminate L; constructor.
    - apply (X 0). cbn. lia.
    - apply IH; [now injection L|]. intros i Hi. apply (X (S i)). cbn. lia.
  Qed.

  Lemma den : forall i n, named n (nth i ms []) <> None -> target_rel ms ms' (denotes ms i n) (denotes ms' i n).
  Proof.
    intros i n Hn. destruct (changes_dec n) as [(k & f & C)|F].
    - pose proof (changes_apart _ _ _ C) as [Hk A]. destruct (changes_body _ _ _ C) as [b Eb]. pose proof C as (Hp & Ef & Hl). pose proof (proj2 (proj2 (each k)) n) as S. rewrite Ef, Hp in S. destruct (named n (nth k ms' [])) as [f'|] eqn:Ef'; [|contradiction]. destruct S as [Sl Sb]. rewrite Eb in Sb.
      destruct f as [x lf bf], f' as [x' lf' bf']. cbn [flink fbody] in *. subst lf' bf. destruct bf' as [b'|]; [|contradiction]. cbn in Sb.
      assert (forall j, j <> k -> ~ defined (nth j ms' []) n) as Ho'.
      { intros j Hj (g' & c' & Eg' & Ec'). pose proof (proj2 (proj2 (each j)) n) as S. rewrite Eg' in S. destruct (named n (nth j ms [])) as [g|] eqn:Eg; [|contradiction]. destruct S as [_ B]. destruct (A j g Hj Eg) as [_ Eg2]. rewrite Eg2, Ec' in B. exact B. }
      assert (k < List.length ms') as Hk' by (rewrite len; exact Hk).
      assert (global ms' n = Some (k, b')) as Gs by (unfold global; rewrite (first_def_only Strong n ms' k x' b' Hk' Ef' ltac:(discriminate) Ho' 0); reflexivity).
      assert (denotes ms' i n = Some (k, b')) as ->.
      { unfold denotes. destruct (named n (nth i ms' [])) as [[y [| |] [c|]]|] eqn:Ey; try exact Gs. exfalso. destruct (Nat.eq_dec i k) as [->|Nk]; [congruence|]. apply (Ho' i Nk). eexists _, c. split; [exact Ey|reflexivity]. }
      assert (denotes ms i n = Some (k, b)) as ->; [|split; [reflexivity|exact Sb]].
      destruct (Nat.eq_dec i k) as [->|Nk].
      + unfold denotes. rewrite Ef. destruct lf; [congruence| |reflexivity]. unfold global.
        rewrite (first_def_none Strong n ms). { rewrite (first_def_only Weak n ms k x b Hk Ef ltac:(discriminate)); [reflexivity|]. intros j Hj (g & c & Eg & Ec). destruct (A j g Hj Eg). congruence. }
        intros j y c _ Ej. destruct (Nat.eq_dec j k) as [->|Nj]; [discriminate (eq_trans (eq_sym Ef) Ej)|]. destruct (A j _ Nj Ej) as [_ X]. discriminate X.
      + destruct (named n (nth i ms [])) as [g|] eqn:Eg; [|congruence]. destruct (A i g Nk Eg) as [-> Eb2]. unfold denotes. rewrite Eg. destruct g as [y lg bg]. cbn [fbody] in Eb2. subst bg.
        assert (global ms n = Some (k, b)) as ->; [|destruct lg; reflexivity]. unfold global.
        rewrite (first_def_none Strong n ms). { rewrite (first_def_only Weak n ms k x b Hk Ef ltac:(discriminate)); [reflexivity|]. intros j Hj (g & c & Eg' & Ec). destruct (A j g Hj Eg'). congruence. }
        intros j z c _ Ej. destruct (Nat.eq_dec j k) as [->|Nj]; [discriminate (eq_trans (eq_sym Ef) Ej)|]. destruct (A j _ Nj Ej) as [_ X]. discriminate X.
    - assert (same_at n (nth i ms []) (nth i ms' [])) as S.
      { clear Hn. clearbody ms ms'. clear - F. revert i. induction F as [|m m' l l' S F IH]; intros [|i]; try exact I; cbn; auto. }
      assert (target_rel ms ms' (global ms n) (global ms' n)) as G.
      { unfold global. pose proof (first_def_rel Strong n ms ms' F 0) as H1. pose proof (first_def_rel Weak n ms ms' F 0) as H2.
        destruct (first_def Strong ms 0 n) as [[j c]|], (first_def Strong ms' 0 n) as [[j' c']|]; try contradiction; [destruct H1 as (E & _ & R); rewrite Nat.sub_0_r in R; now split|].
        destruct (first_def Weak ms 0 n) as [[j c]|], (first_def Weak ms' 0 n) as [[j' c']|]; try contradiction; [destruct H2 as (E & _ & R); rewrite Nat.sub_0_r in R; now split|exact I]. }
      unfold denotes, same_at in *. destruct (named n (nth i ms [])) as [[y lf bf]|], (named n (nth i ms' [])) as [[y' lf' bf']|]; try contradiction. cbn [flink fbody] in S. destruct S as [-> B].
      destruct lf; [exact G|exact G|]. destruct bf as [c|], bf' as [c'|]; try contradiction; [now split|exact G].
  Qed.
  Lemma named_both : forall i n, named n (nth i ms []) <> None <-> named n (nth i ms' []) <> None.
  Proof. intros i n. pose proof (proj2 (proj2 (each i)) n) as S. destruct (named n (nth i ms [])), (named n (nth i ms' [])); try contradiction; split; congruence. Qed.
  Lemma has_name : forall m n, well_formed m -> (named n m <> None <-> exists p, name_of m p = Some n).
  Proof.
    intros m n W. split; [|intros (p & H); now apply name_named in H]. intros H. destruct (named n m) as [f|] eqn:E; [|congruence]. destruct (named_in _ _ _ E) as (<- & p & Hi). exists p. now apply name_of_in; [apply wf_ids|].
  Qed.
  Lemma behaviour : forall i n a t v, calls ms' i n a t v <-> calls ms i n a t v.
  Proof.
    intros i n a t v. destruct (each i) as (W & W' & _). split; intros (p & Hp & Ho).
    - assert (named n (nth i ms []) <> None) as H by (apply named_both; now apply name_named in Hp). apply has_name in H as (p' & Hp'); [|exact W]. exists p'. split; [exact Hp'|].
      apply (sim ms' ms) with (i := i) (c := Call p a Ret); [intros j x Hx; apply target_sym, den, named_both, Hx|exact Ho|]. constructor; [exact (eq_trans Hp (eq_sym Hp'))|constructor].
    - assert (named n (nth i ms' []) <> None) as H by (apply named_both; now apply name_named in Hp). apply has_name in H as (p' & Hp'); [|exact W']. exists p'. split; [exact Hp'|].
      apply (sim ms ms') with (i := i) (c := Call p a Ret); [exact den|exact Ho|]. constructor; [exact (eq_trans Hp (eq_sym Hp'))|constructor].
  Qed.
  Lemma linkable : links ms' <-> links ms.
  Proof.
    assert (forall i n, strongly (nth i ms []) n -> strongly (nth i ms' []) n) as U.
    { intros i n (b & H). pose proof (proj2 (proj2 (each i)) n) as S. rewrite H in S. destruct (named n (nth i ms' [])) as [f'|] eqn:E; [|contradiction]. destruct S as [L B]. destruct (named_in _ _ _ E) as [En _]. destruct f' as [x l b']. cbn in *. subst x. rewrite (ltac:(destruct (P i n); reflexivity) : (if P i n then Strong else Strong) = Strong) in L. subst l. destruct b' as [b'|]; [|contradiction]. exists b'. exact E. }
    assert (forall i n, strongly (nth i ms' []) n -> strongly (nth i ms []) n \/ exists f, changes n i f) as D.
    { intros i n (b' & H). pose proof (proj2 (proj2 (each i)) n) as S. rewrite H in S. destruct (named n (nth i ms [])) as [f|] eqn:E; [|contradiction]. destruct S as [L B]. destruct (named_in _ _ _ E) as [En _]. destruct f as [x l b]. cbn in *. subst x. destruct b as [b|]; [|contradiction].
      destruct l; [left; exists b; exact E|..]; (destruct (P i n) eqn:Ep; [right; eexists; split; [exact Ep|split; [exact E|discriminate]]|discriminate]). }
    split; intros H n i j Hi Hj Si Sj.
    - rewrite <- len in Hi, Hj. eapply H; eauto.
    - rewrite len in Hi, Hj. assert (forall i j f, changes n i f -> strongly (nth j ms' []) n -> i = j) as X.
      { clear - D wfu wfl Hap. intros i j f C Sj. destruct (Nat.eq_dec i j) as [|N]; [assumption|]. exfalso. pose proof (changes_apart _ _ _ C) as [_ A]. destruct (D j n Sj) as [(b & E)|(g & C')].
        - destruct (A j _ (not_eq_sym N) E) as [_ Y]. discriminate Y.
        - destruct (changes_body _ _ _ C') as [b Eb]. destruct C' as (_ & E & _). destruct (A j g (not_eq_sym N) E). congruence. }
      destruct (D i n Si) as [Si'|(f & C)]; [|eauto]. destruct (D j n Sj) as [Sj'|(f & C)]; [|symmetry; eauto]. eapply H; eauto.
  Qed.
End Linked.

Lemma obs_stop : forall ms i c t v, obs ms i c t v -> obs ms i c t None.
Proof. induction 1; try (econstructor; eauto; fail). Qed.
Lemma calls_obs : forall ms i n a t v j b, named n (nth i ms []) <> None -> well_formed (nth i ms []) -> denotes ms i n = Some (j, b) -> (calls ms i n a t v <-> obs ms j (b a) t v).
Proof.
  intros ms i n a t v j b Hn W D. split.
  - intros (p & Hp & Ho). inversion Ho; subst.
    + constructor.
    + assert (n0 = n) as -> by congruence. match goal with E : denotes ms i n = Some (?j', ?b') |- _ => assert ((j', b') = (j, b)) as E' by congruence; injection E' as -> -> end.
      match goal with X : obs ms i (Ret _) _ _ |- _ => inversion X; subst end; rewrite app_nil_r; [eapply obs_stop; eassumption|assumption].
    + assert (n0 = n) as -> by congruence. match goal with E : denotes ms i n = Some (?j', ?b') |- _ => assert ((j', b') = (j, b)) as E' by congruence; injection E' as -> -> end. assumption.
    + exfalso. assert (n0 = n) as -> by congruence. congruence.
  - intros Ho. apply has_name in Hn as (p & Hp); [|exact W]. exists p. split; [exact Hp|]. destruct v as [r|].
    + rewrite <- (app_nil_r t). eapply o_call; eauto. constructor.
    + eapply o_in; eauto.
Qed.

(** Making the entry points visible and linking keeps what every function of every file
    does, and files can be linked exactly if they could be before. *)
Theorem C74_behaviour : forall eps user libs, (forall m, In m (user ++ libs) -> well_formed m) -> apart eps user libs ->
  (links (link_bc_files eps user libs) <-> links (user ++ libs)) /\
  forall i n a t v, calls (link_bc_files eps user libs) i n a t v <-> calls (user ++ libs) i n a t v.
Proof.
  intros eps user libs W A. assert (forall m, In m user -> well_formed m) as Wu by (intros m H; apply W, in_app_iff; auto). assert (forall m, In m libs -> well_formed m) as Wl by (intros m H; apply W, in_app_iff; auto).
  split; [now apply linkable|]. intros i n a t v. now apply behaviour.
Qed.
Print Assumptions C74_behaviour.

(** An entry point defined in one of the files, static or not, is the linked program's
    function of that name. *)
Theorem C74_entry : forall eps user libs e i f b, (forall m, In m (user ++ libs) -> well_formed m) -> apart eps user libs ->
  In e eps -> i < List.length user -> named e (nth i user []) = Some f -> fbody f = Some b ->
  forall a t v, enters (link_bc_files eps user libs) e a t v <-> calls (user ++ libs) i e a t v.
Proof.
  intros eps user libs e i f b W A He Hi Hf Hb a t v. rewrite <- (proj2 (C74_behaviour eps user libs W A)).
  assert (forall m, In m user -> well_formed m) as Wu by (intros m H; apply W, in_app_iff; auto). assert (forall m, In m libs -> well_formed m) as Wl by (intros m H; apply W, in_app_iff; auto).
  destruct (each eps user libs Wu Wl i) as (_ & W' & S). specialize (S e). rewrite (app_nth1 user libs []) in S by exact Hi. rewrite Hf in S. apply Nat.ltb_lt in Hi as Hi'. rewrite Hi' in S. rewrite (proj2 (among_in eps e) He) in S. cbn [andb] in S.
  set (ms' := link_bc_files eps user libs) in *. destruct (named e (nth i ms' [])) as [f'|] eqn:Ef'; [|contradiction]. destruct S as [Sl Sb]. rewrite Hb in Sb. destruct f' as [x l b']. cbn [flink fbody] in *. subst l. destruct b' as [b'|]; [|contradiction].
  assert (exists j c, global ms' e = Some (j, c)) as (j & c & G).
  { unfold global. destruct (first_def Strong ms' 0 e) as [[j c]|] eqn:E; [eauto|]. exfalso. assert (i < List.length ms') as Li by (unfold ms', link_bc_files; rewrite app_length, map_length; lia). clear - E Ef' Li. revert i Ef' Li E. generalize 0. induction ms' as [|m l IH]; intros j0 [|i] Ef' Li E; cbn in Li; try lia.
    - cbn in Ef'. cbn [first_def] in E. rewrite Ef' in E. discriminate.
    - apply (IH (S j0) i Ef' ltac:(lia)). cbn [first_def] in E. destruct (named e m) as [[y [| |] [d|]]|]; try exact E. discriminate. }
  assert (denotes ms' i e = Some (j, c)) as D by (unfold denotes; rewrite Ef'; exact G).
  rewrite (calls_obs ms' i e a t v j c) by (try exact D; try exact W'; intros X; discriminate (eq_trans (eq_sym Ef') X)).
  unfold enters. split; [intros (j' & c' & G' & O)|eauto]. rewrite G in G'. injection G' as <- <-. exact O.
Qed.
Print Assumptions C74_entry.

(** ** Deviations *)
Definition defn (n : string) (lk : linkage) (what : string) : func := Func n lk (Some (fun a => Do what a Ret)).
(** A file with a static function named like an entry point of another file: the program
    can be linked, but not after the pass. *)
Theorem C74_static_elsewhere_refuted : let a := [(1, defn "run" Strong "a")] in let b := [(1, defn "run" Static "b")] in
  links [a; b] /\ ~ links (link_bc_files ["run"] [a; b] []).
Proof.
  intros a b. subst a b. split.
  - intros n i j Hi Hj (ci & Si) (cj & Sj). destruct i as [|[|i]], j as [|[|j]]; unfold defn in *; cbn [nth List.length named fname] in *; try lia; try reflexivity; destruct (String.eqb "run" n); discriminate.
  - intros H. specialize (H "run" 0 1 ltac:(cbn; lia) ltac:(cbn; lia)). assert (0 = 1) as X by (apply H; eexists; reflexivity). discriminate X.
Qed.
Print Assumptions C74_static_elsewhere_refuted.
(** The same for a weak definition that another file's strong one should replace. *)
Theorem C74_weak_refuted : let a := [(1, defn "run" Weak "a")] in let b := [(1, defn "run" Strong "b")] in
  links [a; b] /\ ~ links (link_bc_files ["run"] [a; b] []).
Proof.
  intros a b. subst a b. split.
  - intros n i j Hi Hj (ci & Si) (cj & Sj). destruct i as [|[|i]], j as [|[|j]]; unfold defn in *; cbn [nth List.length named fname] in *; try lia; try reflexivity; destruct (String.eqb "run" n); discriminate.
  - intros H. specialize (H "run" 0 1 ltac:(cbn; lia) ltac:(cbn; lia)). assert (0 = 1) as X by (apply H; eexists; reflexivity). discriminate X.
Qed.
Print Assumptions C74_weak_refuted.
(** A call of a function that is not defined becomes a call of another file's static
    function of that name. *)
Theorem C74_captured_refuted : let a := [(1, Func "main" Strong (Some (fun x => Call 2 x Ret))); (2, Func "run" Strong None)] in let b := [(1, defn "run" Static "b")] in
  calls (link_bc_files ["main"; "run"] [a; b] []) 0 "main" 5%Z [Acted "b" 5%Z 7%Z] (Some 7%Z) /\
  ~ calls [a; b] 0 "main" 5%Z [Acted "b" 5%Z 7%Z] (Some 7%Z).
Proof.
  intros a b. split.
  - exists 1. split; [reflexivity|]. change [Acted "b" 5%Z 7%Z] with (([Acted "b" 5%Z 7%Z] ++ []) ++ []). eapply o_call; [reflexivity|reflexivity| |constructor]. eapply o_call; [reflexivity|reflexivity| |constructor]. cbn. constructor. constructor.
  - intros H. apply (calls_obs [a; b] 0 "main" _ _ _ 0 (fun x => Call 2 x Ret)) in H; [|discriminate| |reflexivity].
    + inversion H; subst; match goal with E : name_of _ _ = Some ?n |- _ => cbn in E; injection E as <- end; match goal with E : denotes _ _ _ = _ |- _ => discriminate E end.
    + constructor; cbn.
      * repeat constructor; cbn; intuition discriminate.
      * repeat constructor; cbn; intuition discriminate.
      * intros p f c x q [E|[E|[]]] Eb R; injection E as <- <-; cbn in Eb; [injection Eb as <-|discriminate]. inversion R; subst; [tauto|]. match goal with X : refers (Ret _) _ |- _ => inversion X end.
      * intros p f [E|[E|[]]] Eb; injection E as <- <-; [discriminate|reflexivity].
Qed.
Print Assumptions C74_captured_refuted.

(** Two files; the entry point is a recursive static function, which another function of its
    file calls too. *)
Example C74_nonvacuous :
  let a := [(1, Func "run" Static (Some (fun x => if Z.eqb x 0 then Do "done" 0 Ret else Call 1 (x - 1) Ret))); (2, Func "main" Strong (Some (fun x => Call 1 x (fun y => Call 3 y Ret)))); (3, Func "log" Strong None)] in
  let b := [(1, defn "log" Strong "write")] in
  (forall m, In m ([a] ++ [b]) -> well_formed m) /\ apart ["main"; "run"] [a] [b] /\
  map (fun x => (fst x, fname (snd x), flink (snd x))) (runOnModule ["main"; "run"] a) = [(4, "run", Strong); (2, "main", Strong); (3, "log", Strong)] /\
  calls [a; b] 0 "main" 2%Z [Acted "done" 0 8%Z; Acted "write" 8%Z 9%Z] (Some 9%Z).
Proof.
  intros a b. split.
  { intros m [<-|[<-|[]]]; constructor; cbn.
    - repeat constructor; cbn; intuition discriminate.
    - repeat constructor; cbn; intuition discriminate.
    - intros p f c x q [E|[E|[E|[]]]] Eb R; injection E as <- <-; cbn in Eb; try discriminate; injection Eb as <-.
      + destruct (Z.eqb x 0); inversion R; subst; try tauto; match goal with X : refers _ _ |- _ => inversion X end.
      + inversion R; subst; [tauto|]. match goal with X : refers (Call 3 _ _) _ |- _ => inversion X; subst end; [tauto|]. match goal with X : refers (Ret _) _ |- _ => inversion X end.
    - intros p f [E|[E|[E|[]]]] Eb; injection E as <- <-; try discriminate; reflexivity.
    - repeat constructor; cbn; intuition discriminate.
    - repeat constructor; cbn; intuition discriminate.
    - intros p f c x q [E|[]] Eb R; injection E as <- <-; cbn in Eb; injection Eb as <-. inversion R; subst. match goal with X : refers (Ret _) _ |- _ => inversion X end.
    - intros p f [E|[]] Eb; injection E as <- <-; discriminate. }
  split.
  { intros e i f He Hi Hn Hl j g Hj Hg. assert (i = 0) as -> by (cbn in Hi; lia). destruct He as [<-|[<-|[]]]; cbn in Hn; injection Hn as <-; [elim Hl; reflexivity|]. destruct j as [|[|[|j]]]; cbn in Hg; try discriminate. congruence. }
  split; [reflexivity|].
  exists 2. split; [reflexivity|]. change [Acted "done" 0 8%Z; Acted "write" 8%Z 9%Z] with (([Acted "done" 0 8%Z] ++ [Acted "write" 8%Z 9%Z]) ++ []). eapply o_call; [reflexivity|reflexivity| |constructor].
  eapply o_call; [reflexivity|reflexivity| |].
  - cbn. change [Acted "done" 0 8%Z] with ([Acted "done" 0 8%Z] ++ []). eapply o_call; [reflexivity|reflexivity| |constructor]. cbn. change [Acted "done" 0 8%Z] with ([Acted "done" 0 8%Z] ++ []). eapply o_call; [reflexivity|reflexivity| |constructor]. cbn. constructor. constructor.
  - change [Acted "write" 8%Z 9%Z] with ([Acted "write" 8%Z 9%Z] ++ []). eapply o_call; [reflexivity|reflexivity| |constructor]. cbn. constructor. constructor.
Qed.
