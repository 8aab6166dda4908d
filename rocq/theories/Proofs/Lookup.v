(** Finding a declaration in the generated prelude. *)
From Coq Require Import ZArith List String Bool Lia.
From Verif.Model Require Import Boogie PreludeInt.
Import ListNotations.
Open Scope string_scope.
Open Scope Z_scope.

Lemma lookup_app : forall l1 l2 f,
  lookup (l1 ++ l2) f = match lookup l1 f with Some d => Some d | None => lookup l2 f end.
Proof.
  induction l1 as [|d l1 IH]; intros; cbn; [reflexivity|].
  destruct (fname_eqb (fd_name d) f); [reflexivity|apply IH].
Qed.

Lemma tyname_eqb_refl : forall t, tyname_eqb t t = true.
Proof. destruct t; cbn; rewrite ?Z.eqb_refl; reflexivity. Qed.
Lemma tyname_eqb_eq : forall a b, tyname_eqb a b = true -> a = b.
Proof.
  destruct a, b; cbn; intros H; try discriminate; try reflexivity;
    apply Z.eqb_eq in H; congruence.
Qed.
Lemma tys_eqb_refl : forall l, tys_eqb l l = true.
Proof. induction l; cbn; [reflexivity|]. now rewrite tyname_eqb_refl. Qed.
Lemma tys_eqb_eq : forall a b, tys_eqb a b = true -> a = b.
Proof.
  induction a as [|x a IH]; destruct b as [|y b]; cbn; intros H; try discriminate; [reflexivity|].
  apply andb_prop in H as [H1 H2]. apply tyname_eqb_eq in H1. f_equal; auto.
Qed.
Lemma fname_eqb_refl : forall f, fname_eqb f f = true.
Proof. intros. unfold fname_eqb. now rewrite String.eqb_refl, tys_eqb_refl. Qed.
Lemma fname_eqb_eq : forall f g, fname_eqb f g = true -> f = g.
Proof.
  intros [b1 i1] [b2 i2] H. unfold fname_eqb in H. cbn in H.
  apply andb_prop in H as [H1 H2]. apply String.eqb_eq in H1. apply tys_eqb_eq in H2. congruence.
Qed.

Definition bases_in (names : list string) (l : list fdecl) : Prop :=
  forall d, In d l -> In (fn_base (fd_name d)) names.

Lemma lookup_In : forall l f d, lookup l f = Some d -> In d l /\ fd_name d = f.
Proof.
  induction l as [|x l IH]; cbn; intros f d H; [discriminate|].
  destruct (fname_eqb (fd_name x) f) eqn:E.
  - injection H as <-. split; [now left|]. now apply fname_eqb_eq.
  - apply IH in H as [H1 H2]. auto.
Qed.

Lemma lookup_none_base : forall names l f,
  bases_in names l -> existsb (String.eqb (fn_base f)) names = false -> lookup l f = None.
Proof.
  intros names l f H Hn. destruct (lookup l f) eqn:E; [|reflexivity].
  apply lookup_In in E as [E1 E2]. specialize (H _ E1). rewrite E2 in H.
  assert (existsb (String.eqb (fn_base f)) names = true); [|congruence].
  apply existsb_exists. exists (fn_base f). split; [assumption|apply String.eqb_refl].
Qed.

Lemma lookup_flat_map_none : forall {A} (g : A -> list fdecl) (l : list A) f,
  (forall b, In b l -> lookup (g b) f = None) -> lookup (flat_map g l) f = None.
Proof.
  intros A g l f H. induction l as [|x l IH]; [reflexivity|].
  cbn [flat_map]. rewrite lookup_app, (H x (or_introl eq_refl)).
  apply IH. intros b Hb. apply H. now right.
Qed.

Lemma lookup_flat_map_key : forall {A} (g : A -> list fdecl) (l : list A) f a,
  In a l ->
  (forall b, In b l -> b = a \/ lookup (g b) f = None) ->
  lookup (flat_map g l) f = lookup (g a) f.
Proof.
  intros A g l f a Hin Hother. destruct (lookup (g a) f) eqn:E1.
  - induction l as [|x l IH]; [destruct Hin|].
    cbn [flat_map]. rewrite lookup_app.
    destruct (Hother x (or_introl eq_refl)) as [->|E]; [now rewrite E1|].
    rewrite E. destruct Hin as [->|Hin]; [congruence|].
    apply IH; [assumption|]. intros b Hb. apply Hother. now right.
  - apply lookup_flat_map_none. intros b Hb. destruct (Hother b Hb) as [->|]; assumption.
Qed.

Definition intTypeOf (O : opts) (n : Z) : tyname := if bitPrecise O then NBv n else NInt n.

(** The generated declarations, section by section. *)
Definition arith_names : list string :=
  ["$add"; "$sub"; "$mul"; "$idiv"; "$sdiv"; "$udiv"; "$smod"; "$srem"; "$urem"; "$shl"; "$lshr";
   "$ashr"; "$and"; "$or"; "$xor"; "$nand"; "$not"; "$tos"; "$tou"; "$smin"; "$smax"; "$umin"; "$umax"].
Definition pred_names : list string :=
  ["$ule"; "$ult"; "$uge"; "$ugt"; "$sle"; "$slt"; "$sge"; "$sgt"; "$eq"; "$ne"].
Definition conv_names : list string := ["$trunc"; "$sext"; "$zext"].

Lemma arithFuncs_base : forall O o n d, In d (arithFuncs O o n) ->
  fd_name d = indexedName ("$" ++ ao_name o) [NInt n] \/
  fd_name d = indexedName ("$" ++ ao_name o) [NBv n].
Proof.
  intros O o n d H. unfold arithFuncs in H. apply in_app_or in H as [H|H].
  - destruct (_ || _); [|destruct H]. unfold getIntFunc in H.
    destruct (ao_int o) as [[| |]|]; cbn in H; destruct H as [<-|[]] || destruct H; left; reflexivity.
  - destruct (_ || _); [|destruct H]. unfold getBvFunc in H.
    destruct (ao_bv o) as [[| |]|]; cbn in H; destruct H as [<-|[]] || destruct H; right; reflexivity.
Qed.

Lemma predFuncs_base : forall O p n d, In d (predFuncs O p n) ->
  exists t, (t = NInt n \/ t = NBv n) /\
   (fd_name d = indexedName ("$" ++ ip_name p) [t] \/ fd_name d = indexedName ("$" ++ ip_name p) [t; NBool]).
Proof.
  intros O p n d H. unfold predFuncs in H. apply in_app_or in H as [H|H].
  - destruct (_ || _); [|destruct H]. exists (NInt n). split; [now left|].
    destruct H as [<-|[<-|[]]]; [right|left]; reflexivity.
  - destruct (_ || _); [|destruct H]. exists (NBv n). split; [now right|].
    destruct H as [<-|[<-|[]]]; [right|left]; [destruct (ip_bv p)|]; reflexivity.
Qed.

Lemma convFuncs_base : forall O c n m d, In d (convFuncs O c n m) ->
  fd_name d = indexedName ("$" ++ ic_name c) [intTypeOf O n; intTypeOf O m].
Proof.
  intros O c n m d H. unfold convFuncs, intTypeOf in *.
  destruct (bitPrecise O); [destruct (ic_bv c)|]; destruct H as [<-|[]]; reflexivity.
Qed.

Lemma arith_names_ok : forall O o, In o (intArithOpTable O) -> In ("$" ++ ao_name o) arith_names.
Proof.
  intros O o H. cbn in H. unfold arith_names.
  repeat (destruct H as [<-|H]; [cbn; tauto|]). destruct H.
Qed.
Lemma pred_names_ok : forall O o, In o (intPredTable O) -> In ("$" ++ ip_name o) pred_names.
Proof.
  intros O o H. cbn in H. unfold pred_names.
  repeat (destruct H as [<-|H]; [cbn; tauto|]). destruct H.
Qed.
Lemma conv_names_ok : forall O o, In o (intConvTable O) -> In ("$" ++ ic_name o) conv_names.
Proof.
  intros O o H. cbn in H. unfold conv_names.
  repeat (destruct H as [<-|H]; [cbn; tauto|]). destruct H.
Qed.

Lemma arithDecls_bases : forall O, bases_in arith_names (arithDecls O).
Proof.
  intros O d H. unfold arithDecls in H. apply in_flat_map in H as (o & Ho & H).
  apply in_flat_map in H as (n & _ & H).
  apply arithFuncs_base in H as [->| ->]; apply (arith_names_ok O); assumption.
Qed.
Lemma predDecls_bases : forall O, bases_in pred_names (predDecls O).
Proof.
  intros O d H. unfold predDecls in H. apply in_flat_map in H as (o & Ho & H).
  apply in_flat_map in H as (n & _ & H).
  apply predFuncs_base in H as (t & _ & [->| ->]); apply (pred_names_ok O); assumption.
Qed.
Lemma convDecls_bases : forall O, bases_in conv_names (convDecls O).
Proof.
  intros O d H. unfold convDecls in H. apply in_flat_map in H as (o & Ho & H).
  apply in_flat_map in H as (n & _ & H).
  destruct (ic_up o); apply convFuncs_base in H as ->; apply (conv_names_ok O); assumption.
Qed.

(** Distinct table entries have distinct names. *)
Lemma lookup_name_ne : forall l f, (forall d, In d l -> fd_name d <> f) -> lookup l f = None.
Proof.
  intros l f H. destruct (lookup l f) eqn:E; [|reflexivity].
  apply lookup_In in E as [E1 E2]. exfalso. exact (H _ E1 E2).
Qed.

Lemma nodup_in_dec : forall {A} (key : A -> string) (l : list A) a b,
  NoDup (map key l) -> In a l -> In b l -> key a = key b -> a = b.
Proof.
  induction l as [|x l IH]; intros a b Hd Ha Hb E; [destruct Ha|].
  cbn in Hd. inversion Hd as [|? ? Hn Hd']; subst.
  destruct Ha as [->|Ha], Hb as [->|Hb]; auto.
  - exfalso. apply Hn. rewrite E. now apply in_map.
  - exfalso. apply Hn. rewrite <- E. now apply in_map.
Qed.

Ltac nodup_strings :=
  repeat (constructor; [cbn; intuition discriminate|]); constructor.

Lemma arith_nodup : forall O, NoDup (map ao_name (intArithOpTable O)).
Proof. intros; cbn. nodup_strings. Qed.
Lemma pred_nodup : forall O, NoDup (map ip_name (intPredTable O)).
Proof. intros; cbn. nodup_strings. Qed.
Lemma conv_nodup : forall O, NoDup (map ic_name (intConvTable O)).
Proof. intros; cbn. nodup_strings. Qed.

Lemma dollar_inj : forall a b, "$" ++ a = "$" ++ b -> a = b.
Proof. intros a b H. cbn in H. congruence. Qed.

Lemma lookup_arith : forall O o n t, In o (intArithOpTable O) -> In n INTEGER_SIZES ->
  t = NInt n \/ t = NBv n ->
  lookup (arithDecls O) (indexedName ("$" ++ ao_name o) [t]) =
  lookup (arithFuncs O o n) (indexedName ("$" ++ ao_name o) [t]).
Proof.
  intros O o n t Ho Hn Ht. unfold arithDecls.
  rewrite (lookup_flat_map_key _ _ _ o); [|assumption|].
  - apply lookup_flat_map_key; [assumption|]. intros m Hm.
    destruct (Z.eq_dec m n) as [->|Ne]; [now left|right].
    apply lookup_name_ne. intros d Hd E.
    apply arithFuncs_base in Hd as [Hd|Hd]; rewrite Hd in E; destruct Ht as [-> | ->]; congruence.
  - intros b Hb. destruct (string_dec (ao_name b) (ao_name o)) as [E|Ne].
    + left. eapply nodup_in_dec; eauto using arith_nodup.
    + right. apply lookup_flat_map_none. intros m Hm. apply lookup_name_ne.
      intros d Hd E. apply arithFuncs_base in Hd as [Hd|Hd]; rewrite Hd in E;
        injection E as E _; apply Ne; exact E.
Qed.

Lemma lookup_pred : forall O p n t idx, In p (intPredTable O) -> In n INTEGER_SIZES ->
  t = NInt n \/ t = NBv n -> idx = [t] \/ idx = [t; NBool] ->
  lookup (predDecls O) (indexedName ("$" ++ ip_name p) idx) =
  lookup (predFuncs O p n) (indexedName ("$" ++ ip_name p) idx).
Proof.
  intros O o n t idx Ho Hn Ht Hi. unfold predDecls.
  rewrite (lookup_flat_map_key _ _ _ o); [|assumption|].
  - apply lookup_flat_map_key; [assumption|]. intros m Hm.
    destruct (Z.eq_dec m n) as [->|Ne]; [now left|right].
    apply lookup_name_ne. intros d Hd E.
    apply predFuncs_base in Hd as (t' & Ht' & [Hd|Hd]); rewrite Hd in E;
      destruct Ht as [-> | ->], Ht' as [-> | ->], Hi as [-> | ->]; congruence.
  - intros b Hb. destruct (string_dec (ip_name b) (ip_name o)) as [E|Ne].
    + left. eapply nodup_in_dec; eauto using pred_nodup.
    + right. apply lookup_flat_map_none. intros m Hm. apply lookup_name_ne.
      intros d Hd E. apply predFuncs_base in Hd as (t' & _ & [Hd|Hd]); rewrite Hd in E;
        injection E as E _; apply Ne; exact E.
Qed.

Fixpoint sortedZ (l : list Z) : Prop :=
  match l with
  | [] => True
  | x :: l' => Forall (fun y => x < y) l' /\ sortedZ l'
  end.

Lemma pairs_lt_in : forall l x y, sortedZ l -> In x l -> In y l -> x < y -> In (x, y) (pairs_lt l).
Proof.
  induction l as [|z l IH]; cbn; intros x y Hs Hx Hy Hlt; [destruct Hx|]; destruct Hs as [Hs Hs'].
  apply in_or_app. rewrite Forall_forall in Hs.
  destruct Hx as [->|Hx], Hy as [->|Hy]; [lia| | |].
  - left. apply in_map_iff. exists y. auto.
  - apply Hs in Hx. lia.
  - right. now apply IH.
Qed.

Lemma sizes_sorted : sortedZ INTEGER_SIZES.
Proof. cbn. repeat (split; [repeat constructor|]). exact I. Qed.

Lemma lookup_conv : forall O c n m, In c (intConvTable O) -> In n INTEGER_SIZES -> In m INTEGER_SIZES ->
  (if ic_up c then n < m else m < n) ->
  lookup (convDecls O) (indexedName ("$" ++ ic_name c) [intTypeOf O n; intTypeOf O m]) =
  lookup (convFuncs O c n m) (indexedName ("$" ++ ic_name c) [intTypeOf O n; intTypeOf O m]).
Proof.
  intros O o n m Ho Hn Hm Hlt. unfold convDecls.
  rewrite (lookup_flat_map_key _ _ _ o); [|assumption|].
  - destruct (ic_up o) eqn:Eup.
    + rewrite (lookup_flat_map_key _ _ _ (n, m)); [reflexivity|apply pairs_lt_in; auto using sizes_sorted|].
      intros [a b] Hab. cbn [fst snd].
      destruct (Z.eq_dec a n) as [->|Ne]; [destruct (Z.eq_dec b m) as [->|Ne']; [now left|]|]; right;
      apply lookup_name_ne; intros d Hd E; apply convFuncs_base in Hd; rewrite Hd in E;
      unfold intTypeOf in E; destruct (bitPrecise O); congruence.
    + rewrite (lookup_flat_map_key _ _ _ (m, n)); [reflexivity|apply pairs_lt_in; auto using sizes_sorted|].
      intros [a b] Hab. cbn [fst snd].
      destruct (Z.eq_dec a m) as [->|Ne]; [destruct (Z.eq_dec b n) as [->|Ne']; [now left|]|]; right;
      apply lookup_name_ne; intros d Hd E; apply convFuncs_base in Hd; rewrite Hd in E;
      unfold intTypeOf in E; destruct (bitPrecise O); congruence.
  - intros b Hb. destruct (string_dec (ic_name b) (ic_name o)) as [E|Ne].
    + left. eapply nodup_in_dec; eauto using conv_nodup.
    + right. apply lookup_flat_map_none. intros p Hp. apply lookup_name_ne.
      intros d Hd E. destruct (ic_up b); apply convFuncs_base in Hd; rewrite Hd in E;
        injection E as E _; apply Ne; exact E.
Qed.

Lemma pred_arith_disj : forall x, In x pred_names -> existsb (String.eqb x) arith_names = false.
Proof. intros x H. unfold pred_names in H. cbn in H. repeat (destruct H as [<-|H]; [reflexivity|]). destruct H. Qed.
Lemma conv_arith_disj : forall x, In x conv_names -> existsb (String.eqb x) arith_names = false.
Proof. intros x H. unfold conv_names in H. cbn in H. repeat (destruct H as [<-|H]; [reflexivity|]). destruct H. Qed.
Lemma conv_pred_disj : forall x, In x conv_names -> existsb (String.eqb x) pred_names = false.
Proof. intros x H. unfold conv_names in H. cbn in H. repeat (destruct H as [<-|H]; [reflexivity|]). destruct H. Qed.

Lemma prelude_arith : forall O o n t, In o (intArithOpTable O) -> In n INTEGER_SIZES ->
  t = NInt n \/ t = NBv n ->
  forall d, lookup (arithFuncs O o n) (indexedName ("$" ++ ao_name o) [t]) = Some d ->
  lookup (preludeInt O) (indexedName ("$" ++ ao_name o) [t]) = Some d.
Proof.
  intros O o n t Ho Hn Ht d E. unfold preludeInt. rewrite lookup_app, (lookup_arith O o n t), E; auto.
Qed.

Lemma prelude_pred : forall O p n t idx, In p (intPredTable O) -> In n INTEGER_SIZES ->
  t = NInt n \/ t = NBv n -> idx = [t] \/ idx = [t; NBool] ->
  forall d, lookup (predFuncs O p n) (indexedName ("$" ++ ip_name p) idx) = Some d ->
  lookup (preludeInt O) (indexedName ("$" ++ ip_name p) idx) = Some d.
Proof.
  intros O p n t idx Hp Hn Ht Hi d E. unfold preludeInt.
  rewrite lookup_app, (lookup_none_base arith_names), lookup_app, (lookup_pred O p n t idx), E; auto.
  - apply arithDecls_bases.
  - apply pred_arith_disj, (pred_names_ok O), Hp.
Qed.

Lemma prelude_conv : forall O c n m, In c (intConvTable O) -> In n INTEGER_SIZES -> In m INTEGER_SIZES ->
  (if ic_up c then n < m else m < n) ->
  forall d, lookup (convFuncs O c n m) (indexedName ("$" ++ ic_name c) [intTypeOf O n; intTypeOf O m]) = Some d ->
  lookup (preludeInt O) (indexedName ("$" ++ ic_name c) [intTypeOf O n; intTypeOf O m]) = Some d.
Proof.
  intros O c n m Hc Hn Hm Hlt d E. unfold preludeInt.
  rewrite lookup_app, (lookup_none_base arith_names), lookup_app, (lookup_none_base pred_names),
    (lookup_conv O c n m), E; auto.
  - apply predDecls_bases.
  - apply conv_pred_disj, (conv_names_ok O), Hc.
  - apply arithDecls_bases.
  - apply conv_arith_disj, (conv_names_ok O), Hc.
Qed.
