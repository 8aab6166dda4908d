(** C34: inline Boogie code. *)
From Coq Require Import List Bool String Ascii.
From Verif.Spec Require Import Template Identifiers.
From Verif.Model Require Import InlineCode Naming.
Import ListNotations.
Open Scope string_scope.
Open Scope list_scope.

Lemma target_format : forall c, target c = format c.
Proof. intros [[] [] [] [] [] [] [] []]; reflexivity. Qed.
Lemma app_assoc_s : forall a b c, (a +++ b) +++ c = a +++ b +++ c.
Proof. induction a as [|x a IH]; intros b c; cbn; [reflexivity|now rewrite IH]. Qed.
Lemma app_nil_s : forall a, a +++ "" = a.
Proof. induction a as [|x a IH]; cbn; congruence. Qed.
Lemma find_at_text : forall s r, no_at s -> find_at (s +++ r) = match find_at r with Some (a, b) => Some (s +++ a, b) | None => None end.
Proof.
  induction s as [|c s IH]; intros r H; cbn; [now destruct (find_at r) as [[? ?]|]|]. destruct H as (Hc & H). destruct (Ascii.eqb_spec c "@") as [->|]; [now destruct Hc|]. rewrite IH by exact H. now destruct (find_at r) as [[? ?]|].
Qed.
Lemma no_at_app : forall a b, no_at a -> no_at b -> no_at (a +++ b).
Proof. induction a as [|c a IH]; cbn; [auto|]. intros b (H1 & H2) H3. auto. Qed.

(** Behind text that is already there. *)
Lemma code_fill : forall l args pre, well_formed l -> no_at pre -> (forall a, In a args -> no_at (a_text a) /\ forall t x, a_src a = Some (t, x) -> no_at x) ->
  code_args (pre +++ render l) args = option_map (String.append pre) (fill l args).
Proof.
  induction l as [|p l IH]; intros args pre W Np HA.
  - cbn. rewrite app_nil_s. destruct args as [|a args]; cbn [fill code_args option_map]; [now rewrite app_nil_s|]. unfold code1. rewrite <- (app_nil_s pre), find_at_text by exact Np. reflexivity.
  - destruct p as [s| |c].
    + destruct W as (Ns & W). cbn [render render1 fill]. rewrite <- app_assoc_s, IH; [|exact W|now apply no_at_app|exact HA]. destruct (fill l args); cbn; [now rewrite app_assoc_s|reflexivity].
    + destruct W as (Nf & W). destruct args as [|a args]; [reflexivity|]. cbn [code_args render render1 fill hole_text]. unfold code1. rewrite find_at_text by exact Np. cbn [String.append find_at Ascii.eqb]. cbn.
      assert (match render l with EmptyString => None | String c r => match target c with Some t => Some (t, r) | None => None end end = None) as ->.
      { destruct (render l) as [|c r]; [reflexivity|]. cbn in Nf. rewrite target_format. destruct (format c); [discriminate|reflexivity]. }
      destruct (aty_dec (a_ty a) (a_ty a)) as [_|X]; [|now destruct X]. rewrite app_nil_s.
      destruct (HA a (or_introl eq_refl)) as (HA1 & _). rewrite <- app_assoc_s, IH; [|exact W|now apply no_at_app|intros b Hb; apply HA; now right]. destruct (fill l args); cbn; [now rewrite app_assoc_s|reflexivity].
    + destruct W as (Nf & W). destruct args as [|a args]; [reflexivity|]. cbn [code_args render render1 fill hole_text]. unfold code1. rewrite find_at_text by exact Np. cbn.
      rewrite target_format. destruct (format c) as [t|] eqn:Ft; [|congruence]. rewrite app_nil_s. unfold unpromoted. destruct (HA a (or_introl eq_refl)) as (HA1 & HA2).
      assert (forall x, no_at x -> code_args (pre +++ x +++ render l) args = option_map (String.append pre) (option_map (String.append x) (fill l args))) as HX.
      { intros x Hx. rewrite <- app_assoc_s, IH; [|exact W|now apply no_at_app|intros b Hb; apply HA; now right]. destruct (fill l args); cbn; [now rewrite app_assoc_s|reflexivity]. }
      destruct (aty_dec (a_ty a) t); [auto|]. destruct (a_src a) as [[t' x]|] eqn:Es; [|reflexivity]. destruct (aty_dec t' t); [|reflexivity]. apply HX. eauto.
Qed.

(** Every template is a sequence of text and holes, in one way up to the division of
    text. *)
Lemma parse : forall s, exists l, well_formed l /\ render l = s.
Proof.
  assert (forall n s, String.length s <= n -> exists l, well_formed l /\ render l = s) as H.
  { induction n as [|n IH]; intros s Hl.
    - destruct s; [|now apply PeanoNat.Nat.nle_succ_0 in Hl]. exists []. split; [exact I|reflexivity].
    - destruct s as [|c s]; [exists []; split; [exact I|reflexivity]|]. cbn in Hl. apply le_S_n in Hl.
      destruct (Ascii.eqb_spec c "@") as [->|Nc].
      + destruct (starts_format s) eqn:F.
        * destruct s as [|d s]; [discriminate|]. destruct (IH s) as (l & W & E); [cbn in Hl; apply PeanoNat.Nat.le_trans with (2 := Hl); auto|]. exists (TypedHole d :: l). cbn in F |- *. rewrite E. split; [split; [destruct (format d); congruence|exact W]|reflexivity].
        * destruct (IH s Hl) as (l & W & E). exists (Hole :: l). cbn. rewrite E. auto.
      + destruct (IH s Hl) as (l & W & E). exists (Text (String c "") :: l). cbn. rewrite E. auto. }
  intros s. now apply (H (String.length s)).
Qed.

(** The k-th placeholder is replaced by the k-th argument, everything else is copied. *)
Theorem C34_substitution : (forall args, code "" args = None) /\
  forall fmt args, fmt <> "" -> (forall a, In a args -> no_at (a_text a) /\ forall t x, a_src a = Some (t, x) -> no_at x) ->
  exists l, well_formed l /\ render l = fmt /\ code fmt args = fill l args.
Proof.
  split; [reflexivity|]. intros fmt args Hf HA. destruct (parse fmt) as (l & W & E). exists l. split; [exact W|]. split; [exact E|]. unfold code. destruct (String.eqb_spec fmt ""); [congruence|].
  pose proof (code_fill l args "" W I HA) as H. cbn in H. rewrite E in H. rewrite H. now destruct (fill l args).
Qed.
Print Assumptions C34_substitution.

(** For every way to read the template. *)
Theorem C34_any_reading : forall l args, well_formed l -> render l <> "" -> (forall a, In a args -> no_at (a_text a) /\ forall t x, a_src a = Some (t, x) -> no_at x) ->
  code (render l) args = fill l args.
Proof.
  intros l args W Hf HA. unfold code. destruct (String.eqb_spec (render l) ""); [congruence|]. pose proof (code_fill l args "" W I HA) as H. cbn in H. rewrite H. now destruct (fill l args).
Qed.
Print Assumptions C34_any_reading.

(** The names the translator uses contain no placeholder, whatever the source. *)
Theorem C34_names : forall s, no_at (base s).
Proof.
  assert (forall s, no_at (escape s)) as H.
  { induction s as [|c s IH]; cbn; [exact I|]. split; [|exact IH]. destruct c as [[] [] [] [] [] [] [] []]; vm_compute; discriminate. }
  intros s. unfold base. destruct (isBplKeyword (escape s)); [|apply H]. apply no_at_app; [apply H|]. cbn. split; [discriminate|exact I].
Qed.
Print Assumptions C34_names.

(** With an argument whose text contains '@', what follows goes into that text. *)
Theorem C34_at_refuted : code "f(@, @)" [Arg (OtherTy 0) "x@" None; Arg (OtherTy 0) "y" None] = Some "f(xy, @)".
Proof. reflexivity. Qed.
Print Assumptions C34_at_refuted.
(** A letter right after a placeholder is taken for a format. *)
Theorem C34_letter_refuted : code "v@is" [Arg I32 "x" None] = Some "vxs" /\ code "v@is" [Arg (OtherTy 0) "x" None] = None.
Proof. split; reflexivity. Qed.
Print Assumptions C34_letter_refuted.

Example C34_nonvacuous : code "assume @ == $foo(@f, @c) || @;" [Arg (OtherTy 0) "$p1" None; Arg (OtherTy 1) "$f2" (Some (Float, "$f1")); Arg I32 "$i3" (Some (I8, "$i2"))] = Some "assume $p1 == $foo($f1, $i2) || @;".
Proof. reflexivity. Qed.
