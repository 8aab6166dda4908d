(** C76: from the input files to the Boogie program – share/smack/frontend.py, top.py. *)
From Coq Require Import List String Ascii Bool NArith Lia Permutation.
From Verif.Spec Require Import Frontend.
From Verif.Model Require Import ErrTrace Driver Svcomp Frontend.
Import ListNotations.
Open Scope string_scope.
Open Scope list_scope.
Notation "a +++ b" := (String.append a b) (right associativity, at level 60).

(** ** What the theorems speak of *)
(** The language of an input: that of --language, or of its extension. *)
Definition speaks (a : settings) (f l : string) : Prop :=
  match language a with Some x => language_of x l | None => exists x, extension f x /\ language_of x l end.
(** What the compiler of a language makes of a file. *)
Inductive made (e : env) (a : settings) : string * string -> content -> Prop :=
| made_c f : made e a (f, "c") (Compiled "clang" (default_clang_options e a false) (Given f))
| made_cxx f : made e a (f, "cxx") (Compiled "clang++" (default_clang_options e a false) (Given f))
| made_objc f : made e a (f, "objc") (Compiled "clang" (default_clang_options e a false ++ objc_flags e) (Given f))
| made_d f : made e a (f, "d") (Compiled "ldc2" ["-output-ll"; "-I=" +++ headers e] (Given f))
| made_llvm f : made e a (f, "llvm") (Given f)
| made_rust f rlib : made e a (f, "rust") (Compiled "rustc" (rust_options ["--emit=llvm-bc"; "--extern"; "smack=" +++ rlib]) (Given f)).
(** SMACK's library, and the libraries for languages. *)
Definition library_file (e : env) (a : settings) (f : string) : content := Compiled "clang" (default_clang_options e a true) (Given (smack_lib e f)).
Definition language_library (e : env) (a : settings) (l : string) : content :=
  if String.eqb l "cxx" then Compiled "clang++" (default_clang_options e a true) (Given (smack_lib e "smack.cpp"))
  else Compiled "rustc" (rust_options ["--emit=llvm-bc"; "--crate-type"; "lib"]) (Given (smack_lib e "smack.rs")).
(** mkstemp makes new names, and not those of the outputs; a set is gone through once. *)
Definition system (e : env) (a : settings) : Prop :=
  (forall l p x, ~ In (fresh e l p x) l) /\ (forall l p x, fresh e l p x <> bc_file a) /\ (forall l, Permutation (order e l) l).
Definition is_there (fs : list (string * content)) (f : string) : Prop := lookup_s f fs = Some (Given f).
Definition all_libs : list string := ["smack.c"; "stdlib.c"; "errno.c"; "smack-rust.c"; "pthread.c"; "string.c"; "math.c"; "fenv.c"; "smack.cpp"; "smack.rs"].

(** ** File names *)
Lemma after_none : forall c s, absent c s -> after c s = None.
Proof. induction s as [|x s IH]; [reflexivity|]. intros [H1 H2]. cbn. rewrite IH by exact H2. destruct (Ascii.eqb_spec x c); [congruence|reflexivity]. Qed.
Lemma after_last : forall c a b, absent c b -> after c (a +++ String c b) = Some b.
Proof.
  intros c a b H. induction a as [|x a IH]; cbn; [|now rewrite IH]. rewrite after_none by exact H. now rewrite Ascii.eqb_refl.
Qed.
Lemma absent_app : forall c a b, absent c a -> absent c b -> absent c (a +++ b).
Proof. induction a as [|x a IH]; intros b Ha Hb; [exact Hb|]. destruct Ha. split; auto. Qed.
Lemma app_assoc_s : forall a b c, (a +++ b) +++ c = a +++ b +++ c.
Proof. induction a as [|x a IH]; intros; cbn; [reflexivity|]. now rewrite IH. Qed.
Lemma undot_app : forall u x v r, x <> "."%char -> exists b, undot ((u +++ String x v) +++ r) = b +++ r.
Proof.
  intros u x v r Hx. induction u as [|y u IH].
  - exists (String x v). destruct x as [[] [] [] [] [] [] [] []]; try reflexivity. congruence.
  - destruct (ascii_dec y "."); [subst y; exact IH|]. exists (String y u +++ String x v). destruct y as [[] [] [] [] [] [] [] []]; try reflexivity. congruence.
Qed.
Lemma extension_splitext : forall f x, extension f x -> splitext f = x.
Proof.
  intros f x (d & b & -> & Hd & Hb & Hx & Hp & (u & y & v & -> & Hy)). unfold splitext.
  assert (basename (d +++ (u +++ String y v) +++ "." +++ x) = (u +++ String y v) +++ "." +++ x) as ->.
  { unfold basename. assert (absent "/" ((u +++ String y v) +++ "." +++ x)) as A by (apply absent_app; [exact Hb|split; [discriminate|exact Hx]]).
    destruct Hd as [->|(d' & ->)]; [now rewrite after_none|]. rewrite app_assoc_s. change ("/" +++ (u +++ String y v) +++ "." +++ x) with (String "/" ((u +++ String y v) +++ "." +++ x)). now rewrite after_last. }
  destruct (undot_app u y v ("." +++ x) Hy) as (b & ->). change ("." +++ x) with (String "." x). now rewrite after_last.
Qed.
Lemma lookup_language : forall x l, language_of x l -> lookup_s x languages = Some l.
Proof. intros x l [(-> & H)|[(-> & H)|[(-> & H)|[(-> & H)|[(-> & H)|(-> & H)]]]]]; cbn in H; intuition subst; reflexivity. Qed.
Lemma speaks_lang : forall a f l, speaks a f l -> lang_of a f = Some l.
Proof. intros a f l H. unfold lang_of, speaks in *. destruct (language a); [now apply lookup_language|]. destruct H as (x & Hx & H). rewrite (extension_splitext f x Hx). now apply lookup_language. Qed.
Lemma speaks_some : forall a f l, speaks a f l -> In l ["c"; "cxx"; "objc"; "d"; "llvm"; "rust"].
Proof. intros a f l H. assert (exists x, language_of x l) as (x & Hx) by (unfold speaks in H; destruct (language a); [eauto|destruct H as (x & _ & H); eauto]). unfold language_of in Hx. cbn. intuition. Qed.

(** ** Files *)
Definition keeps (s s' : st) : Prop := forall n c, read n s = Some c -> read n s' = Some c.
Lemma keeps_refl : forall s, keeps s s. Proof. intros s n c H. exact H. Qed.
Lemma keeps_trans : forall s1 s2 s3, keeps s1 s2 -> keeps s2 s3 -> keeps s1 s3. Proof. intros s1 s2 s3 H1 H2 n c H. auto. Qed.
Lemma lookup_in : forall (l : list (string * content)) n c, lookup_s n l = Some c -> In n (map fst l).
Proof. induction l as [|[x v] l IH]; intros n c H; [discriminate|]. cbn in H. destruct (String.eqb_spec n x); [left; cbn; congruence|right; eauto]. Qed.
Lemma read_put : forall n c s, read n (put n c s) = Some c. Proof. intros. unfold read, put. cbn. now rewrite String.eqb_refl. Qed.
Lemma read_other : forall n m c s, n <> m -> read n (put m c s) = read n s. Proof. intros n m c s H. unfold read, put. cbn. destruct (String.eqb_spec n m); [congruence|reflexivity]. Qed.
Lemma keeps_all : forall s s' l cs, keeps s s' -> read_all l s = Some cs -> read_all l s' = Some cs.
Proof.
  intros s s' l cs K. revert cs. induction l as [|n l IH]; intros cs H; cbn in *; [exact H|]. destruct (read n s) as [c|] eqn:E; [|discriminate]. destruct (read_all l s) as [cs'|]; [|discriminate]. rewrite (K n c E), (IH cs' eq_refl). exact H.
Qed.
Lemma read_all_app : forall l1 l2 s c1 c2, read_all l1 s = Some c1 -> read_all l2 s = Some c2 -> read_all (l1 ++ l2) s = Some (c1 ++ c2).
Proof.
  induction l1 as [|n l1 IH]; intros l2 s c1 c2 H1 H2; cbn in *; [injection H1 as <-; exact H2|]. destruct (read n s); [|discriminate]. destruct (read_all l1 s) as [cs|] eqn:E; [|discriminate]. injection H1 as <-. now rewrite (IH l2 s cs c2 E H2).
Qed.
Lemma read_all_put : forall l s m c, Forall (fun n => n <> m) l -> read_all l (put m c s) = read_all l s.
Proof. induction l as [|n l IH]; intros s m c H; cbn [read_all]; [reflexivity|]. apply Forall_cons_iff in H as [H1 H2]. now rewrite read_other, IH. Qed.

Section Run.
Variable e : env.
Variable a : settings.
Hypothesis Hsys : system e a.

Lemma temp_ok : forall p x s f c, read f s = Some c -> f <> fresh e (map fst (files s)) p x.
Proof. intros p x s f c H E. apply (proj1 Hsys (map fst (files s)) p x). rewrite <- E. now apply lookup_in in H. Qed.
Lemma temp_keeps : forall p x s c1 c2, keeps s (put (fresh e (map fst (files s)) p x) c1 (put (fresh e (map fst (files s)) p x) c2 s)).
Proof. intros p x s c1 c2 n c H. pose proof (temp_ok p x s n c H). now rewrite !read_other. Qed.
Lemma compile_ok : forall f comp opts s c, read f s = Some c -> exists bc s', compile_to_bc e f comp opts s = Some (bc, s') /\
  keeps s s' /\ eps s' = eps s /\ read bc s' = Some (Compiled comp opts c) /\ bc <> bc_file a.
Proof.
  intros f comp opts s c H. unfold compile_to_bc, temporary_file. pose proof (temp_ok (stem f) ".bc" s f c H) as N. rewrite (read_other _ _ _ _ N), H.
  do 2 eexists. split; [reflexivity|]. split; [apply temp_keeps|]. split; [reflexivity|]. split; [apply read_put|apply Hsys].
Qed.
Lemma rlib_ok : forall f s c, read f s = Some c -> exists r s', rust_build_rlib e f s = Some (r, s') /\ keeps s s' /\ eps s' = eps s.
Proof.
  intros f s c H. unfold rust_build_rlib, temporary_file. pose proof (temp_ok ("lib" ++ stem f) ".rlib" s f c H) as N. rewrite (read_other _ _ _ _ N), H.
  do 2 eexists. split; [reflexivity|]. split; [apply temp_keeps|reflexivity].
Qed.
Lemma build_ok : forall comp opts l s, (forall f, In f l -> read (smack_lib e f) s = Some (Given (smack_lib e f))) ->
  exists bcs s', build e comp opts l s = Some (bcs, s') /\ keeps s s' /\ eps s' = eps s /\
    read_all bcs s' = Some (map (fun f => Compiled comp opts (Given (smack_lib e f))) l) /\ Forall (fun n => n <> bc_file a) bcs.
Proof.
  intros comp opts l. induction l as [|f l IH]; intros s H; cbn [build].
  - exists [], s. repeat split; [apply keeps_refl|constructor].
  - destruct (compile_ok _ comp opts s _ (H f (or_introl eq_refl))) as (bc & s1 & -> & K1 & E1 & R1 & N1).
    destruct (IH s1) as (bcs & s2 & -> & K2 & E2 & R2 & N2); [intros g Hg; apply K1, H; now right|].
    exists (bc :: bcs), s2. split; [reflexivity|]. split; [eapply keeps_trans; eauto|]. split; [congruence|]. split; [|now constructor]. cbn [read_all map]. now rewrite (K2 _ _ R1), R2.
Qed.
Lemma build_libs_ok : forall l s, (forall x, In x l -> x = "cxx" \/ x = "rust") ->
  (forall f, In f all_libs -> read (smack_lib e f) s = Some (Given (smack_lib e f))) ->
  exists bcs s', build_libs e a l s = Some (bcs, s') /\ keeps s s' /\ eps s' = eps s /\
    read_all bcs s' = Some (map (language_library e a) l) /\ Forall (fun n => n <> bc_file a) bcs.
Proof.
  induction l as [|x l IH]; intros s Hl H; cbn [build_libs].
  - exists [], s. repeat split; [apply keeps_refl|constructor].
  - assert (exists bcs s', build_lib e a x s = Some (bcs, s') /\ keeps s s' /\ eps s' = eps s /\ read_all bcs s' = Some [language_library e a x] /\ Forall (fun n => n <> bc_file a) bcs) as (b1 & s1 & -> & K1 & E1 & R1 & N1).
    { destruct (Hl x (or_introl eq_refl)) as [-> | ->]; unfold build_lib; cbn [String.eqb Ascii.eqb Bool.eqb];
        (destruct (build_ok "clang++" (default_clang_options e a true) ["smack.cpp"] s) as (b & s' & ? & ? & ? & ? & ?); [intros f [<-|[]]; apply H; unfold all_libs; cbn; tauto|]);
        (destruct (build_ok "rustc" (rust_options ["--emit=llvm-bc"; "--crate-type"; "lib"]) ["smack.rs"] s) as (b' & s'' & ? & ? & ? & ? & ?); [intros f [<-|[]]; apply H; unfold all_libs; cbn; tauto|]).
      - exists b, s'. auto.
      - exists b', s''. auto. }
    destruct (IH s1) as (b2 & s2 & -> & K2 & E2 & R2 & N2); [intros y Hy; apply Hl; now right|intros f Hf; now apply K1, H|].
    exists (b1 ++ b2), s2. split; [reflexivity|]. split; [eapply keeps_trans; eauto|]. split; [congruence|]. split; [|apply Forall_app; auto].
    exact (read_all_app b1 b2 s2 _ _ (keeps_all _ _ _ _ K2 R1) R2).
Qed.
Lemma extern_ok : forall bcs s cs, read_all bcs s = Some cs -> exists ns s', extern_entry_points e bcs s = Some (ns, s') /\ keeps s s' /\ eps s' = eps s /\
  read_all ns s' = Some (map (Visible (eps s)) cs).
Proof.
  induction bcs as [|bc l IH]; intros s cs H; cbn [extern_entry_points].
  - injection H as <-. exists [], s. repeat split. apply keeps_refl.
  - cbn in H. destruct (read bc s) as [c|] eqn:E; [|discriminate]. destruct (read_all l s) as [cs'|] eqn:El; [|discriminate]. injection H as <-. unfold temporary_file.
    pose proof (temp_ok (stem bc) ".bc" s bc c E) as N. rewrite (read_other _ _ _ _ N), E. pose proof (temp_keeps (stem bc) ".bc" s (Visible (eps (put (fresh e (map fst (files s)) (stem bc) ".bc") Empty s)) c) Empty) as K.
    destruct (IH _ cs' (keeps_all _ _ _ _ K El)) as (ns & s2 & -> & K2 & E2 & R2). do 2 eexists. split; [reflexivity|]. split; [eapply keeps_trans; eauto|]. split; [exact E2|]. cbn [read_all map].
    rewrite (K2 _ _ (read_put _ _ _)), R2. reflexivity.
Qed.
Definition mains (fl : list (string * string)) : list string := repeat "_Dmain" (count_occ string_dec (map snd fl) "d").
Lemma frontend_ok : forall f l s, speaks a f l -> read f s = Some (Given f) -> (forall g, In g all_libs -> read (smack_lib e g) s = Some (Given (smack_lib e g))) ->
  exists bc s' b, run_frontend e a l f s = Some (bc, s') /\ keeps s s' /\ eps s' = eps s ++ mains [(f, l)] /\ read bc s' = Some b /\ made e a (f, l) b.
Proof.
  intros f l s Hl Hf Hlib. apply speaks_some in Hl. cbn in Hl. unfold run_frontend, mains.
  destruct Hl as [<-|[<-|[<-|[<-|[<-|[<-|[]]]]]]]; cbn [String.eqb Ascii.eqb Bool.eqb]; cbn [map snd count_occ]; try (rewrite app_nil_r).
  - destruct (compile_ok f "clang" (default_clang_options e a false) s _ Hf) as (bc & s' & -> & ? & ? & R & _). do 3 eexists. repeat (split; [first [reflexivity|eassumption|(cbn; rewrite ?app_nil_r; assumption)]|]). constructor.
  - destruct (compile_ok f "clang++" (default_clang_options e a false) s _ Hf) as (bc & s' & -> & ? & ? & R & _). do 3 eexists. repeat (split; [first [reflexivity|eassumption|(cbn; rewrite ?app_nil_r; assumption)]|]). constructor.
  - destruct (compile_ok f "clang" (default_clang_options e a false ++ objc_flags e) s _ Hf) as (bc & s' & -> & ? & ? & R & _). do 3 eexists. repeat (split; [first [reflexivity|eassumption|(cbn; rewrite ?app_nil_r; assumption)]|]). constructor.
  - destruct (compile_ok f "ldc2" ["-output-ll"; "-I=" +++ headers e] (St (files s) (eps s ++ ["_Dmain"])) _ Hf) as (bc & s' & E & K & Ee & R & _). do 3 eexists. split; [exact E|]. split; [exact K|]. split; [exact Ee|]. split; [exact R|constructor].
  - do 3 eexists. split; [reflexivity|]. split; [apply keeps_refl|]. split; [cbn; now rewrite ?app_nil_r|]. split; [exact Hf|constructor].
  - destruct (rlib_ok (smack_lib e "smack.rs") s (Given (smack_lib e "smack.rs"))) as (r & s1 & -> & K1 & E1); [apply Hlib; unfold all_libs; cbn; tauto|].
    destruct (compile_ok f "rustc" (rust_options ["--emit=llvm-bc"; "--extern"; "smack=" +++ r]) s1 _ (K1 _ _ Hf)) as (bc & s' & -> & K2 & E2 & R & _).
    do 3 eexists. split; [reflexivity|]. split; [eapply keeps_trans; eauto|]. split; [cbn; rewrite ?app_nil_r; congruence|]. split; [exact R|constructor].
Qed.
Lemma add_libs_ok : forall l libs, NoDup libs -> NoDup (add_libs l libs) /\ forall x, In x (add_libs l libs) <-> In x libs \/ (In x extra_libs /\ x = l).
Proof.
  intros l libs H. unfold add_libs. destruct (existsb (String.eqb l) extra_libs) eqn:E1; cbn [andb].
  - apply existsb_exists in E1 as (y & Hy & E1). apply String.eqb_eq in E1. subst y. destruct (existsb (String.eqb l) libs) eqn:E2; cbn [negb].
    + apply existsb_exists in E2 as (y & Hy2 & E2). apply String.eqb_eq in E2. subst y. split; [exact H|]. intros x. split; [auto|]. intros [Hx|[_ ->]]; auto.
    + assert (~ In l libs) as N by (intros I; rewrite (proj2 (existsb_exists _ _)) in E2; [discriminate|]; exists l; split; [exact I|apply String.eqb_refl]).
      split; [apply (Permutation_NoDup (Permutation_cons_append libs l)); now constructor|]. intros x. rewrite in_app_iff. cbn. split; [intros [|[<-|[]]]; auto|intros [|[_ ->]]; auto].
  - split; [exact H|]. intros x. split; [auto|]. intros [Hx|[Hx ->]]; [exact Hx|]. exfalso. rewrite (proj2 (existsb_exists _ _)) in E1; [discriminate|]. exists l. split; [exact Hx|apply String.eqb_refl].
Qed.
End Run.

Section Whole.
Variable e : env.
Variable a : settings.
Hypothesis Hsys : system e a.
Lemma compile_all_ok : forall fl libs s, Forall (fun p => speaks a (fst p) (snd p)) fl -> Forall (fun p => read (fst p) s = Some (Given (fst p))) fl ->
  (forall g, In g all_libs -> read (smack_lib e g) s = Some (Given (smack_lib e g))) -> NoDup libs ->
  exists bcs libs' s' bs, compile_all e a (map fst fl) libs s = Some (bcs, libs', s') /\ keeps s s' /\ eps s' = eps s ++ mains fl /\
    read_all bcs s' = Some bs /\ Forall2 (made e a) fl bs /\ NoDup libs' /\ (forall x, In x libs' <-> In x libs \/ (In x extra_libs /\ In x (map snd fl))).
Proof.
  induction fl as [|[f l] fl IH]; intros libs s Hl Hf Hlib Hn; cbn [compile_all map fst snd].
  - exists [], libs, s, []. unfold mains. cbn [map count_occ repeat]. rewrite app_nil_r. split; [reflexivity|]. split; [apply keeps_refl|]. split; [reflexivity|]. split; [reflexivity|]. split; [constructor|]. split; [exact Hn|]. intros x. cbn. tauto.
  - apply Forall_cons_iff in Hl as [Hl1 Hl], Hf as [Hf1 Hf]. cbn [fst snd] in Hl1, Hf1. rewrite (speaks_lang a f l Hl1).
    destruct (frontend_ok e a Hsys f l s Hl1 Hf1 Hlib) as (bc & s1 & b & -> & K1 & E1 & R1 & M1). destruct (add_libs_ok l libs Hn) as [N1 I1].
    destruct (IH (add_libs l libs) s1 Hl) as (bcs & libs' & s2 & bs & -> & K2 & E2 & R2 & M2 & N2 & I2);
      [eapply Forall_impl; [|exact Hf]; intros p Hp; now apply K1|intros g Hg; now apply K1, Hlib|exact N1|].
    exists (bc :: bcs), libs', s2, (b :: bs). split; [reflexivity|]. split; [eapply keeps_trans; eauto|].
    split; [rewrite E2, E1, <- app_assoc; f_equal; unfold mains; cbn [map snd count_occ]; destruct (string_dec l "d"); cbn; reflexivity|].
    split; [cbn [read_all]; now rewrite (K2 _ _ R1), R2|]. split; [now constructor|]. split; [exact N2|]. intros x. rewrite I2, I1. cbn. intuition congruence.
Qed.
Lemma default_libs_all : forall f, In f (default_libs a) -> In f all_libs.
Proof. intros f H. unfold default_libs in H. unfold all_libs. destruct (pthread a), (strings a), (float a); cbn in H |- *; tauto. Qed.
Lemma program_ok : forall fs fl, map fst fl = input_files a -> Forall (fun p => speaks a (fst p) (snd p)) fl ->
  Forall (is_there fs) (input_files a) -> Forall (fun f => is_there fs (smack_lib e f)) all_libs ->
  exists s bs used, frontend e a fs = Some s /\
    read (bpl_file a) s = Some (Boogie (llvm2bpl_options e a (entry_points a ++ mains fl))
      (Linked (Linked (map (Visible (entry_points a ++ mains fl)) bs) :: map (library_file e a) (default_libs a) ++ map (language_library e a) used))) /\
    Forall2 (made e a) fl bs /\ NoDup used /\ (forall x, In x used <-> In x ["cxx"; "rust"] /\ In x (map snd fl)).
Proof.
  intros fs fl El Hl Hf Hlib. unfold frontend. rewrite <- El in *.
  assert (forall g, In g all_libs -> read (smack_lib e g) (St fs (entry_points a)) = Some (Given (smack_lib e g))) as Hlib0 by (intros g Hg; rewrite Forall_forall in Hlib; now apply Hlib).
  destruct (compile_all_ok fl [] (St fs (entry_points a)) Hl) as (bcs & libs & s & bs & -> & K0 & E0 & R0 & M0 & N0 & I0);
    [clear - Hf; induction fl as [|p fl IH]; constructor; inversion Hf; auto|exact Hlib0|constructor|]. cbn [eps] in E0.
  unfold link_bc_files, default_build_libs.
  destruct (build_ok e a Hsys "clang" (default_clang_options e a true) (default_libs a) s) as (b1 & s1 & -> & K1 & E1 & R1 & N1); [intros f Hd; apply K0, Hlib0, default_libs_all, Hd|].
  assert (forall x, In x (order e libs) <-> In x ["cxx"; "rust"] /\ In x (map snd fl)) as Io.
  { intros x. pose proof (proj2 (proj2 Hsys) libs) as P. transitivity (In x libs); [split; apply Permutation_in; [exact P|now apply Permutation_sym]|].
    rewrite I0. split; [intros [[]|[Hx Hm]]; split; [|exact Hm]|intros [Hx Hm]; right; split; [unfold extra_libs; cbn in *; tauto|exact Hm]].
    destruct Hx as [<-|[<-|[<-|[]]]]; [|cbn; tauto|cbn; tauto]. exfalso. apply in_map_iff in Hm as (p & Ep & Hp). rewrite Forall_forall in Hl. specialize (Hl p Hp). rewrite Ep in Hl. apply speaks_some in Hl. cbn in Hl. intuition discriminate. }
  destruct (build_libs_ok e a Hsys (order e libs) s1) as (b2 & s2 & -> & K2 & E2 & R2 & N2); [intros x Hx; apply Io in Hx as [[<-|[<-|[]]] _]; auto|intros f Hd; now apply K1, K0, Hlib0|].
  destruct (extern_ok e a Hsys bcs s2 bs) as (ns & s3 & -> & K3 & E3 & R3); [now apply (keeps_all s1 s2 _ _ K2), (keeps_all s s1 _ _ K1)|].
  unfold llvm_link. rewrite R3. cbn [read_all]. rewrite read_put.
  rewrite read_all_put by (apply Forall_app; auto).
  rewrite (read_all_app b1 b2 s3 _ _ (keeps_all _ _ _ _ K3 (keeps_all _ _ _ _ K2 R1)) (keeps_all _ _ _ _ K3 R2)).
  unfold llvm_to_bpl. rewrite read_put. cbn [eps put]. rewrite E3, E2, E1, E0.
  exists (put (bpl_file a) (Boogie (llvm2bpl_options e a (entry_points a ++ mains fl)) (Linked (Linked (map (Visible (entry_points a ++ mains fl)) bs) :: map (library_file e a) (default_libs a) ++ map (language_library e a) (order e libs))))
    (put (linked_bc_file a) (Linked (Linked (map (Visible (entry_points a ++ mains fl)) bs) :: map (library_file e a) (default_libs a) ++ map (language_library e a) (order e libs))) (put (bc_file a) (Linked (map (Visible (entry_points a ++ mains fl)) bs)) s3))), bs, (order e libs).
  split; [reflexivity|]. split; [apply read_put|]. split; [exact M0|]. split; [|exact Io]. exact (Permutation_NoDup (Permutation_sym (proj2 (proj2 Hsys) libs)) N0).
Qed.
End Whole.

(** ** Theorems *)
(** The Boogie program is the translation of every input, compiled once by the compiler of its
    language and with its entry points visible, of SMACK's library as the settings ask for,
    and of the libraries of just the languages that occur. *)
Theorem C76_program : forall e a fs fl, system e a -> map fst fl = input_files a -> Forall (fun p => speaks a (fst p) (snd p)) fl ->
  Forall (is_there fs) (input_files a) -> Forall (fun f => is_there fs (smack_lib e f)) all_libs ->
  exists s bs used, frontend e a fs = Some s /\
    let eps := entry_points a ++ repeat "_Dmain" (count_occ string_dec (map snd fl) "d") in
    read (bpl_file a) s = Some (Boogie (llvm2bpl_options e a eps)
      (Linked (Linked (map (Visible eps) bs) :: map (library_file e a) (default_libs a) ++ map (language_library e a) used))) /\
    Forall2 (made e a) fl bs /\ NoDup used /\ (forall x, In x used <-> In x ["cxx"; "rust"] /\ In x (map snd fl)).
Proof. intros e a fs fl Hs. exact (program_ok e a Hs fs fl). Qed.
Print Assumptions C76_program.

(** ** Options *)
(** Checks by name: the bits of --check. *)
Definition assertions_asked (a : settings) : Prop := N.testbit (check a) 0 = true.
Definition memory_asked (a : settings) : Prop := N.testbit (check a) 1 = true \/ N.testbit (check a) 2 = true \/ N.testbit (check a) 3 = true.
Definition overflow_asked (a : settings) : Prop := N.testbit (check a) 4 = true.
Lemma flag_bit : forall i c, flag_in (2 ^ i) c = N.testbit c i.
Proof.
  intros i c. unfold flag_in. destruct (N.testbit c i) eqn:E.
  - apply N.eqb_eq, N.bits_inj. intros j. rewrite N.land_spec, N.pow2_bits_eqb. destruct (N.eqb_spec i j); [subst; now rewrite E|reflexivity].
  - apply N.eqb_neq. intros H. assert (N.testbit (N.land (2 ^ i) c) i = true) as X by (rewrite H; apply N.pow2_bits_true). rewrite N.land_spec, E, andb_false_r in X. discriminate.
Qed.
Lemma mem_asked : forall a, contains_mem_safe_props (check a) = true <-> memory_asked a.
Proof.
  intros a. unfold contains_mem_safe_props, memory_asked. rewrite negb_true_iff, N.eqb_neq. change MEMORY_SAFETY with 14%N. split.
  - intros H. destruct (N.testbit (check a) 1) eqn:E1, (N.testbit (check a) 2) eqn:E2, (N.testbit (check a) 3) eqn:E3; auto. exfalso. apply H, N.bits_inj_0. intros i. rewrite N.land_spec.
    destruct (N.ltb_spec i 4) as [L|L]; [|rewrite (N.bits_above_log2 14 i), andb_false_r by (cbn; lia); reflexivity].
    assert (i = 0 \/ i = 1 \/ i = 2 \/ i = 3)%N as [->|[->|[->| ->]]] by lia; rewrite ?E1, ?E2, ?E3; cbn; now rewrite ?andb_false_r.
  - intros H E. assert (forall i, N.testbit (check a) i && N.testbit 14 i = false) as X by (intros i; rewrite <- N.land_spec, E; apply N.bits_0).
    pose proof (X 1%N) as X1. pose proof (X 2%N) as X2. pose proof (X 3%N) as X3. change (N.testbit 14 1) with true in X1. change (N.testbit 14 2) with true in X2. change (N.testbit 14 3) with true in X3. rewrite andb_true_r in X1, X2, X3. destruct H as [H|[H|H]]; congruence.
Qed.
Lemma asserts_asked : forall a, flag_in ASSERTIONS (check a) = true <-> assertions_asked a.
Proof. intros a. change ASSERTIONS with (2 ^ 0)%N. now rewrite flag_bit. Qed.
Lemma over_asked : forall a, flag_in INTEGER_OVERFLOW (check a) = true <-> overflow_asked a.
Proof. intros a. change INTEGER_OVERFLOW with (2 ^ 4)%N. now rewrite flag_bit. Qed.
Definition dashed (w : string) : bool := match w with String "-" _ => true | _ => false end.
(** Names and files that users give are no options, and their options for clang are no macros
    of SMACK. *)
Definition macros : list string :=
  ["-DMEMORY_SAFETY"; "-fsanitize=signed-integer-overflow,shift"; "-DSIGNED_INTEGER_OVERFLOW_CHECK"; "-DDISABLE_SMACK_ASSERTIONS"; "-DFLOAT_ENABLED"; "-DBIT_PRECISE"; "-DMEMORY_MODEL_NO_REUSE_IMPLS"].
Definition plain (a : settings) (eps : list string) : Prop :=
  Forall (fun w => dashed w = false) ([linked_bc_file a; bpl_file a; warn a] ++ eps ++ checked_functions a ++
    (match debug_only a with Some d => [d] | None => [] end) ++ (match ll_file a with Some d => [d] | None => [] end)) /\
  (forall m, In m macros -> ~ In m (clang_options a)) /\ In (mem_mod a) ["no-reuse"; "no-reuse-impls"; "reuse"].
Lemma in_if : forall (b : bool) (x y : string), In x (if b then [y] else []) <-> b = true /\ x = y.
Proof. intros [] x y; cbn; intuition congruence. Qed.
Lemma words_in : forall k l x, dashed x = true -> x <> k -> Forall (fun w => dashed w = false) l -> ~ In x (flat_map (fun w => [k; w]) l).
Proof. intros k l x Hx Hk F H. apply in_flat_map in H as (w & Hw & [E|[E|[]]]); [congruence|]. subst w. rewrite Forall_forall in F. rewrite (F x Hw) in Hx. discriminate. Qed.
Ltac no_word := match goal with
  | H : In _ (if ?b then [_] else []) |- _ => apply in_if in H as [? H]; try discriminate H; auto
  | F : (forall d, Some ?w = Some d -> dashed d = false) |- _ => specialize (F w eq_refl)
  | H : In _ (match ?o with Some _ => _ | None => _ end) |- _ => destruct o
  | H : In _ (flat_map _ _) |- _ => exfalso; revert H; apply words_in; [reflexivity|discriminate|assumption]
  | H : In _ [] |- _ => destruct H
  | H : In _ (_ :: _) |- _ => destruct H as [H|H]; [try discriminate H|]
  | H : ?w = _, F : dashed ?w = false |- _ => rewrite H in F; discriminate F
  | H : In _ (_ ++ _) |- _ => apply in_app_or in H as [H|H]
  end.
Ltac has_word := repeat (apply in_or_app; first [left; apply in_if; split; [assumption|reflexivity]|right]); (apply in_if; split; [assumption|reflexivity]).
Lemma option_in : forall e a eps, plain a eps ->
  (In "-memory-safety" (llvm2bpl_options e a eps) <-> contains_mem_safe_props (check a) = true) /\
  (In "-integer-overflow" (llvm2bpl_options e a eps) <-> flag_in INTEGER_OVERFLOW (check a) = true) /\
  (In "-float" (llvm2bpl_options e a eps) <-> float a = true) /\
  (In "-bit-precise" (llvm2bpl_options e a eps) <-> String.eqb (integer_encoding a) "bit-vector" = true) /\
  (In "-mem-mod-impls" (llvm2bpl_options e a eps) <-> contains "impls" (mem_mod a) = true).
Proof.
  intros e a eps (F & _). apply Forall_app in F as (F1 & F). apply Forall_app in F as (F2 & F). apply Forall_app in F as (F3 & F). apply Forall_app in F as (F4 & F5).
  apply Forall_cons_iff in F1 as [F11 F1]. apply Forall_cons_iff in F1 as [F12 F1]. apply Forall_cons_iff in F1 as [F13 _].
  assert (forall d, debug_only a = Some d -> dashed d = false) as F4' by (intros d E; rewrite E in F4; now inversion F4).
  assert (forall d, ll_file a = Some d -> dashed d = false) as F5' by (intros d E; rewrite E in F5; now inversion F5). clear F4 F5.
  unfold llvm2bpl_options.
  split; [split; [intros H; repeat no_word; auto|intros H; has_word]|]. split; [split; [intros H; repeat no_word; auto|intros H; has_word]|].
  split; [split; [intros H; repeat no_word; auto|intros H; has_word]|]. split; [split; [intros H; repeat no_word; auto|intros H; has_word]|].
  split; [intros H; repeat no_word; auto|intros H; has_word].
Qed.
Lemma macro_in : forall e a eps is_lib, plain a eps ->
  (In "-DMEMORY_SAFETY" (default_clang_options e a is_lib) <-> contains_mem_safe_props (check a) = true) /\
  (In "-fsanitize=signed-integer-overflow,shift" (default_clang_options e a is_lib) <-> is_lib = false /\ flag_in INTEGER_OVERFLOW (check a) = true) /\
  (In "-DSIGNED_INTEGER_OVERFLOW_CHECK" (default_clang_options e a is_lib) <-> is_lib = true /\ flag_in INTEGER_OVERFLOW (check a) = true) /\
  (In "-DDISABLE_SMACK_ASSERTIONS" (default_clang_options e a is_lib) <-> flag_in ASSERTIONS (check a) = false) /\
  (In "-DFLOAT_ENABLED" (default_clang_options e a is_lib) <-> float a = true) /\
  (In "-DBIT_PRECISE" (default_clang_options e a is_lib) <-> String.eqb (integer_encoding a) "bit-vector" = true) /\
  (In "-DMEMORY_MODEL_NO_REUSE_IMPLS" (default_clang_options e a is_lib) <-> contains "impls" (mem_mod a) = true).
Proof.
  intros e a eps is_lib (_ & Hm & Hmod). unfold default_clang_options.
  assert (contains "impls" (mem_mod a) = true <-> upper_s (mem_mod a) = "NO_REUSE_IMPLS") as Hi by (destruct Hmod as [<-|[<-|[<-|[]]]]; vm_compute; intuition discriminate).
  assert (forall (b c : bool) (x y z : string), In x (if b then (if negb c then [y] else [z]) else []) <-> b = true /\ ((c = false /\ x = y) \/ (c = true /\ x = z))) as in_if2 by (clear; intros [] [] x y z; cbn; intuition congruence).
  Ltac no_macro in_if2 Hm := match goal with
    | H : In _ (clang_options _) |- _ => exfalso; revert H; apply Hm; cbn; tauto
    | H : In _ (if _ then (if negb _ then _ else _) else _) |- _ => apply in_if2 in H as [? [[? H]|[? H]]]; try discriminate H; auto
    | H : In _ (if negb _ then [_] else []) |- _ => apply in_if in H as [? H]; try discriminate H
    | H : negb _ = true |- _ => apply negb_true_iff in H; auto
    | _ => no_word
    end.
  Ltac has_macro in_if2 := repeat (apply in_or_app; first [left; apply in_if; split; [assumption|reflexivity]|left; apply in_if2; tauto|right]); (apply in_if; split; [assumption|reflexivity]).
  split; [split; [intros H; repeat no_macro in_if2 Hm|intros H; has_macro in_if2]|].
  split; [split; [intros H; repeat no_macro in_if2 Hm|intros H; has_macro in_if2]|].
  split; [split; [intros H; repeat no_macro in_if2 Hm|intros H; has_macro in_if2]|].
  split; [split; [intros H; repeat no_macro in_if2 Hm|intros H; apply negb_true_iff in H; has_macro in_if2]|].
  split; [split; [intros H; repeat no_macro in_if2 Hm|intros H; has_macro in_if2]|].
  split; [split; [intros H; repeat no_macro in_if2 Hm|intros H; has_macro in_if2]|].
  rewrite Hi. split.
  - intros H. repeat no_macro in_if2 Hm; injection H as H; exact H.
  - intros ->. apply in_or_app. right. apply in_or_app. right. apply in_or_app. right. apply in_or_app. left. now left.
Qed.
(** The models in C and the translator are set up alike, and as the settings say. *)
Theorem C76_alike : forall e a eps, plain a eps ->
  let models := default_clang_options e a true in let inputs := default_clang_options e a false in let translator := llvm2bpl_options e a eps in
  (In "-DMEMORY_SAFETY" models <-> memory_asked a) /\ (In "-DMEMORY_SAFETY" inputs <-> memory_asked a) /\ (In "-memory-safety" translator <-> memory_asked a) /\
  (In "-DSIGNED_INTEGER_OVERFLOW_CHECK" models <-> overflow_asked a) /\ (In "-fsanitize=signed-integer-overflow,shift" inputs <-> overflow_asked a) /\
    (In "-integer-overflow" translator <-> overflow_asked a) /\ ~ In "-fsanitize=signed-integer-overflow,shift" models /\
  (In "-DDISABLE_SMACK_ASSERTIONS" models <-> ~ assertions_asked a) /\ (In "-DDISABLE_SMACK_ASSERTIONS" inputs <-> ~ assertions_asked a) /\
  (In "-DFLOAT_ENABLED" models <-> float a = true) /\ (In "-DFLOAT_ENABLED" inputs <-> float a = true) /\ (In "-float" translator <-> float a = true) /\
  (In "-DBIT_PRECISE" models <-> integer_encoding a = "bit-vector") /\ (In "-DBIT_PRECISE" inputs <-> integer_encoding a = "bit-vector") /\
    (In "-bit-precise" translator <-> integer_encoding a = "bit-vector") /\
  (In "-DMEMORY_MODEL_NO_REUSE_IMPLS" models <-> mem_mod a = "no-reuse-impls") /\ (In "-mem-mod-impls" translator <-> mem_mod a = "no-reuse-impls").
Proof.
  intros e a eps P. cbn zeta. destruct (option_in e a eps P) as (O1 & O2 & O3 & O4 & O5). destruct (macro_in e a eps true P) as (M1 & M2 & M3 & M4 & M5 & M6 & M7). destruct (macro_in e a eps false P) as (I1 & I2 & I3 & I4 & I5 & I6 & I7).
  assert (contains "impls" (mem_mod a) = true <-> mem_mod a = "no-reuse-impls") as C by (destruct P as (_ & _ & [<-|[<-|[<-|[]]]]); vm_compute; intuition discriminate).
  assert (flag_in ASSERTIONS (check a) = false <-> ~ assertions_asked a) as A by (rewrite <- asserts_asked; symmetry; apply not_true_iff_false).
  rewrite mem_asked in *. rewrite over_asked in *. rewrite String.eqb_eq in *. rewrite A in *. rewrite C in *.
  assert (forall (b c : bool) (X Y : Prop), (X <-> b = c /\ Y) -> b = c -> (X <-> Y)) as D by (clear; tauto).
  split; [exact M1|]. split; [exact I1|]. split; [exact O1|]. split; [exact (D _ _ _ _ M3 eq_refl)|]. split; [exact (D _ _ _ _ I2 eq_refl)|]. split; [exact O2|]. split; [intros H; apply M2 in H as [H _]; discriminate H|].
  split; [exact M4|]. split; [exact I4|]. split; [exact M5|]. split; [exact I5|]. split; [exact O3|]. split; [exact M6|]. split; [exact I6|]. split; [exact O4|]. split; [exact M7|exact O5].
Qed.
Print Assumptions C76_alike.

(** The models of pthread.h, string.h, math.h and fenv.h are there just if asked for, the others
    always. *)
Theorem C76_models : forall a, NoDup (default_libs a) /\
  (forall f, In f (default_libs a) <-> In f ["smack.c"; "stdlib.c"; "errno.c"; "smack-rust.c"] \/ (pthread a = true /\ f = "pthread.c") \/
    (strings a = true /\ f = "string.c") \/ (float a = true /\ (f = "math.c" \/ f = "fenv.c"))).
Proof.
  intros a. unfold default_libs. destruct (pthread a), (strings a), (float a); (split; [repeat constructor; cbn; intuition discriminate|intros f; cbn; intuition congruence]).
Qed.
Print Assumptions C76_models.

(** ** Deviations *)
(** --language accepts cxx, objc, llvm, boogie, fortran, rust and cargo, and then stops with an
    exception, whatever the input. *)
Theorem C76_language_refuted : forall l, In l ["cxx"; "objc"; "llvm"; "boogie"; "fortran"; "rust"; "cargo"] -> In l frontends /\
  forall e a fs, language a = Some l -> input_files a <> [] -> frontend e a fs = None.
Proof.
  intros l H. split; [unfold frontends; cbn in *; tauto|]. intros e a fs E N. unfold frontend. destruct (input_files a) as [|f fl]; [congruence|]. cbn [compile_all]. unfold lang_of. rewrite E.
  cbn in H. destruct H as [<-|[<-|[<-|[<-|[<-|[<-|[<-|[]]]]]]]]; reflexivity.
Qed.
Print Assumptions C76_language_refuted.
(** An option for clang can set up the models unlike the translator. *)
Theorem C76_clang_options_refuted : exists e a eps, Forall (fun w => dashed w = false) ([linked_bc_file a; bpl_file a; warn a] ++ eps) /\ float a = false /\
  In "-DFLOAT_ENABLED" (default_clang_options e a true) /\ ~ In "-float" (llvm2bpl_options e a eps).
Proof.
  exists (Env "include" "lib" false [] (fun _ _ _ => "") (fun l => l)),
    (Settings ["a.c"] None ["main"] [] 1%N false false false "32" "unbounded-integer" "unbounded-integer" "no-reuse-impls" ["-DFLOAT_ENABLED"] "a.bc" "b.bc" "a.bpl" "unsound" false None None false false false false false false None false), ["main"].
  split; [repeat constructor|]. split; [reflexivity|]. split; vm_compute; intuition discriminate.
Qed.
Print Assumptions C76_clang_options_refuted.

(** ** Examples *)
(** Names of new files: longer than all there are. *)
Fixpoint tees (n : nat) : string := match n with 0 => "" | S n' => String "t" (tees n') end.
Definition longer (l : list string) : string := tees (S (list_max (map String.length l))).
Lemma longer_new : forall l p x, ~ In (longer l +++ p +++ x) l.
Proof.
  assert (forall a b, String.length (a +++ b) = String.length a + String.length b) as Hl by (induction a as [|c a IH]; intros b; cbn; [reflexivity|]; now rewrite IH).
  assert (forall n, String.length (tees n) = n) as Ht by (induction n; cbn; congruence).
  intros l p x H. apply (in_map String.length) in H. pose proof (proj1 (list_max_le (map String.length l) _) (le_n _)) as L. rewrite Forall_forall in L. apply L in H. unfold longer in H. rewrite !Hl, Ht in H. lia.
Qed.
Definition small_env : env := Env "/usr/include" "/usr/lib" false [] (fun l p x => longer l +++ p +++ x) (fun l => l).
Definition small_settings : settings :=
  Settings ["src/a.c"; "b.v2.cpp"; "c.bc"; "d.d"] None ["main"] [] 3%N true true false "32" "bit-vector" "bit-vector" "no-reuse-impls" ["-O1"] "a.bc" "b.bc" "a.bpl" "unsound" false None None false false false false false false None false.
Definition small_files : list (string * content) := map (fun f => (f, Given f)) (input_files small_settings ++ map (smack_lib small_env) all_libs).
Example C76_nonvacuous : system small_env small_settings /\
  Forall (fun p => speaks small_settings (fst p) (snd p)) (combine (input_files small_settings) ["c"; "cxx"; "llvm"; "d"]) /\
  Forall (is_there small_files) (input_files small_settings) /\ Forall (fun f => is_there small_files (smack_lib small_env f)) all_libs /\
  plain small_settings ["main"; "_Dmain"] /\ memory_asked small_settings /\ ~ overflow_asked small_settings /\ frontend small_env small_settings small_files <> None.
Proof.
  split; [split; [exact longer_new|split; [intros l p x H; cbn in H; discriminate H|intros l; apply Permutation_refl]]|].
  split.
  { repeat constructor.
    - exists "c". split; [exists "src/", "a"|unfold language_of; cbn; tauto]. cbn. repeat split; try discriminate; [right; exists "src"; reflexivity|exists "", "a"%char, ""; split; [reflexivity|discriminate]].
    - exists "cpp". split; [exists "", "b.v2"|unfold language_of; cbn; tauto]. cbn. repeat split; try discriminate; [left; reflexivity|exists "", "b"%char, ".v2"; split; [reflexivity|discriminate]].
    - exists "bc". split; [exists "", "c"|unfold language_of; cbn; tauto]. cbn. repeat split; try discriminate; [left; reflexivity|exists "", "c"%char, ""; split; [reflexivity|discriminate]].
    - exists "d". split; [exists "", "d"|unfold language_of; cbn; tauto]. cbn. repeat split; try discriminate; [left; reflexivity|exists "", "d"%char, ""; split; [reflexivity|discriminate]]. }
  split; [repeat constructor|]. split; [repeat constructor|]. split; [split; [repeat constructor|split; [intros m I [<-|[]]; cbn in I; intuition discriminate|cbn; tauto]]|].
  split; [left; reflexivity|]. split; [discriminate|]. vm_compute. discriminate.
Qed.
