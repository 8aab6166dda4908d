(** Proofs about Model/RustFixes.v *)
From Coq Require Import ZArith String List Bool Lia.
From Verif.Spec Require Import RustProgram.
From Verif.Model Require Import RustFixes.
Import ListNotations.
Open Scope string_scope.
Open Scope list_scope.
Open Scope Z_scope.

(** ** Names *)
Lemma found_contains p n : found p n = contains p n.
Proof.
  unfold contains. induction n as [|a n IH].
  - destruct p; reflexivity.
  - cbn [found]. rewrite IH. clear IH. cbn [index]. destruct (prefix p (String a n)); cbn [orb]; auto.
    destruct (index 0 p n); auto.
Qed.
Lemma starts_sub p n : starts_with p n = String.eqb (substring 0 (String.length p) n) p.
Proof.
  unfold starts_with. destruct (prefix p n) eqn:E.
  - apply prefix_correct in E. rewrite E. symmetry. apply String.eqb_refl.
  - symmetry. apply String.eqb_neq. intros H. apply prefix_correct in H. congruence.
Qed.
Lemma hashed_starts p n : hashed p n = starts_with p n && Nat.eqb (String.length n) (String.length p + 17).
Proof. unfold hashed. rewrite starts_sub. reflexivity. Qed.
Lemma prefix_split p : forall n, prefix p n = true -> exists h, n = (p ++ h)%string.
Proof.
  induction p as [|a p IH]; intros n H.
  - exists n. reflexivity.
  - destruct n as [|b n]; cbn in H; [discriminate|]. destruct (Ascii.ascii_dec a b) as [->|]; [|discriminate].
    destruct (IH n H) as [h ->]. exists h. reflexivity.
Qed.
Lemma hashed_split p n : hashed p n = true -> exists c h, n = (p ++ String c h)%string /\ String.length h = 16%nat.
Proof.
  rewrite hashed_starts. unfold starts_with. intros H. apply andb_true_iff in H. destruct H as [P L]. apply prefix_split in P. destruct P as [h ->].
  apply Nat.eqb_eq in L. assert (X : forall a b, String.length (a ++ b)%string = (String.length a + String.length b)%nat).
  { clear. induction a; intros b; cbn; auto. }
  rewrite X in L. destruct h as [|c h]; cbn in L; [lia|]. exists c, h. split; auto. lia.
Qed.
Lemma panic_eq n : isRustPanic n = panic_function n.
Proof. unfold isRustPanic, panic_function, RUST_PANICS. cbn [existsb]. rewrite !hashed_starts. reflexivity. Qed.
Lemma match_hashed p n : ends_with "17h" p = true -> isRustNameMatch p n = mangled p n.
Proof. intros E. unfold isRustNameMatch, mangled. rewrite E, hashed_starts. rewrite (Nat.eqb_sym (String.length p + 17)), (String.eqb_sym p n). reflexivity. Qed.
Lemma match_exact p n : ends_with "17h" p = false -> isRustNameMatch p n = String.eqb n p.
Proof. intros E. unfold isRustNameMatch. rewrite E. cbn. apply String.eqb_sym. Qed.
Lemma mangled_split p n : mangled p n = true -> exists h, n = (p ++ h)%string.
Proof.
  unfold mangled. intros H. apply orb_true_iff in H. destruct H as [H|H].
  - apply hashed_split in H. destruct H as [c [h [-> _]]]. eauto.
  - apply String.eqb_eq in H. subst. exists "". clear. induction p; cbn; f_equal; auto.
Qed.

Definition patterns (n : name) : list bool :=
  [mangled "_ZN5alloc5alloc5alloc17h" n; mangled "_ZN5alloc5alloc12alloc_zeroed17h" n; mangled "_ZN5alloc5alloc7dealloc17h" n;
   mangled "_ZN5alloc5alloc7realloc17h" n; String.eqb n "__rust_alloc"; String.eqb n "__rust_alloc_zeroed"; String.eqb n "__rust_dealloc"; String.eqb n "__rust_realloc"].
Lemma one_pattern n : match patterns n with
  | [a; b; c; d; e; f; g; h] =>
      (a = true -> b = false /\ c = false /\ d = false /\ e = false /\ f = false /\ g = false /\ h = false) /\
      (b = true -> c = false /\ d = false /\ e = false /\ f = false /\ g = false /\ h = false) /\
      (c = true -> d = false /\ e = false /\ f = false /\ g = false /\ h = false) /\
      (d = true -> e = false /\ f = false /\ g = false /\ h = false) /\
      (e = true -> f = false /\ g = false /\ h = false) /\ (f = true -> g = false /\ h = false) /\ (g = true -> h = false)
  | _ => False end.
Proof.
  unfold patterns.
  repeat match goal with |- _ /\ _ => split | |- _ = true -> _ => intros H end;
    first [apply mangled_split in H; destruct H as [k ->] | apply String.eqb_eq in H; subst n];
    unfold mangled; rewrite ?hashed_starts; cbn; reflexivity.
Qed.
Lemma replace8 m n q1 q2 q3 q4 q5 q6 q7 q8 r1 r2 r3 r4 r5 r6 r7 r8 A1 A2 A3 A4 A5 A6 A7 A8 : isRustNameMatch q1 n = A1 -> isRustNameMatch q2 n = A2 -> isRustNameMatch q3 n = A3 -> isRustNameMatch q4 n = A4 -> isRustNameMatch q5 n = A5 -> isRustNameMatch q6 n = A6 -> isRustNameMatch q7 n = A7 -> isRustNameMatch q8 n = A8 ->
  (A1 = true -> A2 = false /\ A3 = false /\ A4 = false /\ A5 = false /\ A6 = false /\ A7 = false /\ A8 = false) /\ (A2 = true -> A3 = false /\ A4 = false /\ A5 = false /\ A6 = false /\ A7 = false /\ A8 = false) /\ (A3 = true -> A4 = false /\ A5 = false /\ A6 = false /\ A7 = false /\ A8 = false) /\ (A4 = true -> A5 = false /\ A6 = false /\ A7 = false /\ A8 = false) /\ (A5 = true -> A6 = false /\ A7 = false /\ A8 = false) /\ (A6 = true -> A7 = false /\ A8 = false) /\ (A7 = true -> A8 = false) ->
  (forall g, (if A1 then Some r1 else if A2 then Some r2 else if A3 then Some r3 else if A4 then Some r4 else if A5 then Some r5 else if A6 then Some r6 else if A7 then Some r7 else if A8 then Some r8 else None) = Some g -> lookup m g <> None) ->
  replace_alloc m n [(q1, r1); (q2, r2); (q3, r3); (q4, r4); (q5, r5); (q6, r6); (q7, r7); (q8, r8)] n = Some (match (if A1 then Some r1 else if A2 then Some r2 else if A3 then Some r3 else if A4 then Some r4 else if A5 then Some r5 else if A6 then Some r6 else if A7 then Some r7 else if A8 then Some r8 else None) with Some g => g | None => n end).
Proof.
  intros E1 E2 E3 E4 E5 E6 E7 E8 [P1 [P2 [P3 [P4 [P5 [P6 P7]]]]]] H. cbn [replace_alloc]. rewrite E1, E2, E3, E4, E5, E6, E7, E8. clear E1 E2 E3 E4 E5 E6 E7 E8.
  assert (X : forall g (o : option name), (forall g0, Some g = Some g0 -> lookup m g0 <> None) -> match lookup m g with Some _ => o | None => None end = o).
  { intros g o Y. specialize (Y g eq_refl). destruct (lookup m g); congruence. }
  destruct A1; [destruct (P1 eq_refl) as [-> [-> [-> [-> [-> [-> ->]]]]]]; apply X; auto|].
  destruct A2; [destruct (P2 eq_refl) as [-> [-> [-> [-> [-> ->]]]]]; apply X; auto|].
  destruct A3; [destruct (P3 eq_refl) as [-> [-> [-> [-> ->]]]]; apply X; auto|].
  destruct A4; [destruct (P4 eq_refl) as [-> [-> [-> ->]]]; apply X; auto|].
  destruct A5; [destruct (P5 eq_refl) as [-> [-> ->]]; apply X; auto|].
  destruct A6; [destruct (P6 eq_refl) as [-> ->]; apply X; auto|].
  destruct A7; [rewrite (P7 eq_refl); apply X; auto|].
  destruct A8; [apply X; auto|reflexivity].
Qed.
Lemma replace_alloc_eq m n : (forall n g, allocator n = Some g -> lookup m g <> None) ->
  replace_alloc m n alloc_fns n = Some (match allocator n with Some g => g | None => n end).
Proof.
  intros H. unfold alloc_fns, allocator.
  apply replace8; [apply match_hashed; reflexivity|apply match_hashed; reflexivity|apply match_hashed; reflexivity|apply match_hashed; reflexivity
    |apply match_exact; reflexivity|apply match_exact; reflexivity|apply match_exact; reflexivity|apply match_exact; reflexivity|exact (one_pattern n)|exact (H n)].
Qed.
Lemma allocator_plain n g : allocator n = Some g -> special g = false /\ runtime g = false.
Proof.
  unfold allocator. repeat (match goal with |- context [if ?b then _ else _] => destruct b end; [intros [= <-]; split; reflexivity|]). discriminate.
Qed.

(** ** What becomes of the instructions of a block *)
Inductive rel (t : term) : list instr -> list instr -> Prop :=
| r_nil : match t with TInvoke _ (Direct g) _ _ _ => special g = false | _ => True end -> rel t [] []
| r_other i is is' : match i with ICall _ (Direct _) _ => False | _ => True end -> rel t is is' -> rel t (i :: is) (i :: is')
| r_plain r g args is is' : special g = false -> rel t is is' -> rel t (ICall r (Direct g) args :: is) (ICall r (Direct g) args :: is')
| r_alloc r g g' args is is' : allocator g = Some g' -> panic_function g = false -> lang_start g = false -> rel t is is' ->
    rel t (ICall r (Direct g) args :: is) (ICall r (Direct g') args :: is')
| r_panic r g args : panic_function g = true -> t = TUnreachable -> rel t [ICall r (Direct g) args] [ICall None (Direct marker) []]
| r_entry r g h args is is' : panic_function g = false -> lang_start g = true -> special h = false -> rel t is is' ->
    rel t (ICall r (Direct g) (OFun h :: args) :: is) (IAdd r (OConst 0) (OConst 0) :: ICall None (Direct h) [] :: is').

Lemma special_false g : String.eqb g marker = false -> lang_start_internal g = false -> panic_function g = false -> lang_start g = false -> allocator g = None -> special g = false.
Proof. intros A B C D E. unfold special, runtime. rewrite A, B, C, D, E. reflexivity. Qed.
Lemma special_inv g : special g = false -> String.eqb g marker = false /\ lang_start_internal g = false /\ panic_function g = false /\ lang_start g = false /\ allocator g = None /\ runtime g = false.
Proof.
  unfold special. intros H. apply orb_false_iff in H. destruct H as [H M]. apply orb_false_iff in H. destruct H as [H A].
  assert (R := H). unfold runtime in H. apply orb_false_iff in H. destruct H as [H I]. apply orb_false_iff in H. destruct H as [P L].
  destruct (allocator g); [discriminate|]. auto 10.
Qed.

Lemma replace_rel m is t : (forall n g, allocator n = Some g -> lookup m g <> None) ->
  calls_ok false false is t = true -> exists is', replace_instrs m is = Some is' /\ rel t is is'.
Proof.
  intros A. induction is as [|i is IH]; cbn [calls_ok replace_instrs]; intros H.
  - exists []. split; auto. constructor. destruct t as [| |r [g|] args n u|]; auto. apply negb_true_iff in H; auto.
  - destruct i as [r [g|o] args|r a b|k]; try (destruct (IH H) as [is' [-> R]]; eexists; split; [reflexivity|]; constructor; auto; exact I).
    rewrite replace_alloc_eq by auto. rewrite panic_eq.
    destruct (String.eqb g marker || lang_start_internal g) eqn:E1; [discriminate|]. apply orb_false_iff in E1. destruct E1 as [E1 E2].
    destruct (panic_function g) eqn:P.
    + apply andb_true_iff in H. destruct H as [_ H]. destruct is; [|discriminate]. destruct t; try discriminate.
      cbn. eexists; split; [reflexivity|]. apply r_panic; auto.
    + destruct (lang_start g) eqn:L; [discriminate|]. apply andb_true_iff in H. destruct H as [_ H].
      destruct (IH H) as [is' [-> R]]. eexists; split; [reflexivity|].
      destruct (allocator g) eqn:Al; [apply r_alloc; auto|apply r_plain; auto]. apply special_false; auto.
Qed.
Lemma main_rel m is t : (forall n g, allocator n = Some g -> lookup m g <> None) ->
  calls_ok true false is t = true -> exists is1 is', entry_instrs is = Some is1 /\ replace_instrs m is1 = Some is' /\ rel t is is'.
Proof.
  intros A. induction is as [|i is IH]; cbn [calls_ok entry_instrs]; intros H.
  - exists [], []. split; auto. split; auto. constructor. destruct t as [| |r [g|] args n u|]; auto. apply negb_true_iff in H; auto.
  - destruct i as [r [g|o] args|r a b|k]; try (destruct (IH H) as [is1 [is' [-> [R1 R]]]]; eexists; eexists; split; [reflexivity|]; cbn [replace_instrs]; rewrite R1; split; [reflexivity|]; constructor; auto; exact I).
    rewrite found_contains. change (contains RUST_ENTRY g) with (lang_start g).
    destruct (String.eqb g marker || lang_start_internal g) eqn:E1; [discriminate|]. apply orb_false_iff in E1. destruct E1 as [E1 E2].
    destruct (panic_function g) eqn:P.
    + apply andb_true_iff in H. destruct H as [HL H]. apply andb_true_iff in HL. destruct HL as [_ HL]. apply negb_true_iff in HL.
      destruct is; [|discriminate]. destruct t; try discriminate.
      cbn [entry_instrs]. rewrite HL. eexists; eexists; split; [reflexivity|]. cbn [replace_instrs]. rewrite replace_alloc_eq, panic_eq, P by auto.
      split; [reflexivity|]. apply r_panic; auto.
    + destruct (lang_start g) eqn:L.
      * apply andb_true_iff in H. destruct H as [H1 H]. apply andb_true_iff in H1. destruct H1 as [_ H1].
        destruct args as [|[z|k|h] args]; try discriminate. apply negb_true_iff in H1.
        destruct (IH H) as [is1 [is' [-> [R1 R]]]]. eexists; eexists; split; [reflexivity|]. cbn [replace_instrs].
        destruct (special_inv h H1) as [M [In [Ph [Lh [Ah Rh]]]]].
        rewrite replace_alloc_eq, panic_eq, R1, Ph, Ah by auto. split; [reflexivity|]. apply r_entry; auto.
      * apply andb_true_iff in H. destruct H as [_ H].
        destruct (IH H) as [is1 [is' [-> [R1 R]]]]. eexists; eexists; split; [reflexivity|]. cbn [replace_instrs].
        rewrite replace_alloc_eq, panic_eq, R1, P by auto. split; [reflexivity|].
        destruct (allocator g) eqn:Al; [apply r_alloc; auto|apply r_plain; auto]. apply special_false; auto.
Qed.
Lemma smack_rel is t : calls_ok false true is t = true -> rel t is is.
Proof.
  induction is as [|i is IH]; cbn [calls_ok]; intros H.
  - constructor. destruct t as [| |r [g|] args n u|]; auto. apply negb_true_iff in H; auto.
  - destruct i as [r [g|o] args|r a b|k]; try (apply r_other; [exact I|apply IH; auto]).
    destruct (String.eqb g marker || lang_start_internal g) eqn:E1; [discriminate|]. apply orb_false_iff in E1. destruct E1 as [E1 E2].
    destruct (panic_function g) eqn:P; [discriminate|]. destruct (lang_start g) eqn:L; [discriminate|].
    apply andb_true_iff in H. destruct H as [H1 H]. destruct (allocator g) eqn:Al; [discriminate|].
    apply r_plain; auto. apply special_false; auto.
Qed.

Lemma Forall2_refl_in {A} (R : A -> A -> Prop) l : (forall x, In x l -> R x x) -> Forall2 R l l.
Proof. induction l; intros H; constructor; [apply H; left; auto|apply IHl; intros; apply H; right; auto]. Qed.

(** Blocks and functions *)
Definition brel (bs bs' : list block) : Prop := Forall2 (fun b b' => snd b = snd b' /\ rel (snd b) (fst b) (fst b')) bs bs'.
Definition frel (f f' : func) : Prop :=
  fname f = fname f' /\ (runtime (fname f) = true \/
    match fbody f, fbody f' with None, None => True | Some bs, Some bs' => brel bs bs' | _, _ => False end).

Lemma map_blocks_ok (g : list instr -> option (list instr)) (R : block -> list instr -> Prop) bs :
  (forall b, In b bs -> exists is', g (fst b) = Some is' /\ R b is') ->
  exists bs', map_blocks g bs = Some bs' /\ Forall2 (fun b b' => snd b = snd b' /\ R b (fst b')) bs bs'.
Proof.
  induction bs as [|[is t] bs IH]; intros H; cbn [map_blocks].
  - exists []. auto.
  - destruct (H (is, t) (or_introl eq_refl)) as [is' [E Rb]]. cbn in E. rewrite E.
    destruct IH as [bs' [-> F]]; [intros b Hb; apply H; right; auto|].
    eexists; split; [reflexivity|]. constructor; auto.
Qed.
Lemma run_on_ok m f : (forall n g, allocator n = Some g -> lookup m g <> None) -> fname f <> "" -> func_ok f = true ->
  exists f', runOnFunction m f = Some f' /\ frel f f'.
Proof.
  intros A NE H. unfold runOnFunction, func_ok in *. destruct f as [n [bs|]]; cbn [fbody fname] in *.
  2:{ eexists; split; [reflexivity|]. split; auto. right. cbn. auto. }
  apply String.eqb_neq in NE. rewrite NE. unfold isSmackName. rewrite !found_contains, panic_eq. fold (smack_name n).
  change (contains RUST_LANG_START_INTERNAL n) with (lang_start_internal n). change (contains RUST_ENTRY n) with (lang_start n).
  destruct (smack_name n) eqn:SN.
  - eexists; split; [reflexivity|]. split; auto. right. cbn [fbody]. rewrite andb_false_r in H. cbn [orb] in H.
    assert (NM : String.eqb n "main" = false) by (apply String.eqb_neq; intros ->; discriminate).
    rewrite NM in H. rewrite forallb_forall in H. apply Forall2_refl_in. intros b Hb. split; auto. apply smack_rel. apply H; auto.
  - destruct (runtime n) eqn:R.
    + replace (lang_start_internal n || lang_start n || panic_function n) with true.
      * eexists; split; [reflexivity|]. split; auto.
      * unfold runtime in R. destruct (lang_start_internal n), (lang_start n), (panic_function n); cbn in *; auto.
    + replace (lang_start_internal n || lang_start n || panic_function n) with false.
      2:{ unfold runtime in R. destruct (lang_start_internal n), (lang_start n), (panic_function n); cbn in *; auto; discriminate. }
      cbn [andb orb] in H. rewrite forallb_forall in H.
      destruct (String.eqb n "main") eqn:M.
      * destruct (map_blocks_ok entry_instrs (fun b is1 => exists is', replace_instrs m is1 = Some is' /\ rel (snd b) (fst b) is') bs) as [bs1 [-> F1]].
        { intros b Hb. destruct (main_rel m (fst b) (snd b) A (H b Hb)) as [is1 [is' [E1 [E2 E3]]]]. eauto. }
        assert (X : exists bs2, map_blocks (replace_instrs m) bs1 = Some bs2 /\ brel bs bs2).
        { clear -F1. induction F1 as [|[is t] [is1 t1] bs bs1 [E [is' [E1 R]]] F1 IH]; cbn in *.
          - exists []. split; auto. constructor.
          - subst t1. rewrite E1. destruct IH as [bs2 [-> IH]]. eexists; split; [reflexivity|]. constructor; auto. }
        destruct X as [bs2 [-> X]]. eexists; split; [reflexivity|]. split; auto.
      * destruct (map_blocks_ok (replace_instrs m) (fun b is' => rel (snd b) (fst b) is') bs) as [bs2 [-> F2]].
        { intros b Hb. apply replace_rel; auto. }
        eexists; split; [reflexivity|]. split; auto.
Qed.
Lemma all_ok m fs : (forall n g, allocator n = Some g -> lookup m g <> None) -> (forall f, In f fs -> fname f <> "") -> forallb func_ok fs = true ->
  exists fs', all_functions m fs = Some fs' /\ Forall2 frel fs fs'.
Proof.
  intros A. induction fs as [|f fs IH]; intros NE H; cbn [all_functions].
  - exists []. auto.
  - cbn in H. apply andb_true_iff in H. destruct H as [H1 H2].
    destruct (run_on_ok m f A (NE f (or_introl eq_refl)) H1) as [f' [-> R]].
    destruct (IH (fun g Hg => NE g (or_intror Hg)) H2) as [fs' [-> F]]. eexists; split; [reflexivity|]. constructor; auto.
Qed.
Lemma lookup_rel m m' f : Forall2 frel m m' ->
  match lookup m f, lookup m' f with None, None => True | Some g, Some g' => fname g = f /\ frel g g' | _, _ => False end.
Proof.
  intros F. unfold lookup. induction F as [|g g' m m' R F IH]; cbn; auto.
  destruct R as [E R]. rewrite <- E. destruct (String.eqb (fname g) f) eqn:Ef; [|exact IH]. apply String.eqb_eq in Ef. split; [auto|split; auto].
Qed.

(** ** Execution *)
Section Exec.
  Context {St : Type} (other : nat -> regs -> St -> regs * St) (ext : name -> list Z -> St -> outcome St) (addr : name -> Z) (resolve : Z -> option name).
  Context (rust_panics : bool) (should_check : name -> bool) (m m' : program).
  Context (Ext : forall f args s g, ext f args s <> PanickedIn g) (Res : forall p g, resolve p = Some g -> special g = false) (F : Forall2 frel m m').
  Notation checked := (fun f => rust_panics && should_check f).
  Notation ex := (expected checked).
  Notation src := (exec other ext addr resolve rust_means m).
  Notation dst := (exec other ext addr resolve (marker_call rust_panics should_check) m').

  Lemma ext_ex f args s : ext f args s = ex (ext f args s).
  Proof. assert (X := Ext f args s). destruct (ext f args s); auto. exfalso; eapply X; eauto. Qed.
  Lemma mean_plain f g : special g = false -> @rust_means St f g = Plain /\ @marker_call St rust_panics should_check f g = Plain.
  Proof.
    intros H. destruct (special_inv g H) as [M [In [P [L [A R]]]]]. unfold rust_means, marker_call. change RUST_PANIC_MARKER with marker.
    rewrite P, L, A, M, andb_false_r. auto.
  Qed.
  Definition tasks (t t' : task) : Prop :=
    match t, t' with
    | DoCall f args, DoCall f' args' => f = f' /\ args = args' /\ runtime f = false
    | DoBlock f bs l rs, DoBlock f' bs' l' rs' => f = f' /\ brel bs bs' /\ l = l' /\ rs = rs'
    | _, _ => False
    end.
  Lemma exec_rel n : forall t t' s, tasks t t' -> dst n t' s = ex (src n t s).
  Proof.
    induction n as [|n IH]; intros t t' s R; [reflexivity|].
    destruct t as [f args|f bs l rs], t' as [f' args'|f' bs' l' rs']; cbn [tasks] in R; try contradiction.
    - destruct R as [<- [<- Rt]]. cbn [exec]. assert (X := lookup_rel m m' f F).
      destruct (lookup m f) as [[g b]|], (lookup m' f) as [[g' b']|]; try contradiction; [|apply ext_ex].
      destruct X as [E [E' X]]. cbn [fname fbody] in *. subst g. destruct X as [X|X]; [congruence|].
      destruct b as [bs|], b' as [bs'|]; try contradiction; [|apply ext_ex]. apply IH. cbn. auto.
    - destruct R as [<- [B [<- <-]]]. cbn [exec].
      assert (X : match nth_error bs l, nth_error bs' l with None, None => True | Some b, Some b' => snd b = snd b' /\ rel (snd b) (fst b) (fst b') | _, _ => False end).
      { clear -B. revert l. induction B as [|b b' bs bs' H B IHB]; intros [|l]; cbn; auto. apply IHB. }
      destruct (nth_error bs l) as [[is t]|], (nth_error bs' l) as [[is' t']|]; try contradiction; [|reflexivity].
      cbn [fst snd] in X. destruct X as [<- X]. revert rs s. induction X; intros rs s.
      + destruct t as [o|c l1 l2|r c args nl ul|]; auto.
        * apply IH. cbn. auto.
        * assert (P : forall g, target addr resolve rs c = Some g -> special g = false).
          { destruct c as [g|o]; cbn; [intros g' [= <-]; auto|apply Res]. }
          destruct (target addr resolve rs c) as [g|]; [|reflexivity]. specialize (P g eq_refl).
          destruct (mean_plain f g P) as [-> ->]. rewrite (IH (DoCall g (map (value addr rs) args)) (DoCall g (map (value addr rs) args))) by (cbn; destruct (special_inv g P); intuition).
          destruct (src n (DoCall g (map (value addr rs) args)) s); auto.
          -- apply IH. cbn. auto.
          -- cbn. destruct (rust_panics && should_check f0); auto.
      + destruct i as [r [g|o] args|r a b|k]; [contradiction| | |].
        * cbn [target]. assert (P := Res (value addr rs o)). destruct (resolve (value addr rs o)) as [g|]; [|reflexivity]. specialize (P g eq_refl).
          destruct (mean_plain f g P) as [-> ->]. rewrite (IH (DoCall g (map (value addr rs) args)) (DoCall g (map (value addr rs) args))) by (cbn; destruct (special_inv g P); intuition).
          destruct (src n (DoCall g (map (value addr rs) args)) s); auto; solve [apply IHX | cbn; match goal with |- context [rust_panics && should_check ?q] => destruct (rust_panics && should_check q) end; auto].
        * apply IHX.
        * destruct (other k rs s) as [rs1 s1]. apply IHX.
      + cbn [target]. destruct (mean_plain f g H) as [-> ->].
        rewrite (IH (DoCall g (map (value addr rs) args)) (DoCall g (map (value addr rs) args))) by (cbn; destruct (special_inv g H); intuition).
        destruct (src n (DoCall g (map (value addr rs) args)) s); auto; solve [apply IHX | cbn; match goal with |- context [rust_panics && should_check ?q] => destruct (rust_panics && should_check q) end; auto].
      + cbn [target]. destruct (allocator_plain g g' H) as [Sg Rg]. destruct (mean_plain f g' Sg) as [_ ->].
        replace (@rust_means St f g) with (@Is St g') by (unfold rust_means; rewrite H0, H1, H; reflexivity).
        rewrite (IH (DoCall g' (map (value addr rs) args)) (DoCall g' (map (value addr rs) args))) by (cbn; auto).
        destruct (src n (DoCall g' (map (value addr rs) args)) s); auto; solve [apply IHX | cbn; match goal with |- context [rust_panics && should_check ?q] => destruct (rust_panics && should_check q) end; auto].
      + cbn [target]. replace (@rust_means St f g) with (@Ends St (PanickedIn f)) by (unfold rust_means; rewrite H; reflexivity).
        replace (@marker_call St rust_panics should_check f marker) with (if rust_panics && should_check f then @Ends St AssertFailed else @Skips St)
          by (unfold marker_call; change (String.eqb marker RUST_PANIC_MARKER) with true; rewrite andb_true_r; reflexivity).
        cbn [expected]. subst t. destruct (rust_panics && should_check f); reflexivity.
      + cbn [target]. replace (@rust_means St f g) with (@RunsMain St) by (unfold rust_means; rewrite H, H0; reflexivity). destruct (mean_plain f h H1) as [_ ->].
        rewrite (IH (DoCall h []) (DoCall h [])) by (cbn; destruct (special_inv h H1); intuition). cbn [map value].
        destruct (src n (DoCall h []) s); auto; solve [apply IHX | cbn; match goal with |- context [rust_panics && should_check ?q] => destruct (rust_panics && should_check q) end; auto].
  Qed.
End Exec.
