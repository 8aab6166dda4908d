(** C42: the functions __VERIFIER_nondet_* return exactly the values of their
    C type, in each integer encoding.

    [returns enc bvptr ndebug I f v] (Model/Nondet.v): the Boogie procedure
    generated for [f] can return [v].  [documented], [of_ctype] and [stands_for]
    are in Spec/CTypes.v. *)
From Coq Require Import ZArith List String Bool Lia ZifyBool.
From Verif.Base Require Import ZBits.
From Verif.Spec Require Import LLVMInt IR Encodings CTypes.
From Verif.Model Require Import Boogie PreludeInt SmackRepInt Nondet.
From Verif.Proofs Require Import PreludeCalls ExprSim IntMain NondetProofs.
Import ListNotations.
Open Scope string_scope.
Open Scope list_scope.
Open Scope Z_scope.

Record good (f : nondet_fn) (t : ctype) (x : string) : Prop := {
  g_ok : fn_ok f (bits t) x;
  g_tot : forall vs, exists r' a, run_code (init_regs (nf_calls f) vs) (nf_code f) = Some r' /\ r' x = Some a;
  g_exact : forall a, is_iN (bits t) a -> exists vs r',
    (forall y k, In (y, k) (nf_calls f) -> is_iN k (vs y)) /\
    run_code (init_regs (nf_calls f) vs) (nf_code f) = Some r' /\
    (forall z, In z (nf_assumes f) -> r' z = Some 1) /\ r' x = Some a;
  g_usound : forall vs, exists r', zrun (init_regs (nf_calls f) vs) (nf_code f) = Some r' /\
    ((forall z y, In z (nf_assumes f) -> r' z = Some y -> y <> 0) -> exists y, r' x = Some y /\ of_ctype t y);
  g_ucomplete : forall c, of_ctype t c -> exists vs r',
    zrun (init_regs (nf_calls f) vs) (nf_code f) = Some r' /\
    (forall z, In z (nf_assumes f) -> r' z = Some 1) /\ r' x = Some c }.

Ltac widths_tac := cbv; tauto.
Ltac ok_tac :=
  constructor;
  [ let H := fresh in intros ? ? H; cbn in H;
    repeat (destruct H as [H|H]; [injection H as <- <-; cbn; unfold is_iN, supported, pat, cast_ok, const; cbn;
      repeat split; try reflexivity; try lia; try widths_tac|]); destruct H
  | reflexivity | reflexivity | reflexivity
  | let H := fresh in intros ? ? H; cbn in H;
    repeat (destruct H as [H|H]; [injection H as <- <-; split; [reflexivity|lia]|]); destruct H
  | let H := fresh in intros ? H; cbn in H;
    repeat (destruct H as [H|H]; [subst; reflexivity|]); destruct H ].

Lemma narrow_s8_ok : fn_ok (nondet_narrow SExt 8 SCHAR_MIN SCHAR_MAX) 8 "x".
Proof. ok_tac. Qed.
Lemma narrow_u8_ok : fn_ok (nondet_narrow ZExt 8 0 UCHAR_MAX) 8 "x".
Proof. ok_tac. Qed.
Lemma narrow_s16_ok : fn_ok (nondet_narrow SExt 16 SHRT_MIN SHRT_MAX) 16 "x".
Proof. ok_tac. Qed.
Lemma narrow_u16_ok : fn_ok (nondet_narrow ZExt 16 0 USHRT_MAX) 16 "x".
Proof. ok_tac. Qed.
Lemma signed_32_ok : fn_ok (nondet_signed 32 INT_MIN INT_MAX) 32 "x".
Proof. ok_tac. Qed.
Lemma signed_64_ok : fn_ok (nondet_signed 64 LONG_MIN LONG_MAX) 64 "x".
Proof. ok_tac. Qed.
Lemma unsigned_32_ok : fn_ok (nondet_unsigned 32 UINT_MAX) 32 "x".
Proof. ok_tac. Qed.
Lemma unsigned_64_ok : fn_ok (nondet_unsigned 64 ULONG_MAX) 64 "x".
Proof. ok_tac. Qed.
Lemma bool_ok : fn_ok nondet_bool 1 "r".
Proof. ok_tac. Qed.

Lemma icmp_true : forall p n a b, llvm_icmp p n a b = true -> b2z (llvm_icmp p n a b) = 1.
Proof. intros p n a b ->. reflexivity. Qed.
Ltac in_cases H := cbn in H; repeat (destruct H as [H|H]; [rewrite <- H; clear H|]); [..|destruct H].
Ltac in_cases2 H := cbn in H; repeat (destruct H as [H|H]; [injection H as <- <-|]); [..|destruct H].
Ltac red_run := cbn -[pat signed Z.leb Z.ltb Z.eqb Z.pow b2z llvm_icmp llvm_cast const].

Ltac use_true H := rewrite (icmp_true _ _ _ _ H).

Lemma s_cmp : forall n s k, 1 <= n -> - 2 ^ (n - 1) <= s < 2 ^ (n - 1) -> - 2 ^ (n - 1) <= k < 2 ^ (n - 1) ->
  llvm_icmp SGE n (pat n s) (pat n k) = (k <=? s) /\ llvm_icmp SLE n (pat n s) (pat n k) = (s <=? k).
Proof. intros n s k Hn Hs Hk. cbn [llvm_icmp]. now rewrite !pat_signed by assumption. Qed.

(** the value promoted to int *)
Definition promoted (ext : castop) (n a : Z) : Z := match ext with SExt => signed n a | _ => a end.
Lemma promoted_ok : forall ext n a, ext <> Trunc -> 1 <= n < 32 -> is_iN n a ->
  llvm_cast ext n 32 a = pat 32 (promoted ext n a) /\ - 2 ^ (32 - 1) <= promoted ext n a < 2 ^ (32 - 1).
Proof.
  intros ext n a He Hn Ha.
  pose proof (signed_range n a ltac:(lia) Ha) as Hr.
  assert (2 ^ n <= 2 ^ 31) by (apply Z.pow_le_mono_r; lia).
  assert (2 ^ (n - 1) <= 2 ^ 31) by (apply Z.pow_le_mono_r; lia).
  unfold is_iN in Ha. change (32 - 1) with 31.
  destruct ext; [congruence| |]; cbn [promoted llvm_cast].
  - split; [|lia]. symmetry. apply pat_id. unfold is_iN. change (2 ^ 32) with (2 * 2 ^ 31). lia.
  - split; [reflexivity|lia].
Qed.

Ltac fin := cbn -[Z.leb Z.ltb Z.eqb Z.pow Z.sub] in *; lia.

Lemma narrow_good : forall ext n lo hi t, ext <> Trunc -> 1 <= n < 32 -> bits t = n ->
  fn_ok (nondet_narrow ext n lo hi) n "x" ->
  - 2 ^ (32 - 1) <= lo < 2 ^ (32 - 1) -> - 2 ^ (32 - 1) <= hi < 2 ^ (32 - 1) ->
  (forall a, is_iN n a -> lo <= promoted ext n a <= hi) ->
  (forall c, of_ctype t c <-> lo <= c <= hi) ->
  good (nondet_narrow ext n lo hi) t "x".
Proof.
  intros ext n lo hi t He Hn Hb Hok Hlo Hhi Hp Ht.
  assert (forall k, - 2 ^ (32 - 1) <= k < 2 ^ (32 - 1) -> zlit 32 (pat 32 k) false = k) as Hz.
  { intros k Hk. unfold zlit. cbn [andb]. change (1 <? 32) with true. cbn [andb].
    pose proof (pat_signed 32 k ltac:(lia) Hk) as E. unfold signed in E.
    destruct (Z.ltb_spec (pat 32 k) (2 ^ (32 - 1))), (Z.leb_spec (2 ^ (32 - 1)) (pat 32 k)); lia. }
  constructor.
  - now rewrite Hb.
  - intros vs. eexists _, _. split; reflexivity.
  - rewrite Hb. intros a Ha. exists (fun _ => a). eexists. split; [intros y k H; in_cases2 H; exact Ha|].
    split; [reflexivity|]. split; [|reflexivity]. intros z Hz'. in_cases Hz'. red_run. unfold const.
    destruct (promoted_ok ext n a He Hn Ha) as [-> Hr].
    destruct (s_cmp 32 (promoted ext n a) lo ltac:(lia) Hr Hlo) as [-> _].
    destruct (s_cmp 32 (promoted ext n a) hi ltac:(lia) Hr Hhi) as [_ ->].
    specialize (Hp a Ha).
    replace (lo <=? promoted ext n a) with true by lia. replace (promoted ext n a <=? hi) with true by lia. reflexivity.
  - intros vs. eexists. split; [reflexivity|]. intros Hass.
    exists (vs "x"). split; [reflexivity|]. apply Ht.
    specialize (Hass "z" _ (or_introl eq_refl) eq_refl). revert Hass.
    cbn -[Z.leb Z.ltb Z.eqb Z.pow zlit pat]. rewrite !Hz by assumption.
    destruct (Z.leb_spec lo (vs "x")), (Z.leb_spec (vs "x") hi); cbn; intros; lia.
  - intros c Hc. apply Ht in Hc. exists (fun _ => c). eexists. split; [reflexivity|]. split; [|reflexivity].
    intros z Hz'. in_cases Hz'. cbn -[Z.leb Z.ltb Z.eqb Z.pow zlit pat]. rewrite !Hz by assumption.
    replace (lo <=? c) with true by lia. replace (c <=? hi) with true by lia. reflexivity.
Qed.

Lemma narrow_s8 : good (nondet_narrow SExt 8 SCHAR_MIN SCHAR_MAX) (CSigned 8) "x".
Proof.
  apply narrow_good; [discriminate|lia|reflexivity|exact narrow_s8_ok|vm_compute; split; congruence|vm_compute; split; congruence| |].
  - intros a Ha. pose proof (signed_range 8 a ltac:(lia) Ha). cbn [promoted]. unfold SCHAR_MIN, SCHAR_MAX.
    change (2 ^ (8 - 1)) with 128 in *. lia.
  - intros c. cbn. unfold SCHAR_MIN, SCHAR_MAX. lia.
Qed.
Lemma narrow_u8 : good (nondet_narrow ZExt 8 0 UCHAR_MAX) (CUnsigned 8) "x".
Proof.
  apply narrow_good; [discriminate|lia|reflexivity|exact narrow_u8_ok|vm_compute; split; congruence|vm_compute; split; congruence| |].
  - intros a Ha. unfold is_iN in Ha. cbn [promoted]. unfold UCHAR_MAX. change (2 ^ 8) with 256 in *. lia.
  - intros c. cbn. unfold UCHAR_MAX. lia.
Qed.
Lemma narrow_s16 : good (nondet_narrow SExt 16 SHRT_MIN SHRT_MAX) (CSigned 16) "x".
Proof.
  apply narrow_good; [discriminate|lia|reflexivity|exact narrow_s16_ok|vm_compute; split; congruence|vm_compute; split; congruence| |].
  - intros a Ha. pose proof (signed_range 16 a ltac:(lia) Ha). cbn [promoted]. unfold SHRT_MIN, SHRT_MAX.
    change (2 ^ (16 - 1)) with 32768 in *. lia.
  - intros c. cbn. unfold SHRT_MIN, SHRT_MAX. lia.
Qed.
Lemma narrow_u16 : good (nondet_narrow ZExt 16 0 USHRT_MAX) (CUnsigned 16) "x".
Proof.
  apply narrow_good; [discriminate|lia|reflexivity|exact narrow_u16_ok|vm_compute; split; congruence|vm_compute; split; congruence| |].
  - intros a Ha. unfold is_iN in Ha. cbn [promoted]. unfold USHRT_MAX. change (2 ^ 16) with 65536 in *. lia.
  - intros c. cbn. unfold USHRT_MAX. lia.
Qed.

Lemma zlit_signed : forall n k, 1 < n -> - 2 ^ (n - 1) <= k < 2 ^ (n - 1) -> zlit n (pat n k) false = k.
Proof.
  intros n k Hn Hk. unfold zlit. pose proof (pat_signed n k ltac:(lia) Hk) as E. unfold signed in E.
  destruct (Z.ltb_spec (pat n k) (2 ^ (n - 1))), (Z.leb_spec (2 ^ (n - 1)) (pat n k)), (Z.ltb_spec 1 n); cbn [andb]; lia.
Qed.

Lemma signed_good : forall n lo hi, 1 < n -> fn_ok (nondet_signed n lo hi) n "x" ->
  lo = - 2 ^ (n - 1) -> hi = 2 ^ (n - 1) - 1 -> good (nondet_signed n lo hi) (CSigned n) "x".
Proof.
  intros n lo hi Hn Hok Hlo Hhi. pose proof (pow2_half_pos n ltac:(lia)).
  assert (- 2 ^ (n - 1) <= lo < 2 ^ (n - 1)) as Rlo by lia.
  assert (- 2 ^ (n - 1) <= hi < 2 ^ (n - 1)) as Rhi by lia.
  constructor.
  - exact Hok.
  - intros vs. eexists _, _. split; reflexivity.
  - cbn [bits]. intros a Ha. exists (fun _ => a). eexists. split; [intros y k H'; in_cases2 H'; exact Ha|].
    split; [reflexivity|]. split; [|reflexivity]. intros z Hz'. in_cases Hz'. red_run. unfold const.
    pose proof (signed_range n a ltac:(lia) Ha) as Hr.
    rewrite <- (signed_pat n a) by (assumption || lia).
    destruct (s_cmp n (signed n a) lo ltac:(lia) Hr Rlo) as [-> _].
    destruct (s_cmp n (signed n a) hi ltac:(lia) Hr Rhi) as [_ ->].
    replace (lo <=? signed n a) with true by lia. replace (signed n a <=? hi) with true by lia. reflexivity.
  - intros vs. eexists. split; [reflexivity|]. intros Hass.
    exists (vs "x"). split; [reflexivity|]. cbn [of_ctype].
    specialize (Hass "z" _ (or_introl eq_refl) eq_refl). revert Hass.
    cbn -[Z.leb Z.ltb Z.eqb Z.pow zlit pat]. rewrite !zlit_signed by assumption.
    destruct (Z.leb_spec lo (vs "x")), (Z.leb_spec (vs "x") hi); cbn -[Z.pow]; intros; lia.
  - cbn [of_ctype]. intros c Hc. exists (fun _ => c). eexists. split; [reflexivity|]. split; [|reflexivity].
    intros z Hz'. in_cases Hz'. cbn -[Z.leb Z.ltb Z.eqb Z.pow zlit pat]. rewrite !zlit_signed by assumption.
    replace (lo <=? c) with true by lia. replace (c <=? hi) with true by lia. reflexivity.
Qed.
Lemma signed_32 : good (nondet_signed 32 INT_MIN INT_MAX) (CSigned 32) "x".
Proof. apply signed_good; [lia|exact signed_32_ok|reflexivity|reflexivity]. Qed.
Lemma signed_64 : good (nondet_signed 64 LONG_MIN LONG_MAX) (CSigned 64) "x".
Proof. apply signed_good; [lia|exact signed_64_ok|reflexivity|reflexivity]. Qed.

Lemma unsigned_good : forall n umax, 1 < n -> fn_ok (nondet_unsigned n umax) n "x" ->
  umax = 2 ^ n - 1 -> good (nondet_unsigned n umax) (CUnsigned n) "x".
Proof.
  intros n umax Hn Hok Hu. pose proof (pow2_pos n ltac:(lia)).
  assert (pat n umax = umax) as Eu by (apply pat_id; unfold is_iN; lia).
  assert (pat n 0 = 0) as E0 by (apply pat_id; unfold is_iN; lia).
  assert (forall u, zlit n 0 u = 0) as Z0.
  { intros []; unfold zlit; [reflexivity|]. pose proof (pow2_half_pos n ltac:(lia)).
    destruct (Z.leb_spec (2 ^ (n - 1)) 0); [lia|]. now rewrite andb_false_r. }
  constructor.
  - exact Hok.
  - intros vs. eexists _, _. split; reflexivity.
  - cbn [bits]. intros a Ha.
    exists (fun y => if String.eqb y "min" then 0 else if String.eqb y "max" then umax else a). eexists.
    split; [intros y k H'; in_cases2 H'; cbn -[Z.pow]; unfold is_iN in *; lia|].
    split; [reflexivity|]. split; [|reflexivity].
    intros z Hz'. in_cases Hz'; red_run; unfold const, llvm_icmp; rewrite ?Eu, ?E0.
    + replace (umax <=? umax) with true by lia. reflexivity.
    + unfold is_iN in Ha. replace (0 <=? a) with true by lia. replace (a <=? umax) with true by lia. reflexivity.
  - intros vs. eexists. split; [reflexivity|]. intros Hass.
    exists (vs "x"). split; [reflexivity|]. cbn [of_ctype].
    pose proof (Hass "z1" _ (or_introl eq_refl) eq_refl) as H1.
    pose proof (Hass "z2" _ (or_intror (or_introl eq_refl)) eq_refl) as H2. revert H1 H2. clear Hass.
    cbn -[Z.leb Z.ltb Z.eqb Z.pow zlit pat]. rewrite ?E0, ?Z0. cbn [zlit]. rewrite Eu.
    destruct (Z.eqb_spec (vs "min") 0), (Z.leb_spec umax (vs "max")), (Z.leb_spec (vs "max") umax),
      (Z.leb_spec (vs "min") (vs "x")), (Z.leb_spec (vs "x") (vs "max")); cbn -[Z.pow]; intros; lia.
  - cbn [of_ctype]. intros c Hc.
    exists (fun y => if String.eqb y "min" then 0 else if String.eqb y "max" then umax else c).
    eexists. split; [reflexivity|]. split; [|reflexivity].
    intros z Hz'. in_cases Hz'; cbn -[Z.leb Z.ltb Z.eqb Z.pow zlit pat]; rewrite ?E0, ?Z0; cbn [zlit]; rewrite ?Eu.
    + replace (umax <=? umax) with true by lia. reflexivity.
    + replace (0 <=? c) with true by lia. replace (c <=? umax) with true by lia. reflexivity.
Qed.
Lemma unsigned_32 : good (nondet_unsigned 32 UINT_MAX) (CUnsigned 32) "x".
Proof. apply unsigned_good; [lia|exact unsigned_32_ok|reflexivity]. Qed.
Lemma unsigned_64 : good (nondet_unsigned 64 ULONG_MAX) (CUnsigned 64) "x".
Proof. apply unsigned_good; [lia|exact unsigned_64_ok|reflexivity]. Qed.

Lemma bool_good : good nondet_bool (CUnsigned 1) "r".
Proof.
  constructor.
  - exact bool_ok.
  - intros vs. eexists _, _. split; reflexivity.
  - cbn [bits]. intros a Ha. assert (a = 0 \/ a = 1) as [-> | ->] by (unfold is_iN in Ha; cbn in Ha; lia).
    + exists (fun _ => 0). eexists. split; [intros y k H'; in_cases2 H'; cbv; split; congruence|]. split; [reflexivity|].
      split; [|vm_compute; reflexivity]. intros z Hz. in_cases Hz; vm_compute; reflexivity.
    + exists (fun _ => 1). eexists. split; [intros y k H'; in_cases2 H'; cbv; split; congruence|]. split; [reflexivity|].
      split; [|vm_compute; reflexivity]. intros z Hz. in_cases Hz; vm_compute; reflexivity.
  - intros vs. eexists. split; [reflexivity|]. intros _.
    exists (if negb (vs "n" =? 0) then 1 else 0). split; [reflexivity|].
    destruct (vs "n" =? 0); cbn; lia.
  - cbn [of_ctype]. intros c Hc. assert (c = 0 \/ c = 1) as [-> | ->] by (cbn in Hc; lia).
    + exists (fun _ => 0). eexists. split; [reflexivity|].
      split; [|vm_compute; reflexivity]. intros z Hz. in_cases Hz; vm_compute; reflexivity.
    + exists (fun _ => 1). eexists. split; [reflexivity|].
      split; [|vm_compute; reflexivity]. intros z Hz. in_cases Hz; vm_compute; reflexivity.
Qed.

Definition type_of (name : string) : option ctype :=
  option_map snd (find (fun q => String.eqb (fst q) name) documented).
Lemma documented_type : forall name t, In (name, t) documented -> type_of name = Some t.
Proof. intros name t H. cbn in H. repeat (destruct H as [H|H]; [injection H as <- <-; reflexivity|]). destruct H. Qed.
Lemma all_good : forall name f t, In (name, f) nondet_functions -> In (name, t) documented ->
  exists x, good f t x.
Proof.
  intros name f t Hf Ht. apply documented_type in Ht. cbn in Hf.
  repeat (destruct Hf as [Hf|Hf];
    [injection Hf as <- <-; injection Ht as <-;
     eauto using narrow_s8, narrow_u8, narrow_s16, narrow_u16, signed_32, signed_64, unsigned_32, unsigned_64, bool_good|]).
  destruct Hf.
Qed.

Lemma value_of_pattern : forall enc t v a, exact_encoding enc -> 1 <= bits t -> is_iN (bits t) a ->
  represents enc (bits t) v a -> exists c, of_ctype t c /\ stands_for enc t v c.
Proof.
  intros enc t v a He Hn Ha Hr.
  assert (exists c, of_ctype t c /\ c mod 2 ^ bits t = a) as (c & Hc & Ec).
  { destruct t as [n|n]; cbn [bits of_ctype] in *.
    - exists (signed n a). split; [pose proof (signed_range n a Hn Ha); lia|]. apply (signed_pat n a Hn Ha).
    - exists a. unfold is_iN in Ha. split; [lia|]. apply Z.mod_small. lia. }
  exists c. split; [exact Hc|]. destruct He as [-> | ->]; cbn in *.
  - rewrite Ec. exact Hr.
  - destruct Hr as (z & -> & Hz). exists z. split; [reflexivity|]. now rewrite Ec.
Qed.

(** The names are those of the specification. *)
Theorem C42_functions : map fst nondet_functions = map fst documented /\ NoDup (map fst documented).
Proof.
  split; [reflexivity|]. cbn.
  repeat (constructor; [cbn; intro H; repeat (destruct H as [H|H]; [discriminate|]); exact H|]). constructor.
Qed.
Print Assumptions C42_functions.

Lemma documented_width : forall name t, In (name, t) documented -> 1 <= bits t.
Proof.
  intros name t H. cbn in H. repeat (destruct H as [H|H]; [injection H as <- <-; cbn; lia|]). destruct H.
Qed.

(** Every result is a value of the type. *)
Theorem C42_sound :
  forall enc bvptr ndebug I name f t v,
    meets_axioms (flags enc bvptr) I ->
    In (name, f) nondet_functions -> In (name, t) documented ->
    returns enc bvptr ndebug I f v ->
    exists c, of_ctype t c /\ stands_for enc t v c.
Proof.
  intros enc p nd I name f t v HI Hf Ht Hv.
  pose proof (documented_width name t Ht) as Hw.
  destruct (all_good name f t Hf Ht) as (x & [Hok Htot _ Hus _]).
  destruct enc.
  - destruct (exact_sound BitVector p nd I f (bits t) x (or_introl eq_refl) HI Hok v Htot Hv) as (a & Ha & Hr).
    apply (value_of_pattern BitVector t v a); auto. left; reflexivity.
  - destruct (exact_sound WrappedInteger p nd I f (bits t) x (or_intror eq_refl) HI Hok v Htot Hv) as (a & Ha & Hr).
    apply (value_of_pattern WrappedInteger t v a); auto. right; reflexivity.
  - destruct (unb_sound p nd I f (bits t) x Hok v Hv) as (vs & H).
    destruct (Hus vs) as (r' & Hr' & Hc). destruct (H r' Hr') as [H1 H2].
    destruct (Hc H1) as (y & Hy & Hty). exists y. split; [exact Hty|]. exact (H2 y Hy).
Qed.
Print Assumptions C42_sound.

(** Every value of the type can be returned. *)
Theorem C42_complete :
  forall enc bvptr ndebug I name f t c,
    meets_axioms (flags enc bvptr) I ->
    In (name, f) nondet_functions -> In (name, t) documented ->
    of_ctype t c ->
    exists v, returns enc bvptr ndebug I f v /\ stands_for enc t v c.
Proof.
  intros enc p nd I name f t c HI Hf Ht Hc.
  pose proof (documented_width name t Ht) as Hw. pose proof (pow2_pos (bits t) ltac:(lia)) as Hpos.
  destruct (all_good name f t Hf Ht) as (x & [Hok _ Hex _ Huc]).
  assert (is_iN (bits t) (c mod 2 ^ bits t)) as Hp by (apply Z.mod_pos_bound; lia).
  destruct enc.
  - destruct (Hex _ Hp) as (vs & r' & Hvs & Hr & Hass & Ha).
    destruct (exact_complete BitVector p nd I f (bits t) x (or_introl eq_refl) HI Hok vs r' _ Hvs Hr Hass Ha) as (v & Hv & Hrep).
    exists v. split; [exact Hv|exact Hrep].
  - destruct (Hex _ Hp) as (vs & r' & Hvs & Hr & Hass & Ha).
    destruct (exact_complete WrappedInteger p nd I f (bits t) x (or_intror eq_refl) HI Hok vs r' _ Hvs Hr Hass Ha) as (v & Hv & Hrep).
    exists v. split; [exact Hv|]. destruct Hrep as (z & -> & Hz). exists z. split; [reflexivity|exact Hz].
  - destruct (Huc c Hc) as (vs & r' & Hr & Hass & Ha). exists (VInt c). split; [|reflexivity].
    eapply unb_complete; eauto.
Qed.
Print Assumptions C42_complete.

(** The bounds are needed: without them the unbounded encoding returns numbers
    outside the type. *)
Example C42_nonvacuous :
  (forall enc bvptr, meets_axioms (flags enc bvptr) (machine_interp enc)) /\
  In ("unsigned_char", nondet_narrow ZExt 8 0 UCHAR_MAX) nondet_functions /\
  In ("unsigned_char", CUnsigned 8) documented /\ of_ctype (CUnsigned 8) 200 /\
  ~ of_ctype (CUnsigned 8) 256 /\
  returns UnboundedInteger false true (machine_interp UnboundedInteger)
    (NondetFn [("x", 8)] [] [] (VReg 8 "x")) (VInt 256).
Proof.
  split; [exact machine_meets_axioms|].
  split; [right; right; left; reflexivity|]. split; [right; right; left; reflexivity|].
  split; [cbn; lia|]. split; [cbn; lia|].
  exists (fun _ => Some (VInt 256)), [], (EVar "x"), 1%nat, (fun _ => Some (VInt 256)).
  split; [|split; [reflexivity|split; [reflexivity|split; [intros z []|split; reflexivity]]]].
  intros x n _. eexists. split; [reflexivity|]. now exists 256.
Qed.
