(** Load and store of byte memories: proofs. *)
From Coq Require Import ZArith List String Bool Lia ZifyBool.
From Verif.Base Require Import ZBits.
From Verif.Spec Require Import LLVMInt IR ByteMemory Encodings.
From Verif.Model Require Import Boogie PreludeInt SmackRepInt PreludeMem.
From Verif.Proofs Require Import Lookup PreludeCalls ExprSim EvalCompose MemCalls.
Import ListNotations.
Open Scope string_scope.
Open Scope list_scope.
Open Scope Z_scope.

Lemma byte_low : forall x y k i, 0 <= i < k -> 0 <= y < 2 ^ (8 * k) ->
  byte_of (x * 2 ^ (8 * k) + y) i = byte_of y i.
Proof.
  intros x y k i Hi Hy. unfold byte_of.
  replace (x * 2 ^ (8 * k)) with (x * 2 ^ (8 * (k - i) - 8) * 2 ^ 8 * 2 ^ (8 * i)).
  2:{ rewrite <- !Z.mul_assoc, <- !Z.pow_add_r by lia. do 2 f_equal. lia. }
  rewrite Z.div_add_l by (apply Z.pow_nonzero; lia). rewrite Z.add_comm, Z.mod_add by lia. reflexivity.
Qed.
Lemma byte_high : forall x y k, 0 <= k -> 0 <= y < 2 ^ (8 * k) -> 0 <= x < 2 ^ 8 ->
  byte_of (x * 2 ^ (8 * k) + y) k = x.
Proof.
  intros x y k Hk Hy Hx. unfold byte_of. rewrite Z.div_add_l by (apply Z.pow_nonzero; lia).
  rewrite Z.div_small by lia. rewrite Z.add_0_r. apply Z.mod_small. lia.
Qed.

Lemma reads_as_unique : forall A k m v w, 0 <= k -> reads_as A k m v -> reads_as A k m w -> v = w.
Proof.
  intros A k m v w Hk [Hv1 Hv2] [Hw1 Hw2].
  assert (forall i, 0 <= i < k -> byte_of v i = byte_of w i) as H by (intros i Hi; rewrite Hv2, Hw2 by lia; reflexivity).
  clear Hv2 Hw2. revert v w Hv1 Hw1 H. pattern k. apply natlike_ind; [| |assumption].
  - intros v w Hv Hw _. cbn in *. lia.
  - clear k Hk. intros k Hk IH v w Hv Hw H.
    pose proof (pow2_pos (8 * k) ltac:(lia)) as Hp.
    assert (2 ^ (8 * Z.succ k) = 2 ^ 8 * 2 ^ (8 * k)) as E by (rewrite <- Z.pow_add_r by lia; f_equal; lia).
    assert (forall u, 0 <= u < 2 ^ (8 * Z.succ k) -> u / 2 ^ (8 * k) = byte_of u k) as Hh.
    { intros u Hu. unfold byte_of. rewrite Z.mod_small; [reflexivity|]. split; [apply Z.div_pos; lia|].
      apply Z.div_lt_upper_bound; lia. }
    rewrite (Z.div_mod v (2 ^ (8 * k))), (Z.div_mod w (2 ^ (8 * k))) by lia.
    rewrite (Hh v), (Hh w), (H k) by lia. f_equal.
    pose proof (Z.mod_pos_bound v (2 ^ (8 * k)) Hp). pose proof (Z.mod_pos_bound w (2 ^ (8 * k)) Hp).
    apply IH; [lia..|]. intros i Hi.
    rewrite <- (byte_low (v / 2 ^ (8 * k)) (v mod 2 ^ (8 * k)) k i) by lia.
    rewrite <- (byte_low (w / 2 ^ (8 * k)) (w mod 2 ^ (8 * k)) k i) by lia.
    rewrite (Z.mul_comm (v / _)), (Z.mul_comm (w / _)), <- !Z.div_mod by lia. apply H. lia.
Qed.

Lemma written_reads : forall A k v m m', 0 <= k -> 0 <= v < 2 ^ (8 * k) -> written A k v m m' -> reads_as A k m' v.
Proof. intros A k v m m' Hk Hv [H1 _]. split; [assumption|]. intros i Hi. symmetry. now apply H1. Qed.

Lemma written_bytes : forall A k v m m', byte_memory m -> written A k v m m' ->
  (forall q, (exists i, 0 <= i < k /\ q = A i) \/ (forall i, 0 <= i < k -> q <> A i)) -> byte_memory m'.
Proof.
  intros A k v m m' Hm [H1 H2] Hd a. destruct (Hd a) as [(i & Hi & ->)|H].
  - rewrite H1 by assumption. apply Z.mod_pos_bound. lia.
  - rewrite H2 by assumption. apply Hm.
Qed.

Lemma byte_addr_inj : forall bvptr P p i j, 32 <= P -> 0 <= i <= 256 -> 0 <= j <= 256 ->
  byte_addr bvptr P p i = byte_addr bvptr P p j -> i = j.
Proof.
  intros [|] P p i j HP Hi Hj H; unfold byte_addr in H; [|lia].
  pose proof (pow2_le 32 P HP). assert (2 ^ 32 = 4294967296) as E32 by reflexivity.
  assert ((p + i - (p + j)) mod 2 ^ P = 0) as E by (rewrite Zminus_mod, H, Z.sub_diag; apply Z.mod_0_l; lia).
  apply Z.mod_divide in E; [|lia]. destruct E as [c E]. destruct (Z.eq_dec c 0); [subst; lia|nia].
Qed.

Section Bytes.
  Context (O : opts) (P : Z) (prog : list fdecl) (I : interp).
  Hypothesis Hext : extends prog (preludeMem O P).
  Hypothesis HP : ptr_width P.
  Notation ev := (evaluates prog I).
  Notation ptr := (ptr O P).
  Notation A p := (byte_addr (bitPrecisePointers O) P p).

  Lemma P_big : 32 <= P. Proof. destruct HP as [->| ->]; lia. Qed.
  Lemma small_lt : forall i, 0 <= i <= 256 -> 0 <= i < 2 ^ P.
  Proof. intros i Hi. pose proof (pow2_le 32 P P_big). assert (2 ^ 32 = 4294967296) by reflexivity. lia. Qed.

  Lemma A_0 : forall p, paddr O P p -> A p 0 = p.
  Proof.
    intros p Hp. unfold byte_addr. destruct (bitPrecisePointers O) eqn:E; [|lia].
    rewrite Z.add_0_r. apply Z.mod_small, Hp, E.
  Qed.

  (** the address expression of byte i *)
  Lemma ev_addr : forall r p i, paddr O P p -> r "p" = Some (ptr p) -> 0 <= i <= 256 ->
    ev r (if i =? 0 then makePtrVarExpr 0
          else EFun (indexedName "$add" [NRef]) [makePtrVarExpr 0; pointerLitU O P i]) (ptr (A p i)).
  Proof.
    intros r p i Ha Hp Hi. destruct (Z.eqb_spec i 0) as [->|Ne].
    - rewrite A_0 by assumption. apply ev_var. exact Hp.
    - apply ev_fun with [ptr p; ptr i].
      + repeat constructor; [apply ev_var; exact Hp|]. exists 0%nat. apply eval_pointerLitU.
        intros _. now apply small_lt.
      + exists 2%nat. rewrite (c_ref_add O P prog I Hext HP). reflexivity.
  Qed.

  Lemma ev_mapSel : forall r p i c m, paddr O P p -> r "M" = Some (VMap (pdom O P) c m) -> r "p" = Some (ptr p) ->
    0 <= i <= 256 -> ev r (mapSelExpr O P i) (scalar_of c (m (A p i))).
  Proof.
    intros r p i c m Ha HM Hp Hi. unfold mapSelExpr. eapply ev_sel.
    - apply ev_var. exact HM.
    - exact (ev_addr r p i Ha Hp Hi).
    - apply ptr_scalar.
  Qed.
  Lemma ev_mapUpd : forall r p i c m e x y me, paddr O P p -> r "p" = Some (ptr p) -> 0 <= i <= 256 ->
    ev r (match me with Some e => e | None => makeMapVarExpr end) (VMap (pdom O P) c m) ->
    ev r e x -> to_scalar c x = Some y ->
    ev r (mapUpdExpr O P i e me) (VMap (pdom O P) c (fun a => if a =? A p i then y else m a)).
  Proof.
    intros r p i c m e x y me Ha Hp Hi HM He Hy. unfold mapUpdExpr. eapply ev_upd; [exact HM|exact (ev_addr r p i Ha Hp Hi)|exact He|apply ptr_scalar|exact Hy].
  Qed.

  Lemma ev_loadBody : forall r p m k, paddr O P p -> byte_memory m ->
    r "M" = Some (VMap (pdom O P) (Some 8) m) -> r "p" = Some (ptr p) -> (k <= 255)%nat ->
    exists v, ev r (loadBody O P k) (VBv (8 * (Z.of_nat k + 1)) v) /\ reads_as (A p) (Z.of_nat k + 1) m v.
  Proof.
    intros r p m k Ha Hm HM Hp. induction k as [|k IH]; intros Hk.
    - exists (m p). split.
      + cbn [loadBody]. pose proof (ev_mapSel r p 0 (Some 8) m Ha HM Hp ltac:(lia)) as E. rewrite A_0 in E by assumption. exact E.
      + split; [apply Hm|]. intros i Hi. replace i with 0 by lia. rewrite A_0 by assumption. unfold byte_of.
        cbn -[Z.pow Z.modulo]. rewrite Z.div_1_r. apply Z.mod_small, Hm.
    - destruct (IH ltac:(lia)) as (v & H1 & H2 & H3). exists (m (A p (Z.of_nat (S k))) * 2 ^ (8 * (Z.of_nat k + 1)) + v). split.
      + cbn [loadBody]. replace (8 * (Z.of_nat (S k) + 1)) with (8 + 8 * (Z.of_nat k + 1)) by lia.
        apply ev_concat; [|exact H1]. apply (ev_mapSel r p (Z.of_nat (S k)) (Some 8) m Ha HM Hp). lia.
      + pose proof (Hm (A p (Z.of_nat (S k)))) as Hb. split.
        * replace (8 * (Z.of_nat (S k) + 1)) with (8 + 8 * (Z.of_nat k + 1)) by lia. rewrite Z.pow_add_r by lia. nia.
        * intros i Hi. destruct (Z.eq_dec i (Z.of_nat k + 1)) as [->|Ne].
          -- rewrite byte_high by lia. do 2 f_equal. lia.
          -- rewrite byte_low by lia. apply H3. lia.
  Qed.

  Lemma ev_storeBody : forall r p n v m k, paddr O P p -> is_iN n v ->
    r "M" = Some (VMap (pdom O P) (Some 8) m) -> r "p" = Some (ptr p) -> r "i" = Some (VBv n v) ->
    (k <= 255)%nat -> 8 * (Z.of_nat k + 1) <= n ->
    exists m', ev r (storeBody O P k) (VMap (pdom O P) (Some 8) m') /\ written (A p) (Z.of_nat k + 1) v m m'.
  Proof.
    intros r p n v m k Ha Hv HM Hp Hi. induction k as [|k IH]; intros Hk Hn.
    - eexists. split.
      + cbn [storeBody]. eapply (ev_mapUpd r p 0 (Some 8) m); [assumption..|lia| | |].
        * apply ev_var. exact HM.
        * eapply ev_extract; [apply ev_var; exact Hi|lia..].
        * reflexivity.
      + split.
        * intros i Hi'. replace i with 0 by lia. rewrite Z.eqb_refl. reflexivity.
        * intros q Hq. specialize (Hq 0 ltac:(lia)). destruct (Z.eqb_spec q (A p 0)); [congruence|reflexivity].
    - destruct (IH ltac:(lia) ltac:(lia)) as (m1 & H1 & H2 & H3). eexists. split.
      + cbn [storeBody]. eapply (ev_mapUpd r p (Z.of_nat (S k)) (Some 8) m1 _ _ _ (Some (storeBody O P k))); [assumption..|lia| | |].
        * exact H1.
        * eapply ev_extract; [apply ev_var; exact Hi|lia..].
        * replace (8 * Z.of_nat (S k) + 8 - 8 * Z.of_nat (S k)) with 8 by lia. reflexivity.
      + split.
        * intros i Hi'. destruct (Z.eqb_spec (A p i) (A p (Z.of_nat (S k)))) as [E|Ne].
          -- apply byte_addr_inj in E; [|apply P_big|lia..]. subst i. unfold byte_of.
             replace (8 * Z.of_nat (S k) + 8 - 8 * Z.of_nat (S k)) with 8 by lia. reflexivity.
          -- apply H2. destruct (Z.eq_dec i (Z.of_nat (S k))) as [->|]; [congruence|lia].
        * intros q Hq. destruct (Z.eqb_spec q (A p (Z.of_nat (S k)))) as [E|Ne].
          -- exfalso. exact (Hq (Z.of_nat (S k)) ltac:(lia) E).
          -- apply H3. intros i Hi'. apply Hq. lia.
  Qed.

  (** ** The functions *)
  Definition whole_bytes (n : Z) : Prop := n < 8 \/ n mod 8 = 0.

  Lemma size_le : forall n, In n INTEGER_SIZES -> n <= 256.
  Proof. intros n H. cbn in H. lia. Qed.

  Hypothesis Hbp : bitPrecise O = true.
  Hypothesis Hw : wrappedIntegerEncoding O = false.

  Lemma rounds_whole : forall n, In n INTEGER_SIZES -> n mod 8 = 0 ->
    8 * (Z.of_nat (Z.to_nat (n / 8 - 1)) + 1) = n /\ bytes_needed n = Z.of_nat (Z.to_nat (n / 8 - 1)) + 1 /\ 8 <= n /\ (Z.to_nat (n / 8 - 1) <= 255)%nat.
  Proof.
    intros n Hn Hm. pose proof (size_pos n Hn). pose proof (size_le n Hn). unfold bytes_needed.
    assert (n = 8 * (n / 8)) as E by (pose proof (Z.div_mod n 8); lia).
    assert ((n + 7) / 8 = n / 8) as E2.
    { rewrite E at 1. replace (8 * (n / 8) + 7) with (7 + (n / 8) * 8) by lia. rewrite Z.div_add by lia. reflexivity. }
    rewrite E2. lia.
  Qed.

  Lemma calls_load_bytes : forall n p m, In n INTEGER_SIZES -> whole_bytes n -> paddr O P p -> byte_memory m ->
    exists v, calls prog I (indexedName "$load" [NBytes; NBv n]) [VMap (pdom O P) (Some 8) m; ptr p] (VBv n (pat n v)) /\
      reads_as (A p) (bytes_needed n) m v.
  Proof.
    intros n p m Hn Hwb Ha Hm. pose proof (size_pos n Hn) as Hpos.
    set (r := upd_env (upd_env empty_env "p" (ptr p)) "M" (VMap (pdom O P) (Some 8) m)).
    assert (r "M" = Some (VMap (pdom O P) (Some 8) m)) as HM by reflexivity.
    assert (r "p" = Some (ptr p)) as Hp by reflexivity.
    assert (n < 8 \/ n = 8 \/ (8 < n /\ n mod 8 = 0)) as [H8|[->|[H8 Hmod]]].
    { destruct Hwb as [?|E]; [now left|]. destruct (rounds_whole n Hn E) as (_ & _ & ? & _). lia. }
    - (* fewer than 8 bits *)
      assert (bytes_needed n = 1) as -> by (unfold bytes_needed; symmetry; apply Z.div_unique with (n - 1); lia).
      exists (m p). split.
      + eapply calls_inline; [rewrite (lookup_load_bytes O P prog Hext n Hbp Hn); unfold intMemFuncs; rewrite Hbp; reflexivity|reflexivity..|].
        destruct (Z.ltb_spec n 8); [|lia]. fold r.
        apply ev_fun with [VBv 8 (m p)].
        * repeat constructor. pose proof (ev_mapSel r p 0 (Some 8) m Ha HM Hp ltac:(lia)) as E. rewrite A_0 in E by assumption. exact E.
        * exists 1%nat. apply (b_trunc O prog I (ext_int O P prog Hext) Hbp Hw); [cbn; tauto|assumption|lia].
      + split; [cbn; apply Hm|]. intros i Hi. replace i with 0 by lia. rewrite A_0 by assumption. unfold byte_of.
        cbn -[Z.pow Z.modulo]. rewrite Z.div_1_r. apply Z.mod_small, Hm.
    - exists (m p). split.
      + eapply calls_inline; [rewrite (lookup_load_bytes O P prog Hext 8 Hbp Hn); unfold intMemFuncs; rewrite Hbp; reflexivity|reflexivity..|].
        fold r. pose proof (ev_mapSel r p 0 (Some 8) m Ha HM Hp ltac:(lia)) as E. rewrite A_0 in E by assumption.
        rewrite (pat_id 8) by apply Hm. exact E.
      + split; [apply Hm|]. intros i Hi. replace i with 0 by (change (bytes_needed 8) with 1 in Hi; lia). rewrite A_0 by assumption. unfold byte_of.
        cbn -[Z.pow Z.modulo]. rewrite Z.div_1_r. apply Z.mod_small, Hm.
    - destruct (rounds_whole n Hn Hmod) as (E1 & E2 & _ & E3).
      destruct (ev_loadBody r p m _ Ha Hm HM Hp E3) as (v & H1 & H2). rewrite E1 in H1. rewrite <- E2 in H2.
      exists v. split; [|assumption].
      rewrite (pat_id n v) by (destruct H2 as [H2 _]; rewrite E2, E1 in H2; exact H2).
      eapply calls_inline; [rewrite (lookup_load_bytes O P prog Hext n Hbp Hn); unfold intMemFuncs; rewrite Hbp; reflexivity|reflexivity..|].
      destruct (Z.ltb_spec n 8); [lia|]. destruct (Z.eqb_spec n 8); [lia|]. exact H1.
  Qed.

  Lemma calls_store_bytes : forall n p m x, In n INTEGER_SIZES -> whole_bytes n -> paddr O P p -> is_iN n x ->
    exists m', calls prog I (indexedName "$store" [NBytes; NBv n]) [VMap (pdom O P) (Some 8) m; ptr p; VBv n x]
                 (VMap (pdom O P) (Some 8) m') /\
      written (A p) (bytes_needed n) x m m'.
  Proof.
    intros n p m x Hn Hwb Ha Hx. pose proof (size_pos n Hn) as Hpos.
    set (r := upd_env (upd_env (upd_env empty_env "i" (VBv n x)) "p" (ptr p)) "M" (VMap (pdom O P) (Some 8) m)).
    assert (r "M" = Some (VMap (pdom O P) (Some 8) m)) as HM by reflexivity.
    assert (r "p" = Some (ptr p)) as Hp by reflexivity.
    assert (r "i" = Some (VBv n x)) as Hi by reflexivity.
    assert (n < 8 \/ n = 8 \/ (8 < n /\ n mod 8 = 0)) as [H8|[->|[H8 Hmod]]].
    { destruct Hwb as [?|E]; [now left|]. destruct (rounds_whole n Hn E) as (_ & _ & ? & _). lia. }
    - assert (bytes_needed n = 1) as -> by (unfold bytes_needed; symmetry; apply Z.div_unique with (n - 1); lia).
      assert (x < 2 ^ 8) as Hx8 by (destruct Hx; pose proof (pow2_le n 8 ltac:(lia)); lia).
      eexists. split.
      + eapply calls_inline; [rewrite (lookup_store_bytes O P prog Hext n Hbp Hn); unfold intMemFuncs; rewrite Hbp; reflexivity|reflexivity..|].
        destruct (Z.ltb_spec n 8); [|lia]. fold r.
        eapply (ev_mapUpd r p 0 (Some 8) m _ (VBv 8 x) x None Ha Hp ltac:(lia)).
        * apply ev_var. exact HM.
        * apply ev_fun with [VBv n x]; [repeat constructor; apply ev_var; exact Hi|].
          exists 1%nat. apply (b_ext O prog I (ext_int O P prog Hext) Hbp Hw false); [assumption|cbn; tauto|lia].
        * reflexivity.
      + split.
        * intros i Hi'. replace i with 0 by lia. rewrite Z.eqb_refl. unfold byte_of.
          rewrite Z.mul_0_r, Z.pow_0_r, Z.div_1_r. symmetry. apply Z.mod_small. destruct Hx; lia.
        * intros q Hq. specialize (Hq 0 ltac:(lia)). destruct (Z.eqb_spec q (A p 0)); [congruence|reflexivity].
    - eexists. split.
      + eapply calls_inline; [rewrite (lookup_store_bytes O P prog Hext 8 Hbp Hn); unfold intMemFuncs; rewrite Hbp; reflexivity|reflexivity..|].
        fold r. eapply (ev_mapUpd r p 0 (Some 8) m _ (VBv 8 x) x None Ha Hp ltac:(lia)).
        * apply ev_var. exact HM.
        * apply ev_var. exact Hi.
        * reflexivity.
      + change (bytes_needed 8) with 1. split.
        * intros i Hi'. replace i with 0 by lia. rewrite Z.eqb_refl. unfold byte_of.
          rewrite Z.mul_0_r, Z.pow_0_r, Z.div_1_r. symmetry. apply Z.mod_small. exact Hx.
        * intros q Hq. specialize (Hq 0 ltac:(lia)). destruct (Z.eqb_spec q (A p 0)); [congruence|reflexivity].
    - destruct (rounds_whole n Hn Hmod) as (E1 & E2 & _ & E3).
      destruct (ev_storeBody r p n x m _ Ha Hx HM Hp Hi E3 ltac:(lia)) as (m' & H1 & H2). rewrite <- E2 in H2.
      exists m'. split; [|assumption].
      eapply calls_inline; [rewrite (lookup_store_bytes O P prog Hext n Hbp Hn); unfold intMemFuncs; rewrite Hbp; reflexivity|reflexivity..|].
      destruct (Z.ltb_spec n 8); [lia|]. destruct (Z.eqb_spec n 8); [lia|]. exact H1.
  Qed.
End Bytes.
