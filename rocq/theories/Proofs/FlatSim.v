(** C22: one map per region against one flat byte memory. *)
From Coq Require Import ZArith List String Bool Lia ZifyBool.
From Verif.Base Require Import ZBits.
From Verif.Spec Require Import LLVMInt IR Encodings ByteMemory Pointers Atomics FlatMemory.
From Verif.Model Require Import Boogie PreludeInt SmackRepInt PreludeMem.
From Verif.Proofs Require Import Lookup PreludeCalls EvalCompose ExprSim ByteMem IntEncodings MemCalls PtrProofs MemMain.
Import ListNotations.
Open Scope string_scope.
Open Scope list_scope.
Open Scope Z_scope.

(** ** Bytes of numbers *)
Lemma byte_of_range : forall v i, 0 <= byte_of v i < 2 ^ 8.
Proof. intros. unfold byte_of. apply Z.mod_pos_bound. lia. Qed.

(** The number in [k] bytes. *)
Fixpoint le_value (A : Z -> Z) (m : Z -> Z) (k : nat) : Z :=
  match k with O => 0 | S k' => m (A (Z.of_nat k')) * 2 ^ (8 * Z.of_nat k') + le_value A m k' end.
Lemma le_reads : forall A m k, (forall i, 0 <= i < Z.of_nat k -> 0 <= m (A i) < 2 ^ 8) -> reads_as A (Z.of_nat k) m (le_value A m k).
Proof.
  intros A m k. induction k as [|k IH]; intros Hm.
  - split; [cbn; lia|]. intros i Hi. lia.
  - destruct IH as [R1 R2]; [intros; apply Hm; lia|]. cbn [le_value].
    assert (0 <= m (A (Z.of_nat k)) < 2 ^ 8) as Hk by (apply Hm; lia).
    split.
    + replace (8 * Z.of_nat (S k)) with (8 + 8 * Z.of_nat k) by lia. rewrite Z.pow_add_r by lia.
      pose proof (pow2_pos (8 * Z.of_nat k) ltac:(lia)). nia.
    + intros i Hi. destruct (Z.eq_dec i (Z.of_nat k)) as [->|Hne].
      * rewrite byte_high; [reflexivity|lia|exact R1|exact Hk].
      * rewrite byte_low; [apply R2; lia|lia|exact R1].
Qed.
Lemma reads_ext : forall A B k m m' v, (forall i, 0 <= i < k -> m' (B i) = m (A i)) -> reads_as A k m v -> reads_as B k m' v.
Proof. intros A B k m m' v H [H1 H2]. split; [exact H1|]. intros i Hi. rewrite H by assumption. now apply H2. Qed.

Section Flat.
  Context (enc : encoding) (bvptr : bool) (P : Z).
  Hypothesis HP : P = 32 \/ P = 64.
  Notation fl := (flags enc bvptr).
  Notation idx := (index bvptr P).
  Notation sz := (size P).
  Notation kind := (cell_kind enc bvptr P).
  Notation stands := (stands_for enc bvptr P).
  Notation ok := (acc_ok enc bvptr P).

  Lemma P1 : 1 <= P. Proof using HP. clear - HP. destruct HP as [->| ->]; lia. Qed.

  (** ** Addresses *)
  Lemma index_address : forall a, is_iN P a -> address bvptr P (idx a).
  Proof. intros a Ha. unfold address, index. intros ->. exact Ha. Qed.
  Lemma index_inj : forall a b, is_iN P a -> is_iN P b -> idx a = idx b -> a = b.
  Proof.
    intros a b Ha Hb. unfold index. destruct bvptr; [auto|]. intros E.
    rewrite <- (signed_pat P a P1 Ha), <- (signed_pat P b P1 Hb). now rewrite E.
  Qed.
  Lemma index_mod : forall a, is_iN P a -> (idx a) mod 2 ^ P = a.
  Proof.
    intros a Ha. unfold index. destruct bvptr; [now apply Z.mod_small|]. exact (signed_pat P a P1 Ha).
  Qed.
  Lemma byte_addr_mod : forall a i, is_iN P a -> (byte_addr bvptr P (idx a) i) mod 2 ^ P = byte_at P a i.
  Proof.
    intros a i Ha. unfold byte_at. rewrite <- (index_mod a Ha) at 2. rewrite Z.add_mod_idemp_l by (pose proof (pow2_pos P ltac:(pose proof P1; lia)); lia).
    unfold byte_addr. destruct bvptr; [|reflexivity]. apply Z.mod_mod. pose proof (pow2_pos P ltac:(pose proof P1; lia)); lia.
  Qed.
  Lemma int_size : forall n, In n INTEGER_SIZES -> 1 <= n <= 256.
  Proof. intros n H. split; [pose proof (size_pos n H); lia|exact (size_le n H)]. Qed.
  Lemma width_range : forall x, ok x -> 1 <= width P (a_ty x) <= 256.
  Proof.
    intros x (_ & H & _). unfold width. destruct (a_ty x) as [n|]; [|destruct HP as [->| ->]; lia].
    now apply int_size, H.
  Qed.
  Lemma size_range : forall x, ok x -> 1 <= sz (a_ty x) <= 32.
  Proof.
    intros x H. pose proof (width_range x H) as W. unfold size, bytes_needed.
    pose proof (Z.div_mod (width P (a_ty x) + 7) 8 ltac:(lia)). pose proof (Z.mod_pos_bound (width P (a_ty x) + 7) 8 ltac:(lia)). lia.
  Qed.
  Lemma size_width : forall x, ok x -> width P (a_ty x) <= 8 * sz (a_ty x).
  Proof.
    intros x H. unfold size, bytes_needed.
    pose proof (Z.div_mod (width P (a_ty x) + 7) 8 ltac:(lia)). pose proof (Z.mod_pos_bound (width P (a_ty x) + 7) 8 ltac:(lia)). lia.
  Qed.
  (** byte addresses of supported accesses: the same in the map and in the flat memory *)
  Lemma byte_addr_range : forall x i, ok x -> 0 <= i < sz (a_ty x) ->
    exists b, is_iN P b /\ byte_addr bvptr P (idx (a_addr x)) i = idx b /\ byte_at P (a_addr x) i = b.
  Proof.
    intros x i (Ha & _ & _ & _ & Hs) Hi. pose proof P1 as HP1. pose proof (pow2_pos P ltac:(lia)) as H2.
    exists (byte_at P (a_addr x) i). split; [unfold byte_at, is_iN; apply Z.mod_pos_bound; lia|]. split; [|reflexivity].
    pose proof (byte_addr_mod (a_addr x) i Ha) as E. unfold index, byte_addr in *.
    destruct bvptr.
    - rewrite <- E. symmetry. apply Z.mod_mod. lia.
    - specialize (Hs eq_refl). pose proof (signed_range P (a_addr x) HP1 Ha) as Hr.
      rewrite <- E. symmetry. apply (pat_signed P); [exact HP1|]. lia.
  Qed.
  Lemma byte_addr_same : forall x y i j, ok x -> ok y -> 0 <= i < sz (a_ty x) -> 0 <= j < sz (a_ty y) ->
    byte_addr bvptr P (idx (a_addr x)) i = byte_addr bvptr P (idx (a_addr y)) j <->
    byte_at P (a_addr x) i = byte_at P (a_addr y) j.
  Proof.
    intros x y i j Hx Hy Hi Hj. destruct (byte_addr_range x i Hx Hi) as (b & B1 & B2 & B3).
    destruct (byte_addr_range y j Hy Hj) as (c & C1 & C2 & C3). rewrite B2, B3, C2, C3.
    split; [now apply index_inj|congruence].
  Qed.
  Lemma meet_self : forall x y, ok x -> ok y -> a_addr x = a_addr y -> meet P x y.
  Proof.
    intros x y Hx Hy E. pose proof (size_range x Hx). pose proof (size_range y Hy).
    exists 0, 0. split; [lia|]. split; [lia|]. now rewrite E.
  Qed.
  Lemma meet_sym : forall x y, meet P x y -> meet P y x.
  Proof. intros x y (i & j & H1 & H2 & E). exists j, i. auto. Qed.
  Lemma meet_dec : forall x y, meet P x y \/ ~ meet P x y.
  Proof.
    intros x y.
    assert (forall B (Q : Z -> Prop), 0 <= B -> (forall i, Q i \/ ~ Q i) -> (exists i, 0 <= i < B /\ Q i) \/ ~ (exists i, 0 <= i < B /\ Q i)) as Hb.
    { intros B Q HB. pattern B. apply natlike_ind; [intros _; right; intros (i & Hi & _); lia| |exact HB].
      intros b Hb IH HQ. destruct (IH HQ) as [(i & Hi & H)|Hn]; [left; exists i; split; [lia|exact H]|].
      destruct (HQ b) as [H|H]; [left; exists b; split; [lia|exact H]|]. right. intros (i & Hi & Hq).
      destruct (Z.eq_dec i b) as [->|]; [auto|]. apply Hn. exists i. split; [lia|exact Hq]. }
    assert (forall t, 0 <= sz t \/ sz t < 0) as Hs by (intros; lia).
    destruct (Hs (a_ty x)) as [Hx|Hx]; [|right; intros (i & j & H & _); lia].
    destruct (Hs (a_ty y)) as [Hy|Hy]; [|right; intros (i & j & _ & H & _); lia].
    destruct (Hb (sz (a_ty x)) (fun i => exists j, 0 <= j < sz (a_ty y) /\ byte_at P (a_addr x) i = byte_at P (a_addr y) j) Hx) as [H|H].
    - intros i. apply Hb; [exact Hy|]. intros j. destruct (Z.eq_dec (byte_at P (a_addr x) i) (byte_at P (a_addr y) j)); tauto.
    - left. destruct H as (i & Hi & j & Hj & E). exists i, j. auto.
    - right. intros (i & j & Hi & Hj & E). apply H. exists i. split; [exact Hi|]. exists j. auto.
  Qed.

  (** ** Flat loads and stores *)
  Lemma flat_load_det : forall x m y z, ok x -> flat_load P m (a_ty x) (a_addr x) y -> flat_load P m (a_ty x) (a_addr x) z -> y = z.
  Proof.
    intros x m y z Hx (v & R1 & ->) (w & R2 & ->). pose proof (size_range x Hx). f_equal.
    apply (reads_as_unique (byte_at P (a_addr x)) (sz (a_ty x)) m v w); [lia|exact R1|exact R2].
  Qed.
  Lemma flat_load_ext : forall x m m' y, (forall i, 0 <= i < sz (a_ty x) -> m' (byte_at P (a_addr x) i) = m (byte_at P (a_addr x) i)) ->
    flat_load P m (a_ty x) (a_addr x) y -> flat_load P m' (a_ty x) (a_addr x) y.
  Proof. intros x m m' y H (v & R & ->). exists v. split; [|reflexivity]. exact (reads_ext (byte_at P (a_addr x)) (byte_at P (a_addr x)) (sz (a_ty x)) m m' v H R). Qed.
  Lemma flat_store_load : forall x m m' y, ok x -> is_iN (width P (a_ty x)) y -> flat_store P (a_ty x) (a_addr x) y m m' ->
    flat_load P m' (a_ty x) (a_addr x) y.
  Proof.
    intros x m m' y Hx Hy Hs. exists y. split; [|symmetry; now apply pat_id].
    pose proof (size_range x Hx). pose proof (size_width x Hx) as Hw. apply (written_reads _ _ _ m); [lia| |exact Hs].
    unfold is_iN in Hy. pose proof (pow2_le _ _ Hw). lia.
  Qed.
  Lemma flat_store_apart : forall x z m m' y, ~ meet P x z -> flat_store P (a_ty x) (a_addr x) y m m' ->
    forall i, 0 <= i < sz (a_ty z) -> m' (byte_at P (a_addr z) i) = m (byte_at P (a_addr z) i).
  Proof.
    intros x z m m' y Hn [_ H] i Hi. apply H. intros j Hj E. apply Hn. exists j, i. auto.
  Qed.

  (** ** Values *)
  Lemma stands_scalar : forall t v y, stands t v y ->
    exists s, to_scalar (kind t) v = Some s /\ scalar_of (kind t) s = v.
  Proof.
    intros [n|] v y H; cbn in H |- *.
    - destruct enc; cbn in H |- *.
      + subst v. exists y. now rewrite Z.eqb_refl.
      + destruct H as (z & -> & _). now exists z.
      + subst v. now eexists.
    - subst v. unfold pointer, index. destruct bvptr; [|now eexists]. exists y. cbn. now rewrite Z.eqb_refl.
  Qed.
  Lemma elem : forall x, ok x -> tyname_of enc bvptr (a_ty x) = NRef \/
    exists n, In n INTEGER_SIZES /\ tyname_of enc bvptr (a_ty x) = intType fl n.
  Proof.
    intros x (_ & H & _). unfold tyname_of. destruct (a_ty x) as [n|] eqn:E; [|now left]. right. exists n. auto.
  Qed.

  (** ** The correspondence *)
  Definition holds (x : acc) (V : val) (m : Z -> Z) : Prop :=
    if singleton (a_reg x) then exists y, flat_load P m (a_ty x) (a_addr x) y /\ stands (a_ty x) V y
    else if bytewise (a_reg x) then
      exists mm, V = memory_map bvptr P (Some 8) mm /\ byte_memory mm /\
        forall i, 0 <= i < sz (a_ty x) -> mm (byte_addr bvptr P (idx (a_addr x)) i) = m (byte_at P (a_addr x) i)
    else exists mm, V = memory_map bvptr P (kind (a_ty x)) mm /\
      exists y, flat_load P m (a_ty x) (a_addr x) y /\ stands (a_ty x) (scalar_of (kind (a_ty x)) (mm (idx (a_addr x)))) y.
  Definition corr (tr : list acc) (r : env) (m : Z -> Z) : Prop :=
    forall x, In x tr -> exists V, r (reg (a_reg x)) = Some V /\ holds x V m.

  Lemma map_inj : forall c m c' m', memory_map bvptr P c m = memory_map bvptr P c' m' -> c = c' /\ m = m'.
  Proof. intros c m c' m' H. unfold memory_map in H. now injection H. Qed.

  Context (prog : list fdecl) (I : interp).
  Hypothesis Hext : extends prog (preludeMem (flags enc bvptr) P).
  Notation ev := (evaluates prog I).

  (** A load of pointer type from bytes. *)
  Lemma load_ref_bytes : forall R r p a m, enc = BitVector -> bytewise R = true -> singleton R = false ->
    address bvptr P a -> byte_memory m ->
    r (reg R) = Some (memory_map bvptr P (Some 8) m) -> ev r p (pointer bvptr P a) ->
    exists w, reads_as (byte_addr bvptr P a) (bytes_needed P) m w /\ ev r (load R NRef p) (pointer bvptr P (idx (pat P w))).
  Proof.
    intros R r p a m Ee Hb Hs Ha Hm HR Hp.
    assert (bitPrecise fl = true) as Hbp by (rewrite Ee; reflexivity).
    assert (wrappedIntegerEncoding fl = false) as Hwf by (rewrite Ee; reflexivity).
    pose proof (ptr_width_size P HP) as HPS.
    destruct (calls_load_bytes fl P prog I Hext HP Hbp Hwf P a m HPS (psize_bytes enc bvptr P prog Hext HP) (address_paddr enc bvptr P a Ha) Hm) as (w & L1 & L2).
    rewrite flags_bpp in L2. exists w. split; [exact L2|].
    rewrite (map_pdom enc) in HR. rewrite (pointer_ptr enc) in Hp. unfold load. rewrite Hs, Hb.
    eapply ev_fun; [constructor; [apply ev_var; exact HR|]; constructor; [exact Hp|constructor]|].
    eapply calls_inline; [rewrite (lookup_load_bytes_ref fl P prog Hext Hbp); unfold ptrMemDecls; rewrite Hbp; reflexivity|reflexivity..|].
    apply ev_fun with [VBv P (pat P w)].
    + constructor; [|constructor]. eapply ev_fun; [|exact L1].
      constructor; [apply ev_var; reflexivity|]. constructor; [apply ev_var; reflexivity|constructor].
    + apply (calls_i2p enc bvptr P prog I Hext HP); [exact Ee|]. apply pat_range. pose proof P1. lia.
  Qed.

  Lemma load_step : forall x r m p V, ok x -> r (reg (a_reg x)) = Some V -> holds x V m ->
    ev r p (pointer bvptr P (idx (a_addr x))) ->
    exists v y, ev r (load (a_reg x) (tyname_of enc bvptr (a_ty x)) p) v /\
      flat_load P m (a_ty x) (a_addr x) y /\ stands (a_ty x) v y.
  Proof.
    intros x r m p V Hx HV Hh Hp. pose proof Hx as (Ha & _ & _ & Hbw & _). unfold holds in Hh.
    destruct (singleton (a_reg x)) eqn:Es.
    { destruct Hh as (y & H1 & H2). exists V, y. split; [|auto]. unfold load. rewrite Es. now apply ev_var. }
    destruct (bytewise (a_reg x)) eqn:Eb.
    - destruct Hh as (mm & -> & Hm & Hbytes). destruct (Hbw eq_refl eq_refl) as [Ee Hw].
      pose proof (index_address _ Ha) as Hadr.
      assert (forall w, reads_as (byte_addr bvptr P (idx (a_addr x))) (sz (a_ty x)) mm w ->
                flat_load P m (a_ty x) (a_addr x) (pat (width P (a_ty x)) w)) as Hf.
      { intros w Hw'. exists w. split; [|reflexivity]. apply (reads_ext (byte_addr bvptr P (idx (a_addr x))) _ _ mm); [|exact Hw'].
        intros i Hi. symmetry. now apply Hbytes. }
      destruct Hx as (_ & Hint & _). unfold tyname_of, size, width, stands_for in *. destruct (a_ty x) as [n|].
      + assert (intType fl n = NBv n) as Et by (rewrite Ee; reflexivity). rewrite Et.
        destruct (load_bytes enc bvptr P prog I Hext HP _ r n p _ mm Ee Eb Es (Hint n eq_refl) Hw Hadr Hm HV Hp) as (w & L1 & L2).
        exists (VBv n (pat n w)), (pat n w). split; [exact L1|]. split; [now apply Hf|]. rewrite Ee. reflexivity.
      + destruct (load_ref_bytes _ r p _ mm Ee Eb Es Hadr Hm HV Hp) as (w & L1 & L2).
        eexists _, _. split; [exact L2|]. split; [apply Hf, L1|reflexivity].
    - destruct Hh as (mm & -> & y & H1 & H2). exists (scalar_of (kind (a_ty x)) (mm (idx (a_addr x)))), y.
      split; [|auto]. apply (load_typed enc bvptr P prog I Hext HP); auto; [now apply elem|now apply index_address].
  Qed.

  (** A store through a bytewise region. *)
  Lemma store_bytes_any : forall x r p e v y mm, ok x -> bytewise (a_reg x) = true -> singleton (a_reg x) = false ->
    is_iN (width P (a_ty x)) y -> byte_memory mm ->
    r (reg (a_reg x)) = Some (memory_map bvptr P (Some 8) mm) ->
    ev r p (pointer bvptr P (idx (a_addr x))) -> ev r e v -> stands (a_ty x) v y ->
    exists mm', ev r (snd (store (a_reg x) (tyname_of enc bvptr (a_ty x)) p e)) (memory_map bvptr P (Some 8) mm') /\
      written (byte_addr bvptr P (idx (a_addr x))) (sz (a_ty x)) y mm mm'.
  Proof.
    intros x r p e v y mm Hx Eb Es Hy Hm HV Hp He Hst. pose proof Hx as (Ha & Hint & _ & Hbw & _).
    destruct (Hbw Eb Es) as [Ee Hw]. pose proof (index_address _ Ha) as Hadr.
    unfold tyname_of, size, width, stands_for in *. destruct (a_ty x) as [n|].
    - assert (intType fl n = NBv n) as Et by (rewrite Ee; reflexivity). rewrite Et.
      rewrite Ee in Hst. cbn in Hst. subst v.
      exact (store_bytes enc bvptr P prog I Hext HP _ r n p e _ mm y Ee Eb Es (Hint n eq_refl) Hw Hadr Hy HV Hp He).
    - subst v. pose proof (index_address y Hy) as Hay.
      destruct (ptr_store_load enc bvptr P prog I Hext HP _ r p e _ (idx y) mm Ee Eb Es Hadr Hay Hm HV Hp He) as (mm' & S1 & S2 & _).
      exists mm'. split; [exact S1|]. assert (bytes_needed P = P / 8) as -> by (destruct HP as [->| ->]; reflexivity).
      assert (pat P (idx y) = y) as E by (apply (index_mod y Hy)). now rewrite E in S2.
  Qed.

  Lemma written_bytes_any : forall x y mm mm', ok x -> byte_memory mm ->
    written (byte_addr bvptr P (idx (a_addr x))) (sz (a_ty x)) y mm mm' -> byte_memory mm'.
  Proof.
    intros x y mm mm' Hx Hm Hw. pose proof (size_range x Hx). apply (written_byte_memory bvptr P (idx (a_addr x)) (sz (a_ty x)) y mm mm'); [lia|exact Hm|exact Hw].
  Qed.

  Lemma bytes_of_dec : forall x q, ok x -> (exists j, 0 <= j < sz (a_ty x) /\ q = byte_at P (a_addr x) j) \/
    forall j, 0 <= j < sz (a_ty x) -> q <> byte_at P (a_addr x) j.
  Proof.
    intros x q Hx. pose proof (size_range x Hx) as Hs. assert (0 <= sz (a_ty x)) as H0 by lia. revert H0. generalize (sz (a_ty x)). clear Hs.
    intros B HB. pattern B. apply natlike_ind; [right; intros; lia| |exact HB]. intros b Hb [(j & Hj & E)|H].
    - left. exists j. split; [lia|exact E].
    - destruct (Z.eq_dec q (byte_at P (a_addr x) b)) as [E|E]; [left; exists b; split; [lia|exact E]|].
      right. intros j Hj. destruct (Z.eq_dec j b) as [->|]; [exact E|apply H; lia].
  Qed.

  Lemma store_step : forall tr x y r m p e v, separated enc bvptr P tr -> Forall ok tr -> In x tr ->
    corr tr r m -> is_iN (width P (a_ty x)) y ->
    ev r p (pointer bvptr P (idx (a_addr x))) -> ev r e v -> stands (a_ty x) v y ->
    exists M', ev r (snd (store (a_reg x) (tyname_of enc bvptr (a_ty x)) p e)) M' /\
      forall m', flat_store P (a_ty x) (a_addr x) y m m' ->
        corr tr (upd_env r (fst (store (a_reg x) (tyname_of enc bvptr (a_ty x)) p e)) M') m'.
  Proof.
    intros tr x y r m p e v Hsep Hok Hin Hc Hy Hp He Hst.
    rewrite Forall_forall in Hok. pose proof (Hok x Hin) as Hx.
    destruct (Hc x Hin) as (V & HV & Hh).
    (* another region *)
    assert (forall M' m' z, flat_store P (a_ty x) (a_addr x) y m m' -> In z tr -> a_reg z <> a_reg x ->
              exists V', upd_env r (reg (a_reg x)) M' (reg (a_reg z)) = Some V' /\ holds z V' m') as Hother.
    { intros M' m' z Hf Hz Hne. destruct (Hc z Hz) as (W & HW & HhW). exists W. split.
      - unfold upd_env. destruct (String.eqb_spec (reg (a_reg x)) (reg (a_reg z))) as [E|]; [|exact HW].
        exfalso. apply Hne. symmetry. exact (sep_name _ _ _ _ Hsep x z Hin Hz E).
      - assert (~ meet P x z) as Hnm by (intros Hm; apply Hne; symmetry; exact (sep_region _ _ _ _ Hsep x z Hin Hz Hm)).
        pose proof (flat_store_apart x z m m' y Hnm Hf) as Hu. unfold holds in *.
        destruct (singleton (a_reg z)).
        { destruct HhW as (w & W1 & W2). exists w. split; [|exact W2]. now apply (flat_load_ext z m). }
        destruct (bytewise (a_reg z)).
        + destruct HhW as (mm & -> & Hm & Hb). exists mm. split; [reflexivity|]. split; [exact Hm|].
          intros i Hi. rewrite Hu by assumption. now apply Hb.
        + destruct HhW as (mm & -> & w & W1 & W2). exists mm. split; [reflexivity|]. exists w. split; [|exact W2]. now apply (flat_load_ext z m). }
    assert (forall R, {R = a_reg x} + {R <> a_reg x}) as Rdec.
    { intros R. destruct R as [b s n], (a_reg x) as [b' s' n']. destruct (Bool.bool_dec b b'), (Bool.bool_dec s s'), (string_dec n n');
        [left; now subst|right; congruence..]. }
    assert (forall t, fst (store (a_reg x) t p e) = reg (a_reg x)) as Efst by reflexivity.
    assert (forall M', upd_env r (reg (a_reg x)) M' (reg (a_reg x)) = Some M') as Hupd
      by (intros; unfold upd_env; now rewrite String.eqb_refl).
    unfold holds in Hh. destruct (singleton (a_reg x)) eqn:Es.
    { exists v. split; [unfold store; rewrite Es; exact He|]. intros m' Hf z Hz. rewrite Efst.
      destruct (Rdec (a_reg z)) as [E|Hne]; [|now apply Hother].
      rewrite E. exists v. split; [apply Hupd|]. unfold holds. rewrite E, Es.
      destruct (sep_singleton _ _ _ _ Hsep x z Hin Hz (eq_sym E) Es) as [Ea Et].
      exists y. rewrite <- Et, <- Ea. split; [|exact Hst]. now apply (flat_store_load x m). }
    destruct (bytewise (a_reg x)) eqn:Eb.
    - destruct Hh as (mm & -> & Hm & Hbytes).
      destruct (store_bytes_any x r p e v y mm Hx Eb Es Hy Hm HV Hp He Hst) as (mm' & S1 & S2).
      exists (memory_map bvptr P (Some 8) mm'). split; [exact S1|]. intros m' Hf z Hz. rewrite Efst.
      destruct (Rdec (a_reg z)) as [E|Hne]; [|now apply Hother].
      rewrite E. eexists. split; [apply Hupd|]. unfold holds. rewrite E, Es, Eb. exists mm'. split; [reflexivity|].
      split; [exact (written_bytes_any x y mm mm' Hx Hm S2)|].
      destruct (Hc z Hz) as (W & HW & HhW). rewrite E in HW. assert (W = memory_map bvptr P (Some 8) mm) as -> by congruence.
      unfold holds in HhW. rewrite E, Es, Eb in HhW. destruct HhW as (mz & Emz & _ & Hbz). apply map_inj in Emz as [_ <-].
      pose proof (Hok z Hz) as Hokz.
      intros i Hi. destruct (bytes_of_dec x (byte_at P (a_addr z) i) Hx) as [(j & Hj & Ej)|Hno].
      + rewrite Ej. rewrite (proj1 Hf j Hj). rewrite (proj2 (byte_addr_same z x i j Hokz Hx Hi Hj) Ej). exact (proj1 S2 j Hj).
      + rewrite (proj2 Hf) by exact Hno. rewrite (proj2 S2); [now apply Hbz|]. intros j Hj Ej.
        apply (byte_addr_same z x i j Hokz Hx Hi Hj) in Ej. exact (Hno j Hj Ej).
    - destruct Hh as (mm & -> & y0 & _ & _).
      destruct (stands_scalar _ _ _ Hst) as (s & T1 & T2).
      exists (memory_map bvptr P (kind (a_ty x)) (fun q => if q =? idx (a_addr x) then s else mm q)).
      split; [apply (store_typed enc bvptr P prog I Hext HP) with (x := v); auto; [now apply elem|apply index_address, Hx]|].
      intros m' Hf z Hz. rewrite Efst. destruct (Rdec (a_reg z)) as [E|Hne]; [|now apply Hother].
      rewrite E. eexists. split; [apply Hupd|]. unfold holds. rewrite E, Es, Eb.
      destruct (sep_typed _ _ _ _ Hsep x z Hin Hz (eq_sym E) Es Eb) as [Ek Hsame].
      rewrite <- Ek. eexists. split; [reflexivity|]. cbn beta. pose proof (Hok z Hz) as Hokz.
      destruct (meet_dec x z) as [Hm|Hnm].
      + destruct (Hsame Hm) as [Ea Et]. rewrite <- Ea, <- Et, Z.eqb_refl, T2. exists y. split; [|exact Hst]. now apply (flat_store_load x m).
      + destruct (Hc z Hz) as (W & HW & HhW). rewrite E in HW. assert (W = memory_map bvptr P (kind (a_ty x)) mm) as -> by congruence.
        unfold holds in HhW. rewrite E, Es, Eb in HhW. destruct HhW as (mz & Emz & w & W1 & W2).
        apply map_inj in Emz as [_ <-]. rewrite <- Ek in W2. exists w.
        split; [apply (flat_load_ext z m); [now apply (flat_store_apart x z m m' y)|exact W1]|].
        destruct (idx (a_addr z) =? idx (a_addr x)) eqn:Ei; [|exact W2]. exfalso. apply Hnm. apply meet_self; [exact Hx|exact Hokz|].
        apply index_inj; [apply Hx|apply Hokz|lia].
  Qed.

  Lemma sep_tail : forall x tr, separated enc bvptr P (x :: tr) -> separated enc bvptr P tr.
  Proof. intros x tr [H1 H2 H3 H4]. split; intros; [apply H1|apply H2|apply H3|apply H4]; auto; now right. Qed.

  Lemma simulation : forall tr r m, separated enc bvptr P tr -> Forall ok tr -> corr tr r m -> agrees enc bvptr P prog I r m tr.
  Proof.
    induction tr as [|x tr IH]; intros r m Hsep Hok Hc; [exact Logic.I|]. cbn [agrees]. intros r1 p Hsm Hp.
    assert (corr (x :: tr) r1 m) as Hc1.
    { intros z Hz. rewrite (Hsm z Hz). now apply Hc. }
    pose proof Hok as Hok'. inversion Hok' as [|? ? Hx Hok1]; subst.
    destruct (a_val x) as [y|] eqn:Ev.
    - intros e v He Hst. pose proof Hx as (_ & _ & Hval & _).
      destruct (store_step (x :: tr) x y r1 m p e v Hsep Hok (or_introl eq_refl) Hc1 (Hval y Ev) Hp He Hst) as (M' & S1 & S2).
      exists M'. split; [exact S1|]. intros m' Hf. apply IH; [now apply sep_tail in Hsep|exact Hok1|].
      intros z Hz. apply (S2 m' Hf). now right.
    - destruct (Hc1 x (or_introl eq_refl)) as (V & HV & Hh). split; [exact (load_step x r1 m p V Hx HV Hh Hp)|].
      apply IH; [now apply sep_tail in Hsep|exact Hok1|]. intros z Hz. apply Hc1. now right.
  Qed.
End Flat.
