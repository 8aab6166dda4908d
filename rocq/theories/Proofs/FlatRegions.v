(** C22: the regions computed by the translator separate the accesses. *)
From Coq Require Import ZArith List String Bool Lia ZifyBool DecimalString DecimalNat.
From Verif.Base Require Import ZBits.
From Verif.Spec Require Import LLVMInt Encodings Aliasing ByteMemory FlatMemory PointsTo.
From Verif.Model Require Import PreludeMem Regions RegionVars.
From Verif.Proofs Require Import RegionsProofs TypeSafe FlatSim.
From Verif.Props Require Import RegionProps.
Import ListNotations.
Open Scope string_scope.
Open Scope list_scope.
Open Scope Z_scope.

Lemma memReg_inj : forall i j, memReg i = memReg j -> i = j.
Proof.
  intros i j H. unfold memReg in H. cbn in H. injection H as H.
  assert (Some (Nat.to_uint i) = Some (Nat.to_uint j)) as E by (rewrite <- !NilEmpty.usu; now rewrite H).
  injection E as E. rewrite <- (Unsigned.of_to i), <- (Unsigned.of_to j). now rewrite E.
Qed.

Section Visit.
  Context (bp nb : bool) (dsa : nat -> node_info).
  (** what holds of every region, if it holds of the accesses and is kept by merging *)
  Lemma visit_all : forall (Q : reg -> Prop) l,
    (forall a, In a l -> Q (init bp nb dsa a)) ->
    (forall g h, Q g -> Q h -> overlaps g h = true -> Q (merge bp g h)) ->
    forall regs, Forall Q regs -> Forall Q (visit bp nb dsa regs l).
  Proof.
    intros Q l Hi Hm.
    assert (forall rest g g' rest', Q g -> Forall Q rest -> absorb bp g rest = (g', rest') -> Q g' /\ Forall Q rest') as Habs.
    { induction rest as [|h rest IH]; intros g g' rest' Hg Hr H; cbn in H.
      - injection H as <- <-. auto.
      - inversion Hr; subst. destruct (overlaps g h) eqn:E; [apply (IH (merge bp g h)); auto|].
        destruct (absorb bp g rest) as [g1 r1] eqn:Ea. injection H as <- <-. destruct (IH g g1 r1) as [H1' H2']; auto. }
    assert (forall regs R, Forall Q regs -> Q R -> Forall Q (snd (idx bp regs R))) as Hidx.
    { induction regs as [|g gs IH]; intros R Hr HR; cbn; [auto|]. inversion Hr; subst.
      destruct (overlaps g R) eqn:E.
      - destruct (absorb bp (merge bp g R) gs) as [g' gs'] eqn:Ea. destruct (Habs gs (merge bp g R) g' gs') as [H1' H2']; auto.
        cbn. auto.
      - specialize (IH R ltac:(assumption) HR). destruct (idx bp gs R) as [n gs']. cbn in *. auto. }
    induction l as [|a l IH]; intros regs Hr; cbn [visit]; [exact Hr|]. apply IH; [intros; apply Hi; now right|].
    apply Hidx; [exact Hr|]. apply Hi. now left.
  Qed.
End Visit.

Section Regions.
  Context (bp : bool) (bvptr : bool) (P : Z) (dsa : nat -> node_info) (l : list access) (D : list dyn).
  Hypothesis HP : P = 32 \/ P = 64.
  Hypothesis Hl : Forall proper l.
  Hypothesis HD : points_to_sound P dsa l D.
  Hypothesis Haddr : forall x, In x D -> is_iN P (d_addr x).
  Notation ini := (init bp false dsa).
  Notation regs := (visit bp false dsa [] l).

  Lemma lprop : forall a, In a l -> proper a.
  Proof. rewrite Forall_forall in Hl. exact Hl. Qed.

  (** The region of an access. *)
  Lemma region_found : forall a, In a l -> exists i g, nth_error regs i = Some g /\ covers g (ini a) /\
    region_var bp false dsa l a = Region (rbytewise g) (rsingleton g) (memReg i) /\ fst (idx bp regs (ini a)) = i /\ In g regs.
  Proof.
    intros a Ha. destruct (visit_inv bp false dsa l [] Hl (Forall_nil _) apart_nil) as (W & A & _ & C).
    destruct (idx_stable bp dsa regs (ini a) W (wf_init bp false dsa a (lprop a Ha)) A (C a Ha)) as (n & g & N1 & Cg & N2 & Hs & _ & N3).
    exists n, g. split; [exact N1|]. split; [exact Cg|]. split; [|split; [exact N2|eapply nth_error_In; exact N1]].
    unfold region_var. destruct (idx bp regs (ini a)) as [k regs'] eqn:E. cbn [fst snd] in *. subst k. rewrite N3.
    assert (Forall (wf bp dsa) regs) as W' by exact W. rewrite Forall_forall in W'.
    assert (wf bp dsa g) as Wg by (apply W'; eapply nth_error_In; exact N1).
    destruct (merge_covered bp dsa g (ini a) Wg (wf_init bp false dsa a (lprop a Ha)) Cg) as (Es & _ & _).
    remember (merge bp g (ini a)) as h. unfold shape in Es. assert (rsingleton h = rsingleton g /\ rbytewise h = rbytewise g) as [-> ->] by (split; congruence). reflexivity.
  Qed.
  Lemma region_wf : forall g, In g regs -> wf bp dsa g.
  Proof.
    intros g H. destruct (visit_inv bp false dsa l [] Hl (Forall_nil _) apart_nil) as (W & _). rewrite Forall_forall in W. now apply W.
  Qed.

  (** A type-safe access has a fully known object. *)
  Lemma safe_known : forall k o, isTypeSafe (dsa k) o = true -> known_object (dsa k).
  Proof. intros k o H. apply C21_type_safe in H as [H _]; [exact H|apply (pt_nodes _ _ _ _ HD)]. Qed.
  Lemma safe_disjoint : forall a b k i j, In a l -> In b l -> ac_node a = Some k -> ac_node b = Some k ->
    isTypeSafe (dsa k) (ac_off a) = true ->
    0 <= i < ac_len a -> 0 <= j < ac_len b -> ac_off a + i = ac_off b + j -> ac_off a = ac_off b /\ ac_type a = ac_type b /\ ac_len a = ac_len b.
  Proof.
    intros a b k i j Ha Hb Na Nb Hs Hi Hj E. pose proof (safe_known k _ Hs) as Hk.
    apply C21_type_safe in Hs as [_ (t & s & Hacc & Hone & Hdis)]; [|apply (pt_nodes _ _ _ _ HD)].
    pose proof (pt_recorded _ _ _ _ HD a k Ha Na Hk) as Ra. pose proof (pt_recorded _ _ _ _ HD b k Hb Nb Hk) as Rb.
    destruct (Hone _ _ Ra) as [Ta Sa].
    destruct (Z.eq_dec (ac_off a) (ac_off b)) as [Eo|Hne].
    - rewrite <- Eo in Rb. destruct (Hone _ _ Rb) as [Tb Sb]. split; [exact Eo|]. split; congruence.
    - exfalso. apply (Hdis (ac_off b) _ _ Rb); [congruence|]. exists (ac_off a + i). lia.
  Qed.
  Lemma unflagged : forall a k, ac_node a = Some k -> known_object (dsa k) -> ~ is_incomplete dsa a /\ ~ is_complicated dsa a /\ flagged (ini a) = false.
  Proof.
    intros a k Na (K1 & K2 & K3 & K4 & K5 & K6 & K7). unfold is_incomplete, is_complicated, flagged, init, isComplicated. rewrite Na. cbn.
    rewrite K2, K3, K4, K5, K6. cbn. split; [discriminate|]. split; [|reflexivity]. intros [H|[H|[H|H]]]; discriminate.
  Qed.

  Lemma base_offset : forall x y i j, In x D -> In y D -> same_base P x y ->
    0 <= i < ac_len (d_static x) -> 0 <= j < ac_len (d_static y) -> byte_at P (d_addr x) i = byte_at P (d_addr y) j ->
    ac_off (d_static x) + i = ac_off (d_static y) + j.
  Proof.
    intros x y i j Hx Hy Hb Hi Hj E. destruct (lprop _ (pt_seen _ _ _ _ HD x Hx)) as (X1 & X2 & X3). destruct (lprop _ (pt_seen _ _ _ _ HD y Hy)) as (Y1 & Y2 & Y3).
    pose proof (pow2_le 32 P ltac:(destruct HP; lia)) as H32. set (N := 2 ^ P) in *. unfold byte_at in E. fold N in E. unfold same_base in Hb. fold N in Hb.
    assert ((ac_off (d_static x) + i) mod N = (ac_off (d_static y) + j) mod N) as H.
    { replace (ac_off (d_static x) + i) with ((ac_off (d_static x) - ac_off (d_static y)) + (ac_off (d_static y) + i)) by lia.
      rewrite Zplus_mod, <- Hb, <- Zplus_mod.
      replace (d_addr x - d_addr y + (ac_off (d_static y) + i)) with ((d_addr x + i) + (ac_off (d_static y) - d_addr y)) by lia.
      rewrite Zplus_mod, E, <- Zplus_mod. f_equal. lia. }
    rewrite !Z.mod_small in H by lia. exact H.
  Qed.
  Lemma base_addr : forall x y, In x D -> In y D -> same_base P x y -> ac_off (d_static x) = ac_off (d_static y) -> d_addr x = d_addr y.
  Proof.
    intros x y Hx Hy Hb E. pose proof (Haddr x Hx) as [X1 X2]. pose proof (Haddr y Hy) as [Y1 Y2]. unfold same_base in Hb.
    rewrite E, Z.sub_diag, Z.mod_0_l in Hb by lia. apply Z.mod_divide in Hb as [c Hc]; [|lia]. assert (c = 0) as -> by nia. lia.
  Qed.

  (** Singleton regions are one field. *)
  Definition one_field (g : reg) : Prop := rsingleton g = true ->
    exists a, In a l /\ rsingleton (ini a) = true /\ representative g = ac_node a /\ offset g = ac_off a /\ Regions.length g = ac_len a /\ flagged g = false /\ collapsed g = false.
  Lemma singleton_safe : forall a, rsingleton (ini a) = true ->
    exists k, ac_node a = Some k /\ isTypeSafe (dsa k) (ac_off a) = true /\ nd_heap (dsa k) = false /\ nd_alloca (dsa k) = false /\
      nd_globals (dsa k) = 1 /\ nd_array (dsa k) = false.
  Proof.
    intros a H. unfold init in H. destruct (ac_node a) as [k|]; [|discriminate]. cbn in H. exists k. split; [reflexivity|].
    unfold isSingleton, isAllocated in H. repeat (apply andb_true_iff in H as [H ?]). apply negb_true_iff in H. apply orb_false_iff in H as [G1 G2].
    split; [assumption|]. split; [exact G1|]. split; [exact G2|]. split; [lia|]. now apply negb_true_iff.
  Qed.
  Lemma one_field_init : forall a, In a l -> one_field (ini a).
  Proof.
    intros a Ha H. exists a. split; [exact Ha|]. split; [exact H|]. destruct (singleton_safe a H) as (k & Nk & Hs & _).
    pose proof (safe_known k _ Hs) as Hk. destruct (unflagged a k Nk Hk) as (_ & _ & Hf).
    destruct Hk as (Hc & _). revert Hf. unfold init. rewrite Nk. cbn. intros Hf. auto 10.
  Qed.
  Lemma one_field_merge : forall g h, wf bp dsa g -> wf bp dsa h -> one_field g -> one_field h -> overlaps g h = true -> one_field (merge bp g h).
  Proof.
    intros g h Wg Wh Fg Fh Ho H. cbn in H. apply andb_true_iff in H as [Sg Sh].
    destruct (Fg Sg) as (a & Ha & Sa & Rg & Og & Lg & Flg & Cg). destruct (Fh Sh) as (b & Hb & Sb & Rh & Oh & Lh & Flh & Ch).
    destruct (overlap_same bp dsa g h Wg Wh Ho) as [_ Er]. specialize (Er Flg).
    destruct (singleton_safe a Sa) as (k & Nk & Hs & _).
    rewrite (overlaps_eq bp dsa g h Wg Wh) in Ho. unfold flagged in Flg, Flh. apply orb_false_iff in Flg as [Ig Pg]. apply orb_false_iff in Flh as [Ih Ph].
    unfold share, flagged in Ho. rewrite Ig, Pg, Ih, Ph in Ho. cbn in Ho. apply andb_true_iff in Ho as [_ Ho].
    rewrite <- (wf_coll bp dsa g Wg Ig Pg), Cg in Ho. cbn in Ho. unfold meets in Ho. rewrite Og, Oh, Lg, Lh in Ho.
    destruct (lprop a Ha) as (A1 & A2 & A3). destruct (lprop b Hb) as (B1 & B2 & B3).
    assert (exists i j, 0 <= i < ac_len a /\ 0 <= j < ac_len b /\ ac_off a + i = ac_off b + j) as (i & j & Hi & Hj & E).
    { exists (Z.max (ac_off a) (ac_off b) - ac_off a), (Z.max (ac_off a) (ac_off b) - ac_off b). clear - Ho A2 B2. lia. }
    destruct (safe_disjoint a b k i j Ha Hb Nk ltac:(congruence) Hs Hi Hj E) as (E1 & _ & E2).
    pose proof (merge_bounds bp dsa g h Wg Wh) as [M1 M2]. rewrite Og, Oh, Lg, Lh in M2. rewrite Og, Oh in M1.
    exists a. split; [exact Ha|]. split; [exact Sa|]. split; [exact Rg|]. split; [clear - M1 E1; lia|]. split; [clear - M1 M2 E1 E2; lia|].
    unfold flagged. cbn. rewrite Ig, Pg, Ih, Ph, Cg, Ch. auto.
  Qed.
  Lemma one_field_all : forall g, In g regs -> one_field g.
  Proof.
    assert (Forall (fun g => wf bp dsa g /\ one_field g) regs) as H.
    { apply visit_all; [| |constructor].
      - intros a Ha. split; [apply wf_init, lprop, Ha|now apply one_field_init].
      - intros g h [Wg Fg] [Wh Fh] Ho. split; [now apply wf_merge|now apply one_field_merge]. }
    intros g Hg. rewrite Forall_forall in H. apply (H g Hg).
  Qed.

  (** The operand of an access in a singleton region. *)
  Lemma singleton_field : forall g a, In g regs -> In a l -> covers g (ini a) -> rsingleton g = true ->
    exists k, ac_node a = Some k /\ representative g = Some k /\ ac_off a = offset g /\ one_object (dsa k) /\ isTypeSafe (dsa k) (ac_off a) = true.
  Proof.
    intros g a Hg Ha Hc Hs. pose proof (cv_single _ _ Hc Hs) as Sa. destruct (singleton_safe a Sa) as (k & Nk & Hts & O1 & O2 & O3 & O4).
    pose proof (safe_known k _ Hts) as Hk. destruct (unflagged a k Nk Hk) as (_ & _ & Hf).
    pose proof (wf_init bp false dsa a (lprop a Ha)) as Wa.
    destruct (overlap_same bp dsa g (ini a) (region_wf g Hg) Wa (cv_over _ _ Hc)) as [Ef Er]. rewrite Hf in Ef. specialize (Er Ef).
    assert (representative (ini a) = Some k) as Ra by (unfold init; rewrite Nk; reflexivity).
    exists k. split; [exact Nk|]. split; [congruence|]. split; [|split; [unfold one_object; auto 10|exact Hts]].
    destruct (one_field_all g Hg Hs) as (b & Hb & _ & Rb & Ob & Lb & _).
    assert (offset (ini a) = ac_off a /\ Regions.length (ini a) = ac_len a) as [Oa La] by (unfold init; rewrite Nk; auto).
    pose proof (cv_lo _ _ Hc) as Hlo. pose proof (cv_hi _ _ Hc) as Hhi. rewrite Oa in Hlo. rewrite Oa, La, Ob, Lb in Hhi.
    destruct (lprop a Ha) as (A1 & A2 & A3).
    destruct (safe_disjoint a b k 0 (ac_off a - ac_off b) Ha Hb Nk ltac:(congruence) Hts ltac:(clear - A2; lia) ltac:(clear - Hlo Hhi Ob A2; lia) ltac:(clear; lia)) as (E & _). congruence.
  Qed.

  (** In a typed region of the bit-vector encoding every access is type safe and
      all have one type. *)
  Lemma typed_access : forall g a, bp = true -> In g regs -> In a l -> covers g (ini a) -> rbytewise g = false ->
    type g = Some (ac_type a) /\ exists k, ac_node a = Some k /\ isTypeSafe (dsa k) (ac_off a) = true.
  Proof.
    intros g a Hbp Hg Ha Hc Hb. assert (rbytewise (ini a) = false) as Hba.
    { destruct (rbytewise (ini a)) eqn:E; [|reflexivity]. rewrite (cv_bw _ _ Hc E) in Hb. discriminate. }
    split.
    - destruct (cv_type _ _ Hc) as [E|E].
      + pose proof (wf_type bp dsa g (region_wf g Hg) E). congruence.
      + rewrite E. unfold init. now destruct (ac_node a).
    - unfold init in Hba. destruct (ac_node a) as [k|]; cbn in Hba; rewrite Hbp in Hba; [|discriminate]. exists k. split; [reflexivity|].
      cbn in Hba. apply orb_false_iff in Hba as [H _]. now apply negb_false_iff.
  Qed.

  Definition access_of (x : dyn) : acc := Acc (region_var bp false dsa l (d_static x)) (d_ty x) (d_addr x) (d_val x).

  Lemma touch_alias : forall x y, In x D -> In y D -> touch P x y -> may_alias dsa (d_static x) (d_static y).
  Proof.
    intros x y Hx Hy Ht. destruct (pt_overlap _ _ _ _ HD x y Hx Hy Ht) as [H|[H|(k & Nx & Ny & H)]]; [now left|right; now left|].
    right. right. split; [congruence|]. destruct H as [H|H]; [left; exists k; auto|]. right.
    destruct Ht as (i & j & Hi & Hj & E). rewrite <- (pt_size _ _ _ _ HD x Hx) in Hi. rewrite <- (pt_size _ _ _ _ HD y Hy) in Hj.
    pose proof (base_offset x y i j Hx Hy H Hi Hj E). exists (ac_off (d_static x) + i). lia.
  Qed.

  Section Sep.
  Context (enc : encoding).
  Hypothesis Henc : bp = true <-> enc = BitVector.
  (** With the integer encodings: overlapping accesses agree in address and type,
      and pointers are integers. *)
  Hypothesis Hstrict : enc <> BitVector -> bvptr = false /\
    forall x y, In x D -> In y D -> touch P x y -> d_addr x = d_addr y /\ d_ty x = d_ty y.

  Lemma regions_separate : separated enc bvptr P (map access_of D).
  Proof.
    assert (forall x y, In x D -> In y D -> PreludeMem.reg (a_reg (access_of x)) = PreludeMem.reg (a_reg (access_of y)) ->
      exists g, In g regs /\ covers g (ini (d_static x)) /\ covers g (ini (d_static y)) /\
        a_reg (access_of x) = a_reg (access_of y) /\
        bytewise (a_reg (access_of x)) = rbytewise g /\ singleton (a_reg (access_of x)) = rsingleton g) as Hname.
    { intros x y Hx Hy E. cbn in E |- *.
      destruct (region_found _ (pt_seen _ _ _ _ HD x Hx)) as (i & g & N1 & C1 & R1 & _ & I1).
      destruct (region_found _ (pt_seen _ _ _ _ HD y Hy)) as (j & h & N2 & C2 & R2 & _ & _).
      rewrite R1, R2 in E |- *. cbn in E. apply memReg_inj in E. subst j. assert (h = g) as -> by congruence.
      exists g. auto 10. }
    assert (forall x y, In x D -> In y D -> meet P (access_of x) (access_of y) -> touch P x y) as Htouch by (intros x y _ _ H; exact H).
    split; intros x' y' Hx' Hy'; apply in_map_iff in Hx' as (x & <- & Hx); apply in_map_iff in Hy' as (y & <- & Hy).
    - intros Hm. pose proof (touch_alias x y Hx Hy (Htouch x y Hx Hy Hm)) as Ha. cbn.
      pose proof (pt_seen _ _ _ _ HD x Hx) as Sx. pose proof (pt_seen _ _ _ _ HD y Hy) as Sy.
      pose proof (same_region bp false dsa l _ _ Hl Sx Sy Ha) as E.
      destruct (region_found _ Sx) as (i & g & N1 & _ & R1 & E1 & _). destruct (region_found _ Sy) as (j & h & N2 & _ & R2 & E2 & _).
      rewrite R1, R2. assert (i = j) as -> by congruence. assert (h = g) as -> by congruence. reflexivity.
    - intros E. now destruct (Hname x y Hx Hy E) as (g & _ & _ & _ & ER & _).
    - intros E Hs. destruct (Hname x y Hx Hy ltac:(now rewrite E)) as (g & Hg & Cx & Cy & _ & _ & Es). rewrite Es in Hs.
      pose proof (pt_seen _ _ _ _ HD x Hx) as Sx. pose proof (pt_seen _ _ _ _ HD y Hy) as Sy.
      destruct (singleton_field g _ Hg Sx Cx Hs) as (k & Nx & Rx & Ox & O1 & Tx). destruct (singleton_field g _ Hg Sy Cy Hs) as (k' & Ny & Ry & Oy & _ & _).
      assert (k' = k) as -> by congruence. cbn [a_addr a_ty access_of].
      split; [apply base_addr; auto; [now apply (pt_one _ _ _ _ HD x y k)|congruence]|].
      apply (pt_type _ _ _ _ HD x y Hx Hy). destruct (lprop _ Sx) as (_ & X2 & _). destruct (lprop _ Sy) as (_ & Y2 & _).
      destruct (safe_disjoint _ _ k 0 0 Sx Sy Nx Ny Tx) as (_ & E' & _); [clear - X2; lia|clear - Y2; lia|rewrite Ox, Oy; reflexivity|exact E'].
    - intros E Hs Hb. destruct (Hname x y Hx Hy ltac:(now rewrite E)) as (g & Hg & Cx & Cy & _ & Eb & Es). rewrite Eb in Hb. rewrite Es in Hs.
      pose proof (pt_seen _ _ _ _ HD x Hx) as Sx. pose proof (pt_seen _ _ _ _ HD y Hy) as Sy. cbn [a_addr a_ty access_of].
      assert (bp = true \/ bp = false) as [Ebp|Ebp] by (clear; destruct bp; auto).
      + destruct (typed_access g (d_static x) Ebp Hg Sx Cx Hb) as (Tx & k & Nx & Sfx).
        destruct (typed_access g (d_static y) Ebp Hg Sy Cy Hb) as (Ty & k' & Ny & Sfy).
        assert (d_ty x = d_ty y) as Et by (apply (pt_type _ _ _ _ HD x y Hx Hy); congruence).
        split; [now rewrite Et|]. intros Hm. split; [|exact Et]. pose proof (Htouch x y Hx Hy Hm) as Ht.
        pose proof (safe_known k _ Sfx) as Hk.
        destruct (pt_overlap _ _ _ _ HD x y Hx Hy Ht) as [[H _]|[[H _]|(k2 & Nx2 & Ny2 & H)]].
        * exfalso. revert H. apply (unflagged _ k Nx Hk).
        * exfalso. revert H. apply (unflagged _ k Nx Hk).
        * assert (k2 = k) as -> by congruence. assert (k' = k) as -> by congruence.
          destruct H as [H|H]; [destruct Hk as (Hc & _); congruence|].
          apply base_addr; auto. destruct Ht as (i & j & Hi & Hj & Ei).
          rewrite <- (pt_size _ _ _ _ HD x Hx) in Hi. rewrite <- (pt_size _ _ _ _ HD y Hy) in Hj.
          pose proof (base_offset x y i j Hx Hy H Hi Hj Ei) as Eo.
          now destruct (safe_disjoint _ _ k i j Sx Sy Nx Ny Sfx Hi Hj Eo).
      + assert (enc <> BitVector) as Hne by (intros H; apply Henc in H; congruence).
        destruct (Hstrict Hne) as [Hbv Hst]. split; [|intros Hm; apply Hst; auto].
        assert (forall t, cell_kind enc bvptr P t = None) as Hk.
        { intros [n|]; cbn; [destruct enc; [congruence|reflexivity|reflexivity]|now rewrite Hbv]. }
        now rewrite !Hk.
  Qed.
  End Sep.
End Regions.
