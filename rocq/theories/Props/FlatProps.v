(** C22: splitting memory into regions does not change what loads return. *)
From Coq Require Import ZArith List String Bool Lia ZifyBool.
From Verif.Base Require Import ZBits.
From Verif.Spec Require Import LLVMInt IR Encodings Aliasing ByteMemory Pointers Atomics FlatMemory PointsTo.
From Verif.Model Require Import Boogie PreludeInt SmackRepInt PreludeMem Regions RegionVars.
From Verif.Proofs Require Import Lookup PreludeCalls EvalCompose ExprSim FlatSim FlatInit FlatRegions MemMain.
From Verif.Props Require Import RegionProps MemProps.
Import ListNotations.
Open Scope string_scope.
Open Scope list_scope.
Open Scope Z_scope.

(** Every flat memory: the region variables can be given contents such that the
    translated accesses return what the flat memory returns. *)
Theorem C22_flat_memory : forall enc bvptr P prog I,
  extends prog (preludeMem (flags enc bvptr) P) -> P = 32 \/ P = 64 ->
  forall tr m, separated enc bvptr P tr -> Forall (acc_ok enc bvptr P) tr -> byte_memory m ->
  exists V : string -> val, forall r,
    (forall x, In x tr -> r (PreludeMem.reg (a_reg x)) = Some (V (PreludeMem.reg (a_reg x)))) ->
    agrees enc bvptr P prog I r m tr.
Proof.
  intros enc bvptr P prog I Hext HP tr m Hsep Hok Hm. exists (contents enc bvptr P tr m). intros r Hr.
  apply (simulation enc bvptr P HP prog I Hext); [exact Hsep|exact Hok|]. now apply contents_corr.
Qed.
Print Assumptions C22_flat_memory.

(** Every content of the region variables: it is that of some flat memory. *)
Theorem C22_every_memory : forall enc bvptr P prog I,
  extends prog (preludeMem (flags enc bvptr) P) -> P = 32 \/ P = 64 ->
  forall tr r, separated enc bvptr P tr -> Forall (acc_ok enc bvptr P) tr -> contents_ok enc bvptr P tr r ->
  exists m, byte_memory m /\ agrees enc bvptr P prog I r m tr.
Proof.
  intros enc bvptr P prog I Hext HP tr r Hsep Hok Hc. exists (flat_of bvptr P tr r). split; [apply flat_of_bytes|].
  apply (simulation enc bvptr P HP prog I Hext); [exact Hsep|exact Hok|]. now apply flat_of_corr.
Qed.
Print Assumptions C22_every_memory.

(** Bit-vectors: the regions the translator computes separate the accesses of every
    execution about which the points-to graph is right. *)
Theorem C22_regions : forall bvptr P dsa l D, P = 32 \/ P = 64 ->
  Forall proper l -> points_to_sound P dsa l D -> (forall x, In x D -> is_iN P (d_addr x)) ->
  separated BitVector bvptr P
    (map (fun x => Acc (region_var true false dsa l (d_static x)) (d_ty x) (d_addr x) (d_val x)) D).
Proof.
  intros bvptr P dsa l D HP Hl HD Ha. apply (regions_separate true bvptr P dsa l D HP Hl HD Ha BitVector); [tauto|congruence].
Qed.
Print Assumptions C22_regions.

(** Integer encodings with integer pointers: likewise if overlapping accesses have
    the same address and type. *)
Theorem C22_regions_integer : forall enc P dsa l D, P = 32 \/ P = 64 -> enc <> BitVector ->
  Forall proper l -> points_to_sound P dsa l D -> (forall x, In x D -> is_iN P (d_addr x)) ->
  (forall x y, In x D -> In y D -> touch P x y -> d_addr x = d_addr y /\ d_ty x = d_ty y) ->
  separated enc false P
    (map (fun x => Acc (region_var false false dsa l (d_static x)) (d_ty x) (d_addr x) (d_val x)) D).
Proof.
  intros enc P dsa l D HP He Hl HD Ha Hs. apply (regions_separate false false P dsa l D HP Hl HD Ha enc); [split; congruence|auto].
Qed.
Print Assumptions C22_regions_integer.

(** ** A program for which the hypotheses hold: object 0 is accessed as i32 at 0 and
    as i8 at 1 (bytewise), object 1 is a heap object with a pointer and an i32
    (typed), object 2 a global i32 (one variable). *)
Definition demo_nodes (k : nat) : node_info :=
  match k with
  | 0%nat => NodeInfo true false false false false false false false false false 0 [(0, [(1, 4)]); (1, [(2, 1)])]
  | 1%nat => NodeInfo true false false false false false false false false false 0 [(0, [(3, 8)]); (8, [(1, 4)])]
  | _ => NodeInfo false false false false false false false false false false 1 [(0, [(1, 4)])]
  end.
Definition u32_at0 := Access (Some 0%nat) 0 4 1 false.
Definition u8_at1 := Access (Some 0%nat) 1 1 2 true.
Definition next_field := Access (Some 1%nat) 0 8 3 false.
Definition int_field := Access (Some 1%nat) 8 4 1 false.
Definition the_global := Access (Some 2%nat) 0 4 1 false.
Definition demo_accesses := [u32_at0; u8_at1; next_field; int_field; the_global].
Definition demo_trace : list dyn :=
  [ Dyn u32_at0 (AInt 32) 1000 (Some 0); Dyn u8_at1 (AInt 8) 1001 (Some 1); Dyn u32_at0 (AInt 32) 1000 None;
    Dyn next_field APtr 2000 (Some 1000); Dyn int_field (AInt 32) 2008 (Some 5); Dyn next_field APtr 2000 None;
    Dyn the_global (AInt 32) 3000 (Some 7); Dyn the_global (AInt 32) 3000 None ].

Lemma touch_near : forall x y, 0 <= d_addr x < 100000 -> 0 <= d_addr y < 100000 -> size 64 (d_ty x) < 100 -> size 64 (d_ty y) < 100 ->
  touch 64 x y -> d_addr x < d_addr y + size 64 (d_ty y) /\ d_addr y < d_addr x + size 64 (d_ty x).
Proof.
  intros x y Hx Hy Sx Sy (i & j & Hi & Hj & E). unfold byte_at in E. change (2 ^ 64) with 18446744073709551616 in E.
  rewrite !Z.mod_small in E by lia. lia.
Qed.
Ltac cases H := repeat (destruct H as [H|H]); try contradiction; subst.
Lemma demo_proper : Forall proper demo_accesses.
Proof. repeat constructor; cbn; lia. Qed.
Lemma demo_types : forall k, proper_types (demo_nodes k).
Proof.
  intros k. destruct k as [|[|k]]; (split; [|split]); cbn.
  all: try (repeat constructor; cbn; intuition lia).
  all: try (intros o ts H; decompose [or] H; try tauto; match goal with E : (_, _) = (_, _) |- _ => injection E as <- <- end;
      (split; [discriminate|]); repeat constructor; cbn; intuition congruence).
  all: intros o t s (ts & H & Hts); cbn in H; decompose [or] H; try tauto;
      match goal with E : (_, _) = (_, _) |- _ => injection E as <- <- end; cbn in Hts; decompose [or] Hts; try tauto;
      match goal with E : (_, _) = (_, _) |- _ => injection E as <- <- end; lia.
Qed.
Lemma demo_recorded : forall a k, In a demo_accesses -> ac_node a = Some k -> known_object (demo_nodes k) ->
  accessed (demo_nodes k) (ac_off a) (ac_type a) (ac_len a).
Proof.
  intros a k Ha Hk _. cbn in Ha. cases Ha; cbn in Hk; injection Hk as <-; first [exists [(1, 4)]; cbn; tauto|exists [(2, 1)]; cbn; tauto|exists [(3, 8)]; cbn; tauto].
Qed.
Lemma demo_sound : points_to_sound 64 demo_nodes demo_accesses demo_trace.
Proof.
  split.
  - intros x Hx. cbn in Hx. cases Hx; cbn; tauto.
  - intros x Hx. cbn in Hx. cases Hx; reflexivity.
  - intros x y Hx Hy. cbn in Hx, Hy. cases Hx; cases Hy; cbn; congruence.
  - exact demo_types.
  - exact demo_recorded.
  - intros x y Hx Hy Ht. apply touch_near in Ht;
      [|cbn in Hx; cases Hx; cbn; lia|cbn in Hy; cases Hy; cbn; lia|cbn in Hx; cases Hx; reflexivity|cbn in Hy; cases Hy; reflexivity].
    right. right. cbn in Hx, Hy.
    cases Hx; cases Hy; cbn in Ht; try (exfalso; cbv in Ht; destruct Ht; discriminate); eexists; (split; [reflexivity|]); (split; [reflexivity|]); right; reflexivity.
  - intros x y k Hx Hy Nx Ny (O1 & O2 & O3 & O4 & _). cbn in Hx, Hy.
    cases Hx; cbn in Nx; injection Nx as <-; try discriminate O1; cases Hy; try discriminate Ny; reflexivity.
Qed.
Example C22_nonvacuous :
  points_to_sound 64 demo_nodes demo_accesses demo_trace /\ Forall proper demo_accesses /\
  (forall x, In x demo_trace -> is_iN 64 (d_addr x)) /\
  Forall (acc_ok BitVector false 64)
    (map (fun x => Acc (region_var true false demo_nodes demo_accesses (d_static x)) (d_ty x) (d_addr x) (d_val x)) demo_trace) /\
  map (region_var true false demo_nodes demo_accesses) demo_accesses =
    [Region true false "$M.0"; Region true false "$M.0"; Region false false "$M.1"; Region false false "$M.2"; Region false true "$M.3"].
Proof.
  split; [exact demo_sound|]. split; [exact demo_proper|].
  split; [intros x Hx; cbn in Hx; cases Hx; split; cbn; lia|]. split; [|reflexivity].
  rewrite Forall_forall. intros y Hy. apply in_map_iff in Hy as (x & <- & Hx). cbn in Hx.
  cases Hx; (split; [split; vm_compute; congruence|]);
    (split; [intros n E; cbn in E; first [discriminate E|injection E as <-; cbn; tauto]|]);
    (split; [intros v E; cbn in E; first [discriminate E|injection E as <-; split; vm_compute; congruence]|]);
    (split; [intros _ _; split; [reflexivity|right; reflexivity]|]); intros _; vm_compute; discriminate.
Qed.

(** ** Where it stops *)

(** Integer encodings: the same object 0, an i32 and one of its bytes.  Whatever the
    memory contains initially, the last load returns 0 instead of 256. *)
Theorem C22_mixed_sizes_refuted : forall enc prog I, enc <> BitVector -> extends prog (preludeMem (flags enc false) 64) ->
  let D := [Dyn u32_at0 (AInt 32) 1000 (Some 0); Dyn u8_at1 (AInt 8) 1001 (Some 1); Dyn u32_at0 (AInt 32) 1000 None] in
  let tr := map (fun x => Acc (region_var false false demo_nodes demo_accesses (d_static x)) (d_ty x) (d_addr x) (d_val x)) D in
  (forall x, In x D -> In x demo_trace) /\ Forall (acc_ok enc false 64) tr /\
  forall r m, contents_ok enc false 64 tr r -> ~ agrees enc false 64 prog I r m tr.
Proof.
  intros enc prog I He Hext D tr. split; [intros x Hx; cbn in Hx |- *; tauto|]. split.
  { rewrite Forall_forall. intros y Hy. apply in_map_iff in Hy as (x & <- & Hx). cbn in Hx.
    cases Hx; (split; [split; vm_compute; congruence|]);
    (split; [intros n E; cbn in E; first [discriminate E|injection E as <-; cbn; tauto]|]);
    (split; [intros v E; cbn in E; first [discriminate E|injection E as <-; split; vm_compute; congruence]|]);
    (split; [intros H _; vm_compute in H; discriminate H|]); intros _; vm_compute; discriminate. }
  intros r m Hc H.
  set (R := Region false false "$M.0").
  assert (tr = [Acc R (AInt 32) 1000 (Some 0); Acc R (AInt 8) 1001 (Some 1); Acc R (AInt 32) 1000 None]) as Etr by reflexivity.
  rewrite Etr in *. clear Etr tr D.
  assert (forall n, intType (flags enc false) n = NInt n) as Ety by (intros; destruct enc; [congruence|reflexivity|reflexivity]).
  assert (forall n, cell_type enc n = None) as Ect by (intros; destruct enc; [congruence|reflexivity|reflexivity]).
  destruct (Hc _ (or_introl eq_refl)) as (V & HV & Hcv). cbn in Hcv. rewrite Ect in Hcv. destruct Hcv as (mm & -> & _). change (PreludeMem.reg (a_reg _)) with "$M.0" in HV.
  assert (forall r2 a, evaluates prog I r2 (EInt a) (VInt a)) as Hlit by (intros; exists 0%nat; reflexivity).
  assert (forall n x, (x = 0 \/ x = 1) -> 1 < n -> represents enc n (VInt x) x) as Hrep.
  { intros n x Hx Hn. assert (0 <= x < 2 ^ (n - 1)) as Hr.
    { pose proof (pow2_le 1 (n - 1) ltac:(lia)). change (2 ^ 1) with 2 in *. lia. }
    pose proof (pow2_half n ltac:(lia)).
    destruct enc; [congruence| |]; cbn.
    - exists x. split; [reflexivity|]. apply pat_id. unfold is_iN. lia.
    - destruct (n =? 1) eqn:E; [lia|]. f_equal. symmetry. now apply signed_nonneg_id. }
  assert (forall n, In n INTEGER_SIZES -> NInt n = NRef \/ exists k, In k INTEGER_SIZES /\ NInt n = intType (flags enc false) k) as Hel
    by (intros n Hn; right; exists n; rewrite Ety; auto).
  (* the two stores *)
  cbn [agrees a_val a_reg a_ty a_addr] in H.
  specialize (H r (EInt 1000) (fun x _ => eq_refl) (Hlit r 1000) (EInt 0) (VInt 0) (Hlit r 0) (Hrep 32 0 ltac:(auto) ltac:(lia))).
  destruct H as (M1 & E1 & H). cbn [tyname_of] in E1, H. rewrite Ety in E1, H.
  pose proof (proj2 (C17_typed_regions enc false 64 prog I Hext ltac:(auto) R r (NInt 32) (EInt 1000) 1000 None mm eq_refl eq_refl
    (Hel 32 ltac:(cbn; tauto)) ltac:(discriminate) HV (Hlit r 1000)) (EInt 0) (VInt 0) 0 (Hlit r 0) eq_refl) as S1.
  pose proof (evaluates_det prog I r _ _ _ E1 S1) as ->. clear E1 S1.
  set (f1 := fun q => if q =? 1000 then 0 else mm q) in *.
  (* the flat memory after the first store *)
  set (m1 := fun q => if (1000 <=? q) && (q <? 1004) then 0 else m q).
  assert (forall a i, 0 <= a + i < 2 ^ 64 -> byte_at 64 a i = a + i) as Hba by (intros; unfold byte_at; now apply Z.mod_small).
  assert (flat_store 64 (AInt 32) 1000 0 m m1) as F1.
  { assert (size 64 (AInt 32) = 4) as Es by reflexivity. split; rewrite Es.
    - intros i Hi. rewrite Hba by (change (2 ^ 64) with 18446744073709551616; lia). unfold m1. assert ((1000 <=? 1000 + i) && (1000 + i <? 1004) = true) as -> by (clear - Hi; lia).
      unfold byte_of. rewrite Z.div_0_l, Z.mod_0_l; [reflexivity|lia|]. pose proof (pow2_pos (8 * i)). lia.
    - intros q Hq. unfold m1. destruct ((1000 <=? q) && (q <? 1004)) eqn:E; [|reflexivity].
      exfalso. apply (Hq (q - 1000)); [lia|]. rewrite Hba by (change (2 ^ 64) with 18446744073709551616; lia). lia. }
  specialize (H m1 F1). cbn [fst store] in H. change (PreludeMem.reg R) with "$M.0" in H.
  set (r1 := upd_env r "$M.0" (memory_map false 64 None f1)) in *.
  assert (r1 "$M.0" = Some (memory_map false 64 None f1)) as HV1 by reflexivity.
  specialize (H r1 (EInt 1001) (fun x _ => eq_refl) (Hlit r1 1001) (EInt 1) (VInt 1) (Hlit r1 1) (Hrep 8 1 ltac:(auto) ltac:(lia))).
  destruct H as (M2 & E2 & H). cbn [tyname_of] in E2, H. rewrite Ety in E2; try rewrite Ety in H.
  pose proof (proj2 (C17_typed_regions enc false 64 prog I Hext ltac:(auto) R r1 (NInt 8) (EInt 1001) 1001 None f1 eq_refl eq_refl
    (Hel 8 ltac:(cbn; tauto)) ltac:(discriminate) HV1 (Hlit r1 1001)) (EInt 1) (VInt 1) 1 (Hlit r1 1) eq_refl) as S2.
  pose proof (evaluates_det prog I r1 _ _ _ E2 S2) as ->. clear E2 S2.
  set (f2 := fun q => if q =? 1001 then 1 else f1 q) in *.
  set (m2 := fun q => if q =? 1001 then 1 else m1 q).
  assert (flat_store 64 (AInt 8) 1001 1 m1 m2) as F2.
  { assert (size 64 (AInt 8) = 1) as Es by reflexivity. split; rewrite Es.
    - intros i Hi. assert (i = 0) as -> by lia. reflexivity.
    - intros q Hq. unfold m2. destruct (q =? 1001) eqn:E; [|reflexivity]. exfalso. apply (Hq 0); [lia|]. rewrite Hba by (change (2 ^ 64) with 18446744073709551616; lia). lia. }
  specialize (H m2 F2). cbn [fst store] in H. change (PreludeMem.reg R) with "$M.0" in H.
  set (r2 := upd_env r1 "$M.0" (memory_map false 64 None f2)) in *.
  assert (r2 "$M.0" = Some (memory_map false 64 None f2)) as HV2 by reflexivity.
  specialize (H r2 (EInt 1000) (fun x _ => eq_refl) (Hlit r2 1000)). cbn [tyname_of] in H. try rewrite Ety in H.
  destruct H as [(v & y & L1 & (w & [Hw1 Hw2] & ->) & L3) _].
  pose proof (proj1 (C17_typed_regions enc false 64 prog I Hext ltac:(auto) R r2 (NInt 32) (EInt 1000) 1000 None f2 eq_refl eq_refl
    (Hel 32 ltac:(cbn; tauto)) ltac:(discriminate) HV2 (Hlit r2 1000))) as S3.
  pose proof (evaluates_det prog I r2 _ _ _ L1 S3) as ->. cbn in L3.
  (* the loaded byte 1 is 1 *)
  pose proof (Hw2 1 ltac:(cbv; split; [discriminate|reflexivity])) as B1. rewrite Hba in B1 by (change (2 ^ 64) with 18446744073709551616; lia).
  change (m2 (1000 + 1)) with 1 in B1. unfold byte_of in B1. change (8 * 1) with 8 in B1.
  assert (pat 32 w = w) as Ew by (apply pat_id; exact Hw1). cbn [width] in L3. rewrite Ew in L3.
  assert (w = 0) as ->; [|discriminate B1].
  destruct enc; [congruence| |]; cbn in L3.
  - destruct L3 as (z & Ez & Hz). injection Ez as <-. rewrite <- Hz. reflexivity.
  - injection L3 as L3. rewrite <- Ew. rewrite <- (signed_pat 32 (pat 32 w)); [rewrite Ew, <- L3; reflexivity|lia|rewrite Ew; exact Hw1].
Qed.
Print Assumptions C22_mixed_sizes_refuted.

(** Bit-vectors with --no-byte-access-inference: the variable of a global integer is
    declared as a map, but loads and stores use it as the value. *)
Theorem C22_no_inference_refuted :
  let R := region_var true true demo_nodes demo_accesses the_global in
  (exists i g, nth_error (visit true true demo_nodes [] demo_accesses) i = Some g /\
     PreludeMem.reg R = memReg i /\ memIsMap true true g = true) /\
  forall prog I bvptr r p c mm v, r (PreludeMem.reg R) = Some (memory_map bvptr 64 c mm) ->
    evaluates prog I r (load R (NBv 32) p) v -> forall y, ~ stands_for BitVector bvptr 64 (AInt 32) v y.
Proof.
  intros R. assert (R = Region true true "$M.3") as ER by reflexivity. rewrite ER. split.
  - exists 3%nat. eexists. split; [reflexivity|]. split; reflexivity.
  - intros prog I bvptr r p c mm v Hr Hl y Hs. cbn in Hs. subst v.
    assert (evaluates prog I r (load (Region true true "$M.3") (NBv 32) p) (memory_map bvptr 64 c mm)) as H by (exists 0%nat; exact Hr).
    pose proof (evaluates_det prog I r _ _ _ Hl H). discriminate.
Qed.
Print Assumptions C22_no_inference_refuted.
