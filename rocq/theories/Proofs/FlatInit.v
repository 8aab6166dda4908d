(** C22: initial memories that correspond. *)
From Coq Require Import ZArith List String Bool Lia ZifyBool.
From Verif.Base Require Import ZBits.
From Verif.Spec Require Import LLVMInt IR Encodings ByteMemory Pointers Atomics FlatMemory.
From Verif.Model Require Import Boogie PreludeInt SmackRepInt PreludeMem.
From Verif.Proofs Require Import ByteMem FlatSim.
Import ListNotations.
Open Scope string_scope.
Open Scope list_scope.
Open Scope Z_scope.

Section Init.
  Context (enc : encoding) (bvptr : bool) (P : Z).
  Hypothesis HP : P = 32 \/ P = 64.
  Notation idx := (index bvptr P).
  Notation sz := (size P).
  Notation kind := (cell_kind enc bvptr P).
  Notation stands := (stands_for enc bvptr P).
  Notation ok := (acc_ok enc bvptr P).

  Let HP1 : 1 <= P := P1 P HP.

  (** ** A flat memory given *)
  Definition canon (t : atype) (x : Z) : Z :=
    match t with
    | AInt n => match enc with UnboundedInteger => if n =? 1 then x else signed n x | _ => x end
    | APtr => idx x
    end.
  Lemma canon_stands : forall t x, is_iN (width P t) x -> stands t (scalar_of (kind t) (canon t x)) x.
  Proof.
    intros [n|] x Hx; cbn in *.
    - destruct enc; cbn; [reflexivity| |reflexivity]. exists x. split; [reflexivity|now apply pat_id].
    - unfold pointer. now destruct bvptr.
  Qed.
  Definition flatval (m : Z -> Z) (x : acc) : Z :=
    pat (width P (a_ty x)) (le_value (byte_at P (a_addr x)) m (Z.to_nat (sz (a_ty x)))).
  Lemma flatval_load : forall m x, ok x -> byte_memory m -> flat_load P m (a_ty x) (a_addr x) (flatval m x).
  Proof.
    intros m x Hx Hm. eexists. split; [|reflexivity]. pose proof (size_range enc bvptr P HP x Hx).
    rewrite <- (Z2Nat.id (sz (a_ty x))) at 1 by lia. apply le_reads. intros i _. apply Hm.
  Qed.
  Lemma flatval_range : forall m x, ok x -> is_iN (width P (a_ty x)) (flatval m x).
  Proof. intros m x Hx. apply pat_range. pose proof (width_range enc bvptr P HP x Hx). lia. Qed.

  Definition named (s : string) (x : acc) : bool := String.eqb (reg (a_reg x)) s.
  Definition contents (tr : list acc) (m : Z -> Z) (s : string) : val :=
    match find (named s) tr with
    | None => VInt 0
    | Some x =>
        if singleton (a_reg x) then scalar_of (kind (a_ty x)) (canon (a_ty x) (flatval m x))
        else if bytewise (a_reg x) then memory_map bvptr P (Some 8) (fun q => m (q mod 2 ^ P))
        else memory_map bvptr P (kind (a_ty x)) (fun q =>
               match find (fun y => named s y && (idx (a_addr y) =? q)) tr with
               | Some y => canon (a_ty y) (flatval m y)
               | None => 0
               end)
    end.

  Lemma contents_corr : forall tr m r, separated enc bvptr P tr -> Forall ok tr -> byte_memory m ->
    (forall x, In x tr -> r (reg (a_reg x)) = Some (contents tr m (reg (a_reg x)))) -> corr enc bvptr P tr r m.
  Proof.
    intros tr m r Hsep Hok Hm Hr z Hz. rewrite Forall_forall in Hok. eexists. split; [now apply Hr|]. pose proof (Hok z Hz) as Hokz.
    unfold contents. destruct (find (named (reg (a_reg z))) tr) as [x|] eqn:Ef.
    2:{ pose proof (find_none _ _ Ef z Hz) as H. unfold named in H. rewrite String.eqb_refl in H. discriminate. }
    apply find_some in Ef as [Hx En]. unfold named in En. apply String.eqb_eq in En.
    pose proof (sep_name _ _ _ _ Hsep x z Hx Hz En) as ER. pose proof (Hok x Hx) as Hokx.
    unfold holds. rewrite <- ER. destruct (singleton (a_reg x)) eqn:Es.
    { destruct (sep_singleton _ _ _ _ Hsep x z Hx Hz ER Es) as [Ea Et]. rewrite <- Ea, <- Et.
      exists (flatval m x). split; [now apply flatval_load|]. now apply canon_stands, flatval_range. }
    destruct (bytewise (a_reg x)) eqn:Eb.
    - eexists. split; [reflexivity|]. split; [intros q; apply Hm|]. intros i Hi. f_equal.
      apply (byte_addr_mod bvptr P HP). apply Hokz.
    - destruct (sep_typed _ _ _ _ Hsep x z Hx Hz ER Es Eb) as [Ek _]. rewrite <- Ek. eexists. split; [reflexivity|]. cbn beta.
      destruct (find _ tr) as [y|] eqn:Ef.
      2:{ pose proof (find_none _ _ Ef z Hz) as H. cbn beta in H. unfold named in H. rewrite ER, String.eqb_refl, Z.eqb_refl in H. discriminate. }
      apply find_some in Ef as [Hy En']. apply andb_true_iff in En' as [En' Ei]. unfold named in En'. apply String.eqb_eq in En'.
      rewrite ER in En'. pose proof (sep_name _ _ _ _ Hsep y z Hy Hz En') as ER'. pose proof (Hok y Hy) as Hoky.
      assert (a_addr y = a_addr z) as Ea by (apply (index_inj bvptr P HP); [apply Hoky|apply Hokz|lia]).
      destruct (sep_typed _ _ _ _ Hsep y z Hy Hz ER') as [Ek' Hsame]; [rewrite ER', <- ER; assumption..|].
      destruct (Hsame (meet_self enc bvptr P HP y z Hoky Hokz Ea)) as [_ Et].
      rewrite <- Et, <- Ea. exists (flatval m y). split; [now apply flatval_load|]. rewrite Ek, <- Ek'. now apply canon_stands, flatval_range.
  Qed.

  (** ** The contents of the regions given *)
  Definition decode (t : atype) (v : val) : Z :=
    match v with VBv _ x => x | VInt z => pat (width P t) z | _ => 0 end.
  Lemma decode_stands : forall t v y, is_iN (width P t) y -> (forall n, t = AInt n -> 1 <= n) -> stands t v y -> decode t v = y.
  Proof.
    intros [n|] v y Hy Hn H; cbn in *.
    - specialize (Hn n eq_refl). destruct enc; cbn in H.
      + subst v. reflexivity.
      + destruct H as (z & -> & E). exact E.
      + subst v. cbn. destruct (Z.eqb_spec n 1) as [->|]; [now apply pat_id|]. now apply signed_pat.
    - subst v. unfold pointer, index. destruct bvptr; [reflexivity|]. cbn. now apply signed_pat.
  Qed.
  Definition content_byte (r : env) (y : acc) (i : Z) : Z :=
    match r (reg (a_reg y)) with
    | Some V =>
        if singleton (a_reg y) then byte_of (decode (a_ty y) V) i
        else match V with
             | VMap _ c mm =>
                 if bytewise (a_reg y) then (mm (byte_addr bvptr P (idx (a_addr y)) i)) mod 2 ^ 8
                 else byte_of (decode (a_ty y) (scalar_of c (mm (idx (a_addr y))))) i
             | _ => 0
             end
    | None => 0
    end.
  Definition flat_of (tr : list acc) (r : env) (b : Z) : Z :=
    match find (fun y => (b - a_addr y) mod 2 ^ P <? sz (a_ty y)) tr with
    | Some y => content_byte r y ((b - a_addr y) mod 2 ^ P)
    | None => 0
    end.
  Lemma flat_of_bytes : forall tr r, byte_memory (flat_of tr r).
  Proof.
    intros tr r b. unfold flat_of. destruct (find _ tr) as [y|]; [|lia]. unfold content_byte.
    destruct (r (reg (a_reg y))) as [V|]; [|lia]. destruct (singleton (a_reg y)); [apply byte_of_range|].
    destruct V; try lia. destruct (bytewise (a_reg y)); [apply Z.mod_pos_bound; lia|apply byte_of_range].
  Qed.
  Lemma offset_of : forall x i, ok x -> 0 <= i < sz (a_ty x) -> (byte_at P (a_addr x) i - a_addr x) mod 2 ^ P = i.
  Proof.
    intros x i Hx Hi. pose proof (size_range enc bvptr P HP x Hx). unfold byte_at.
    rewrite Zminus_mod_idemp_l. replace (a_addr x + i - a_addr x) with i by lia.
    apply Z.mod_small. pose proof (pow2_le 32 P ltac:(destruct HP; lia)). assert (2 ^ 32 = 4294967296) by reflexivity. lia.
  Qed.
  (** the byte of the flat memory comes from an access that covers it *)
  Lemma flat_of_at : forall tr r z i, Forall ok tr -> In z tr -> 0 <= i < sz (a_ty z) ->
    exists y j, In y tr /\ 0 <= j < sz (a_ty y) /\ byte_at P (a_addr y) j = byte_at P (a_addr z) i /\
      flat_of tr r (byte_at P (a_addr z) i) = content_byte r y j.
  Proof.
    intros tr r z i Hok Hz Hi. rewrite Forall_forall in Hok. unfold flat_of.
    pose proof (pow2_pos P ltac:(lia)) as H2.
    destruct (find _ tr) as [y|] eqn:Ef.
    2:{ pose proof (find_none _ _ Ef z Hz) as H. cbn beta in H. rewrite offset_of in H by auto. lia. }
    apply find_some in Ef as [Hy Hlt]. exists y, ((byte_at P (a_addr z) i - a_addr y) mod 2 ^ P).
    split; [exact Hy|]. pose proof (Z.mod_pos_bound (byte_at P (a_addr z) i - a_addr y) (2 ^ P) H2). split; [lia|]. split; [|reflexivity].
    unfold byte_at at 1. rewrite Zplus_mod_idemp_r. replace (a_addr y + (byte_at P (a_addr z) i - a_addr y)) with (byte_at P (a_addr z) i) by lia.
    unfold byte_at. apply Z.mod_mod. lia.
  Qed.

  Lemma flat_of_corr : forall tr r, separated enc bvptr P tr -> Forall ok tr -> contents_ok enc bvptr P tr r ->
    corr enc bvptr P tr r (flat_of tr r).
  Proof.
    intros tr r Hsep Hok Hc z Hz. destruct (Hc z Hz) as (V & HV & Hcz). exists V. split; [exact HV|].
    pose proof Hok as Hok'. rewrite Forall_forall in Hok'. pose proof (Hok' z Hz) as Hokz.
    assert (forall n, a_ty z = AInt n -> 1 <= n) as Hn1.
    { intros n E. pose proof (width_range enc bvptr P HP z Hokz) as W. rewrite E in W. cbn in W. lia. }
    assert (forall y, is_iN (width P (a_ty z)) y -> (forall i, 0 <= i < sz (a_ty z) -> flat_of tr r (byte_at P (a_addr z) i) = byte_of y i) ->
              flat_load P (flat_of tr r) (a_ty z) (a_addr z) y) as Hfl.
    { intros y Hy H. exists y. split; [|symmetry; now apply pat_id]. split.
      - pose proof (size_width enc bvptr P z Hokz) as Hw. unfold is_iN in Hy. pose proof (pow2_le _ _ Hw). lia.
      - intros i Hi. symmetry. now apply H. }
    assert (forall y j i, In y tr -> 0 <= j < sz (a_ty y) -> 0 <= i < sz (a_ty z) -> byte_at P (a_addr y) j = byte_at P (a_addr z) i ->
              meet P y z /\ a_reg y = a_reg z /\ r (reg (a_reg y)) = Some V /\ (a_addr y = a_addr z /\ a_ty y = a_ty z -> j = i)) as Hcov.
    { intros y j i Hy Hj Hi E. assert (meet P y z) as Hm by (exists j, i; auto). split; [exact Hm|].
      pose proof (sep_region _ _ _ _ Hsep y z Hy Hz Hm) as ER. split; [exact ER|]. split; [rewrite ER; exact HV|].
      intros [Ea Et]. rewrite <- (offset_of y j (Hok' y Hy) Hj), <- (offset_of z i Hokz Hi), E, Ea. reflexivity. }
    unfold content_ok in Hcz. unfold holds. destruct (singleton (a_reg z)) eqn:Es.
    { destruct Hcz as (y & Hy & Hst). exists y. split; [|exact Hst]. apply Hfl; [exact Hy|]. intros i Hi.
      destruct (flat_of_at tr r z i Hok Hz Hi) as (x & j & Hx & Hj & Ej & ->).
      destruct (Hcov x j i Hx Hj Hi Ej) as (Hm & ER & HVx & Hji).
      destruct (sep_singleton _ _ _ _ Hsep x z Hx Hz ER) as [Ea Et]; [now rewrite ER|].
      rewrite (Hji (conj Ea Et)). unfold content_byte. rewrite HVx, ER, Es, Et. f_equal. now apply decode_stands. }
    destruct (bytewise (a_reg z)) eqn:Eb.
    - destruct Hcz as (mm & -> & Hm). exists mm. split; [reflexivity|]. split; [exact Hm|]. intros i Hi.
      destruct (flat_of_at tr r z i Hok Hz Hi) as (x & j & Hx & Hj & Ej & ->).
      destruct (Hcov x j i Hx Hj Hi Ej) as (_ & ER & HVx & _). unfold content_byte. rewrite HVx. unfold memory_map. rewrite ER, Es, Eb.
      rewrite (proj2 (byte_addr_same enc bvptr P HP x z j i (Hok' x Hx) Hokz Hj Hi) Ej). symmetry. apply Z.mod_small, Hm.
    - destruct Hcz as (mm & -> & y & Hy & Hst). exists mm. split; [reflexivity|]. exists y. split; [|exact Hst]. apply Hfl; [exact Hy|]. intros i Hi.
      destruct (flat_of_at tr r z i Hok Hz Hi) as (x & j & Hx & Hj & Ej & ->).
      destruct (Hcov x j i Hx Hj Hi Ej) as (Hm & ER & HVx & Hji).
      destruct (sep_typed _ _ _ _ Hsep x z Hx Hz ER) as [_ Hsame]; [rewrite ER; assumption..|]. destruct (Hsame Hm) as [Ea Et].
      rewrite (Hji (conj Ea Et)). unfold content_byte. rewrite HVx. unfold memory_map. rewrite ER, Es, Eb, Ea, Et. f_equal. now apply decode_stands.
  Qed.
End Init.
