(** C51: stores of values built by insertvalue. *)
From Coq Require Import ZArith List Bool Lia ZifyBool.
From Verif.Spec Require Import ByteMemory Aggregates Gep AggProgram.
From Verif.Model Require Import SimplifyExtractValue SimplifyInsertValue.
From Verif.Proofs Require Import ByteMem AggregateProofs.
From Verif.Props Require Import ExtractProps.
Import ListNotations.
Open Scope list_scope.
Open Scope Z_scope.

(** Insertions as LLVM's verifier accepts them, with indices below 2^31. *)
Definition good_insertion (T : ty) (i : insertion) : Prop :=
  Forall (fun k => 0 <= k < 2 ^ 31) (in_idx i) /\ (exists o, component T (in_idx i) = Some (o, in_type i)) /\ shaped (in_type i) (in_val i).

(** The paths go to different components: neither is inside the other. *)
Definition apart (p q : list Z) : Prop := forall c d, p ++ c <> q ++ d.
Fixpoint all_apart (l : list insertion) : Prop :=
  match l with [] => True | i :: l' => (forall j, In j l' -> apart (in_idx i) (in_idx j)) /\ all_apart l' end.

Lemma compare_apart : forall p q, compare p q = None <-> apart p q.
Proof.
  induction p as [|x p IH]; intros q; cbn.
  - split; [discriminate|]. intros H. exfalso. apply (H q []). now rewrite app_nil_r.
  - destruct q as [|y q]; [split; [discriminate|]; intros H; exfalso; apply (H [] (x :: p)); now rewrite app_nil_r|].
    destruct (x =? y) eqn:E.
    + rewrite IH. assert (x = y) as -> by lia. split; intros H c d; [intros E2; injection E2 as E2; now apply (H c d)|intros E2; apply (H c d); cbn; now rewrite E2].
    + split; [|reflexivity]. intros _ c d E2. injection E2 as E2 _. lia.
Qed.
Lemma apart_sym : forall p q, apart p q -> apart q p.
Proof. intros p q H c d E. now apply (H d c). Qed.

(** Disjoint components occupy disjoint bytes. *)
Lemma components_apart : forall p T q o1 s1 o2 s2, ty_ok T -> compare p q = None -> component T p = Some (o1, s1) -> component T q = Some (o2, s2) ->
  o1 + asize s1 <= o2 \/ o2 + asize s2 <= o1.
Proof.
  induction p as [|i p IH]; intros T q o1 s1 o2 s2 Hok Hc H1 H2; [discriminate|]. destruct q as [|j q]; [discriminate|]. cbn in Hc, H1, H2.
  destruct (child T i) as [[a1 t1]|] eqn:E1; [|discriminate]. destruct (component t1 p) as [[b1 u1]|] eqn:F1; [|discriminate]. injection H1 as <- <-.
  destruct (child T j) as [[a2 t2]|] eqn:E2; [|discriminate]. destruct (component t2 q) as [[b2 u2]|] eqn:F2; [|discriminate]. injection H2 as <- <-.
  destruct (child_facts T i a1 t1 Hok E1) as (A1 & A2 & A3 & A4 & A5).
  destruct (i =? j) eqn:E.
  - assert (i = j) as -> by lia. rewrite E1 in E2. injection E2 as <- <-. destruct (IH t1 q b1 u1 b2 u2 A4 Hc F1 F2); [left|right]; lia.
  - destruct (child_facts T j a2 t2 Hok E2) as (B1 & B2 & B3 & B4 & B5).
    destruct (component_ok p t1 b1 u1 A4 F1) as (_ & C1 & C2). destruct (component_ok q t2 b2 u2 B4 F2) as (_ & D1 & D2).
    destruct (Z_lt_ge_dec i j); [specialize (A5 j a2 t2 ltac:(lia) E2); lia|specialize (B5 i a1 t1 ltac:(lia) E1); lia].
Qed.

Lemma written_exists : forall a t v m, ty_ok t -> typed t v -> byte_memory m -> exists m', object_written a t v m m' /\ byte_memory m'.
Proof.
  intros a t v m Hok Hv Hm. destruct (AggregateProps.store_parts_places t v None Hok (proj1 Hv) (or_introl eq_refl) a) as (ps & P1 & P2).
  destruct (stores_exist ps m Hm) as (m' & H & Hb). exists m'. split; [|exact Hb].
  apply (AggregateProps.run_places a t v _ ps P1) in H. exact (proj2 (AggregateProps.C30_store t v None a m Hok Hv (or_introl eq_refl) Hm) m' H).
Qed.

Lemma holds_frame : forall m m' a t v, ty_ok t -> object_holds m a t v -> (forall q, a <= q < a + asize t -> m' q = m q) -> object_holds m' a t v.
Proof.
  intros m m' a t v Hok H Hf p o bits Hp. destruct (H p o bits Hp) as (x & Hx & Hh). exists x. split; [exact Hx|].
  destruct (scalar_range t p o bits Hok Hp) as (_ & R1 & R2). destruct x as [z|]; [|exact I]. destruct Hh as (Z1 & Z2). split; [exact Z1|].
  intros i Hi. rewrite Hf by lia. now apply Z2.
Qed.

Lemma gep_of : forall T i, ty_ok T -> good_insertion T i -> forall o s, gep_walk T (map i32 (0 :: in_idx i)) = Some (o, s) <-> component T (in_idx i) = Some (o, s).
Proof.
  intros T i Hok (H1 & (o1 & H2) & _) o s. cbn [map gep_walk]. rewrite (walk_component (in_idx i) T o1 (in_type i) Hok H1 H2). change (i32 0) with 0. rewrite H2.
  rewrite Z.mul_0_l, Z.add_0_l. tauto.
Qed.

Lemma run_stores : forall a T L m m', ty_ok T -> (forall i, In i L -> good_insertion T i) -> all_apart L ->
  run_iv a T (map (fun i => IvStore (0 :: in_idx i) (in_type i) (in_val i)) L) m m' ->
  (forall i o, In i L -> component T (in_idx i) = Some (o, in_type i) -> object_holds m' (a + o) (in_type i) (in_val i)) /\
  (forall q, (forall i o, In i L -> component T (in_idx i) = Some (o, in_type i) -> ~ (a + o <= q < a + o + asize (in_type i))) -> m' q = m q).
Proof.
  intros a T L. induction L as [|i L IH]; intros m m' Hok Hg Ha H; cbn [map] in H; inversion H as [|e l ? m1 ? o Hw Hwr Hr]; subst.
  - split; [intros i o []|reflexivity].
  - cbn [iv_gep iv_type iv_val] in *. apply (gep_of T i Hok (Hg i (or_introl eq_refl))) in Hw. destruct Ha as (A1 & A2).
    destruct (IH m1 m' Hok ltac:(intros; apply Hg; now right) A2 Hr) as (I1 & I2). destruct Hwr as (W1 & W2). split.
    + intros j oj [<-|Hj] Hc; [|now apply I1]. rewrite Hw in Hc. injection Hc as <-. destruct (component_ok _ _ _ _ Hok Hw) as (Hoks & _).
      apply holds_frame with (m := m1); [exact Hoks|exact W1|]. intros q Hq. apply I2. intros k ok Hk Hck.
      pose proof (components_apart _ T _ _ _ _ _ Hok (proj2 (compare_apart _ _) (A1 k Hk)) Hw Hck). lia.
    + intros q Hq. rewrite I2 by (intros j oj Hj Hc; apply (Hq j oj); [now right|exact Hc]). apply W2. apply (Hq i o); [now left|exact Hw].
Qed.

Lemma run_exists : forall a T L m, ty_ok T -> (forall i, In i L -> good_insertion T i /\ typed (in_type i) (in_val i)) -> byte_memory m ->
  exists m', run_iv a T (map (fun i => IvStore (0 :: in_idx i) (in_type i) (in_val i)) L) m m'.
Proof.
  intros a T. induction L as [|i L IH]; intros m Hok Hg Hm; [exists m; constructor|]. destruct (Hg i (or_introl eq_refl)) as (G1 & G2). pose proof G1 as (_ & (o & Ho) & _).
  destruct (component_ok _ _ _ _ Hok Ho) as (Hoks & _). destruct (written_exists (a + o) (in_type i) (in_val i) m Hoks G2 Hm) as (m1 & W & Hb).
  destruct (IH m1 Hok ltac:(intros; apply Hg; now right) Hb) as (m' & H). exists m'. cbn [map]. econstructor; [apply (gep_of T i Hok G1); exact Ho|exact W|exact H].
Qed.

Lemma built_extract : forall l T base V, (forall i, In i l -> good_insertion T i) -> all_apart l -> built base l = Some V ->
  forall p o bits, scalar_at T p o bits ->
  (exists i r, In i l /\ p = in_idx i ++ r /\ extractvalue V p = extractvalue (in_val i) r) \/
  ((forall i r, In i l -> p <> in_idx i ++ r) /\ extractvalue V p = extractvalue base p).
Proof.
  induction l as [|i l IH]; intros T base V Hg Ha H p o bits Hp; cbn [built] in H.
  - injection H as <-. right. split; [intros i r []|reflexivity].
  - destruct (insertvalue base (in_idx i) (in_val i)) as [b1|] eqn:Ei; [|discriminate]. destruct Ha as (A1 & A2).
    destruct (IH T b1 V ltac:(intros; apply Hg; now right) A2 H p o bits Hp) as [(j & r & Hj & -> & E)|(N & E)].
    + left. exists j, r. split; [now right|]. auto.
    + destruct (compare p (in_idx i)) as [[e2 i2]|] eqn:Ec.
      * apply compare_some in Ec as (c & -> & Eidx & Hor). destruct (Hg i (or_introl eq_refl)) as (_ & (oi & Hoi) & _).
        assert (i2 = []) as ->.
        { destruct Hor as [-> | ->]; [|reflexivity]. rewrite app_nil_r in Hp. destruct Hp as (a & Hp). rewrite Eidx in Hoi.
          destruct i2 as [|k i2]; [reflexivity|]. exfalso. clear - Hp Hoi. revert T o oi Hp Hoi. induction c as [|x c IHc]; intros T o oi Hp Hoi; cbn in Hp, Hoi.
          - injection Hp as <- ->. discriminate.
          - destruct (child T x) as [[o1 t1]|]; [|discriminate]. destruct (component t1 c) as [[o2 s2]|] eqn:E; [|discriminate]. injection Hp as <- ->.
            destruct (component t1 (c ++ k :: i2)) as [[o3 s3]|] eqn:E3; [|discriminate]. injection Hoi as <- ->. exact (IHc t1 o2 o3 E E3). }
        rewrite app_nil_r in Eidx. left. exists i, e2. split; [now left|]. rewrite Eidx. split; [reflexivity|]. rewrite E.
        rewrite Eidx in Ei. rewrite <- (app_nil_r c) in Ei. rewrite (extract_insert_app c base [] _ b1 e2 Ei). cbn [insertvalue].
        destruct (extractvalue base c) eqn:Eb; [reflexivity|]. exfalso. rewrite app_nil_r in Ei. clear - Ei Eb. revert base b1 Ei Eb.
        induction c as [|x c IHc]; intros base b1 Ei Eb; [discriminate|]. apply insert_inv in Ei as (l0 & y & y' & -> & H1 & H2 & H3 & H4 & H5).
        cbn [extractvalue] in Eb. rewrite H3 in Eb. exact (IHc y y' H4 Eb).
      * right. split.
        -- intros j r [<-|Hj]; [|now apply N]. intros ->. apply compare_apart in Ec. now apply (Ec [] r); rewrite app_nil_r.
        -- rewrite E. now apply extract_apart with (ins := in_idx i) (v := in_val i).
Qed.

(** A value built from undef by insertions into different components: the emitted
    stores can be executed, afterwards the object holds the value, and no byte
    outside of it has changed. *)
Theorem C51_store_built : forall T l V a m, ty_ok T ->
  (forall i, In i l -> good_insertion T i /\ typed (in_type i) (in_val i)) -> all_apart l -> built (undef T) l = Some V -> byte_memory m ->
  (exists m', run_iv a T (emitted l) m m') /\
  forall m', run_iv a T (emitted l) m m' -> object_holds m' a T V /\ (forall q, ~ (a <= q < a + asize T) -> m' q = m q).
Proof.
  intros T l V a m Hok Hg Ha HV Hm. split.
  - unfold emitted. apply run_exists; auto. intros i Hi. apply Hg. now apply in_rev.
  - intros m' H. unfold emitted in H.
    assert (all_apart (rev l)) as Har.
    { clear - Ha. assert (forall x y, all_apart (x ++ y) <-> all_apart x /\ all_apart y /\ forall i j, In i x -> In j y -> apart (in_idx i) (in_idx j)) as Happ.
      { induction x as [|i x IH]; intros y; cbn [app all_apart]; [split; [intros H; repeat split; auto; contradiction|intros (_ & H & _); exact H]|]. rewrite IH. split.
        - intros (H1 & H2 & H3 & H4). split; [split; [intros j Hj; apply H1, in_or_app; auto|exact H2]|]. split; [exact H3|]. intros i0 j [<-|Hi] Hj; [apply H1, in_or_app; auto|auto].
        - intros ((H1 & H2) & H3 & H4). split; [|split; [exact H2|split; [exact H3|intros; apply H4; auto; now right]]].
          intros j Hj. apply in_app_or in Hj as [Hj|Hj]; [auto|apply H4; [now left|exact Hj]]. }
      induction l as [|i l IH]; [exact I|]. destruct Ha as (A1 & A2). cbn [rev]. apply Happ. split; [auto|]. split; [cbn; split; [contradiction|exact I]|].
      intros j k Hj [<-|[]]. apply apart_sym, A1. now apply in_rev. }
    destruct (run_stores a T (rev l) m m' Hok ltac:(intros i Hi; apply Hg; now apply in_rev) Har H) as (R1 & R2). split.
    + intros p o bits Hp. destruct (built_extract l T (undef T) V ltac:(intros; now apply Hg) Ha HV p o bits Hp) as [(i & r & Hi & -> & E)|(N & E)].
      * destruct (Hg i Hi) as ((_ & (oi & Hoi) & Hsh) & _). destruct Hp as (al & Hp).
        assert (exists o2, component (in_type i) r = Some (o2, TScalar bits al) /\ o = oi + o2) as (o2 & Hr & ->).
        { clear - Hp Hoi. revert T o oi Hp Hoi. generalize (in_type i) as s. induction (in_idx i) as [|x c IHc]; intros s T o oi Hp Hoi; cbn in Hp, Hoi.
          - injection Hoi as <- <-. exists o. auto.
          - destruct (child T x) as [[o1 t1]|]; [|discriminate]. destruct (component t1 c) as [[o2 s2]|] eqn:E; [|discriminate]. injection Hoi as <- ->.
            destruct (component t1 (c ++ r)) as [[o3 s3]|] eqn:E3; [|discriminate]. injection Hp as <- ->. destruct (IHc s t1 o3 o2 E3 E) as (o4 & H1 & ->). exists o4. split; [exact H1|lia]. }
        destruct (R1 i oi ltac:(now apply -> in_rev) Hoi r o2 bits (ex_intro _ al Hr)) as (x & Hx & Hh). exists x. split; [rewrite E; exact Hx|]. now rewrite Z.add_assoc.
      * destruct Hp as (al & Hp). pose proof (extract_family undef ltac:(reflexivity) ltac:(reflexivity) p T o _ Hp) as Eu. cbn [undef] in Eu. exists None. split; [congruence|exact I].
    + intros q Hq. apply R2. intros i o Hi Hc. destruct (component_ok _ _ _ _ Hok Hc) as (_ & C1 & C2). lia.
Qed.
Print Assumptions C51_store_built.

(** If the base is another value (loaded, an argument, a constant), its other
    components are not stored. *)
Theorem C51_base_dropped_refuted :
  let i8 := TScalar 8 1 in let T := TStruct false [i8; i8] in
  let l := [Insertion [0] i8 (Sc (Some 7))] in
  exists base V, typed T base /\ good_insertion T (hd (Insertion [] i8 base) l) /\ built base l = Some V /\
    exists m m', byte_memory m /\ run_iv 1024 T (emitted l) m m' /\ ~ object_holds m' 1024 T V.
Proof.
  cbv zeta. exists (Ag [Sc (Some 1); Sc (Some 2)]), (Ag [Sc (Some 7); Sc (Some 2)]). split; [|split; [|split; [reflexivity|]]].
  - split; [cbn; repeat constructor|]. intros p o bits z (al & Hp) Hz. destruct p as [|i p]; [discriminate|]. cbn in Hp, Hz. destruct (0 <=? i); [|discriminate].
    destruct (Z.to_nat i) as [|[|k]]; cbn in Hp, Hz; [| |destruct k; discriminate]; (destruct p as [|j p]; cbn in Hp, Hz; [|discriminate]); injection Hp as <- <- <-; injection Hz as <-; lia.
  - split; [repeat constructor; cbn; lia|]. split; [exists 0; reflexivity|exact I].
  - exists (fun _ => 0), (fun a => if a =? 1024 then 7 else 0). split; [intros a; lia|]. split.
    + cbn [emitted map rev app]. econstructor; [reflexivity| |constructor]. split.
      * intros p o bits (al & Hp). destruct p as [|i p]; [|discriminate]. cbn in Hp. injection Hp as <- <- <-. exists (Some 7). split; [reflexivity|]. split; [cbn; lia|].
        intros i Hi. change (bytes_needed 8) with 1 in Hi. assert (i = 0) as -> by lia. reflexivity.
      * intros q Hq. cbn in Hq. destruct (q =? 1024) eqn:E; [lia|reflexivity].
    + intros H. destruct (H [1] 1 8) as (x & Hx & Hh); [exists 1; reflexivity|]. cbn in Hx. injection Hx as <-. destruct Hh as (_ & Hh). specialize (Hh 0 ltac:(cbn; lia)). vm_compute in Hh. discriminate.
Qed.
Print Assumptions C51_base_dropped_refuted.

(** If a component is inserted twice, the stores come in reverse order and the
    first inserted value stays. *)
Theorem C51_twice_refuted :
  let i8 := TScalar 8 1 in let T := TStruct false [i8; i8] in
  let l := [Insertion [0] i8 (Sc (Some 1)); Insertion [0] i8 (Sc (Some 2)); Insertion [1] i8 (Sc (Some 3))] in
  exists V, (forall i, In i l -> good_insertion T i) /\ built (undef T) l = Some V /\
    exists m m', byte_memory m /\ run_iv 1024 T (emitted l) m m' /\ ~ object_holds m' 1024 T V.
Proof.
  cbv zeta. exists (Ag [Sc (Some 2); Sc (Some 3)]). split; [|split; [reflexivity|]].
  - intros i Hi. repeat destruct Hi as [<-|Hi]; try destruct Hi; (split; [repeat constructor; cbn; lia|]); (split; [eexists; reflexivity|exact I]).
  - assert (forall a v m, 0 <= v < 256 -> object_written a (TScalar 8 1) (Sc (Some v)) m (fun q => if q =? a then v else m q)) as Hw.
    { intros a v m Hv. split.
      - intros p o bits (al & Hp). destruct p as [|i p]; [|discriminate]. cbn in Hp. injection Hp as <- <- <-. exists (Some v). split; [reflexivity|]. split; [cbn; lia|].
        intros i Hi. change (bytes_needed 8) with 1 in Hi. assert (i = 0) as -> by lia. rewrite !Z.add_0_r, Z.eqb_refl. unfold byte_of. rewrite Z.mul_0_r, Z.pow_0_r, Z.div_1_r. apply Z.mod_small. lia.
      - intros q Hq. cbn in Hq. destruct (q =? a) eqn:E; [lia|reflexivity]. }
    exists (fun _ => 0). eexists. split; [intros a; lia|]. split.
    + cbn [emitted map rev app in_idx in_type in_val]. econstructor; [reflexivity|apply Hw; lia|]. econstructor; [reflexivity|apply Hw; lia|]. econstructor; [reflexivity|apply Hw; lia|constructor].
    + intros H. destruct (H [0] 0 8) as (x & Hx & Hh); [exists 1; reflexivity|]. cbn in Hx. injection Hx as <-. destruct Hh as (_ & Hh). specialize (Hh 0 ltac:(cbn; lia)). vm_compute in Hh. discriminate.
Qed.
Print Assumptions C51_twice_refuted.

Example C51_nonvacuous :
  let i8 := TScalar 8 1 in let i32 := TScalar 32 4 in let T := TStruct false [i8; TArray 2 i32] in
  let l := [Insertion [1; 1] i32 (Sc (Some 70000)); Insertion [0] i8 (Sc (Some 5))] in
  ty_ok T /\ (forall i, In i l -> good_insertion T i /\ typed (in_type i) (in_val i)) /\ all_apart l /\
  built (undef T) l = Some (Ag [Sc (Some 5); Ag [Sc None; Sc (Some 70000)]]).
Proof.
  cbv zeta. split; [cbn; lia|]. split; [|split; [|reflexivity]].
  - intros i Hi. repeat destruct Hi as [<-|Hi]; try destruct Hi; (split; [split; [repeat constructor; cbn; lia|split; [eexists; reflexivity|exact I]]|split; [exact I|]]);
      intros p o bits z (al & Hp) Hz; (destruct p as [|j p]; [|discriminate]); cbn in Hp, Hz; injection Hp as <- <- <-; injection Hz as <-; lia.
  - cbn. repeat split; try contradiction. intros j [<-|[]]. apply compare_apart. reflexivity.
Qed.
