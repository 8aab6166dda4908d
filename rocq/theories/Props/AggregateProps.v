(** C29: static initializers; C30: splitting of aggregate loads and stores. *)
From Coq Require Import ZArith List Bool String Lia ZifyBool.
From Verif.Spec Require Import ByteMemory Aggregates.
From Verif.Model Require Import Globals SplitAggregateValue CodifyStaticInits.
From Verif.Proofs Require Import ByteMem AggregateProofs.
Import ListNotations.
Open Scope string_scope.
Open Scope list_scope.
Open Scope Z_scope.

(** * C30 *)

Lemma load_chain : forall T m P, ty_ok T -> forall l V V', shaped T V ->
  (forall e, In e l -> exists p o bits, scalar_at T p o bits /\ e = LoadPart (getFirsts (index_of p)) (getSeconds (index_of p))) ->
  run_load_parts m P T l V V' ->
  shaped T V' /\
  (forall p o bits, scalar_at T p o bits -> In (LoadPart (getFirsts (index_of p)) (getSeconds (index_of p))) l ->
     exists z, extractvalue V' p = Some (Sc (Some z)) /\ reads_as (fun i => P + o + i) (bytes_needed bits) m z) /\
  (forall p o bits, scalar_at T p o bits -> ~ In (LoadPart (getFirsts (index_of p)) (getSeconds (index_of p))) l ->
     extractvalue V' p = extractvalue V p).
Proof.
  intros T m P Hok l V V' HV Hl Hrun. revert HV Hl. induction Hrun as [V|e l V V1 V2 He Hrun IH]; intros HV Hl.
  - split; [exact HV|]. split; [intros p o bits _ []|reflexivity].
  - destruct (Hl e (or_introl eq_refl)) as (p & o & bits & Hp & ->). destruct He as (o' & bits' & a' & z & Hg & Hz & Hi). cbn [lp_gep lp_insert] in *.
    rewrite index_gep in Hg. rewrite index_seconds in Hi. pose proof Hp as (a & Hp'). rewrite Hp' in Hg. injection Hg as <- <- <-.
    destruct (insert_facts p T V o bits (Some z) HV Hp) as (V1' & I1 & I2 & I3 & I4). rewrite Hi in I1. injection I1 as <-.
    destruct (IH I2 ltac:(intros; apply Hl; now right)) as (J1 & J2 & J3). split; [exact J1|].
    assert (forall q, LoadPart (getFirsts (index_of p)) (getSeconds (index_of p)) = LoadPart (getFirsts (index_of q)) (getSeconds (index_of q)) -> p = q) as Hinj.
    { intros q E. injection E as _ E. now rewrite !index_seconds in E. }
    split.
    + intros q o2 b2 Hq Hin.
      destruct (in_dec (fun x y : load_part => ltac:(repeat decide equality) : {x = y} + {x <> y}) (LoadPart (getFirsts (index_of q)) (getSeconds (index_of q))) l) as [Hd|Hd]; [now apply (J2 q)|].
      destruct Hin as [E|Hin]; [|contradiction]. apply Hinj in E. subst q. rewrite (J3 p o2 b2 Hq Hd), I3.
      destruct Hq as (a2 & Hq). rewrite Hp' in Hq. injection Hq as <- <- <-. eauto.
    + intros q o2 b2 Hq Hin. rewrite (J3 q o2 b2 Hq ltac:(intros H; apply Hin; now right)).
      apply (I4 q o2 b2 Hq). intros ->. apply Hin. now left.
Qed.

Lemma load_parts_in : forall T c, ty_ok T -> forall e, In e (splitAggregateLoad (visitAggregateValue c T [])) <->
  exists p o bits, scalar_at T p o bits /\ e = LoadPart (getFirsts (index_of p)) (getSeconds (index_of p)).
Proof.
  intros T c Hok e. unfold splitAggregateLoad. rewrite in_map_iff. split.
  - intros (x & <- & Hx). apply (visit_spec T c [] Hok) in Hx as (p & o & bits & Hp & ->). exists p, o, bits. auto.
  - intros (p & o & bits & Hp & ->). exists (index_of p, get_base c p). split; [reflexivity|]. apply (visit_spec T c [] Hok). exists p, o, bits. auto.
Qed.

Lemma load_exists : forall T m P, ty_ok T -> byte_memory m -> forall l V, shaped T V ->
  (forall e, In e l -> exists p o bits, scalar_at T p o bits /\ e = LoadPart (getFirsts (index_of p)) (getSeconds (index_of p))) ->
  exists V', run_load_parts m P T l V V'.
Proof.
  intros T m P Hok Hm. induction l as [|e l IH]; intros V HV Hl; [exists V; constructor|].
  destruct (Hl e (or_introl eq_refl)) as (p & o & bits & Hp & ->).
  destruct (scalar_range T p o bits Hok Hp) as (Hb & _). destruct (bytes_bits bits Hb) as (B1 & B2).
  destruct (reads_exist (bytes_needed bits) (fun i => P + o + i) m ltac:(lia) Hm) as (z & Hz).
  destruct (insert_facts p T V o bits (Some z) HV Hp) as (V1 & I1 & I2 & _).
  destruct (IH V1 I2 ltac:(intros; apply Hl; now right)) as (V' & HV'). exists V'. econstructor; [|exact HV'].
  destruct Hp as (a & Hp). exists o, bits, a, z. cbn [lp_gep lp_insert]. rewrite index_gep, index_seconds. auto.
Qed.

Lemma object_value_unique : forall m P T V W, ty_ok T -> object_value m P T V -> object_value m P T W -> V = W.
Proof.
  intros m P T V W Hok (HV & Hv) (HW & Hw). apply (shaped_ext T); auto. intros p o b Hp.
  destruct (Hv p o b Hp) as (z & -> & Hz). destruct (Hw p o b Hp) as (z' & -> & Hz').
  destruct (scalar_range T p o b Hok Hp) as (Hb & _). destruct (bytes_bits b Hb) as (B1 & B2).
  rewrite (reads_as_unique _ (bytes_needed b) _ z z' ltac:(lia) Hz Hz'). reflexivity.
Qed.

(** The loads that replace the load of an aggregate compute exactly the value of
    the object in memory. *)
Theorem C30_load : forall T m P V, ty_ok T -> byte_memory m ->
  run_load_parts m P T (split_load T) (undef T) V <-> object_value m P T V.
Proof.
  intros T m P V Hok Hm.
  assert (forall W, run_load_parts m P T (split_load T) (undef T) W -> object_value m P T W) as Hr.
  { intros W H. destruct (load_chain T m P Hok (split_load T) (undef T) W (undef_shaped T Hok)) as (H1 & H2 & _); auto.
    - intros e He. now apply (load_parts_in T None Hok) in He.
    - split; [exact H1|]. intros p o bits Hp. apply (H2 p o bits Hp). apply (load_parts_in T None Hok). exists p, o, bits. auto. }
  split; [apply Hr|]. intros HV.
  destruct (load_exists T m P Hok Hm (split_load T) (undef T) (undef_shaped T Hok)) as (W & HW).
  { intros e He. now apply (load_parts_in T None Hok) in He. }
  rewrite (object_value_unique m P T V W Hok HV (Hr W HW)). exact HW.
Qed.
Print Assumptions C30_load.

(** The places written by the parts of a store. *)
Definition places_of (P : Z) (T : ty) (V : agg) (l : list store_part) (ps : list place) : Prop :=
  Forall2 (fun e x => exists p o bits v, scalar_at T p o bits /\ sp_gep e = getFirsts (index_of p) /\
      extractvalue V p = Some (Sc v) /\ match sp_val e with StoreConst c => Some c | StoreExtract q => extractvalue V q end = Some (Sc v) /\
      x = (P + o, bits, v)) l ps.

Lemma store_parts_places : forall T V c, ty_ok T -> shaped T V -> c = None \/ c = Some V ->
  forall P, exists ps, places_of P T V (split_store T c) ps /\
    forall x, In x ps <-> exists p o bits v, scalar_at T p o bits /\ extractvalue V p = Some (Sc v) /\ x = (P + o, bits, v).
Proof.
  intros T V c Hok HV Hc P. unfold split_store, splitAggregateStore.
  assert (forall e, In e (visitAggregateValue c T []) -> exists p o bits v, scalar_at T p o bits /\ extractvalue V p = Some (Sc v) /\
            e = (index_of p, get_base c p)) as Hall.
  { intros e He. apply (visit_spec T c [] Hok) in He as (p & o & bits & Hp & ->). pose proof Hp as (a & Hp').
    destruct (shaped_component p T V o _ HV Hp') as (w & Hw & Hsw). destruct w as [v|l]; [|destruct Hsw]. exists p, o, bits, v. auto. }
  assert (forall p o bits v, scalar_at T p o bits -> extractvalue V p = Some (Sc v) -> In (index_of p, get_base c p) (visitAggregateValue c T [])) as Hin.
  { intros p o bits v Hp _. apply (visit_spec T c [] Hok). exists p, o, bits. auto. }
  assert (forall l, (forall e, In e l -> In e (visitAggregateValue c T [])) -> exists ps,
    places_of P T V (map (fun e => StorePart (match snd e with Some c => StoreConst c | None => StoreExtract (getSeconds (fst e)) end) (getFirsts (fst e))) l) ps /\
    forall x, In x ps <-> exists p o bits v, scalar_at T p o bits /\ extractvalue V p = Some (Sc v) /\ In (index_of p, get_base c p) l /\ x = (P + o, bits, v)) as Hgen.
  { induction l as [|e l IH]; intros Hl.
    - exists []. split; [constructor|]. intros x. split; [intros []|]. intros (p & o & bits & v & _ & _ & [] & _).
    - destruct (IH ltac:(intros; apply Hl; now right)) as (ps & P1 & P2).
      destruct (Hall e (Hl e (or_introl eq_refl))) as (p & o & bits & v & Hp & Hv & ->).
      exists ((P + o, bits, v) :: ps). split.
      + constructor; [|exact P1]. exists p, o, bits, v. cbn [fst snd sp_val sp_gep]. split; [exact Hp|]. split; [reflexivity|]. split; [exact Hv|].
        split; [|reflexivity]. destruct Hc as [->| ->].
        * rewrite get_base_none, index_seconds. exact Hv.
        * rewrite (get_base_extract p V _ Hv). reflexivity.
      + intros x. cbn [In]. rewrite P2. split.
        * intros [<-|(q & o2 & b2 & v2 & Q1 & Q2 & Q3 & ->)]; [exists p, o, bits, v; auto|exists q, o2, b2, v2; auto 6].
        * intros (q & o2 & b2 & v2 & Q1 & Q2 & [E|Q3] & ->); [|right; exists q, o2, b2, v2; auto].
          left. injection E as E _. apply (f_equal getSeconds) in E. rewrite !index_seconds in E. subst q.
          rewrite Hv in Q2. injection Q2 as <-. destruct Hp as (a & Hp), Q1 as (a' & Q1). rewrite Hp in Q1. now injection Q1 as <- <- _. }
  destruct (Hgen (visitAggregateValue c T []) ltac:(auto)) as (ps & P1 & P2). exists ps. split; [exact P1|].
  intros x. rewrite P2. split.
  - intros (p & o & bits & v & H1 & H2 & _ & ->). exists p, o, bits, v. auto.
  - intros (p & o & bits & v & H1 & H2 & ->). exists p, o, bits, v. split; [exact H1|]. split; [exact H2|]. split; [now apply (Hin p o bits v)|reflexivity].
Qed.

Lemma run_places : forall P T V l ps, places_of P T V l ps -> forall m m', run_store_parts P T V l m m' <-> stores ps m m'.
Proof.
  intros P T V l ps H. induction H as [|e x l ps (p & o & bits & v & Hp & Hg & Hx & Hv & ->) H IH]; intros m m'.
  - split; intros K; inversion K; subst; constructor.
  - destruct Hp as (a & Hp). split; intros K; inversion K; subst.
    + econstructor; [|apply IH; eauto]. destruct H2 as (o' & bits' & a' & v' & G1 & G2 & G3). rewrite Hg, index_gep, Hp in G1.
      injection G1 as <- <- <-. rewrite Hv in G2. injection G2 as <-. exact G3.
    + econstructor; [|apply IH; eauto]. exists o, bits, a, v. rewrite Hg, index_gep. auto.
Qed.

Lemma places_facts : forall P T V ps, ty_ok T -> typed T V ->
  (forall x, In x ps <-> exists p o bits v, scalar_at T p o bits /\ extractvalue V p = Some (Sc v) /\ x = (P + o, bits, v)) ->
  (forall a b v a' b' v', In (a, b, v) ps -> In (a', b', v') ps -> (a, b, v) = (a', b', v') \/ a + bytes_needed b <= a' \/ a' + bytes_needed b' <= a) /\
  (forall a b z, In (a, b, Some z) ps -> 1 <= b /\ 0 <= z < 2 ^ b) /\
  (forall a b v, In (a, b, v) ps -> P <= a /\ a + bytes_needed b <= P + asize T).
Proof.
  intros P T V ps Hok (HV & Hr) Hps. split; [|split].
  - intros a b v a' b' v' H1 H2. apply Hps in H1 as (p & o & bits & x & Hp & Hx & E). injection E as -> -> ->.
    apply Hps in H2 as (q & o2 & b2 & y & Hq & Hy & E). injection E as -> -> ->.
    destruct (scalars_apart p T q o bits o2 b2 Hok Hp Hq) as [->|H]; [|lia]. left. rewrite Hx in Hy. injection Hy as ->.
    destruct Hp as (a1 & Hp), Hq as (a2 & Hq). rewrite Hp in Hq. now injection Hq as <- <- _.
  - intros a b z H. apply Hps in H as (p & o & bits & x & Hp & Hx & E). injection E as -> -> <-.
    destruct (scalar_range T p o bits Hok Hp) as (Hb & _). split; [exact Hb|]. now apply (Hr p o bits z).
  - intros a b v H. apply Hps in H as (p & o & bits & x & Hp & Hx & E). injection E as -> -> ->.
    destruct (scalar_range T p o bits Hok Hp) as (Hb & H1 & H2). lia.
Qed.

(** The stores that replace the store of an aggregate value [V], a constant or not:
    they can be executed, afterwards the object has the value [V], and bytes
    outside of the object are unchanged. *)
Theorem C30_store : forall T V c P m, ty_ok T -> typed T V -> c = None \/ c = Some V -> byte_memory m ->
  (exists m', run_store_parts P T V (split_store T c) m m') /\
  forall m', run_store_parts P T V (split_store T c) m m' ->
    object_holds m' P T V /\ (forall a, ~ (P <= a < P + asize T) -> m' a = m a).
Proof.
  intros T V c P m Hok HV Hc Hm. destruct (store_parts_places T V c Hok (proj1 HV) Hc P) as (ps & P1 & P2).
  destruct (places_facts P T V ps Hok HV P2) as (F1 & F2 & F3). split.
  - destruct (stores_exist ps m Hm) as (m' & H & _). exists m'. now apply (run_places P T V _ ps P1).
  - intros m' H. apply (run_places P T V _ ps P1) in H. split.
    + intros p o bits Hp. pose proof Hp as (a & Hp'). destruct (shaped_component p T V o _ (proj1 HV) Hp') as (w & Hw & Hsw).
      destruct w as [x|l]; [|destruct Hsw]. exists x. split; [exact Hw|].
      apply (stores_hold ps m m' H F1 F2 (P + o) bits x). apply P2. exists p, o, bits, x. auto.
    + intros a Ha. apply (stores_frame ps m m' H). intros a' b v Hin. apply F3 in Hin. lia.
Qed.
Print Assumptions C30_store.

(** Constant arguments and return values: storing the constant and loading it again
    gives the constant (any value for its undef components). *)
Theorem C30_constant : forall T c P m m' V, ty_ok T -> typed T c -> byte_memory m ->
  run_store_parts P T c (fst (split_constant T c)) m m' -> run_load_parts m' P T (snd (split_constant T c)) (undef T) V ->
  shaped T V /\ forall p o bits z, scalar_at T p o bits -> extractvalue c p = Some (Sc (Some z)) -> extractvalue V p = Some (Sc (Some z)).
Proof.
  intros T c P m m' V Hok Hc Hm Hs Hl.
  destruct (C30_store T c (Some c) P m Hok Hc (or_intror eq_refl) Hm) as (_ & H). destruct (H m' Hs) as (H1 & _).
  assert (forall e, In e (snd (split_constant T c)) <-> exists p o bits, scalar_at T p o bits /\ e = LoadPart (getFirsts (index_of p)) (getSeconds (index_of p))) as He
    by apply (load_parts_in T (Some c) Hok).
  destruct (load_chain T m' P Hok _ _ V (undef_shaped T Hok) (fun e Hin => proj1 (He e) Hin) Hl) as (L1 & L2 & _).
  split; [exact L1|]. intros p o bits z Hp Hz. destruct (H1 p o bits Hp) as (x & Hx & Hh). rewrite Hz in Hx. injection Hx as <-.
  destruct (L2 p o bits Hp) as (z' & -> & Hr); [apply He; exists p, o, bits; auto|].
  destruct (scalar_range T p o bits Hok Hp) as (Hb & _). destruct (bytes_bits bits Hb) as (B1 & B2).
  rewrite (reads_as_unique _ (bytes_needed bits) _ z z' ltac:(lia) Hh Hr). reflexivity.
Qed.
Print Assumptions C30_constant.

(** struct { char; struct { short; int }[2] } *)
Definition nested : ty := TStruct false [TScalar 8 1; TArray 2 (TStruct false [TScalar 16 2; TScalar 32 4])].
Example C30_nonvacuous : ty_ok nested /\ asize nested = 20 /\ scalar_at nested [1; 1; 1] 16 32 /\
  map lp_gep (split_load nested) = [[0; 0]; [0; 1; 0; 0]; [0; 1; 0; 1]; [0; 1; 1; 0]; [0; 1; 1; 1]] /\
  typed nested (Ag [Sc (Some 1); Ag [Ag [Sc (Some 2); Sc None]; Ag [Sc (Some 3); Sc (Some 4)]]]).
Proof.
  split; [cbn; lia|]. split; [reflexivity|]. split; [exists 4; reflexivity|]. split; [reflexivity|]. split.
  - cbn. repeat constructor.
  - intros p o bits z (a & Hp) Hz.
    destruct p as [|i p]; [discriminate|]. cbn in Hp, Hz. destruct (0 <=? i) eqn:E; [|discriminate].
    destruct (Z.to_nat i) as [|[|n]] eqn:En; cbn in Hp, Hz; [| |destruct n; discriminate].
    + destruct p as [|j p]; cbn in Hp, Hz; [|discriminate]. injection Hp as <- <- <-. injection Hz as <-. lia.
    + destruct p as [|j p]; [discriminate|]. cbn in Hp, Hz. destruct ((0 <=? j) && (j <? 2)) eqn:Ej; [|discriminate].
      replace (0 <=? j) with true in Hz by lia.
      destruct (Z.to_nat j) as [|[|n]] eqn:Ejn; cbn in Hz; [| |destruct n; discriminate].
      * destruct p as [|k p]; [discriminate|]. cbn in Hp, Hz. destruct (0 <=? k) eqn:Ek; [|discriminate].
        destruct (Z.to_nat k) as [|[|n]] eqn:Ekn; cbn in Hp, Hz; [| |destruct n; discriminate]; destruct p as [|k2 p]; cbn in Hp, Hz; try discriminate.
        injection Hp as <- <- <-. injection Hz as <-. lia.
      * destruct p as [|k p]; [discriminate|]. cbn in Hp, Hz. destruct (0 <=? k) eqn:Ek; [|discriminate].
        destruct (Z.to_nat k) as [|[|n]] eqn:Ekn; cbn in Hp, Hz; [| |destruct n; discriminate]; destruct p as [|k2 p]; cbn in Hp, Hz; try discriminate;
          injection Hp as <- <- <-; injection Hz as <-; lia.
Qed.

(** * C29 *)

(** All arrays have less than 2^32 elements. *)
Fixpoint arrays_small (t : ty) : Prop :=
  match t with
  | TScalar _ _ => True
  | TArray n t => n < 2 ^ 32 /\ arrays_small t
  | TStruct _ ts => fold_right (fun t P => arrays_small t /\ P) True ts
  end.

Lemma push_eq : forall kids P Ix wl,
  push_elements kids P Ix wl = map (fun k => match k with (i, T, A) => Item T A P (CodifyStaticInits.extend Ix i) end) kids ++ wl.
Proof.
  intros kids P Ix wl. unfold push_elements. rewrite <- fold_left_rev_right, rev_involutive.
  induction kids as [|[[i T] A] kids IH]; [reflexivity|]. cbn. now rewrite IH.
Qed.
Lemma extend_index : forall q i, CodifyStaticInits.extend (getFirsts (index_of q)) i = getFirsts (index_of (q ++ [i])).
Proof. intros q i. rewrite index_of_app, extend_firsts. unfold CodifyStaticInits.extend. destruct (getFirsts (index_of q)); reflexivity. Qed.

Definition child_types (T : ty) : list ty :=
  match T with TScalar _ _ => [] | TArray n T' => repeat T' (Z.to_nat n) | TStruct _ Ts => Ts end.
Lemma child_types_in : forall T i, ty_ok T -> 0 <= i -> option_map snd (child T i) = nth_error (child_types T) (Z.to_nat i).
Proof.
  intros [b a|n t|k ts] i Hok Hi; cbn [child child_types].
  - destruct (Z.to_nat i); reflexivity.
  - cbn in Hok. destruct ((0 <=? i) && (i <? n)) eqn:E.
    + symmetry. cbn. apply (nth_error_repeat t). lia.
    + symmetry. cbn. apply nth_error_None. rewrite repeat_length. lia.
  - replace (0 <=? i) with true by lia. generalize 0. generalize (Z.to_nat i). clear.
    induction ts as [|t ts IH]; intros n z; [destruct n; reflexivity|]. destruct n; [reflexivity|]. cbn. apply IH.
Qed.


Definition mk_item (P : global) (Ix : list Z) (k : Z * ty * agg) : item :=
  match k with (i, T, A) => Item T A P (CodifyStaticInits.extend Ix i) end.

(** The stores made for the constant [V] of type [T] at path [q]. *)
Definition stores_for (G : global) (T : ty) (V : agg) (q : list Z) (out : list init_store) : Prop :=
  forall e, In e out <-> exists p o bits a v, component T p = Some (o, TScalar bits a) /\ extractvalue V p = Some v /\
    e = InitStore (TScalar bits a) v G (getFirsts (index_of (q ++ p))).

Lemma option_map_app : forall (a b : list init_store) x, option_map (app a) (option_map (app b) x) = option_map (app (a ++ b)) x.
Proof. intros a b [x|]; cbn; [now rewrite app_assoc|reflexivity]. Qed.

Lemma codify_kids : forall G q Ts,
  (forall T, In T Ts -> forall V q, shaped T V -> exists k out, stores_for G T V q out /\
     forall fuel wl, codify (k + fuel) (Item T V G (getFirsts (index_of q)) :: wl) = option_map (app out) (codify fuel wl)) ->
  forall l pre, Forall2 (fun T v => shaped T v) Ts l -> let j := Z.of_nat (List.length pre) in
  exists kids k out, elements (Ag (pre ++ l)) j Ts = Some kids /\
    (forall fuel wl, codify (k + fuel) (map (mk_item G (getFirsts (index_of q))) kids ++ wl) = option_map (app out) (codify fuel wl)) /\
    (forall e, In e out <-> exists i T1 v1 p o bits a v, nth_error Ts i = Some T1 /\ nth_error l i = Some v1 /\
       component T1 p = Some (o, TScalar bits a) /\ extractvalue v1 p = Some v /\
       e = InitStore (TScalar bits a) v G (getFirsts (index_of (q ++ (j + Z.of_nat i) :: p)))).
Proof.
  intros G q Ts. induction Ts as [|T Ts IH]; intros HT l pre Hl j; inversion Hl as [|? v ? l' Hv Hl']; subst.
  - exists [], O, []. split; [reflexivity|]. split; [intros fuel wl; cbn; destruct (codify fuel wl); reflexivity|].
    intros e. split; [intros []|]. intros (i & T1 & v1 & p & o & bits & a & v & Hi & _). destruct i; discriminate.
  - destruct (IH ltac:(intros; apply HT; [now right|assumption]) l' (pre ++ [v]) Hl') as (kids & k & out & K1 & K2 & K3).
    assert (Z.of_nat (List.length (pre ++ [v])) = j + 1) as Ej by (rewrite app_length; cbn; lia). rewrite Ej in K1.
    destruct (HT T (or_introl eq_refl) v (q ++ [j]) Hv) as (k0 & out0 & S1 & S2).
    exists ((j, T, v) :: kids), (k0 + k)%nat, (out0 ++ out). split; [|split].
    + cbn [elements element]. replace (0 <=? j) with true by lia. unfold j at 1. rewrite Nat2Z.id, nth_error_app2, Nat.sub_diag by lia. cbn [nth_error].
      replace (pre ++ v :: l') with ((pre ++ [v]) ++ l') by now rewrite <- app_assoc. rewrite K1. reflexivity.
    + intros fuel wl. cbn [map mk_item app]. rewrite extend_index. rewrite <- Nat.add_assoc, S2, K2, option_map_app. reflexivity.
    + intros e. rewrite in_app_iff, K3, (S1 e), Ej. split.
      * intros [(p & o & bits & a & w & Hp & Hw & ->)|(i & T1 & v1 & p & o & bits & a & w & Hi & Hv1 & Hp & Hw & ->)].
        -- exists O, T, v, p, o, bits, a, w. rewrite Z.add_0_r. repeat split; auto. now rewrite <- app_assoc.
        -- exists (S i), T1, v1, p, o, bits, a, w. repeat split; auto. replace (j + Z.of_nat (S i)) with (j + 1 + Z.of_nat i) by lia. reflexivity.
      * intros ([|i] & T1 & v1 & p & o & bits & a & w & Hi & Hv1 & Hp & Hw & ->); cbn in Hi, Hv1.
        -- injection Hi as <-. injection Hv1 as <-. left. exists p, o, bits, a, w. repeat split; auto. rewrite Z.add_0_r, <- app_assoc. reflexivity.
        -- right. exists i, T1, v1, p, o, bits, a, w. repeat split; auto. replace (j + Z.of_nat (S i)) with (j + 1 + Z.of_nat i) by lia. reflexivity.
Qed.

Lemma codify_item : forall G T, ty_ok T -> arrays_small T -> forall V q, shaped T V -> exists k out, stores_for G T V q out /\
  forall fuel wl, codify (k + fuel) (Item T V G (getFirsts (index_of q)) :: wl) = option_map (app out) (codify fuel wl).
Proof.
  intros G. induction T as [b a|n t IH|kk ts IH] using ty_rect'; intros Hok Hsm V q HV.
  - exists 1%nat, [InitStore (TScalar b a) V G (getFirsts (index_of q))]. split.
    + intros e. split.
      * intros [<-|[]]. exists [], 0, b, a, V. rewrite app_nil_r. auto.
      * intros ([|i p] & o & bits & a' & v & Hp & Hv & ->); [|discriminate]. cbn in Hp, Hv. injection Hp as <- <- <-. injection Hv as <-.
        rewrite app_nil_r. now left.
    + intros fuel wl. reflexivity.
  - destruct V as [x|l]; [destruct HV|]. destruct HV as [Hlen HF]. destruct Hok as [Hn Hok], Hsm as [Hn2 Hsm].
    assert (Forall2 (fun T v => shaped T v) (repeat t (Z.to_nat n)) l) as H2.
    { clear - Hlen HF. replace (Z.to_nat n) with (List.length l) by lia. clear Hlen. induction HF; cbn; constructor; auto. }
    destruct (codify_kids G q (repeat t (Z.to_nat n)) ltac:(intros T HT; apply repeat_spec in HT; subst; auto) l [] H2) as (kids & k & out & K1 & K2 & K3).
    exists (S k), out. split.
    + intros e. rewrite (K3 e). split.
      * intros (i & T1 & v1 & p & o & bits & a & v & Hi & Hv1 & Hp & Hv & ->).
        assert ((i < List.length l)%nat) as Hil by (apply nth_error_Some; congruence).
        assert (T1 = t) as -> by (apply nth_error_In in Hi; now apply repeat_spec in Hi).
        exists (Z.of_nat i :: p), (Z.of_nat i * asize t + o), bits, a, v. split; [|split; [|reflexivity]].
        -- cbn [component child]. replace ((0 <=? Z.of_nat i) && (Z.of_nat i <? n)) with true by lia. now rewrite Hp.
        -- cbn [extractvalue element]. replace (0 <=? Z.of_nat i) with true by lia. rewrite Nat2Z.id, Hv1. exact Hv.
      * intros ([|i p] & o & bits & a & v & Hp & Hv & ->); [discriminate|]. cbn [component child] in Hp.
        destruct ((0 <=? i) && (i <? n)) eqn:E; [|discriminate]. destruct (component t p) as [[o2 s2]|] eqn:E2; [|discriminate].
        injection Hp as <- ->. cbn [extractvalue element] in Hv. replace (0 <=? i) with true in Hv by lia.
        destruct (nth_error l (Z.to_nat i)) as [v1|] eqn:Ev; [|discriminate].
        exists (Z.to_nat i), t, v1, p, o2, bits, a, v. split; [apply nth_error_repeat; lia|]. repeat split; auto.
        cbn [List.length]. replace (Z.of_nat 0 + Z.of_nat (Z.to_nat i)) with i by lia. reflexivity.
    + intros fuel wl. cbn [Nat.add codify]. unfold u32. rewrite Z.mod_small by lia. cbn [app List.length] in K1.
      change (Z.of_nat 0) with 0 in K1. rewrite K1, push_eq. apply K2.
  - destruct V as [x|l]; [destruct HV|]. cbn in HV. pose proof Hok as Hok'. apply ty_ok_struct in Hok.
    assert (Forall2 (fun T v => shaped T v) ts l) as H2.
    { clear - HV. revert l HV. induction ts as [|t ts IHt]; intros l HV; cbn in HV; inversion HV; subst; constructor; auto. }
    destruct (codify_kids G q ts) with (l := l) (pre := @nil agg) as (kids & k & out & K1 & K2 & K3); [|exact H2|].
    { intros T HT. rewrite Forall_forall in IH, Hok. apply (IH T HT); [now apply Hok|]. clear - Hsm HT. cbn in Hsm.
      induction ts as [|t ts IHt]; [destruct HT|]. cbn in Hsm. destruct HT as [<-|HT]; [apply Hsm|]. apply IHt; [apply Hsm|exact HT]. }
    exists (S k), out. split.
    + intros e. rewrite (K3 e). split.
      * intros (i & T1 & v1 & p & o & bits & a & v & Hi & Hv1 & Hp & Hv & ->).
        destruct (child_struct_inv kk ts (Z.of_nat i) T1 ltac:(lia) ltac:(now rewrite Nat2Z.id)) as (o1 & Hc).
        exists (Z.of_nat i :: p), (o1 + o), bits, a, v. split; [|split; [|reflexivity]].
        -- cbn [component]. now rewrite Hc, Hp.
        -- cbn [extractvalue element]. replace (0 <=? Z.of_nat i) with true by lia. rewrite Nat2Z.id, Hv1. exact Hv.
      * intros ([|i p] & o & bits & a & v & Hp & Hv & ->); [discriminate|]. cbn [component] in Hp.
        destruct (child (TStruct kk ts) i) as [[o1 t1]|] eqn:E; [|discriminate]. destruct (component t1 p) as [[o2 s2]|] eqn:E2; [|discriminate].
        injection Hp as <- ->. destruct (child_struct kk ts i o1 t1 E) as (Hi & Hn).
        cbn [extractvalue element] in Hv. replace (0 <=? i) with true in Hv by lia.
        destruct (nth_error l (Z.to_nat i)) as [v1|] eqn:Ev; [|discriminate].
        exists (Z.to_nat i), t1, v1, p, o2, bits, a, v. repeat split; auto. cbn [List.length]. replace (Z.of_nat 0 + Z.of_nat (Z.to_nat i)) with i by lia. reflexivity.
    + intros fuel wl. cbn [Nat.add codify]. cbn [app List.length] in K1. change (Z.of_nat 0) with 0 in K1. rewrite K1, push_eq. apply K2.
Qed.

(** The initializers of the globals that are read. *)
Definition initialized (globals : list global) (G : global) (V : agg) : Prop :=
  In G globals /\ g_init G = Some V /\ g_read G = true.

(** Globals of proper types with proper initializers, at disjoint addresses. *)
Definition good_module (globals : list global) (addr : nat -> Z) : Prop :=
  (forall G V, initialized globals G V -> ty_ok (g_type G) /\ arrays_small (g_type G) /\ typed (g_type G) V) /\
  (forall G V G' V', initialized globals G V -> initialized globals G' V' ->
     G = G' \/ addr (g_id G) + asize (g_type G) <= addr (g_id G') \/ addr (g_id G') + asize (g_type G') <= addr (g_id G)).

Lemma static_init_out : forall globals, (forall G V, initialized globals G V -> ty_ok (g_type G) /\ arrays_small (g_type G) /\ shaped (g_type G) V) ->
  exists k out, (forall fuel, static_init (k + fuel) globals = Some out) /\
    forall e, In e out <-> exists G V p o bits a v, initialized globals G V /\ component (g_type G) p = Some (o, TScalar bits a) /\
      extractvalue V p = Some v /\ e = InitStore (TScalar bits a) v G (getFirsts (index_of p)).
Proof.
  intros globals Hg.
  assert (forall l, (forall G, In G l -> In G globals) -> exists k out, (forall fuel, codify (k + fuel) (initial l) = Some out) /\
    forall e, In e out <-> exists G V p o bits a v, (In G l /\ g_init G = Some V /\ g_read G = true) /\ component (g_type G) p = Some (o, TScalar bits a) /\
      extractvalue V p = Some v /\ e = InitStore (TScalar bits a) v G (getFirsts (index_of p))) as Hl.
  { induction l as [|G l IH]; intros Hsub.
    - exists O, []. split; [intros fuel; cbn; destruct fuel; reflexivity|]. intros e. split; [intros []|].
      intros (G & V & p & o & bits & a & v & ([] & _) & _).
    - destruct (IH ltac:(intros; apply Hsub; now right)) as (k & out & H1 & H2). cbn [initial flat_map].
      fold (initial l). destruct (g_init G) as [V|] eqn:EV; [destruct (g_read G) eqn:ER|].
      + destruct (Hg G V) as (T1 & T2 & T3); [split; [apply Hsub; now left|auto]|].
        destruct (codify_item G (g_type G) T1 T2 V [] T3) as (k0 & out0 & S1 & S2).
        exists (k0 + k)%nat, (out0 ++ out). split.
        * intros fuel. change (getFirsts (index_of [])) with (@nil Z) in S2. cbn [app]. rewrite <- Nat.add_assoc, S2, H1. reflexivity.
        * intros e. rewrite in_app_iff, (S1 e), H2. split.
          -- intros [(p & o & bits & a & v & Hp & Hv & ->)|(G' & V' & p & o & bits & a & v & (I1 & I2) & Hp & Hv & ->)].
             ++ exists G, V, p, o, bits, a, v. repeat split; auto. now left.
             ++ exists G', V', p, o, bits, a, v. repeat split; auto; try tauto. now right.
          -- intros (G' & V' & p & o & bits & a & v & ([<-|I1] & I2 & I3) & Hp & Hv & ->).
             ++ left. rewrite EV in I2. injection I2 as <-. exists p, o, bits, a, v. auto.
             ++ right. exists G', V', p, o, bits, a, v. auto 6.
      + exists k, out. split; [exact H1|]. intros e. rewrite H2. split.
        * intros (G' & V' & p & o & bits & a & v & (I1 & I2) & Hp & Hv & ->). exists G', V', p, o, bits, a, v. repeat split; auto; try tauto. now right.
        * intros (G' & V' & p & o & bits & a & v & ([<-|I1] & I2 & I3) & Hp & Hv & ->); [congruence|]. exists G', V', p, o, bits, a, v. auto 6.
      + exists k, out. split; [exact H1|]. intros e. rewrite H2. split.
        * intros (G' & V' & p & o & bits & a & v & (I1 & I2) & Hp & Hv & ->). exists G', V', p, o, bits, a, v. repeat split; auto; try tauto. now right.
        * intros (G' & V' & p & o & bits & a & v & ([<-|I1] & I2 & I3) & Hp & Hv & ->); [congruence|]. exists G', V', p, o, bits, a, v. auto 6. }
  destruct (Hl globals ltac:(auto)) as (k & out & H1 & H2). exists k, out. auto.
Qed.

(** Executing the generated procedure is a sequence of stores to those places. *)
Lemma run_init_places : forall addr l, (forall e, In e l -> exists G p o bits a x, component (g_type G) p = Some (o, TScalar bits a) /\
    e = InitStore (TScalar bits a) (Sc x) G (getFirsts (index_of p))) ->
  exists ps, (forall m m', run_init_stores addr l m m' <-> stores ps m m') /\
    forall x, In x ps <-> exists G p o bits a v, component (g_type G) p = Some (o, TScalar bits a) /\
      In (InitStore (TScalar bits a) (Sc v) G (getFirsts (index_of p))) l /\ x = (addr (g_id G) + o, bits, v).
Proof.
  intros addr. induction l as [|e l IH]; intros Hl.
  - exists []. split; [intros m m'; split; intros H; inversion H; subst; constructor|]. intros x. split; [intros []|].
    intros (G & p & o & bits & a & v & _ & [] & _).
  - destruct (IH ltac:(intros; apply Hl; now right)) as (ps & P1 & P2). destruct (Hl e (or_introl eq_refl)) as (G & p & o & bits & a & x & Hp & ->).
    exists ((addr (g_id G) + o, bits, x) :: ps). split.
    + intros m m'. split; intros H; inversion H; subst.
      * econstructor; [|apply P1; eauto]. destruct H2 as (o' & bits' & a' & v' & G1 & G2 & G3). cbn [is_global is_idxs is_val] in *.
        rewrite index_gep, Hp in G1. injection G1 as <- <- <-. injection G2 as <-. exact G3.
      * econstructor; [|apply P1; eauto]. exists o, bits, a, x. cbn [is_global is_idxs is_val]. rewrite index_gep. auto.
    + intros y. cbn [In]. rewrite P2. split.
      * intros [<-|(G' & q & o2 & b2 & a2 & v2 & Q1 & Q2 & ->)]; [exists G, p, o, bits, a, x; auto|exists G', q, o2, b2, a2, v2; auto].
      * intros (G' & q & o2 & b2 & a2 & v2 & Q1 & [E|Q2] & ->); [|right; exists G', q, o2, b2, a2, v2; auto].
        left. injection E as <- <- <- <- E. assert (p = q) as <-.
        { rewrite !index_firsts in E. destruct p, q; congruence. }
        rewrite Hp in Q1. now injection Q1 as <-.
Qed.

(** The procedure is generated, it can be executed from any memory, and when it has
    been, every global that is read holds its initializer; bytes outside of these
    globals are unchanged. *)
Theorem C29_static_init : forall globals addr, good_module globals addr ->
  exists code, (exists fuel, static_init fuel globals = Some code) /\
    (forall fuel c, static_init fuel globals = Some c -> c = code) /\
    forall m, byte_memory m ->
      (exists m', run_init_stores addr code m m') /\
      forall m', run_init_stores addr code m m' ->
        (forall G V, initialized globals G V -> object_holds m' (addr (g_id G)) (g_type G) V) /\
        (forall q, (forall G V, initialized globals G V -> ~ (addr (g_id G) <= q < addr (g_id G) + asize (g_type G))) -> m' q = m q).
Proof.
  intros globals addr (Hg & Hd).
  destruct (static_init_out globals) as (k & out & H1 & H2).
  { intros G V H. destruct (Hg G V H) as (? & ? & ? & ?). auto. }
  exists out. split; [exists (k + 0)%nat; apply H1|]. split.
  { assert (forall f wl c, codify f wl = Some c -> forall g, codify (f + g) wl = Some c) as Hmono.
    { induction f as [|f IH]; intros wl c H g; destruct wl as [|[T V P Ix] wl]; cbn [codify Nat.add] in *; try (destruct g; exact H); try discriminate; try exact H.
      destruct T as [b a|n t|kk ts].
      - destruct (codify f wl) as [c'|] eqn:E; [|discriminate]. rewrite (IH _ _ E g). exact H.
      - destruct (elements V 0 (repeat t (Z.to_nat (u32 n)))); [|discriminate]. now apply IH.
      - destruct (elements V 0 ts); [|discriminate]. now apply IH. }
    intros fuel c H. unfold static_init in *. apply Hmono with (g := k) in H. rewrite Nat.add_comm in H. rewrite H1 in H. congruence. }
  intros m Hm.
  destruct (run_init_places addr out) as (ps & P1 & P2).
  { intros e He. apply H2 in He as (G & V & p & o & bits & a & v & Hi & Hp & Hv & ->). destruct (Hg G V Hi) as (T1 & T2 & T3 & _).
    destruct (shaped_component p _ V o _ T3 Hp) as (w & Hw & Hsw). rewrite Hv in Hw. injection Hw as <-. destruct v as [x|l]; [|destruct Hsw].
    exists G, p, o, bits, a, x. auto. }
  assert (forall x, In x ps <-> exists G V p o bits v, initialized globals G V /\ scalar_at (g_type G) p o bits /\ extractvalue V p = Some (Sc v) /\
            x = (addr (g_id G) + o, bits, v)) as Hps.
  { intros x. rewrite P2. split.
    - intros (G & p & o & bits & a & v & Hp & Hin & ->). apply H2 in Hin as (G' & V & q & o2 & b2 & a2 & v2 & Hi & Hq & Hv & E).
      injection E as <- <- <- <- E. assert (p = q) as <- by (rewrite !index_firsts in E; destruct p, q; congruence).
      exists G, V, p, o, bits, v. repeat split; try apply Hi; auto. exists a. exact Hp.
    - intros (G & V & p & o & bits & v & Hi & (a & Hp) & Hv & ->). exists G, p, o, bits, a, v. split; [exact Hp|]. split; [|reflexivity].
      apply H2. exists G, V, p, o, bits, a, (Sc v). auto. }
  split.
  - destruct (stores_exist ps m Hm) as (m' & H & _). exists m'. now apply P1.
  - intros m' H. apply P1 in H. split.
    + intros G V Hi p o bits Hp. pose proof Hp as (a & Hp'). destruct (Hg G V Hi) as (T1 & T2 & T3 & T4).
      destruct (shaped_component p _ V o _ T3 Hp') as (w & Hw & Hsw). destruct w as [x|l]; [|destruct Hsw]. exists x. split; [exact Hw|].
      apply (stores_hold ps m m' H).
      * intros a1 b1 v1 a2 b2 v2 I1 I2. apply Hps in I1 as (G1 & V1 & p1 & o1 & bb1 & x1 & J1 & K1 & L1 & E). injection E as -> -> ->.
        apply Hps in I2 as (G2 & V2 & p2 & o2 & bb2 & x2 & J2 & K2 & L2 & E). injection E as -> -> ->.
        destruct (Hg G1 V1 J1) as (U1 & _). destruct (Hg G2 V2 J2) as (U2 & _).
        pose proof (scalar_range _ _ _ _ U1 K1). pose proof (scalar_range _ _ _ _ U2 K2).
        destruct (Hd G1 V1 G2 V2 J1 J2) as [E|E]; [|right; lia]. subst G2.
        assert (V1 = V2) as <- by (destruct J1 as (_ & J1 & _), J2 as (_ & J2 & _); congruence).
        destruct (scalars_apart _ _ _ _ _ _ _ U1 K1 K2) as [->|E]; [|right; lia]. left. rewrite L1 in L2. injection L2 as ->.
        destruct K1 as (c1 & K1), K2 as (c2 & K2). rewrite K1 in K2. now injection K2 as <- <- _.
      * intros a1 b1 z I1. apply Hps in I1 as (G1 & V1 & p1 & o1 & bb1 & x1 & J1 & K1 & L1 & E). injection E as -> -> <-.
        destruct (Hg G1 V1 J1) as (U1 & _ & _ & U4). split; [apply (scalar_range _ _ _ _ U1 K1)|]. now apply (U4 p1 o1 bb1).
      * apply Hps. exists G, V, p, o, bits, x. auto.
    + intros q Hq. apply (stores_frame ps m m' H). intros a1 b1 v1 I1. apply Hps in I1 as (G1 & V1 & p1 & o1 & bb1 & x1 & J1 & K1 & L1 & E). injection E as -> -> ->.
      destruct (Hg G1 V1 J1) as (U1 & _). pose proof (scalar_range _ _ _ _ U1 K1). specialize (Hq G1 V1 J1). lia.
Qed.
Print Assumptions C29_static_init.

(** It is called exactly once by the procedure $initialize, before all
    user-defined initialization functions, and $initialize is the first call of
    every entry point and of no other procedure. *)
Theorem C29_called_first : forall safety entries defined,
  exists before after, initFuncs safety entries defined = before ++ STATIC_INIT_PROC :: after /\
    (forall f, In f before -> f = "$global_allocations") /\
    (forall f, In f after -> In f defined /\ exists x, f = (INIT_FUNC_PREFIX ++ x)%string) /\
    (forall f, first_calls entries f = [INITIALIZE_PROC] <-> In f entries).
Proof.
  intros safety entries defined. unfold initFuncs. eexists. eexists. split; [reflexivity|]. split; [|split].
  - intros f. destruct safety; [intros [<-|[]]; reflexivity|intros []].
  - intros f Hf. apply filter_In in Hf as (H1 & H2). split; [exact H1|]. apply andb_true_iff in H2 as (_ & H2).
    assert (forall p n, String.prefix p n = true -> exists b, n = (p ++ b)%string) as Hpre.
    { clear. induction p as [|c p IH]; intros n H; [exists n; reflexivity|]. destruct n as [|d n]; [discriminate|]. cbn in H.
      destruct (Ascii.ascii_dec c d) as [<-|]; [|discriminate]. destruct (IH n H) as (b & ->). exists b. reflexivity. }
    now apply Hpre.
  - intros f. unfold first_calls. destruct (existsb (String.eqb f) entries) eqn:E.
    + apply existsb_exists in E as (x & Hx & E). apply String.eqb_eq in E. subst. tauto.
    + split; [discriminate|]. intros H. assert (existsb (String.eqb f) entries = true); [|congruence].
      apply existsb_exists. exists f. split; [exact H|apply String.eqb_refl].
Qed.
Print Assumptions C29_called_first.

Example C29_nonvacuous :
  let G := Global 0 (TStruct false [TScalar 8 1; TArray 2 (TScalar 32 4)]) (Some (Ag [Sc (Some 65); Ag [Sc (Some 7); Sc (Some 9)]])) true in
  good_module [G] (fun _ => -2048) /\ initialized [G] G (Ag [Sc (Some 65); Ag [Sc (Some 7); Sc (Some 9)]]) /\
  option_map (map (fun e => (is_val e, is_idxs e))) (static_init 10 [G]) = Some [(Sc (Some 65), [0; 0]); (Sc (Some 7), [0; 1; 0]); (Sc (Some 9), [0; 1; 1])].
Proof.
  cbv zeta. split; [|split; [split; [now left|auto]|reflexivity]]. split.
  - intros G V ([<-|[]] & E & _). cbn in E. injection E as <-. split; [cbn; lia|]. split; [cbn; lia|]. split; [cbn; repeat constructor|].
    cbn [g_type]. intros p o bits z (a & Hp) Hz.
    destruct p as [|i p]; [discriminate|]. cbn in Hp, Hz. destruct (0 <=? i) eqn:E; [|discriminate].
    destruct (Z.to_nat i) as [|[|n]] eqn:En; cbn in Hp, Hz; [| |destruct n; discriminate].
    + destruct p as [|j p]; cbn in Hp, Hz; [|discriminate]. injection Hp as <- <- <-. injection Hz as <-. lia.
    + destruct p as [|j p]; [discriminate|]. cbn in Hp, Hz. destruct ((0 <=? j) && (j <? 2)) eqn:Ej; [|discriminate].
      replace (0 <=? j) with true in Hz by lia.
      destruct (Z.to_nat j) as [|[|n]] eqn:Ejn; cbn in Hz; [| |destruct n; discriminate];
        (destruct p as [|k p]; cbn in Hp, Hz; [|discriminate]); injection Hp as <- <- <-; injection Hz as <-; lia.
  - intros G V G' V' ([<-|[]] & _) ([<-|[]] & _). now left.
Qed.

(** The number of elements of an array is truncated to 32 bits: an array of 2^32
    elements is not initialized at all. *)
Theorem C29_huge_array_refuted : forall V fuel,
  let G := Global 0 (TArray (2 ^ 32) (TScalar 8 1)) (Some V) true in
  static_init (S fuel) [G] = Some [] /\ scalar_at (g_type G) [5] 5 8.
Proof.
  intros V fuel G. split; [|exists 1; reflexivity].
  unfold static_init, initial, G. cbn [flat_map g_init g_read g_type app codify]. change (u32 (2 ^ 32)) with 0. cbn. destruct fuel; reflexivity.
Qed.
Print Assumptions C29_huge_array_refuted.
