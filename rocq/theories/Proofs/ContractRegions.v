(** The regions of contracts and of invariants. *)
From Coq Require Import List Bool Arith Lia Sorted.
From Verif.Spec Require Import Contracts.
From Verif.Model Require Import ExtractContracts.
From Verif.Proofs Require Import ContractsProofs.
Import ListNotations.

Definition lex (x y : label) : Prop := fst x < fst y \/ fst x = fst y /\ snd x < snd y.
Lemma split_labels : forall rest l s i acc tm x, s <= i -> In x (map fst (split l s i acc rest tm)) -> fst x = l /\ s <= snd x.
Proof.
  induction rest as [|[o|k e] rest IH]; intros l s i acc tm x Hi H; cbn in H.
  - destruct H as [<-|[]]. cbn. auto.
  - apply (IH l s (S i) (acc ++ [o]) tm x) in H; [exact H|lia].
  - destruct H as [<-|H]; [cbn; auto|]. apply (IH l (S i) (S i) [] tm x) in H; [|lia]. split; [tauto|lia].
Qed.
Lemma split_sorted : forall rest l s i acc tm, s <= i -> StronglySorted lex (map fst (split l s i acc rest tm)).
Proof.
  induction rest as [|[o|k e] rest IH]; intros l s i acc tm Hi; cbn.
  - repeat constructor.
  - apply (IH l s (S i)). lia.
  - constructor; [apply IH; lia|]. apply Forall_forall. intros x Hx. apply split_labels in Hx; [|lia]. right. cbn. split; [symmetry; tauto|lia].
Qed.
Lemma sorted_app : forall l1 l2, StronglySorted lex l1 -> StronglySorted lex l2 -> (forall x y, In x l1 -> In y l2 -> lex x y) -> StronglySorted lex (l1 ++ l2).
Proof.
  induction 1 as [|x l1 Hs IH Hf]; intros H2 H; cbn; [exact H2|]. constructor; [apply IH; auto; intros; apply H; [now right|assumption]|].
  rewrite Forall_forall in *. intros y Hy. apply in_app_or in Hy as [Hy|Hy]; [auto|apply H; [now left|exact Hy]].
Qed.
Lemma pieces_sorted : forall G n, StronglySorted lex (map fst (pieces_from n G)) /\ forall x, In x (map fst (pieces_from n G)) -> n <= fst x.
Proof.
  induction G as [|[items tm] G IH]; intros n; cbn [pieces_from]; [split; [constructor|intros x []]|].
  destruct (IH (S n)) as [H1 H2]. rewrite map_app. split.
  - apply sorted_app; [apply split_sorted; lia|exact H1|]. intros x y Hx Hy. apply split_labels in Hx; [|lia]. apply H2 in Hy. left. lia.
  - intros x Hx. apply in_app_or in Hx as [Hx|Hx]; [apply split_labels in Hx; lia|apply H2 in Hx; lia].
Qed.
Lemma sorted_filter : forall (f : label * piece -> bool) ps, StronglySorted lex (map fst ps) -> StronglySorted lex (map fst (filter f ps)).
Proof.
  induction ps as [|p ps IH]; cbn; intros H; [constructor|]. inversion H; subst. destruct (f p); cbn; [|auto]. constructor; [auto|].
  rewrite Forall_forall in *. intros x Hx. apply H3. apply in_map_iff in Hx as (q & <- & Hq). apply filter_In in Hq. apply in_map. tauto.
Qed.
Lemma last_max : forall l x r, StronglySorted lex l -> rev l = x :: r -> In x l /\ forall y, In y l -> y = x \/ lex y x.
Proof.
  intros l x r Hs Hr. assert (Hl : l = rev r ++ [x]) by (rewrite <- (rev_involutive l), Hr; reflexivity). subst l.
  split; [apply in_or_app; right; now left|]. intros y Hy. apply in_app_or in Hy as [Hy|[->|[]]]; [right|now left].
  clear Hr. revert Hs Hy. generalize (rev r) as l. induction l as [|z l IH]; intros Hs Hy; [contradiction|]. cbn in Hs. inversion Hs; subst.
  destruct Hy as [->|Hy]; [|auto]. rewrite Forall_forall in H2. apply H2, in_or_app. right. now left.
Qed.
Lemma take_to_spec : forall l x, StronglySorted lex l -> In x l -> forall y, In y (take_to x l) <-> In y l /\ (y = x \/ lex y x).
Proof.
  induction l as [|z l IH]; intros x Hs Hx y; [contradiction|]. inversion Hs; subst. rewrite Forall_forall in H2. cbn [take_to].
  destruct (label_eqb z x) eqn:E.
  - apply label_eqb_eq in E. subst z. cbn. split; [intros [->|[]]; auto|]. intros [[->|Hy] Hc]; [auto|]. exfalso.
    specialize (H2 y Hy). unfold lex in *. destruct Hc as [->|Hc]; lia.
  - assert (z <> x) by (intros ->; rewrite label_eqb_refl in E; discriminate). destruct Hx as [Hx|Hx]; [contradiction|]. cbn. rewrite (IH x H1 Hx). split.
    + intros [->|[Hy H']]; [|tauto]. split; [now left|]. right. auto.
    + intros [[->|Hy] H']; [now left|]. tauto.
Qed.

Section Function.
  Context (F : function).
  Lemma labels_sorted : StronglySorted lex (map fst (pieces F)). Proof. apply pieces_sorted. Qed.
  Lemma in_labels : forall x, In x (map fst (pieces F)) <-> exists p, find_piece (pieces F) x = Some p.
  Proof.
    intros x. rewrite in_map_iff. split.
    - intros ([y p] & <- & H). exists p. now apply find_spec.
    - intros [p H]. exists (x, p). split; [reflexivity|now apply find_spec].
  Qed.
  Lemma in_contracts : forall x, In x (contracts (pieces F)) <-> exists p k e, find_piece (pieces F) x = Some p /\ con p = Some (k, e).
  Proof.
    intros x. unfold contracts. rewrite in_map_iff. split.
    - intros ([y p] & <- & H). apply filter_In in H as [H Hc]. cbn in *. unfold is_contract in Hc. destruct (con p) as [[k e]|] eqn:Ec; [|discriminate].
      exists p, k, e. split; [now apply find_spec|exact Ec].
    - intros (p & k & e & H & Hc). exists (x, p). split; [reflexivity|]. apply filter_In. split; [now apply find_spec|]. cbn. unfold is_contract. now rewrite Hc.
  Qed.

  Section Prefix.
    Context (L I : nat) (Hlast : last_contract F L I).
    (** The piece of the last contract. *)
    Lemma last_piece : exists s p k e, find_piece (pieces F) (L, s) = Some p /\ s + length (ops p) = I /\ con p = Some (k, e) /\
      exists r, rev (contracts (pieces F)) = (L, s) :: r.
    Proof.
      destruct Hlast as [(k & e & Hc) Hmax]. destruct (find_contract F L I k e Hc) as (s & p & Hp & Hs & Hk). exists s, p, k, e.
      split; [exact Hp|]. split; [exact Hs|]. split; [exact Hk|].
      assert (Hin : In (L, s) (contracts (pieces F))) by (apply in_contracts; eauto).
      destruct (rev (contracts (pieces F))) as [|[lx sx] r] eqn:Er; [apply (f_equal (@rev _)) in Er; rewrite rev_involutive in Er; rewrite Er in Hin; contradiction|].
      exists r. destruct (last_max _ _ _ (sorted_filter _ _ labels_sorted) Er) as [Hx Hy]. apply in_contracts in Hx as (q & k' & e' & Hq & Hqc).
      specialize (Hmax _ _ _ _ (find_contract_at F _ _ _ _ _ Hq Hqc)). destruct (Hy _ Hin) as [->|Hlt]; [reflexivity|]. exfalso.
      unfold before in Hmax. unfold lex in Hlt. cbn in Hlt. destruct Hmax as [Hm|[-> Hm]]; [lia|].
      destruct (find_describes F _ _ _ Hq) as (_ & _ & _ & _ & Hst). pose proof (starts_apart F L s p sx Hp Hst ltac:(lia)). lia.
    Qed.
    Definition prefix_region : list label := block_prefix (contracts (pieces F)) (map fst (pieces F)).
    Lemma in_prefix : forall l s, In (l, s) prefix_region <-> (exists p, find_piece (pieces F) (l, s) = Some p) /\ before L I l s.
    Proof.
      intros l s. destruct last_piece as (sL & p & k & e & Hp & HI & Hc & r & Hr). unfold prefix_region, block_prefix. rewrite Hr.
      rewrite (take_to_spec _ _ labels_sorted) by (apply in_labels; eauto). rewrite in_labels. unfold before, lex. cbn. split.
      - intros [Hq [[= -> ->]|Hl]]; (split; [exact Hq|]); [right; lia|]. destruct Hl as [Hl|[-> Hl]]; [now left|right; lia].
      - intros [[q Hq] Hl]. split; [eauto|]. destruct Hl as [Hl|[-> Hl]]; [right; now left|]. destruct (lt_eq_lt_dec s sL) as [[Hs| ->]|Hs]; [right; right; auto|now left|exfalso].
        destruct (find_describes F _ _ _ Hq) as (_ & _ & _ & _ & Hst). pose proof (starts_apart F L sL p s Hp Hst Hs). lia.
    Qed.
    Lemma prefix_in : forall l s p, mem_label (l, s) prefix_region = true -> find_piece (pieces F) (l, s) = Some p -> forall j, j <= length (ops p) -> before L I l (s + j).
    Proof.
      intros l s p Hm Hp j Hj. apply mem_label_in, in_prefix in Hm as [_ Hb]. destruct Hb as [Hb|[-> Hb]]; [now left|right; split; [reflexivity|]].
      destruct last_piece as (sL & pL & k & e & HpL & HI & Hc & _). destruct (lt_eq_lt_dec s sL) as [[Hs| ->]|Hs].
      - destruct (find_describes F _ _ _ HpL) as (_ & _ & _ & _ & Hst). pose proof (starts_apart F L s p sL Hp Hst Hs). lia.
      - rewrite Hp in HpL. injection HpL as <-. lia.
      - destruct (find_describes F _ _ _ Hp) as (_ & _ & _ & _ & Hst). pose proof (starts_apart F L sL pL s HpL Hst Hs). lia.
    Qed.
    Lemma prefix_out : forall l s, is_start F l s -> mem_label (l, s) prefix_region = false -> ~ before L I l s.
    Proof.
      intros l s Hs Hm Hb. assert (Hc : mem_label (l, s) prefix_region = true); [|congruence]. apply mem_label_in, in_prefix. split; [|exact Hb].
      apply find_start; [exact Hs|]. destruct Hlast as [(k & e & items & tm & Hn & _) _]. assert (L < length F) by (apply nth_error_Some; congruence).
      apply nth_error_Some. unfold before in Hb. lia.
    Qed.
    Lemma prefix_ex : forall x, mem_label x prefix_region = true -> find_piece (pieces F) x <> None.
    Proof. intros [l s] Hm. apply mem_label_in, in_prefix in Hm as [[p Hp] _]. congruence. Qed.
    Lemma exit_is : forall alloca x, extractable alloca (pieces F) prefix_region = Some x -> x = (L, S I).
    Proof.
      intros alloca x H. unfold extractable in H. destruct (_ && _ && _); [|discriminate].
      destruct last_piece as (sL & p & k & e & Hp & HI & Hc & _).
      assert (Hin : In (L, S I) (exits (pieces F) prefix_region)).
      { unfold exits. apply in_flat_map. exists ((L, sL), p). split; [now apply find_spec|]. cbn [fst snd].
        assert (Hm : mem_label (L, sL) prefix_region = true) by (apply mem_label_in, in_prefix; split; [eauto|right; lia]). rewrite Hm.
        destruct (find_describes F _ _ _ Hp) as (items & tm & _ & (_ & Hd) & _). rewrite Hc in Hd. destruct Hd as [_ Hd]. unfold successors. rewrite Hd.
        apply filter_In. split; [left; now rewrite HI|]. destruct (mem_label (L, S I) prefix_region) eqn:Em; [|reflexivity].
        apply mem_label_in, in_prefix in Em as [_ Hb]. unfold before in Hb. lia. }
      destruct (exits (pieces F) prefix_region) as [|y r]; [contradiction|]. destruct (forallb (label_eqb y) r) eqn:Ef; [|discriminate]. injection H as <-.
      destruct Hin as [H|H]; [exact H|]. rewrite forallb_forall in Ef. specialize (Ef _ H). now apply label_eqb_eq.
    Qed.
  End Prefix.

  Lemma in_of_kind : forall k region x, In x (of_kind k (pieces F) region) <-> In x region /\ exists p e, find_piece (pieces F) x = Some p /\ con p = Some (k, e).
  Proof.
    intros k region x. unfold of_kind. rewrite in_map_iff. split.
    - intros ([y p] & <- & H). apply filter_In in H as [H Hc]. cbn [fst snd] in *. apply andb_true_iff in Hc as [Hm Hc]. apply mem_label_in in Hm. split; [exact Hm|].
      exists p. destruct (con p) as [[k' e]|]; [|discriminate]. exists e. split; [now apply find_spec|]. destruct k', k; try discriminate; reflexivity.
    - intros (Hm & p & e & H & Hc). exists (x, p). split; [reflexivity|]. apply filter_In. split; [now apply find_spec|]. cbn [fst snd]. apply mem_label_in in Hm. rewrite Hm, Hc.
      destruct k; reflexivity.
  Qed.

  (** Loops with one contract *)
  Section Loop.
    Context (header b I : nat) (bs rest : list nat) (k : kind) (e : nat).
    Let loop := header :: bs ++ b :: rest.
    Hypothesis Hnd : NoDup loop.
    Hypothesis Hlen : forall l, In l loop -> l < length F.
    Hypothesis Hc : contract_at F b I k e.
    Hypothesis Huniq : forall l i k' e', In l loop -> contract_at F l i k' e' -> l = b /\ i = I.
    Lemma b_in : In b loop. Proof. right. apply in_or_app. right. now left. Qed.
    Lemma b_fresh : ~ In b bs.
    Proof. unfold loop in Hnd. inversion Hnd; subst. apply NoDup_remove_2 in H2. intros H. apply H2, in_or_app. now left. Qed.
    Lemma body_piece : exists p, find_piece (pieces F) (b, 0) = Some p /\ length (ops p) = I /\ con p = Some (k, e).
    Proof.
      destruct (find_contract F b I k e Hc) as (s & p & Hp & Hs & Hk). destruct (find_describes F _ _ _ Hp) as (_ & _ & _ & _ & Hst).
      destruct Hst as [->|(i & k' & e' & -> & Hi)]; [exists p; auto|]. destruct (Huniq _ _ _ _ b_in Hi) as [_ ->]. lia.
    Qed.
    Definition loop_positions (l i : nat) : Prop := In l bs \/ l = b /\ i <= I.
    Definition body_region : list label := map (fun l => (l, 0)) (bs ++ [b]).
    Lemma loop_region : loop_prefix (filter (fun x => existsb (Nat.eqb (fst x)) loop) (contracts (pieces F))) (header, 0) (loop_labels (pieces F) loop) = body_region.
    Proof.
      unfold loop_prefix. set (cs := filter _ _).
      assert (Hcs : forall x, In x cs <-> x = (b, 0)).
      { intros [l s]. unfold cs. rewrite filter_In, in_contracts. cbn [fst]. split.
        - intros [(p & k' & e' & Hp & Hk) Hl]. apply existsb_exists in Hl as (l' & Hl & E). apply Nat.eqb_eq in E. subst l'.
          pose proof (find_contract_at F _ _ _ _ _ Hp Hk) as Hca. destruct (Huniq _ _ _ _ Hl Hca) as [-> HI].
          destruct (find_describes F _ _ _ Hp) as (_ & _ & _ & _ & Hst). destruct Hst as [->|(i & k2 & e2 & -> & Hi)]; [reflexivity|]. destruct (Huniq _ _ _ _ Hl Hi) as [_ ->]. lia.
        - intros [= -> ->]. destruct body_piece as (p & Hp & _ & Hk). split; [eauto|]. apply existsb_exists. exists b. split; [exact b_in|apply Nat.eqb_refl]. }
      destruct (rev cs) as [|x r] eqn:Er.
      { apply (f_equal (@rev _)) in Er. rewrite rev_involutive in Er. pose proof (proj2 (Hcs (b, 0)) eq_refl) as H. rewrite Er in H. contradiction. }
      assert (x = (b, 0)) as -> by (apply Hcs, in_rev; rewrite Er; now left).
      match goal with |- match ?z with _ => _ end = _ => change z with (rev cs) end. rewrite Er.
      unfold loop_labels. rewrite filter_app. unfold loop at 1. cbn [map filter]. rewrite label_eqb_refl. cbn [negb].
      assert (Hh : ~ In header (bs ++ b :: rest)) by (unfold loop in Hnd; now inversion Hnd).
      assert (Hf : forall l, ~ In header l -> filter (fun y => negb (label_eqb y (header, 0))) (map (fun b => (b, 0)) l) = map (fun b => (b, 0)) l).
      { clear. induction l as [|x l IH]; intros H; cbn; [reflexivity|]. unfold label_eqb at 1. cbn. replace (x =? header) with false by (symmetry; apply Nat.eqb_neq; intros ->; apply H; now left).
        cbn. f_equal. apply IH. intros Hc. apply H. now right. }
      rewrite Hf by exact Hh. unfold body_region. pose proof b_fresh as Hbf.
      match goal with |- take_to _ (_ ++ ?z) = _ => generalize z end. intros tail. clear - Hbf. induction bs as [|y l IH]; cbn.
      - now rewrite label_eqb_refl.
      - unfold label_eqb at 1. cbn. replace (y =? b) with false by (symmetry; apply Nat.eqb_neq; intros ->; apply Hbf; now left). cbn. f_equal. apply IH. intros Hc. apply Hbf. now right.
    Qed.
    Lemma body_mem : forall l s, mem_label (l, s) body_region = true <-> s = 0 /\ (In l bs \/ l = b).
    Proof.
      intros l s. rewrite mem_label_in. unfold body_region. rewrite in_map_iff. split.
      - intros (x & [= -> <-] & H). split; [reflexivity|]. apply in_app_or in H as [H|[->|[]]]; auto.
      - intros [-> H]. exists l. split; [reflexivity|]. apply in_or_app. destruct H as [H| ->]; [now left|right; now left].
    Qed.
    Lemma loop_in : forall l s p, mem_label (l, s) body_region = true -> find_piece (pieces F) (l, s) = Some p -> forall j, j <= length (ops p) -> loop_positions l (s + j).
    Proof.
      intros l s p Hm Hp j Hj. apply body_mem in Hm as [-> [Hl| ->]]; [now left|]. right. split; [reflexivity|].
      destruct body_piece as (q & Hq & HI & _). rewrite Hp in Hq. injection Hq as <-. lia.
    Qed.
    Lemma loop_out : forall l s, is_start F l s -> mem_label (l, s) body_region = false -> ~ loop_positions l s.
    Proof.
      intros l s Hs Hm Hl. assert (Hmm : mem_label (l, s) body_region = true); [|congruence]. apply body_mem.
      destruct Hs as [->|(i & k' & e' & -> & Hi)].
      - split; [reflexivity|]. destruct Hl as [Hl|[-> _]]; auto.
      - exfalso. destruct Hl as [Hl|[-> Hle]].
        + destruct (Huniq l i k' e') as [-> _]; [right; apply in_or_app; now left|exact Hi|]. exact (b_fresh Hl).
        + destruct (Huniq b i k' e' b_in Hi) as [_ ->]. lia.
    Qed.
    Lemma loop_ex : forall x, mem_label x body_region = true -> find_piece (pieces F) x <> None.
    Proof.
      intros [l s] Hm. apply body_mem in Hm as [-> Hl]. destruct (find_start F l 0 (or_introl eq_refl)) as [p Hp]; [|congruence].
      apply nth_error_Some, Hlen. destruct Hl as [Hl| ->]; [right; apply in_or_app; now left|exact b_in].
    Qed.
  End Loop.
End Function.
