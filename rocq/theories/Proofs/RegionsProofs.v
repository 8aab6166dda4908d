(** The region list: invariant, coverage and stability. *)
From Coq Require Import ZArith List Bool Arith Lia ZifyBool.
From Verif.Model Require Import Globals Regions.
From Verif.Spec Require Import Aliasing.
Import ListNotations.
Open Scope list_scope.
Open Scope Z_scope.

Section Regions.
  Context (bp nb : bool) (dsa : nat -> node_info).
  Notation mrg := (merge bp).
  Notation ini := (init bp nb dsa).

  (** Flags of the node a region stands for. *)
  Definition rep_inc (r : option nat) : bool := match r with Some k => nd_incomplete (dsa k) | None => true end.
  Definition rep_comp (r : option nat) : bool := match r with Some k => isComplicated (dsa k) | None => true end.
  Definition rep_coll (r : option nat) : bool := match r with Some k => nd_collapsed (dsa k) | None => true end.

  Definition in_bounds (o l : Z) : Prop := 0 <= o /\ 0 <= l /\ o + l < 2 ^ 32.

  Record wf (g : reg) : Prop := {
    wf_bounds : in_bounds (offset g) (length g);
    wf_inc : rep_inc (representative g) = true -> incomplete g = true;
    wf_comp : rep_comp (representative g) = true -> complicated g = true;
    wf_flag : incomplete g = true \/ complicated g = true ->
              rep_inc (representative g) = true \/ rep_comp (representative g) = true;
    wf_coll : incomplete g = false -> complicated g = false -> collapsed g = rep_coll (representative g);
    wf_type : type g = None -> rbytewise g = bp;
    wf_bw : rbytewise g = true -> bp = true }.

  Lemma node_eqb_eq : forall a b, node_eqb a b = true <-> a = b.
  Proof.
    intros [a|] [b|]; cbn; split; intros H; try congruence; try discriminate.
    - apply Nat.eqb_eq in H. congruence.
    - injection H as ->. apply Nat.eqb_refl.
  Qed.
  Lemma u32_small : forall z, 0 <= z < 2 ^ 32 -> u32 z = z.
  Proof. intros z H. unfold u32. now apply Z.mod_small. Qed.

  Definition share (g q : reg) : bool := (incomplete g && incomplete q) || (complicated g && complicated q).
  Definition flagged (g : reg) : bool := incomplete g || complicated g.
  Definition meets (g q : reg) : bool :=
    (offset q <? offset g + length g) && (offset g <? offset q + length q).

  Lemma isDisjoint_eq : forall g q, in_bounds (offset g) (length g) -> in_bounds (offset q) (length q) ->
    isDisjoint g (offset q) (length q) = negb (meets g q).
  Proof.
    intros g q (G1 & G2 & G3) (Q1 & Q2 & Q3). unfold isDisjoint, meets. rewrite !u32_small by lia. lia.
  Qed.

  Lemma overlaps_eq : forall g q, wf g -> wf q ->
    overlaps g q = share g q ||
      (negb (flagged g) && negb (flagged q) && node_eqb (representative g) (representative q) &&
       (rep_coll (representative g) || meets g q)).
  Proof.
    intros g q Hg Hq. unfold overlaps, share, flagged.
    rewrite (isDisjoint_eq g q (wf_bounds g Hg) (wf_bounds q Hq)).
    destruct Hg as [_ Gi Gc Gf Gl _ _], Hq as [_ Qi Qc Qf Ql _ _].
    rewrite negb_involutive.
    destruct (node_eqb (representative g) (representative q)) eqn:En; [apply node_eqb_eq in En|].
    2:{ rewrite !andb_false_r. cbn. now rewrite !orb_false_r. }
    destruct (incomplete g) eqn:Eig, (complicated g) eqn:Ecg; destruct (incomplete q) eqn:Eiq, (complicated q) eqn:Ecq; cbn; try reflexivity.
    all: try (rewrite (Gl eq_refl eq_refl); reflexivity).
    all: exfalso; rewrite En in *.
    all: destruct (rep_inc (representative q)) eqn:R1; destruct (rep_comp (representative q)) eqn:R2.
    all: repeat match goal with
      | H : true = true -> _ |- _ => specialize (H eq_refl)
      | H : _ \/ _ -> _ |- _ => specialize (H ltac:(tauto))
      end; intuition congruence.
  Qed.

  Lemma node_eqb_sym : forall a b, node_eqb a b = node_eqb b a.
  Proof. intros [a|] [b|]; cbn; try reflexivity. apply Nat.eqb_sym. Qed.

  Lemma overlaps_sym : forall g q, wf g -> wf q -> overlaps g q = overlaps q g.
  Proof.
    intros g q Hg Hq. rewrite !overlaps_eq by assumption. rewrite (node_eqb_sym (representative q)).
    destruct (node_eqb (representative g) (representative q)) eqn:E.
    - apply node_eqb_eq in E. rewrite E. unfold share, flagged, meets.
      destruct (incomplete g), (complicated g), (incomplete q), (complicated q); cbn; try reflexivity.
      f_equal. apply andb_comm.
    - unfold share. rewrite !andb_false_r. cbn. rewrite (andb_comm (incomplete g)), (andb_comm (complicated g)). reflexivity.
  Qed.

  Lemma merge_bounds : forall g R, wf g -> wf R ->
    offset (mrg g R) = Z.min (offset g) (offset R) /\
    offset (mrg g R) + length (mrg g R) = Z.max (offset g + length g) (offset R + length R).
  Proof.
    intros g R [(G1 & G2 & G3) _ _ _ _ _ _] [(Q1 & Q2 & Q3) _ _ _ _ _ _]. unfold merge. cbn [offset length].
    split; [reflexivity|].
    rewrite (u32_small (offset g + length g)), (u32_small (offset R + length R)) by lia. rewrite u32_small by lia. lia.
  Qed.

  Lemma meets_merge : forall g R q, wf g -> wf R -> meets (mrg g R) q =
    (offset q <? Z.max (offset g + length g) (offset R + length R)) && (Z.min (offset g) (offset R) <? offset q + length q).
  Proof. intros g R q Hg HR. destruct (merge_bounds g R Hg HR) as [B1 B2]. unfold meets. now rewrite B2, B1. Qed.

  Lemma overlap_same : forall g R, wf g -> wf R -> overlaps g R = true ->
    flagged g = flagged R /\ (flagged g = false -> representative g = representative R).
  Proof.
    intros g R Hg HR H. rewrite overlaps_eq in H by assumption. unfold share, flagged in *.
    destruct (node_eqb (representative g) (representative R)) eqn:E.
    - apply node_eqb_eq in E. destruct (incomplete g), (complicated g), (incomplete R), (complicated R); cbn in *; try discriminate; auto.
    - rewrite !andb_false_r in H. cbn in H. rewrite orb_false_r in H.
      destruct (incomplete g), (complicated g), (incomplete R), (complicated R); cbn in *; try discriminate; auto; split; congruence.
  Qed.

  Lemma wf_merge : forall g R, wf g -> wf R -> overlaps g R = true -> wf (mrg g R).
  Proof.
    intros g R Hg HR Ho. pose proof (merge_bounds g R Hg HR) as [B1 B2].
    destruct (overlap_same g R Hg HR Ho) as [Ef Er].
    pose proof Hg as [(G1 & G2 & G3) Gi Gc Gf Gl Gt Gb]. pose proof HR as [(Q1 & Q2 & Q3) Qi Qc Qf Ql Qt Qb].
    split.
    - unfold in_bounds. rewrite B1. clear - B1 B2 G1 G2 G3 Q1 Q2 Q3. split; [lia|]. split; lia.
    - intros H. cbn. now rewrite (Gi H).
    - intros H. cbn. now rewrite (Gc H).
    - cbn. intros H. unfold flagged in *. apply Gf.
      destruct (incomplete g), (complicated g), (incomplete R), (complicated R); cbn in *; try discriminate; tauto.
    - cbn. intros Hi Hc. unfold flagged in *.
      destruct (incomplete g), (complicated g), (incomplete R), (complicated R); cbn in *; try discriminate.
      rewrite (Gl eq_refl eq_refl), (Ql eq_refl eq_refl), (Er eq_refl). apply orb_diag.
    - cbn. destruct (type_eqb (type g) (type R)) eqn:Et; cbn.
      + rewrite !orb_false_r. destruct (bp && (rbytewise g || rbytewise R)) eqn:E; [destruct bp; [reflexivity|discriminate]|].
        intros Hn. rewrite (Gt Hn) in E. destruct bp; [discriminate|reflexivity].
      + intros _. rewrite !orb_true_r. apply andb_true_r.
    - cbn. destruct bp; [reflexivity|discriminate].
  Qed.

  (** The merged region overlaps what one of its parts overlaps. *)
  Lemma overlaps_merge : forall g R q, wf g -> wf R -> wf q -> overlaps g R = true ->
    overlaps (mrg g R) q = overlaps g q || overlaps R q.
  Proof.
    intros g R q Hg HR Hq Ho. pose proof (wf_merge g R Hg HR Ho) as Hm.
    destruct (overlap_same g R Hg HR Ho) as [Ef Er].
    rewrite (overlaps_eq g R) in Ho by assumption. rewrite !overlaps_eq by assumption. rewrite meets_merge by assumption.
    pose proof Hg as [(G1 & G2 & G3) Gi Gc Gf Gl _ _]. pose proof HR as [(Q1 & Q2 & Q3) Qi Qc Qf Ql _ _].
    pose proof Hq as [(P1 & P2 & P3) _ _ _ _ _ _].
    unfold share in *. unfold flagged in *.
    change (incomplete (mrg g R)) with (incomplete g || incomplete R).
    change (complicated (mrg g R)) with (complicated g || complicated R).
    change (representative (mrg g R)) with (representative g).
    destruct (incomplete g) eqn:E1, (complicated g) eqn:E2, (incomplete R) eqn:E3, (complicated R) eqn:E4; cbn in *; try discriminate.
    all: try (destruct (incomplete q), (complicated q); reflexivity).
    rewrite <- (Er eq_refl) in *. rewrite (proj2 (node_eqb_eq (representative g) (representative g)) eq_refl) in Ho. cbn in Ho.
    destruct (incomplete q), (complicated q); cbn; try reflexivity.
    destruct (node_eqb (representative g) (representative q)); cbn; [|reflexivity].
    destruct (rep_coll (representative g)); cbn in *; [reflexivity|]. unfold meets in *.
    clear - Ho G1 G2 G3 Q1 Q2 Q3 P1 P2 P3. lia.
  Qed.

  (** ** Pairwise disjointness *)
  Inductive apart : list reg -> Prop :=
  | apart_nil : apart []
  | apart_cons : forall g gs, (forall q, In q gs -> overlaps g q = false) -> apart gs -> apart (g :: gs).

  Lemma absorb_in : forall rest g g' rest', absorb bp g rest = (g', rest') -> forall q, In q rest' -> In q rest.
  Proof.
    induction rest as [|h rest IH]; intros g g' rest' H q Hq; cbn in H.
    - injection H as <- <-. exact Hq.
    - destruct (overlaps g h).
      + right. eapply IH; eassumption.
      + destruct (absorb bp g rest) as [g1 r1] eqn:E. injection H as <- <-. destruct Hq as [<-|Hq]; [now left|].
        right. eapply IH; eassumption.
  Qed.

  (** what the absorbed region overlaps, what it contains, and what remains *)
  Lemma absorb_spec : forall rest g g' rest', wf g -> Forall wf rest -> apart rest ->
    absorb bp g rest = (g', rest') ->
    wf g' /\ Forall wf rest' /\ apart (g' :: rest') /\
    (forall x, wf x -> overlaps g x = true -> overlaps g' x = true) /\
    (forall x, wf x -> overlaps g x = false -> (forall q, In q rest -> overlaps q x = false) -> overlaps g' x = false) /\
    (forall q, In q rest -> In q rest' \/ (overlaps g' q = true)).
  Proof.
    induction rest as [|h rest IH]; intros g g' rest' Hg Hr Ha H; cbn in H.
    - injection H as <- <-. split; [assumption|]. split; [constructor|]. split; [constructor; [intros q []|constructor]|].
      split; [auto|]. split; [auto|]. intros q [].
    - inversion Hr as [|? ? Hh Hrest]; subst. inversion Ha as [|? ? Hhead Hatail]; subst.
      destruct (overlaps g h) eqn:E.
      + pose proof (wf_merge g h Hg Hh E) as Hm.
        destruct (IH (mrg g h) g' rest' Hm Hrest Hatail H) as (W & F & A & M1 & M2 & M3).
        split; [exact W|]. split; [exact F|]. split; [exact A|]. split; [|split].
        * intros x Hx Hxo. apply M1; [assumption|]. rewrite overlaps_merge by assumption. now rewrite Hxo.
        * intros x Hx Hxo Hq. apply M2; [assumption| |intros q Hin; apply Hq; now right].
          rewrite overlaps_merge by assumption. rewrite Hxo. apply Hq. now left.
        * intros q [<-|Hq]; [right|now apply M3]. apply M1; [assumption|]. rewrite overlaps_merge by assumption. now rewrite E.
      + destruct (absorb bp g rest) as [g1 r1] eqn:E1. injection H as <- <-.
        destruct (IH g g1 r1 Hg Hrest Hatail E1) as (W & F & A & M1 & M2 & M3).
        assert (overlaps g1 h = false) as Hno.
        { apply M2; [assumption|assumption|]. intros q Hq. rewrite overlaps_sym; [|rewrite Forall_forall in Hrest; now apply Hrest|assumption]. now apply Hhead. }
        split; [exact W|]. split; [constructor; assumption|]. split; [|split; [exact M1|split]].
        * inversion A as [|? ? A1 A2]; subst. constructor.
          -- intros q [<-|Hq]; [exact Hno|now apply A1].
          -- constructor; [|assumption]. intros q Hq. apply Hhead. eapply absorb_in; eassumption.
        * intros x Hx Hxo Hq. apply M2; [assumption..|]. intros q Hin. apply Hq. now right.
        * intros q [<-|Hq]; [left; now left|]. destruct (M3 q Hq) as [H|H]; [left; now right|now right].
  Qed.

  Lemma idx_spec : forall regs R n regs', Forall wf regs -> wf R -> apart regs -> idx bp regs R = (n, regs') ->
    Forall wf regs' /\ apart regs' /\
    (forall x, wf x -> (forall q, In q regs -> overlaps q x = false) -> overlaps R x = false ->
       forall q, In q regs' -> overlaps q x = false).
  Proof.
    induction regs as [|g gs IH]; intros R n regs' Hw HR Ha H; cbn in H.
    - injection H as <- <-. split; [now constructor|]. split; [constructor; [intros q []|constructor]|].
      intros x _ _ Hx q [<-|[]]. exact Hx.
    - inversion Hw as [|? ? Hg Hgs]; subst. inversion Ha as [|? ? Ha1 Ha2]; subst.
      destruct (overlaps g R) eqn:E.
      + destruct (absorb bp (mrg g R) gs) as [g' gs'] eqn:E1. injection H as <- <-.
        destruct (absorb_spec gs (mrg g R) g' gs' (wf_merge g R Hg HR E) Hgs Ha2 E1) as (W & F & A & M1 & M2 & M3).
        split; [now constructor|]. split; [exact A|].
        intros x Hx Hq HRx q [<-|Hin].
        * apply M2; [assumption| |intros q Hin; apply Hq; now right].
          rewrite overlaps_merge by assumption. rewrite HRx, orb_false_r. apply Hq. now left.
        * apply Hq. right. eapply absorb_in; eassumption.
      + destruct (idx bp gs R) as [m gs'] eqn:E1. injection H as <- <-.
        destruct (IH R m gs' Hgs HR Ha2 E1) as (F & A & M).
        split; [now constructor|]. split.
        * constructor; [|exact A]. intros q Hq. rewrite overlaps_sym; [|assumption|rewrite Forall_forall in F; now apply F].
          apply (M g Hg); [| |exact Hq].
          -- intros q' Hq'. rewrite overlaps_sym; [now apply Ha1|rewrite Forall_forall in Hgs; now apply Hgs|assumption].
          -- rewrite overlaps_sym; assumption.
        * intros x Hx Hq HRx q [<-|Hin]; [apply Hq; now left|]. eapply M; try eassumption. intros q' Hq'. apply Hq. now right.
  Qed.

  (** ** Coverage: [g] contains the access region [R]. *)
  Record covers (g R : reg) : Prop := {
    cv_lo : offset g <= offset R;
    cv_hi : offset R + length R <= offset g + length g;
    cv_over : overlaps g R = true;
    cv_inc : incomplete R = true -> incomplete g = true;
    cv_comp : complicated R = true -> complicated g = true;
    cv_coll : collapsed R = true -> collapsed g = true;
    cv_alloc : allocated R = true -> allocated g = true;
    cv_single : rsingleton g = true -> rsingleton R = true;
    cv_bw : rbytewise R = true -> rbytewise g = true;
    cv_type : type g = None \/ type g = type R }.

  Lemma type_eqb_eq : forall a b, type_eqb a b = true <-> a = b.
  Proof.
    intros [a|] [b|]; cbn; split; intros H; try congruence; try discriminate.
    - apply Z.eqb_eq in H. congruence.
    - injection H as ->. apply Z.eqb_refl.
  Qed.

  Lemma covers_merge : forall g q R, wf g -> wf q -> wf R -> overlaps g q = true ->
    covers g R \/ covers q R -> covers (mrg g q) R.
  Proof.
    intros g q R Hg Hq HR Ho Hc. pose proof (merge_bounds g q Hg Hq) as [B1 B2].
    pose proof (wf_bw g Hg) as Gbw. pose proof (wf_bw q Hq) as Qbw.
    pose proof (overlaps_merge g q R Hg Hq HR Ho) as Om.
    split.
    - rewrite B1. destruct Hc as [[L _ _ _ _ _ _ _ _ _]|[L _ _ _ _ _ _ _ _ _]]; clear - L; lia.
    - rewrite B2. destruct Hc as [[_ L _ _ _ _ _ _ _ _]|[_ L _ _ _ _ _ _ _ _]]; clear - L; lia.
    - rewrite Om. destruct Hc as [Hc|Hc]; rewrite (cv_over _ _ Hc); [reflexivity|apply orb_true_r].
    - cbn. destruct Hc as [Hc|Hc]; intros H; rewrite (cv_inc _ _ Hc H); [reflexivity|apply orb_true_r].
    - cbn. destruct Hc as [Hc|Hc]; intros H; rewrite (cv_comp _ _ Hc H); [reflexivity|apply orb_true_r].
    - cbn. destruct Hc as [Hc|Hc]; intros H; rewrite (cv_coll _ _ Hc H); [reflexivity|apply orb_true_r].
    - cbn. destruct Hc as [Hc|Hc]; intros H; rewrite (cv_alloc _ _ Hc H); [reflexivity|apply orb_true_r].
    - cbn. intros H. apply andb_true_iff in H as [H1 H2]. destruct Hc as [Hc|Hc]; apply (cv_single _ _ Hc); assumption.
    - cbn. intros H. destruct Hc as [Hc|Hc]; pose proof (cv_bw _ _ Hc H) as Hb; rewrite Hb.
      + now rewrite (Gbw Hb).
      + rewrite (Qbw Hb). now rewrite orb_true_r.
    - cbn. destruct (type_eqb (type g) (type q)) eqn:E; cbn; [|rewrite !orb_true_r; now left].
      apply type_eqb_eq in E. destruct (bp && (rbytewise g || rbytewise q || false)); [now left|]. cbn.
      destruct Hc as [Hc|Hc]; [apply (cv_type _ _ Hc)|]. rewrite E. apply (cv_type _ _ Hc).
  Qed.

  Lemma covers_self : forall R, wf R -> overlaps R R = true -> covers R R.
  Proof. intros R HR H. split; auto; lia. Qed.

  (** regions of accesses of positive length, or of flagged or collapsed nodes, overlap themselves *)
  Definition counts (R : reg) : Prop := 0 < length R.
  Lemma overlaps_self : forall R, wf R -> counts R -> overlaps R R = true.
  Proof.
    intros R HR Hc. rewrite overlaps_eq by assumption. unfold share, flagged, meets, counts in *.
    rewrite (proj2 (node_eqb_eq _ _) eq_refl).
    destruct (incomplete R), (complicated R); cbn; try reflexivity. apply orb_true_iff. right. clear - Hc. lia.
  Qed.
  Lemma covers_merge_new : forall g R, wf g -> wf R -> overlaps g R = true -> covers (mrg g R) R.
  Proof.
    intros g R Hg HR Ho. pose proof (merge_bounds g R Hg HR) as [B1 B2].
    split.
    - rewrite B1. clear. lia.
    - rewrite B2. clear. lia.
    - rewrite overlaps_merge by assumption. now rewrite Ho.
    - cbn. intros H. rewrite H. apply orb_true_r.
    - cbn. intros H. rewrite H. apply orb_true_r.
    - cbn. intros H. rewrite H. apply orb_true_r.
    - cbn. intros H. rewrite H. apply orb_true_r.
    - cbn. intros H. apply andb_true_iff in H. tauto.
    - cbn. intros H. rewrite H, (wf_bw R HR H). now rewrite orb_true_r.
    - cbn. destruct (type_eqb (type g) (type R)) eqn:E; cbn; [|rewrite !orb_true_r; now left].
      apply type_eqb_eq in E. destruct (bp && _); [now left|]. right. exact E.
  Qed.

  Definition covered (regs : list reg) (R : reg) : Prop := exists g, In g regs /\ covers g R.

  Lemma absorb_covers : forall rest g g' rest', wf g -> Forall wf rest -> apart rest ->
    absorb bp g rest = (g', rest') -> forall R, wf R ->
    (covers g R -> covers g' R) /\ (covered rest R -> covers g' R \/ covered rest' R).
  Proof.
    induction rest as [|h rest IH]; intros g g' rest' Hg Hr Ha H R HR; cbn in H.
    - injection H as <- <-. split; [auto|]. intros (q & [] & _).
    - inversion Hr as [|? ? Hh Hrest]; subst. inversion Ha as [|? ? Hhead Hatail]; subst.
      destruct (overlaps g h) eqn:E.
      + destruct (IH (mrg g h) g' rest' (wf_merge g h Hg Hh E) Hrest Hatail H R HR) as [I1 I2]. split.
        * intros Hc. apply I1. apply covers_merge; auto.
        * intros (q & [<-|Hq] & Hc); [left; apply I1, covers_merge; auto|]. apply I2. now exists q.
      + destruct (absorb bp g rest) as [g1 r1] eqn:E1. injection H as <- <-.
        destruct (IH g g1 r1 Hg Hrest Hatail E1 R HR) as [I1 I2]. split; [exact I1|].
        intros (q & [<-|Hq] & Hc); [right; exists h; split; [now left|exact Hc]|].
        destruct (I2 ltac:(now exists q)) as [H|(q' & Hq' & Hc')]; [now left|]. right. exists q'. split; [now right|exact Hc'].
  Qed.

  Lemma idx_covers : forall regs R n regs', Forall wf regs -> wf R -> apart regs -> idx bp regs R = (n, regs') ->
    (forall x, wf x -> covered regs x -> covered regs' x) /\
    (overlaps R R = true -> exists g, nth_error regs' n = Some g /\ covers g R).
  Proof.
    induction regs as [|g gs IH]; intros R n regs' Hw HR Ha H; cbn in H.
    - injection H as <- <-. split; [intros x _ (q & [] & _)|]. intros Hs. exists R. split; [reflexivity|now apply covers_self].
    - inversion Hw as [|? ? Hg Hgs]; subst. inversion Ha as [|? ? Ha1 Ha2]; subst.
      destruct (overlaps g R) eqn:E.
      + destruct (absorb bp (mrg g R) gs) as [g' gs'] eqn:E1. injection H as <- <-.
        pose proof (wf_merge g R Hg HR E) as Hm. split.
        * intros x Hx (q & [<-|Hq] & Hc).
          -- exists g'. split; [now left|]. apply (absorb_covers gs _ _ _ Hm Hgs Ha2 E1 x Hx). apply covers_merge; auto.
          -- destruct (proj2 (absorb_covers gs _ _ _ Hm Hgs Ha2 E1 x Hx) ltac:(now exists q)) as [H|(q' & Hq' & Hc')].
             ++ exists g'. split; [now left|exact H].
             ++ exists q'. split; [now right|exact Hc'].
        * intros _. exists g'. split; [reflexivity|]. apply (absorb_covers gs _ _ _ Hm Hgs Ha2 E1 R HR). now apply covers_merge_new.
      + destruct (idx bp gs R) as [m gs'] eqn:E1. injection H as <- <-.
        destruct (IH R m gs' Hgs HR Ha2 E1) as [I1 I2]. split; [|exact I2].
        intros x Hx (q & [<-|Hq] & Hc); [exists g; split; [now left|exact Hc]|].
        destruct (I1 x Hx ltac:(now exists q)) as (q' & Hq' & Hc'). exists q'. split; [now right|exact Hc'].
  Qed.

  (** ** Stability: an access already covered finds its region and changes at most its type *)
  Definition shape (g : reg) := (representative g, offset g, length g,
    (rsingleton g, allocated g, rbytewise g, incomplete g, complicated g, collapsed g)).

  Lemma merge_covered : forall g R, wf g -> wf R -> covers g R -> shape (mrg g R) = shape g /\
    (type (mrg g R) = None \/ type (mrg g R) = type g) /\ (rbytewise g = true -> type (mrg g R) = None).
  Proof.
    intros g R Hg HR Hc. pose proof (merge_bounds g R Hg HR) as [B1 B2].
    assert (offset (mrg g R) = offset g) as Eo by (rewrite B1; pose proof (cv_lo _ _ Hc) as L; clear - L; lia).
    assert (length (mrg g R) = length g) as El.
    { pose proof (cv_hi _ _ Hc) as L. rewrite Eo in B2. clear - L B2. lia. }
    assert (forall a b : bool, (b = true -> a = true) -> a || b = a) as Hor.
    { intros [] [] H; try reflexivity. discriminate (H eq_refl). }
    assert (rbytewise (mrg g R) = rbytewise g) as Eb.
    { cbn. destruct (type_eqb (type g) (type R)) eqn:E; cbn.
      - rewrite orb_false_r, (Hor _ _ (cv_bw _ _ Hc)). destruct (rbytewise g) eqn:Eg; [|apply andb_false_r]. now rewrite (wf_bw g Hg Eg).
      - rewrite orb_true_r, andb_true_r. destruct (cv_type _ _ Hc) as [Hn|Hn]; [now rewrite (wf_type g Hg Hn)|].
        rewrite Hn in E. rewrite (proj2 (type_eqb_eq _ _) eq_refl) in E. discriminate. }
    split; [|split].
    - unfold shape. rewrite Eo, El, Eb. cbn.
      rewrite (Hor _ _ (cv_inc _ _ Hc)), (Hor _ _ (cv_comp _ _ Hc)), (Hor _ _ (cv_coll _ _ Hc)), (Hor _ _ (cv_alloc _ _ Hc)).
      replace (rsingleton g && rsingleton R) with (rsingleton g); [reflexivity|].
      pose proof (cv_single _ _ Hc) as Hs. destruct (rsingleton g); [now rewrite (Hs eq_refl)|reflexivity].
    - cbn. destruct (_ || _); auto.
    - intros Hb. change (type (mrg g R)) with
        (if rbytewise (mrg g R) || negb (type_eqb (type g) (type R)) then None else type g).
      rewrite Eb, Hb. reflexivity.
  Qed.

  Lemma shape_overlaps : forall g g' x, shape g = shape g' -> overlaps g x = overlaps g' x.
  Proof.
    intros g g' x H. unfold shape in H. injection H as H1 H2 H3 H4 H5 H6 H7 H8 H9.
    unfold overlaps, isDisjoint. now rewrite H1, H2, H3, H7, H8, H9.
  Qed.

  Lemma absorb_none : forall rest g, (forall q, In q rest -> overlaps g q = false) -> absorb bp g rest = (g, rest).
  Proof.
    induction rest as [|h rest IH]; intros g H; [reflexivity|]. cbn. rewrite (H h (or_introl eq_refl)).
    rewrite (IH g); [reflexivity|]. intros q Hq. apply H. now right.
  Qed.

  Lemma idx_stable : forall regs R, Forall wf regs -> wf R -> apart regs -> covered regs R ->
    exists n g, nth_error regs n = Some g /\ covers g R /\ fst (idx bp regs R) = n /\
      map shape (snd (idx bp regs R)) = map shape regs /\
      (forall k h, nth_error regs k = Some h -> k <> n -> nth_error (snd (idx bp regs R)) k = Some h /\ overlaps h R = false) /\
      nth_error (snd (idx bp regs R)) n = Some (mrg g R).
  Proof.
    induction regs as [|g gs IH]; intros R Hw HR Ha (c & Hin & Hc); [destruct Hin|].
    inversion Hw as [|? ? Hg Hgs]; subst. inversion Ha as [|? ? Ha1 Ha2]; subst. cbn [idx].
    assert (forall a q, wf a -> wf q -> covers q R -> overlaps a q = false -> overlaps a R = false) as Hsep.
    { intros a q Hwa Hwq Hcq Haq. destruct (overlaps a R) eqn:Eo; [exfalso|reflexivity].
      pose proof (cv_over _ _ Hcq) as Hov. destruct (overlap_same _ _ Hwa HR Eo) as [F1 R1].
      destruct (overlap_same _ _ Hwq HR Hov) as [F2 R2].
      rewrite overlaps_eq in Haq, Eo, Hov by assumption. unfold share, flagged in *.
      pose proof (cv_inc _ _ Hcq) as Ci. pose proof (cv_comp _ _ Hcq) as Cc.
      destruct (incomplete R) eqn:Ei, (complicated R) eqn:Ec.
      1,2,3: repeat match goal with H : true = true -> _ |- _ => specialize (H eq_refl) end;
             destruct (incomplete a), (complicated a), (incomplete q), (complicated q); cbn in *; try discriminate; try congruence.
      destruct (incomplete a), (complicated a), (incomplete q), (complicated q); cbn in *; try discriminate.
      specialize (R1 eq_refl). specialize (R2 eq_refl). rewrite R1 in *. rewrite R2 in *.
      rewrite (proj2 (node_eqb_eq (representative R) (representative R)) eq_refl) in *. cbn in *.
      destruct (rep_coll (representative R)); [discriminate|]. cbn in *. unfold meets in *.
      pose proof (cv_lo _ _ Hcq) as L1. pose proof (cv_hi _ _ Hcq) as L2. clear - Haq Eo L1 L2. lia. }
    destruct (overlaps g R) eqn:E.
    - assert (covers g R) as HcR.
      { destruct Hin as [<-|Hin]; [exact Hc|]. exfalso.
        rewrite (Hsep g c Hg (proj1 (Forall_forall _ _) Hgs c Hin) Hc (Ha1 c Hin)) in E. discriminate. }
      destruct (merge_covered g R Hg HR HcR) as (Hs & _ & _).
      rewrite absorb_none by (intros q Hq; rewrite (shape_overlaps _ _ q Hs); now apply Ha1).
      cbn [fst snd]. exists 0%nat, g. split; [reflexivity|]. split; [exact HcR|]. split; [reflexivity|].
      split; [cbn; now rewrite Hs|]. split; [|reflexivity].
      intros [|k] h Hk Hne; [congruence|]. cbn in Hk |- *. split; [exact Hk|].
      apply (Hsep h g); auto; [rewrite Forall_forall in Hgs; apply Hgs; eapply nth_error_In; exact Hk|].
      rewrite overlaps_sym; [apply Ha1; eapply nth_error_In; exact Hk|rewrite Forall_forall in Hgs; apply Hgs; eapply nth_error_In; exact Hk|assumption].
    - destruct Hin as [<-|Hin]; [rewrite (cv_over _ _ Hc) in E; discriminate|].
      destruct (IH R Hgs HR Ha2 ltac:(now exists c)) as (n & g1 & I1 & I2 & I3 & I4 & I5 & I6).
      destruct (idx bp gs R) as [m gs'] eqn:E1. cbn [fst snd] in *. subst m.
      exists (S n), g1. split; [exact I1|]. split; [exact I2|]. split; [reflexivity|].
      split; [cbn; now rewrite I4|]. split; [|exact I6].
      intros [|k] h Hk Hne; [cbn in Hk; injection Hk as <-; split; [reflexivity|exact E]|]. apply I5; [exact Hk|congruence].
  Qed.

  (** ** Access sequences *)
  Definition ok (a : access) : Prop := 0 <= ac_off a /\ 0 < ac_len a /\ ac_off a + ac_len a < 2 ^ 32.
  Lemma wf_init : forall a, ok a -> wf (ini a).
  Proof.
    intros a (H1 & H2 & H3). unfold init. destruct (ac_node a) as [k|]; split; cbn; auto; unfold in_bounds; try lia; try discriminate.
  Qed.
  Lemma init_self : forall a, ok a -> overlaps (ini a) (ini a) = true.
  Proof. intros a H. apply overlaps_self; [now apply wf_init|]. destruct H as (_ & H & _). unfold counts, init. destruct (ac_node a); exact H. Qed.

  Lemma visit_inv : forall l regs, Forall ok l -> Forall wf regs -> apart regs ->
    Forall wf (visit bp nb dsa regs l) /\ apart (visit bp nb dsa regs l) /\
    (forall x, wf x -> covered regs x -> covered (visit bp nb dsa regs l) x) /\
    (forall a, In a l -> covered (visit bp nb dsa regs l) (ini a)).
  Proof.
    induction l as [|a l IH]; intros regs Hok Hw Ha; cbn [visit].
    - split; [assumption|]. split; [assumption|]. split; [auto|]. intros a [].
    - inversion Hok as [|? ? Hoa Hol]; subst. destruct (idx bp regs (ini a)) as [n regs'] eqn:E. cbn [snd].
      destruct (idx_spec regs (ini a) n regs' Hw (wf_init a Hoa) Ha E) as (W & A & _).
      destruct (idx_covers regs (ini a) n regs' Hw (wf_init a Hoa) Ha E) as (C1 & C2).
      destruct (IH regs' Hol W A) as (I1 & I2 & I3 & I4).
      split; [exact I1|]. split; [exact I2|]. split; [intros x Hx Hc; apply I3; [assumption|]; now apply C1|].
      intros b [<-|Hb]; [|now apply I4]. apply I3; [now apply wf_init|].
      destruct (C2 (init_self a Hoa)) as (g & Hg & Hc). exists g. split; [eapply nth_error_In; exact Hg|exact Hc].
  Qed.

  Lemma alias_overlaps : forall a b, ok a -> ok b -> may_alias dsa a b -> overlaps (ini a) (ini b) = true.
  Proof.
    intros a b Ha Hb H. unfold overlaps. apply orb_true_iff.
    assert (forall x, is_incomplete dsa x -> incomplete (ini x) = true) as Hi.
    { intros x Hx. unfold is_incomplete, init in *. destruct (ac_node x); [exact Hx|reflexivity]. }
    assert (forall x, is_complicated dsa x -> complicated (ini x) = true) as Hc.
    { intros x Hx. unfold is_complicated, init in *. destruct (ac_node x); [|reflexivity]. cbn. unfold isComplicated.
      destruct Hx as [-> | [-> | [-> | ->]]]; cbn; rewrite ?orb_true_r; reflexivity. }
    destruct H as [[H1 H2]|[[H1 H2]|[H1 H2]]].
    - left. now rewrite (Hi a H1), (Hi b H2).
    - left. rewrite (Hc a H1), (Hc b H2). apply orb_true_r.
    - destruct (ac_node a) as [k|] eqn:Ek.
      2:{ left. unfold init. rewrite Ek, <- H1. reflexivity. }
      right. unfold init. rewrite Ek, <- H1. cbn. rewrite Nat.eqb_refl. cbn. apply orb_true_iff.
      destruct H2 as [(k' & E & H2)|(o & O1 & O2)]; [left; congruence|right].
      unfold isDisjoint. cbn. destruct Ha as (A1 & A2 & A3), Hb as (B1 & B2 & B3). rewrite !u32_small by (clear - A1 A2 A3 B1 B2 B3; lia). clear - A1 A2 A3 B1 B2 B3 O1 O2. lia.
  Qed.

  (** The region two aliasing accesses get. *)
  Lemma same_region : forall l a b, Forall ok l -> In a l -> In b l -> may_alias dsa a b ->
    fst (idx bp (visit bp nb dsa [] l) (ini a)) = fst (idx bp (visit bp nb dsa [] l) (ini b)).
  Proof.
    intros l a b Hok Ha Hb Hal. destruct (visit_inv l [] Hok (Forall_nil _) apart_nil) as (W & A & _ & C).
    assert (ok a /\ ok b) as [Oa Ob] by (rewrite Forall_forall in Hok; auto).
    set (regs := visit bp nb dsa [] l) in *.
    destruct (idx_stable regs (ini a) W (wf_init a Oa) A (C a Ha)) as (n & g & N1 & Cg & N2 & _ & _ & _).
    destruct (idx_stable regs (ini b) W (wf_init b Ob) A (C b Hb)) as (m & h & M1 & Ch & M2 & _ & M5 & _).
    rewrite N2, M2. destruct (Nat.eq_dec n m) as [->|Hne]; [reflexivity|exfalso].
    destruct (M5 n g N1 Hne) as [_ Hno].
    (* g covers a, a overlaps b, so g overlaps b *)
    assert (wf g) as Wg by (rewrite Forall_forall in W; apply W; eapply nth_error_In; exact N1).
    pose proof (alias_overlaps a b Oa Ob Hal) as Hab.
    destruct (merge_covered g (ini a) Wg (wf_init a Oa) Cg) as (Hs & _).
    rewrite <- (shape_overlaps _ _ (ini b) Hs) in Hno.
    rewrite (overlaps_merge g (ini a) (ini b) Wg (wf_init a Oa) (wf_init b Ob) (cv_over _ _ Cg)) in Hno.
    rewrite Hab, orb_true_r in Hno. discriminate.
  Qed.
End Regions.
