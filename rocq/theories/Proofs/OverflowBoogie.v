(** The rewritten arithmetic, translated to Boogie. *)
From Coq Require Import ZArith List String Ascii Bool Lia ZifyBool.
From Verif.Base Require Import ZBits.
From Verif.Spec Require Import LLVMInt IR Overflow Encodings.
From Verif.Model Require Import Boogie PreludeInt SmackRepInt OverflowChecker.
From Verif.Proofs Require Import Lookup PreludeCalls ExprSim IntEncodings IntMain OverflowProofs.
From Verif.Props Require Import IntProps.
Import ListNotations.
Open Scope list_scope.
Open Scope Z_scope.

Section One.
  Context (d x y : string) (sg : bool) (op : ovf_op) (n a b : Z).
  Hypothesis (Px : plain x) (Py : plain y) (Hn : 1 <= n) (Ha : is_iN n a) (Hb : is_iN n b).

  Definition ovf_types : string -> option Z := fun z =>
    if String.eqb z x || String.eqb z y then Some n
    else if String.eqb z (EO1 d) || String.eqb z (EO2 d) || String.eqb z (AI d) then Some (n * 2)
    else if String.eqb z (RES d) then Some n
    else if String.eqb z (GT d) || String.eqb z (LT d) || String.eqb z (FLAG d) then Some 1
    else None.
  Definition ovf_regs : regs := set_reg (set_reg (fun _ => None) y b) x a.
  Notation c := (checked_arith d sg op n (VReg n x) (VReg n y)).

  Lemma eqb_f : forall u v : string, u <> v -> String.eqb u v = false.
  Proof. intros. now apply String.eqb_neq. Qed.
  Lemma fx : forall k, (1 <= k <= 9)%nat -> String.eqb (fresh k d) x = false.
  Proof. intros k Hk. apply eqb_f. intro H. symmetry in H. revert H. apply Px, Hk. Qed.
  Lemma fy : forall k, (1 <= k <= 9)%nat -> String.eqb (fresh k d) y = false.
  Proof. intros k Hk. apply eqb_f. intro H. symmetry in H. revert H. apply Py, Hk. Qed.
  Lemma ff : forall k j, (k < 256)%nat -> (j < 256)%nat -> String.eqb (fresh k d) (fresh j d) = (Nat.eqb k j).
  Proof.
    intros k j Hk Hj. destruct (Nat.eqb_spec k j) as [->|Ne]; [apply String.eqb_refl|].
    apply eqb_f, fresh_ne; auto.
  Qed.
  Lemma types_fresh :
    ovf_types (EO1 d) = Some (n * 2) /\ ovf_types (EO2 d) = Some (n * 2) /\ ovf_types (AI d) = Some (n * 2) /\
    ovf_types (RES d) = Some n /\ ovf_types (GT d) = Some 1 /\ ovf_types (LT d) = Some 1 /\ ovf_types (FLAG d) = Some 1.
  Proof.
    unfold ovf_types, EO1, EO2, AI, RES, GT, LT, FLAG.
    rewrite !fx, !fy, !ff by lia. cbn [orb Nat.eqb]. tauto.
  Qed.
  Lemma types_x : ovf_types x = Some n /\ ovf_types y = Some n.
  Proof. unfold ovf_types. rewrite !String.eqb_refl, orb_true_r. split; reflexivity. Qed.

  Lemma ovf_wt : forall (W : Z -> Prop), W n -> W (n * 2) -> W 1 -> wt_code ovf_types W c.
  Proof.
    intros W W1 W2 W3 z i H. destruct types_fresh as (T1 & T2 & T3 & T4 & T5 & T6 & T7). destruct types_x as [Tx Ty].
    assert (forall m, is_iN (n * 2) (pat (n * 2) m)) as Rp by (intros; apply pat_range; lia).
    unfold checked_arith, createFlag, createResult, extendBitWidth in H. cbn [app] in H.
    repeat (destruct H as [H|H]; [injection H as <- <-; destruct sg; cbn [iwidth wt_inst wt_value vwidth cast_ok];
      repeat split; try assumption; try apply Rp; lia|]). destruct H.
  Qed.

  Lemma ovf_run : x <> y \/ a = b -> exists r', run_code ovf_regs c = Some r' /\
    r' (RES d) = Some (ovf_value sg op n a b) /\ r' (FLAG d) = Some (ovf_flag sg op n a b).
  Proof.
    intros Hxy.
    assert (ovf_regs x = Some a) as Ex by apply set_same.
    assert (ovf_regs y = Some b) as Ey.
    { unfold ovf_regs. destruct (String.eqb_spec x y) as [->|Ne].
      - rewrite set_same. destruct Hxy; congruence.
      - rewrite set_other by exact Ne. apply set_same. }
    destruct (checked_arith_run d sg op n (VReg n x) (VReg n y) ovf_regs a b Hn Ex Ey) as (r' & H1 & H2 & H3 & _); auto.
    - cbn [value_den]. rewrite set_other; [exact Ey|]. intro H. symmetry in H. revert H. apply Py. lia.
    - eauto.
  Qed.

  Lemma ovf_stores : forall enc rb vx vy, (n = 1 -> False) -> rb x = Some vx -> rb y = Some vy ->
    represents enc n vx a -> represents enc n vy b -> x <> y \/ a = b ->
    stores_correspond enc ovf_types ovf_regs rb.
  Proof.
    intros enc rb vx vy Hn1 Hx Hy Rx Ry Hxy z m u Hz Hu. destruct types_x as [Tx Ty].
    unfold ovf_regs in Hu. destruct (String.eqb_spec x z) as [<-|Nx].
    - rewrite set_same in Hu. injection Hu as <-. rewrite Tx in Hz. injection Hz as <-.
      split; [exact Ha|]. exists vx. repeat split; auto. tauto.
    - rewrite set_other in Hu by exact Nx. unfold set_reg in Hu. destruct (String.eqb_spec y z) as [<-|Ny]; [|discriminate].
      injection Hu as <-. rewrite Ty in Hz. injection Hz as <-.
      split; [exact Hb|]. exists vy. repeat split; auto. tauto.
  Qed.
End One.

Lemma two_not_supported : forall n, In (n * 2) INTEGER_SIZES -> n <> 1.
Proof. intros n H ->. cbn in H. intuition lia. Qed.
Lemma represents_inj : forall enc n v a b, enc <> UnboundedInteger -> 
  represents enc n v a -> represents enc n v b -> a = b.
Proof.
  intros enc n v a b He Ha Hb. destruct enc; cbn in *; [congruence| |congruence].
  destruct Ha as (z & -> & <-), Hb as (z' & E & <-). congruence.
Qed.

Lemma code_events_forall : forall (P : event -> Prop) c r,
  (forall x i r e, In (x, i) c -> In e (inst_events r i) -> P e) -> Forall P (code_events r c).
Proof.
  intros P c. induction c as [|[x i] c IH]; intros r H; [constructor|]. cbn [code_events]. apply Forall_app. split.
  - apply Forall_forall. intros e He. apply (H x i r e); [now left|exact He].
  - destruct (inst_den r i); [|constructor]. apply IH. intros x' i' r' e Hin. apply (H x' i' r' e). now right.
Qed.

Lemma ovf_exact : forall enc p nd I bw d sg op n x y rb vx vy a b l,
  exact_encoding enc -> bitwise_knowledge enc p I bw ->
  program_widths nd n -> program_widths nd (n * 2) -> is_iN n a -> is_iN n b -> plain x -> plain y ->
  rb x = Some vx -> rb y = Some vy -> represents enc n vx a -> represents enc n vy b ->
  translate_code enc p nd (checked_arith d sg op n (VReg n x) (VReg n y)) = Some l ->
  exists fuel rb' v, run_assigns (prelude_of enc p) I fuel rb l = Some rb' /\
    rb' (RES d) = Some v /\ represents enc n v (ovf_value sg op n a b) /\
    rb' (FLAG d) = Some (truth enc (overflows sg op n a b)).
Proof.
  intros enc p nd I bw d sg op n x y rb vx vy a b l He HK Hw1 Hw2 Ha Hb Px Py Hx Hy Rx Ry Ht.
  pose proof (size_pos n (proj1 Hw1)) as Hn.
  pose proof (two_not_supported n (proj1 Hw2)) as Hn1.
  assert (x <> y \/ a = b) as Hxy.
  { destruct (String.eqb_spec x y) as [->|Ne]; [right|left; exact Ne].
    assert (vx = vy) as -> by congruence. eapply represents_inj; [|exact Rx|exact Ry].
    destruct He as [-> | ->]; discriminate. }
  assert (program_widths nd 1) as W1 by (split; [cbv; tauto|lia]).
  destruct (ovf_run d x y sg op n a b Px Py Hn Ha Hb Hxy) as (r' & Hrun & HR & HF).
  pose proof (ovf_wt d x y sg op n Px Py Hn (program_widths nd) Hw1 Hw2 W1) as Hwt.
  pose proof (ovf_stores d x y n a b Ha Hb enc rb vx vy Hn1 Hx Hy Rx Ry Hxy) as Hst.
  destruct (types_fresh d x y n Px Py) as (_ & _ & _ & T4 & _ & _ & T7).
  assert (exists fuel rb', run_assigns (prelude_of enc p) I fuel rb l = Some rb' /\
    stores_correspond enc (ovf_types d x y n) r' rb') as (fuel & rb' & Hra & Hsc).
  { destruct He as [-> | ->].
    - eapply code_bv; eauto.
    - eapply code_wrapped; eauto.
      assert (bw Or 1) as Hor.
      { destruct HK as [[-> _]|[-> _]]; [split; auto|exact Logic.I]. }
      apply code_events_forall. intros z i r e Hi Hin.
      unfold checked_arith, createFlag, createResult, extendBitWidth in Hi. cbn [app] in Hi.
      repeat (destruct Hi as [Hi|Hi];
        [injection Hi as <- <-; cbn [inst_events value_events app] in Hin; unfold ev2 in Hin;
         repeat match type of Hin with In _ (match ?t with _ => _ end) => destruct t; [|destruct Hin] end;
         destruct Hin as [<-|[]]; destruct sg, op; cbn; first [exact Logic.I | exact Hor | lia]|]).
      destruct Hi. }
  destruct (Hsc (RES d) n _ T4 HR) as (_ & v & Hv & Rv & _).
  destruct (Hsc (FLAG d) 1 _ T7 HF) as (_ & f & Hf & Rf & Tf).
  exists fuel, rb', v. repeat split; auto. rewrite Hf, Tf by reflexivity. f_equal. f_equal.
  unfold ovf_flag. destruct (overflows sg op n a b); reflexivity.
Qed.

(** ** Default encoding: the signed overflow flag *)
Lemma trans_code_app : forall O nd c1 c2 l, trans_code O nd (c1 ++ c2) = Some l ->
  exists l1 l2, trans_code O nd c1 = Some l1 /\ trans_code O nd c2 = Some l2 /\ l = (l1 ++ l2)%list.
Proof.
  intros O nd c1. induction c1 as [|[x i] c1 IH]; intros c2 l H; cbn [app trans_code] in *.
  - exists [], l. auto.
  - destruct (inst_expr O nd i) as [e|]; [|discriminate].
    destruct (trans_code O nd (c1 ++ c2)) as [l'|] eqn:E; [|discriminate]. injection H as <-.
    destruct (IH c2 l' E) as (l1 & l2 & -> & -> & ->). exists ((x, e) :: l1), l2. auto.
Qed.
Lemma run_assigns_mono : forall prog I l k j r r', run_assigns prog I k r l = Some r' ->
  run_assigns prog I (j + k) r l = Some r'.
Proof.
  intros prog I l k j. induction l as [|[x e] l IH]; intros r r' H; cbn [run_assigns] in *; [exact H|].
  destruct (eval prog I k r e) as [v|] eqn:E; [|discriminate].
  rewrite (eval_mono prog I k j r e v E). apply IH, H.
Qed.
Lemma run_assigns_app : forall prog I l1 l2 k r r1, run_assigns prog I k r l1 = Some r1 ->
  run_assigns prog I k r (l1 ++ l2) = run_assigns prog I k r1 l2.
Proof.
  intros prog I l1 l2 k. induction l1 as [|[x e] l1 IH]; intros r r1 H; cbn [app run_assigns] in *.
  - now injection H as <-.
  - destruct (eval prog I k r e); [|discriminate]. now apply IH.
Qed.

Lemma ovf_unbounded_signed : forall p nd I d op n x y rb a b l,
  meets_axioms (flags UnboundedInteger p) I ->
  program_widths nd n -> program_widths nd (n * 2) -> is_iN n a -> is_iN n b -> plain x -> plain y ->
  rb x = Some (VInt (signed n a)) -> rb y = Some (VInt (signed n b)) ->
  translate_code UnboundedInteger p nd (checked_arith d true op n (VReg n x) (VReg n y)) = Some l ->
  exists fuel rb', run_assigns (prelude_of UnboundedInteger p) I fuel rb l = Some rb' /\
    rb' (FLAG d) = Some (VInt (ovf_flag true op n a b)) /\
    rb' (RES d) = Some (VInt (math_result true op n a b)).
Proof.
  intros p nd I d op n x y rb a b l HI Hw1 Hw2 Ha Hb Px Py Hx Hy Ht.
  pose proof (size_pos n (proj1 Hw1)) as Hn.
  pose proof (two_not_supported n (proj1 Hw2)) as Hn1.
  assert (bitwise_knowledge UnboundedInteger p I axiomatised) as HK by (left; auto).
  assert (represents UnboundedInteger n (VInt (signed n a)) a) as Rx.
  { cbn. destruct (n =? 1) eqn:E; [lia|reflexivity]. }
  assert (represents UnboundedInteger n (VInt (signed n b)) b) as Ry.
  { cbn. destruct (n =? 1) eqn:E; [lia|reflexivity]. }
  assert (x <> y \/ a = b) as Hxy.
  { destruct (String.eqb_spec x y) as [->|Ne]; [right|left; exact Ne].
    rewrite Hx in Hy. injection Hy as E. apply (signed_eq_iff n a b); auto. }
  assert (program_widths nd 1) as W1 by (split; [cbv; tauto|lia]).
  set (c1 := [ (EO1 d, extendBitWidth (VReg n x) n true); (EO2 d, extendBitWidth (VReg n y) n true);
    (AI d, IBin (OVF_TABLE op) false (n * 2) (VReg (n * 2) (EO1 d)) (VReg (n * 2) (EO2 d))) ]).
  set (c2 := [(RES d, createResult d n)]). set (c3 := createFlag d n true).
  change (checked_arith d true op n (VReg n x) (VReg n y)) with (c1 ++ (c2 ++ c3))%list in Ht.
  apply trans_code_app in Ht. destruct Ht as (l1 & l23 & Ht1 & Ht & ->).
  apply trans_code_app in Ht. destruct Ht as (l2 & l3 & Ht2 & Ht3 & ->).
  set (G := ovf_types d x y n). set (r0 := ovf_regs x y a b).
  pose proof (ovf_wt d x y true op n Px Py Hn (program_widths nd) Hw1 Hw2 W1) as Hwt.
  change (checked_arith d true op n (VReg n x) (VReg n y)) with (c1 ++ (c2 ++ c3))%list in Hwt.
  pose proof (ovf_stores d x y n a b Ha Hb UnboundedInteger rb _ _ Hn1 Hx Hy Rx Ry Hxy) as Hst.
  destruct (types_fresh d x y n Px Py) as (T1 & T2 & T3 & T4 & T5 & T6 & T7).
  assert (r0 x = Some a) as Ex by apply set_same.
  assert (r0 y = Some b) as Ey.
  { unfold r0, ovf_regs. destruct (String.eqb_spec x y) as [->|Ne].
    - rewrite set_same. destruct Hxy; congruence.
    - rewrite set_other by exact Ne. apply set_same. }
  set (m := math_result true op n a b).
  assert (- 2 ^ (n * 2 - 1) <= m < 2 ^ (n * 2 - 1)) as Rm.
  { pose proof (wide_signed op n a b Hn Ha Hb) as R. cbv zeta in R. unfold m, math_result. destruct op; exact R. }
  set (ra := set_reg r0 (EO1 d) (pat (n * 2) (signed n a))).
  set (rc := set_reg ra (EO2 d) (pat (n * 2) (signed n b))).
  assert (ra y = Some b) as Ey'.
  { unfold ra. rewrite set_other; [exact Ey|]. intro H. symmetry in H. revert H. apply Py. lia. }
  assert (rc (EO1 d) = Some (pat (n * 2) (signed n a)) /\ rc (EO2 d) = Some (pat (n * 2) (signed n b))) as [Erc1 Erc2].
  { unfold rc. split; [|apply set_same]. rewrite set_other; [apply set_same|]. apply fresh_ne; lia. }
  assert (llvm_binop (OVF_TABLE op) (n * 2) (pat (n * 2) (signed n a)) (pat (n * 2) (signed n b)) = Some (pat (n * 2) m)) as Eop.
  { exact (pat_pat_op op (n * 2) n true a b Hn eq_refl Ha Hb). }
  set (r1 := set_reg rc (AI d) (pat (n * 2) m)).
  assert (run_code r0 c1 = Some r1) as Hrun1.
  { unfold c1, extendBitWidth. cbn [run_code inst_den value_den llvm_cast]. rewrite Ex.
    cbn [run_code inst_den value_den llvm_cast]. fold ra. rewrite Ey'. cbn [run_code inst_den value_den llvm_cast].
    fold rc. rewrite Erc1, Erc2. cbn [opt2 andb]. rewrite Eop. reflexivity. }
  pose proof (signed_range n a Hn Ha) as Sa. pose proof (signed_range n b Hn Hb) as Sb.
  assert (2 ^ (n - 1) <= 2 ^ (n * 2 - 1)) as Hle by (apply pow2_le; lia).
  destruct (code_unbounded p I axiomatised nd G c1 r0 rb r1 l1 HK) as (f1 & rb1 & Hrb1 & Hsc1); auto.
  { intros z i Hin. apply Hwt, in_or_app. now left. }
  { unfold c1, extendBitWidth. cbn [code_events inst_events value_events inst_den value_den llvm_cast]. rewrite Ex.
    cbn [code_events inst_events value_events inst_den value_den llvm_cast]. fold ra. rewrite Ey'.
    cbn [code_events inst_events value_events inst_den value_den llvm_cast]. fold rc. unfold ev2.
    cbn [value_den]. rewrite Erc1, Erc2. cbn [opt2 andb]. rewrite Eop. cbn [app].
    repeat constructor; try (cbn; lia).
    assert (forall s, - 2 ^ (n - 1) <= s < 2 ^ (n - 1) -> int_value (n * 2) (pat (n * 2) s) = s) as Hiv.
    { intros s Hs. unfold int_value. destruct (n * 2 =? 1) eqn:E; [lia|]. apply pat_signed; lia. }
    destruct op; cbn; unfold in_range; destruct (n * 2 =? 1) eqn:E; try lia; rewrite !Hiv by assumption; exact Rm. }
  { unfold c1, extendBitWidth. cbn. constructor. }
  (* the truncated result *)
  destruct (Hsc1 (AI d) (n * 2) (pat (n * 2) m) T3 (set_same _ _ _)) as (_ & v & Hv & Rv & _).
  cbn [represents] in Rv. destruct (n * 2 =? 1) eqn:E21; [lia|]. rewrite pat_signed in Rv by lia. subst v.
  assert (l2 = [(RES d, EFun (indexedName "$trunc" [NInt (n * 2); NInt n]) [EVar (AI d)])]) as El2.
  { unfold c2, createResult in Ht2. cbn in Ht2. injection Ht2 as <-. reflexivity. }
  assert (forall k, eval (prelude_of UnboundedInteger p) I (3 + k) rb1
            (EFun (indexedName "$trunc" [NInt (n * 2); NInt n]) [EVar (AI d)]) = Some (VInt m)) as Etr.
  { intro k. unfold eval. cbn [eval_with]. rewrite Hv.
    change (3 + k)%nat with (S (S (S k))).
    rewrite (c_trunc (flags UnboundedInteger p) _ I (extends_refl _) eq_refl); [reflexivity|exact (proj1 Hw2)|exact (proj1 Hw1)|lia]. }
  set (rb2 := upd_env rb1 (RES d) (VInt m)).
  set (G' := fun z => if String.eqb z (RES d) then None else G z).
  assert (stores_correspond UnboundedInteger G' r1 rb2) as Hsc2.
  { intros z k u Hz Hu. unfold G' in Hz. destruct (String.eqb_spec z (RES d)) as [|Ne]; [discriminate|].
    destruct (Hsc1 z k u Hz Hu) as (H1 & v & H2 & H3). split; [exact H1|]. exists v. split; [|exact H3].
    unfold rb2, upd_env. destruct (String.eqb_spec (RES d) z); [congruence|exact H2]. }
  assert (wt_code G' (program_widths nd) c3) as Hwt3.
  { intros z i Hin. destruct (Hwt z i) as [H1 H2]; [apply in_or_app; right; now right|].
    assert (G' (AI d) = Some (n * 2)) as GA by (unfold G', AI, RES; rewrite ff by lia; exact T3).
    assert (G' (GT d) = Some 1) as GG by (unfold G', GT, RES; rewrite ff by lia; exact T5).
    assert (G' (LT d) = Some 1) as GL by (unfold G', LT, RES; rewrite ff by lia; exact T6).
    assert (G' (FLAG d) = Some 1) as GF by (unfold G', FLAG, RES; rewrite ff by lia; exact T7).
    assert (forall u, is_iN (n * 2) (pat (n * 2) u)) as Rp by (intros; apply pat_range; lia).
    unfold c3, createFlag in Hin.
    repeat (destruct Hin as [Hin|Hin]; [injection Hin as <- <-; cbn [iwidth wt_inst wt_value vwidth];
       repeat split; try assumption; try apply Rp; first [apply Hw2 | apply W1]|]). destruct Hin. }
  assert (exists r2, run_code r1 c3 = Some r2 /\ r2 (FLAG d) = Some (ovf_flag true op n a b)) as (r2 & Hrun3 & HF).
  { unfold c3, createFlag. cbn [run_code inst_den value_den].
    assert (r1 (AI d) = Some (pat (n * 2) m)) as E1 by apply set_same. rewrite E1. cbn [opt2 run_code inst_den value_den].
    rewrite (set_other _ (GT d) (AI d)) by (apply fresh_ne; lia). rewrite E1. cbn [opt2 run_code inst_den value_den].
    rewrite (set_other _ (LT d) (GT d)) by (apply fresh_ne; lia). rewrite !set_same. cbn [opt2 andb llvm_binop run_code].
    eexists. split; [reflexivity|]. rewrite set_same. f_equal. exact (flag_correct true op n a b Hn Ha Hb). }
  destruct (code_unbounded p I axiomatised nd G' c3 r1 rb2 r2 l3 HK) as (f3 & rb3 & Hrb3 & Hsc3); auto.
  { apply code_events_forall. intros z i r e Hi Hin. unfold c3, createFlag in Hi.
    repeat (destruct Hi as [Hi|Hi];
      [injection Hi as <- <-; cbn [inst_events value_events app] in Hin; unfold ev2 in Hin;
       repeat match type of Hin with In _ (match ?t with _ => _ end) => destruct t; [|destruct Hin] end;
       destruct Hin as [<-|[]]; cbn; first [lia | split; auto]|]). destruct Hi. }
  { unfold c3, createFlag. cbn. repeat constructor. }
  (* glue *)
  set (f := (3 + (f1 + f3))%nat).
  exists f, rb3. split; [|split].
  - assert (run_assigns (prelude_of UnboundedInteger p) I f rb l1 = Some rb1) as R1.
    { replace f with ((3 + f3) + f1)%nat by (unfold f; lia). now apply run_assigns_mono. }
    rewrite (run_assigns_app _ _ _ _ _ _ _ R1). rewrite El2. cbn [app run_assigns].
    change (eval (prelude_of UnboundedInteger p) I f) with (eval (prelude_of UnboundedInteger p) I (3 + (f1 + f3))).
    rewrite Etr. fold rb2. replace f with ((3 + f1) + f3)%nat by (unfold f; lia). now apply run_assigns_mono.
  - destruct (Hsc3 (FLAG d) 1 _ ltac:(unfold G', FLAG, RES; rewrite ff by lia; exact T7) HF) as (_ & v & Hv3 & Rv & Tv).
    rewrite Hv3. rewrite Tv by reflexivity. unfold ovf_flag. destruct (overflows true op n a b); reflexivity.
  - assert (rb3 (RES d) = rb2 (RES d)) as ->; [|unfold rb2, upd_env; now rewrite String.eqb_refl].
    assert (forall l (k : nat) r r' z, ~ In z (map fst l) ->
              run_assigns (prelude_of UnboundedInteger p) I k r l = Some r' -> r' z = r z) as Hkeep.
    { induction l as [|[u e] l IH]; intros k r r' z Hz H; cbn [run_assigns map fst In] in *; [congruence|].
      destruct (eval _ I k r e); [|discriminate]. rewrite (IH _ _ _ z ltac:(tauto) H).
      unfold upd_env. destruct (String.eqb_spec u z); [tauto|reflexivity]. }
    apply (Hkeep l3 f3); [|exact Hrb3].
    unfold c3, createFlag in Ht3. cbn [trans_code] in Ht3.
    repeat match type of Ht3 with context [inst_expr ?A ?B ?C] => destruct (inst_expr A B C); [|discriminate] end.
    injection Ht3 as <-. cbn [map fst In]. intros [H|[H|[H|[]]]]; revert H; apply fresh_ne; lia.
Qed.
