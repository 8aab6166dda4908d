(** C35: vector instructions act lane by lane, and which of them survive the
    translation. *)
From Coq Require Import ZArith List String Bool Lia.
From Verif.Spec Require Import LLVMInt IR Encodings VectorOps VectorEnc.
From Verif.Model Require Import Boogie PreludeInt SmackRepInt Vectors VectorSem.
From Verif.Proofs Require Import IntMain VectorTable VectorTyping VectorLanes VectorModel.
Import ListNotations.
Open Scope string_scope.
Open Scope list_scope.
Open Scope Z_scope.

(** The type checker's verdict on a program with the vector instructions [l]. *)
Theorem C35_translated : forall enc bvptr l, Forall well_formed l -> exists tbl, declarations (flags enc bvptr) [] l = Some tbl.
Proof. intros. now apply declarations_total. Qed.
Print Assumptions C35_translated.
Theorem C35_accepted : forall enc bvptr l tbl, Forall well_formed l -> declarations (flags enc bvptr) [] l = Some tbl ->
  (accepted (preludeInt (flags enc bvptr)) tbl = true <-> Forall (supported_inst enc) l).
Proof. intros. eapply accepted_iff; eassumption. Qed.
Print Assumptions C35_accepted.
Theorem C35_calls_typed : forall enc bvptr l tbl i args vars, let O := flags enc bvptr in
  Forall well_formed l -> declarations O [] l = Some tbl -> In i l ->
  map (typeof (preludeInt O) tbl vars) args = map (fun T => Some (bty_of (typ O T))) (fst (inst_types i)) ->
  exists e, emitted O i args = Some e /\ typeof (preludeInt O) tbl vars e = Some (bty_of (typ O (snd (inst_types i)))).
Proof.
  intros enc bvptr l tbl i args vars O W HT Hi Ha. pose proof (proj1 (Forall_forall _ _) W i Hi) as Wi.
  destruct (visit_total O i Wi) as (f & ds & E). unfold emitted. rewrite E. eexists. split; [reflexivity|].
  pose proof (table_in O l tbl i f ds W HT Hi E) as Hin.
  assert (signature (preludeInt O) tbl f = Some (map (fun T => bty_of (typ O T)) (fst (inst_types i)), bty_of (typ O (snd (inst_types i))))) as HS.
  { assert (exists F, In (DFun F) ds /\ scalar_name (vf_name F) = None /\ vf_name F = f /\ map (fun p => bty_of (snd p)) (vf_params F) = map (fun T => bty_of (typ O T)) (fst (inst_types i)) /\
      vf_ret F = typ O (snd (inst_types i))) as (F & F1 & F2 & <- & F3 & F4).
    { destruct i as [op n w|q n w|c src dst|n w n' mask|n w iw|n w iw]; cbn [visit] in E.
      - injection E as <- <-. exists (binary O op n w). cbn; tauto.
      - injection E as <- <-. exists (cmp O q n w). cbn; tauto.
      - injection E as <- <-. assert (exists n w, dst = LV n w) as (n & w & ->) by (cbn in Wi; clear - Wi; destruct dst; [destruct c, src; cbn in Wi; tauto|eauto]).
        exists (castFn c (typ O src) (typ O (LV n w))). split; [cbn [typ]; do 2 (apply in_app_iff; right); cbn; auto|]. split; [destruct src; reflexivity|]. cbn; tauto.
      - destruct (shuffle O n w n' mask) as [F|] eqn:EF; [|discriminate]. injection E as <- <-. exists F. split; [cbn; tauto|].
        unfold shuffle in EF. destruct (forallb _ mask); [|discriminate]. injection EF as <-. cbn; tauto.
      - cbn [insert] in E. injection E as <- <-. eexists. split; [right; right; left; reflexivity|]. cbn; tauto.
      - cbn [extract] in E. injection E as <- <-. eexists. split; [right; right; left; reflexivity|]. cbn; tauto. }
    etransitivity; [exact (signature_in enc bvptr l tbl W HT F (Hin _ F1) F2)|]. rewrite F3, F4. reflexivity. }
  cbn [typeof]. rewrite HS.
  assert (forall es ts, map (typeof (preludeInt O) tbl vars) es = map (fun T => Some (bty_of (typ O T))) ts ->
    (fix typesof (es : list vexpr) : option (list bty) :=
      match es with
      | [] => Some []
      | e :: es' => match typeof (preludeInt O) tbl vars e with Some t => match typesof es' with Some ts => Some (t :: ts) | None => None end | None => None end
      end) es = Some (map (fun T => bty_of (typ O T)) ts)) as HL.
  { induction es as [|e es IH]; intros [|t ts] H; try discriminate; [reflexivity|]. cbn [map] in H. injection H as H1 H2. rewrite H1, (IH ts H2). reflexivity. }
  rewrite (HL _ _ Ha), (proj2 (btys_eqb_true _ _) eq_refl). reflexivity.
Qed.
Print Assumptions C35_calls_typed.

(** Arithmetic, shifts and bitwise operations: every lane of the result stands for
    the machine's result on the lanes of the operands, where the scalar encoding is
    exact on them. *)
Theorem C35_arithmetic : forall enc bvptr I bw l tbl M op n w a b r us vs xs ys zs, let O := flags enc bvptr in
  known_bitwise enc bvptr I bw ->
  Forall well_formed l -> declarations O [] l = Some tbl -> satisfies (preludeInt O) I M tbl -> In (IVBin op n w) l ->
  veval (preludeInt O) I M r a = Some (vector O w us) -> veval (preludeInt O) I M r b = Some (vector O w vs) ->
  Forall2 (lane enc w) us xs -> Forall2 (lane enc w) vs ys -> List.length xs = n ->
  vec_binop op w xs ys = Some zs -> lanes_exact enc bw (EvBin op w) xs ys ->
  exists e ws, emitted O (IVBin op n w) [a; b] = Some e /\ veval (preludeInt O) I M r e = Some (vector O w ws) /\ Forall2 (lane enc w) ws zs.
Proof.
  intros enc bvptr I bw l tbl M op n w a b r us vs xs ys zs O HK W HT HM Hi Ea Eb H1 H2 Hn Hz He.
  destruct (binop_value enc bvptr I bw HK l tbl M W HT HM op n w us vs xs ys zs) as (ws & A1 & A2); try assumption; [rewrite (f2_length _ _ _ H1); exact Hn|].
  eexists _, ws. split; [reflexivity|]. split; [|exact A2]. rewrite veval_fun. cbn [vevals]. rewrite Ea, Eb. f_equal. exact A1.
Qed.
Print Assumptions C35_arithmetic.

(** Comparisons of i1 lanes. *)
Theorem C35_compare : forall enc bvptr I bw l tbl M q n a b r us vs xs ys zs, let O := flags enc bvptr in
  Forall well_formed l -> declarations O [] l = Some tbl -> satisfies (preludeInt O) I M tbl -> In (IVCmp q n 1) l ->
  veval (preludeInt O) I M r a = Some (vector O 1 us) -> veval (preludeInt O) I M r b = Some (vector O 1 vs) ->
  Forall2 (lane enc 1) us xs -> Forall2 (lane enc 1) vs ys -> List.length xs = n ->
  vec_icmp q 1 xs ys = Some zs -> lanes_exact enc bw (EvCmp q 1) xs ys ->
  exists e ws, emitted O (IVCmp q n 1) [a; b] = Some e /\ veval (preludeInt O) I M r e = Some (vector O 1 ws) /\ Forall2 (lane enc 1) ws zs.
Proof.
  intros enc bvptr I bw l tbl M q n a b r us vs xs ys zs O W HT HM Hi Ea Eb H1 H2 Hn Hz He.
  destruct (icmp_value enc bvptr I bw l tbl M W HT HM q n us vs xs ys zs) as (ws & A1 & A2); try assumption; [rewrite (f2_length _ _ _ H1); exact Hn|].
  eexists _, ws. split; [reflexivity|]. split; [|exact A2]. rewrite veval_fun. cbn [vevals]. rewrite Ea, Eb. f_equal. exact A1.
Qed.
Print Assumptions C35_compare.

(** shufflevector, in every encoding. *)
Theorem C35_shuffle : forall enc bvptr I l tbl M n w n' mask a b r us vs xs ys, let O := flags enc bvptr in
  Forall well_formed l -> declarations O [] l = Some tbl -> satisfies (preludeInt O) I M tbl -> In (IVShuffle n w n' mask) l ->
  veval (preludeInt O) I M r a = Some (vector O w us) -> veval (preludeInt O) I M r b = Some (vector O w vs) ->
  Forall2 (lane enc w) us xs -> Forall2 (lane enc w) vs ys -> List.length xs = n -> List.length ys = n ->
  exists e ws zs, emitted O (IVShuffle n w n' mask) [a; b] = Some e /\ veval (preludeInt O) I M r e = Some (vector O w ws) /\
    shufflevector xs ys mask = Some zs /\ Forall2 (lane enc w) ws zs.
Proof.
  intros enc bvptr I l tbl M n w n' mask a b r us vs xs ys O W HT HM Hi Ea Eb H1 H2 Hn Hn2.
  pose proof (proj1 (Forall_forall _ _) W _ Hi) as Wi. destruct (visit_total O _ Wi) as (f & ds & E).
  assert (exists zs, shufflevector xs ys mask = Some zs) as [zs Hz].
  { destruct Wi as (_ & _ & _ & Hm). clear - Hm Hn Hn2. induction mask as [|m mask IH]; [eexists; reflexivity|]. inversion Hm as [|? ? Hm1 Hm2]; subst. specialize (IH Hm2). destruct IH as [zs Hz]. cbn. rewrite Hz. unfold extractelement.
    rewrite app_length. assert ((0 <=? m) && (m <? Z.of_nat (List.length xs + List.length ys)) = true) as -> by lia.
    destruct (nth_error (xs ++ ys) (Z.to_nat m)) eqn:En; [eauto|]. apply nth_error_None in En. rewrite app_length in En. lia. }
  destruct (shuffle_value enc bvptr I l tbl M W HT HM n w n' mask us vs xs ys zs) as (ws & A1 & A2); try assumption;
    [rewrite (f2_length _ _ _ H1); exact Hn|rewrite (f2_length _ _ _ H2); exact Hn2|].
  unfold emitted. rewrite E. eexists _, ws, zs. split; [reflexivity|]. split; [|auto]. rewrite veval_fun. cbn [vevals]. rewrite Ea, Eb. f_equal.
  cbn [visit] in E. destruct (shuffle O n w n' mask) as [F|] eqn:EF; [|discriminate]. injection E as <- <-.
  unfold shuffle in EF. destruct (forallb _ mask); [|discriminate]. injection EF as <-. exact A1.
Qed.
Print Assumptions C35_shuffle.

(** extractelement and insertelement: exact when the index operand's Boogie value
    is the index itself. *)
Theorem C35_extract : forall enc bvptr I l tbl M n w iw a ie r us xs i x, let O := flags enc bvptr in
  Forall well_formed l -> declarations O [] l = Some tbl -> satisfies (preludeInt O) I M tbl -> In (IVExtract n w iw) l ->
  veval (preludeInt O) I M r a = Some (vector O w us) -> veval (preludeInt O) I M r ie = Some (SV (VInt i)) ->
  Forall2 (lane enc w) us xs -> List.length xs = n -> extractelement xs i = Some x ->
  exists e v, emitted O (IVExtract n w iw) [a; ie] = Some e /\ veval (preludeInt O) I M r e = Some (SV v) /\ lane enc w v x.
Proof.
  intros enc bvptr I l tbl M n w iw a ie r us xs i x O W HT HM Hi Ea Ei H1 Hn Hx.
  unfold extractelement in Hx. destruct (_ && _) eqn:Eb; [|discriminate]. apply andb_true_iff in Eb as [B1 B2]. apply Z.leb_le in B1. apply Z.ltb_lt in B2.
  pose proof (f2_length _ _ _ H1) as L. eexists _, (nth (Z.to_nat i) us (VInt 0)). split; [reflexivity|]. split.
  - rewrite veval_fun. cbn [vevals]. rewrite Ea, Ei. f_equal. rewrite <- (Z2Nat.id i B1).
    etransitivity; [apply (extract_value enc bvptr I l tbl M W HT HM n w iw us (Z.to_nat i) Hi); [|lia]|now rewrite Nat2Z.id].
    rewrite <- Hn, <- L. eapply vector_in, H1.
  - eapply (f2_nth _ _ _ _ _ _ H1); [|exact Hx]. apply nth_error_nth'. lia.
Qed.
Print Assumptions C35_extract.
Theorem C35_insert : forall enc bvptr I l tbl M n w iw a xe ie r us xs v x i zs, let O := flags enc bvptr in
  Forall well_formed l -> declarations O [] l = Some tbl -> satisfies (preludeInt O) I M tbl -> In (IVInsert n w iw) l ->
  veval (preludeInt O) I M r a = Some (vector O w us) -> veval (preludeInt O) I M r xe = Some (SV v) -> veval (preludeInt O) I M r ie = Some (SV (VInt i)) ->
  Forall2 (lane enc w) us xs -> List.length xs = n -> lane enc w v x -> insertelement xs x i = Some zs ->
  exists e ws, emitted O (IVInsert n w iw) [a; xe; ie] = Some e /\ veval (preludeInt O) I M r e = Some (vector O w ws) /\ Forall2 (lane enc w) ws zs.
Proof.
  intros enc bvptr I l tbl M n w iw a xe ie r us xs v x i zs O W HT HM Hi Ea Ex Ei H1 Hn Hv Hz.
  unfold insertelement in Hz. destruct (_ && _) eqn:Eb; [|discriminate]. injection Hz as <-. apply andb_true_iff in Eb as [B1 B2]. apply Z.leb_le in B1. apply Z.ltb_lt in B2.
  destruct (Z_of_nat_complete i B1) as (k & ->). rewrite Nat2Z.id.
  pose proof (f2_length _ _ _ H1) as L. eexists _, _. split; [reflexivity|]. split.
  - rewrite veval_fun. cbn [vevals]. rewrite Ea, Ex, Ei. f_equal.
    apply (insert_value enc bvptr I l tbl M W HT HM n w iw us v k Hi); [|eapply lane_scalar, Hv|lia].
    rewrite <- Hn, <- L. eapply vector_in, H1.
  - rewrite <- Hn, <- L. apply insert_lanes; auto. lia.
Qed.
Print Assumptions C35_insert.

(** Constants, including zeroinitializer; and constant indices below half the
    range of their type are what C35_extract asks for. *)
Theorem C35_constant : forall enc bvptr I M nd n w cs r, let O := flags enc bvptr in
  In w INTEGER_SIZES -> Forall (is_iN w) cs -> List.length cs = n ->
  exists e ws, constant O nd n w cs = Some e /\ veval (preludeInt O) I M r e = Some (vector O w ws) /\ Forall2 (lane enc w) ws cs.
Proof. intros. now apply constant_value. Qed.
Print Assumptions C35_constant.
Theorem C35_constant_index : forall enc bvptr I M nd iw i r, let O := flags enc bvptr in
  enc <> BitVector -> In iw INTEGER_SIZES -> 0 <= i < 2 ^ (iw - 1) ->
  exists e, lit O nd iw i false false = Some e /\ veval (preludeInt O) I M r (XScalar e) = Some (SV (VInt i)).
Proof.
  intros enc bvptr I M nd iw i r O He Hw Hi. unfold lit. assert (bitPrecise O = false) as Hb by (unfold O; destruct enc; [congruence|reflexivity|reflexivity]).
  destruct (1 <? iw) eqn:E1.
  - assert (APInt_isNegative iw i = false) as En by (unfold APInt_isNegative; lia). rewrite En. unfold integerLitU. rewrite Hb. eexists. split; reflexivity.
  - pose proof (PreludeCalls.size_pos iw Hw). assert (iw = 1) by lia. subst iw. cbn in Hi. assert (i = 0) by lia. subst i. cbn. rewrite ?Hb. eexists. split; reflexivity.
Qed.
Print Assumptions C35_constant_index.

(** Bitcasts: an integer and the vector with it as single lane; and casting there
    and back. *)
Theorem C35_one_lane : forall enc bvptr I l tbl M w a r v x, let O := flags enc bvptr in
  Forall well_formed l -> declarations O [] l = Some tbl -> satisfies (preludeInt O) I M tbl -> In (IVCast VBitCast (LI w) (LV 1 w)) l ->
  veval (preludeInt O) I M r a = Some (SV v) -> lane enc w v x ->
  exists e, emitted O (IVCast VBitCast (LI w) (LV 1 w)) [a] = Some e /\ veval (preludeInt O) I M r e = Some (vector O w [v]).
Proof.
  intros enc bvptr I l tbl M w a r v x O W HT HM Hi Ea Hv. eexists. split; [reflexivity|]. rewrite veval_fun. cbn [vevals]. rewrite Ea. f_equal.
  eapply one_lane_value; eauto using lane_scalar.
Qed.
Print Assumptions C35_one_lane.
Theorem C35_round_trip : forall enc bvptr I l tbl M src dst a r v, let O := flags enc bvptr in
  Forall well_formed l -> declarations O [] l = Some tbl -> satisfies (preludeInt O) I M tbl -> In (IVCast VBitCast src dst) l ->
  veval (preludeInt O) I M r a = Some v -> in_type v (typ O src) ->
  exists e e', emitted O (IVCast VBitCast src dst) [a] = Some e /\ emitted O (IVCast VBitCast dst src) [e] = Some e' /\
    veval (preludeInt O) I M r e' = Some v.
Proof.
  intros enc bvptr I l tbl M src dst a r v O W HT HM Hi Ea Hv. eexists _, _. split; [reflexivity|]. split; [reflexivity|].
  rewrite veval_fun. cbn [vevals]. rewrite veval_fun. cbn [vevals]. rewrite Ea. f_equal. eapply inverse_value; eauto.
Qed.
Print Assumptions C35_round_trip.

(** The declarations are satisfiable, so the theorems above are not vacuous: for
    every list of accepted instructions without lane-changing conversions. *)
Theorem C35_consistent : forall enc bvptr I l tbl, let O := flags enc bvptr in
  Forall well_formed l -> declarations O [] l = Some tbl -> Forall (supported_inst enc) l -> Forall (keeps_lanes enc) l ->
  exists M, satisfies (preludeInt O) I M tbl.
Proof.
  intros enc bvptr I l tbl O W HT HS HK. exists (canonical enc bvptr I relabel). eapply canonical_satisfies; eauto.
  rewrite Forall_forall in *. intros i Hi. apply relabel_fine; auto.
Qed.
Print Assumptions C35_consistent.

(** *** Where vector programs go wrong *)
(** Comparing vectors of anything but i1 does not type check. *)
Theorem C35_comparison_refuted : forall enc bvptr q n w, (1 <= n)%nat -> In w INTEGER_SIZES -> w <> 1 ->
  exists tbl, declarations (flags enc bvptr) [] [IVCmp q n w] = Some tbl /\ accepted (preludeInt (flags enc bvptr)) tbl = false.
Proof.
  intros enc bvptr q n w Hn Hw H1. assert (Forall well_formed [IVCmp q n w]) as W by (constructor; [split; assumption|constructor]).
  destruct (declarations_total (flags enc bvptr) _ [] W) as (tbl & HT). exists tbl. split; [exact HT|].
  apply not_true_iff_false. intros H. apply (accepted_iff enc bvptr _ tbl W HT) in H. inversion H; subst. contradiction.
Qed.
Print Assumptions C35_comparison_refuted.
(** Neither do insertelement and extractelement with bit-vectors. *)
Theorem C35_bitvector_index_refuted : forall bvptr i n w iw, (1 <= n)%nat -> In w INTEGER_SIZES -> In iw INTEGER_SIZES -> i = IVInsert n w iw \/ i = IVExtract n w iw ->
  exists tbl, declarations (flags BitVector bvptr) [] [i] = Some tbl /\ accepted (preludeInt (flags BitVector bvptr)) tbl = false.
Proof.
  intros bvptr i n w iw Hn Hw Hiw Hi. assert (Forall well_formed [i]) as W by (constructor; [destruct Hi as [-> | ->]; repeat split; assumption|constructor]).
  destruct (declarations_total (flags BitVector bvptr) _ [] W) as (tbl & HT). exists tbl. split; [exact HT|].
  apply not_true_iff_false. intros H. apply (accepted_iff BitVector bvptr _ tbl W HT) in H. inversion H as [|? ? H1 _]; subst.
  destruct Hi as [-> | ->]; apply H1; reflexivity.
Qed.
Print Assumptions C35_bitvector_index_refuted.
(** A bitcast from a vector to an integer calls a function nothing declares. *)
Theorem C35_bitcast_to_integer_refuted : forall enc bvptr n w w' args vars, let O := flags enc bvptr in let i := IVCast VBitCast (LV n w) (LI w') in
  declarations O [] [i] = Some [] /\ exists e, emitted O i args = Some e /\ typeof (preludeInt O) [] vars e = None.
Proof. intros. split; [reflexivity|]. eexists. split; [reflexivity|]. reflexivity. Qed.
Print Assumptions C35_bitcast_to_integer_refuted.
(** With bit-vectors trunc, zext and sext of vectors make the axioms contradictory:
    every assertion of the program is verified. *)
Theorem C35_casts_bitvector_refuted : forall bvptr I l tbl c n w1 w2, let O := flags BitVector bvptr in
  Forall well_formed l -> declarations O [] l = Some tbl -> In (IVCast (VCast c) (LV n w1) (LV n w2)) l ->
  forall M, ~ satisfies (preludeInt O) I M tbl.
Proof.
  intros bvptr I l tbl c n w1 w2 O W HT Hi M HM. pose proof (proj1 (Forall_forall _ _) W _ Hi) as (_ & [Hn H1] & [_ H2] & Hc).
  apply PreludeCalls.size_pos in H1. apply PreludeCalls.size_pos in H2.
  set (fwd := fun v => M (VName (OCast (VCast c)) [Vec n (NBv w1); Vec n (NBv w2)]) [v]).
  set (back := fun v => M (VName (OCast (VCast c)) [Vec n (NBv w2); Vec n (NBv w1)]) [v]).
  assert (w2 < w1 \/ w1 < w2) as [Hw|Hw] by (destruct c; cbn in Hc; lia).
  - apply (no_narrowing n w1 w2 fwd back); try lia; intros v Hv.
    + exact (cast_type BitVector bvptr I l tbl M W HT HM _ _ _ v Hi Hv).
    + exact (inverse_value BitVector bvptr I l tbl M W HT HM _ _ _ v Hi Hv).
  - apply (no_narrowing n w2 w1 back fwd); try lia; intros v Hv.
    + exact (cast_type' BitVector bvptr I l tbl M W HT HM _ _ _ v Hi Hv).
    + exact (inverse_value' BitVector bvptr I l tbl M W HT HM _ _ _ v Hi Hv).
Qed.
Print Assumptions C35_casts_bitvector_refuted.
(** In the integer encodings they are accepted, consistent and wrong: the result may
    have other lanes. *)
Theorem C35_casts_integer_refuted : forall enc bvptr I c n w1 w2, let O := flags enc bvptr in let i := IVCast (VCast c) (LV n w1) (LV n w2) in
  enc <> BitVector -> well_formed i ->
  exists tbl, declarations O [] [i] = Some tbl /\ accepted (preludeInt O) tbl = true /\
  exists M, satisfies (preludeInt O) I M tbl /\
  forall r a zs, veval (preludeInt O) I M r a = Some (vector O w1 (map VInt zs)) -> List.length zs = n ->
  exists e, emitted O i [a] = Some e /\ veval (preludeInt O) I M r e = Some (vector O w2 (map (fun z => VInt (- z)) zs)).
Proof.
  intros enc bvptr I c n w1 w2 O i He Wi. assert (Forall well_formed [i]) as W by (constructor; [assumption|constructor]).
  destruct (declarations_total O _ [] W) as (tbl & HT). exists tbl. split; [exact HT|].
  split; [apply (accepted_iff enc bvptr _ tbl W HT); repeat constructor|].
  exists (canonical enc bvptr I flipped). split.
  - apply (canonical_satisfies enc bvptr I flipped [i] tbl W HT); [repeat constructor|]. constructor; [|constructor]. now apply flipped_fine.
  - intros r a zs Ea Hl. eexists. split; [reflexivity|]. rewrite veval_fun. cbn [vevals]. rewrite Ea. f_equal.
    cbn. unfold vector. rewrite !map_length, map_map. cbn. now rewrite Hl.
Qed.
Print Assumptions C35_casts_integer_refuted.
(** With wrapped integers an index known modulo 2^32 only may select another lane. *)
Theorem C35_wrapped_index_refuted : forall bvptr I, let O := flags WrappedInteger bvptr in let i := IVExtract 2 32 32 in
  exists tbl M, declarations O [] [i] = Some tbl /\ satisfies (preludeInt O) I M tbl /\
  lane WrappedInteger 32 (VInt (2 ^ 32)) 0 /\ extractelement [7; 9] 0 = Some 7 /\
  forall r a ie, veval (preludeInt O) I M r a = Some (vector O 32 [VInt 7; VInt 9]) -> veval (preludeInt O) I M r ie = Some (SV (VInt (2 ^ 32))) ->
  exists e, emitted O i [a; ie] = Some e /\ veval (preludeInt O) I M r e = Some (SV (VInt 0)).
Proof.
  intros bvptr I O i. assert (Forall well_formed [i]) as W by (repeat constructor; cbn; tauto).
  destruct (declarations_total O _ [] W) as (tbl & HT). exists tbl, (canonical WrappedInteger bvptr I relabel). split; [exact HT|]. split.
  - apply (canonical_satisfies WrappedInteger bvptr I relabel [i] tbl W HT); repeat constructor; discriminate.
  - split; [|split; [reflexivity|]].
    + split; [split; reflexivity || lia|]. split; [exists (2 ^ 32); split; reflexivity|discriminate].
    + intros r a ie Ea Ei. eexists. split; [reflexivity|]. rewrite veval_fun. cbn [vevals]. rewrite Ea, Ei. reflexivity.
Qed.
Print Assumptions C35_wrapped_index_refuted.

(** A program with an instruction of each kind meets the hypotheses. *)
Definition sample : list vinst :=
  [IVBin Add 4 32; IVBin Xor 2 1; IVCmp EQ 2 1; IVShuffle 4 32 2 [5; 0]; IVInsert 4 32 32; IVExtract 4 32 64; IVCast VBitCast (LI 32) (LV 1 32)].
Example C35_nonvacuous :
  exists tbl, declarations (flags WrappedInteger false) [] sample = Some tbl /\ Forall well_formed sample /\
    accepted (preludeInt (flags WrappedInteger false)) tbl = true /\
    (exists M, satisfies (preludeInt (flags WrappedInteger false)) (machine_interp WrappedInteger) M tbl) /\
    known_bitwise WrappedInteger false (machine_interp WrappedInteger) all_bitwise /\
    vec_binop Add 32 [1; 2; 3; 2 ^ 32 - 1] [10; 20; 30; 1] = Some [11; 22; 33; 0] /\
    Forall2 (lane WrappedInteger 32) [VInt 1; VInt 2; VInt 3; VInt (-1)] [1; 2; 3; 2 ^ 32 - 1] /\
    lanes_exact WrappedInteger all_bitwise (EvBin Add 32) [1; 2; 3; 2 ^ 32 - 1] [10; 20; 30; 1] /\
    shufflevector [1; 2; 3; 4] [5; 6; 7; 8] [5; 0] = Some [6; 1].
Proof.
  assert (forall w, In w [1; 32; 64] -> In w INTEGER_SIZES) as Hs by (intros w [<-|[<-|[<-|[]]]]; cbn; tauto).
  assert (Forall well_formed sample) as W.
  { unfold sample. repeat apply Forall_cons; try apply Forall_nil; cbn [well_formed legal is_vector bits];
    repeat match goal with |- _ /\ _ => split end; try (apply Hs; cbn; tauto); try lia; try reflexivity; try exact Logic.I.
    repeat apply Forall_cons; try apply Forall_nil; lia. }
  destruct (declarations_total (flags WrappedInteger false) _ [] W) as (tbl & HT). exists tbl. split; [exact HT|]. split; [exact W|].
  assert (Forall (supported_inst WrappedInteger) sample) as S.
  { unfold sample. repeat apply Forall_cons; try apply Forall_nil; cbn [supported_inst]; try exact Logic.I; try reflexivity; discriminate. }
  assert (Forall (keeps_lanes WrappedInteger) sample) as KL.
  { unfold sample. repeat apply Forall_cons; try apply Forall_nil; cbn [keeps_lanes lane_count]; try exact Logic.I. split; [reflexivity|discriminate]. }
  split; [now apply (C35_accepted _ _ _ _ W HT)|]. split; [exact (C35_consistent _ _ _ _ _ W HT S KL)|].
  split; [right; right; split; reflexivity|]. split; [reflexivity|].
  assert (forall z x, is_iN 32 x -> pat 32 z = x -> lane WrappedInteger 32 (VInt z) x) as HL.
  { intros z x Hx E. split; [exact Hx|]. split; [exists z; auto|discriminate]. }
  split; [|split; [|reflexivity]].
  - repeat apply Forall2_cons; try apply Forall2_nil; apply HL; try reflexivity; unfold is_iN; change (2 ^ 32) with 4294967296; lia.
  - unfold lanes_exact. repeat apply Forall2_cons; try apply Forall2_nil; cbn [exact_on wrapped_exact]; discriminate.
Qed.
