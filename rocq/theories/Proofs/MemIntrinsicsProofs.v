(** memcpy and memset determine their result. *)
From Coq Require Import ZArith List String Bool Lia ZifyBool.
From Verif.Base Require Import ZBits.
From Verif.Spec Require Import LLVMInt IR Encodings Pointers ByteMemory.
From Verif.Model Require Import Boogie PreludeInt SmackRepInt PreludeMem Globals MemIntrinsics.
From Verif.Proofs Require Import Lookup PreludeCalls ExprSim EvalCompose MemCalls PtrProofs PtrCmp.
Import ListNotations.
Open Scope string_scope.
Open Scope list_scope.
Open Scope Z_scope.

Lemma scalar_of_inj : forall c x y, scalar_of c x = scalar_of c y -> x = y.
Proof. intros [w|] x y H; cbn in H; congruence. Qed.

Section Copy.
  Context (enc : encoding) (bvptr : bool) (P : Z) (prog : list fdecl) (I : interp).
  Notation fl := (flags enc bvptr).
  Hypothesis Hext : extends prog (preludeMem fl P).
  Hypothesis HP : ptr_width P.
  Notation ev := (evaluates prog I).

  Definition key (a : Z) : Z := if bvptr then signed P a else a.

  Lemma pointer_ptr' : forall a, pointer bvptr P a = ptr fl P a.
  Proof. intros a. unfold pointer, ptr. now rewrite flags_bpp. Qed.

  Lemma ev_cmp : forall r e1 e2 a b, ev r e1 (pointer bvptr P a) -> ev r e2 (pointer bvptr P b) ->
    ev r (le e1 e2) (VBool (key a <=? key b)) /\ ev r (lt e1 e2) (VBool (key a <? key b)).
  Proof.
    intros r e1 e2 a b H1 H2.
    assert (forall p f, f = indexedName (CMPINST_TABLE p) [NRef; NBool] -> p = SLE \/ p = SLT ->
      ev r (EFun f [e1; e2]) (VBool (if match p with SLE => true | _ => false end then key a <=? key b else key a <? key b))) as H.
    { intros p f -> Hp. eapply ev_fun; [constructor; [exact H1|]; constructor; [exact H2|constructor]|].
      unfold key, pointer. destruct bvptr eqn:Hb.
      - replace (VBool _) with (VBool (llvm_icmp p P a b)) by (destruct Hp as [-> | ->]; reflexivity).
        refine (calls_cmpbool_bv enc true P prog I Hext HP p a b eq_refl _). destruct Hp as [-> | ->]; split; discriminate.
      - pose proof (calls_cmpbool_int enc false P prog I Hext p a b eq_refl) as H. destruct Hp as [-> | ->]; exact H. }
    split; [exact (H SLE _ eq_refl ltac:(tauto))|exact (H SLT _ eq_refl ltac:(tauto))].
  Qed.

  Definition wrap (z : Z) : Z := if bvptr then pat P z else z.
  Lemma ev_plus : forall r e1 e2 a b, ev r e1 (pointer bvptr P a) -> ev r e2 (pointer bvptr P b) ->
    ev r (plus e1 e2) (pointer bvptr P (wrap (a + b))).
  Proof.
    intros r e1 e2 a b H1 H2. rewrite pointer_ptr' in *.
    replace (wrap (a + b)) with (pwrap fl P (a + b)) by (unfold pwrap, wrap, pat; now rewrite flags_bpp).
    apply (ev_ref_op enc bvptr P prog I Hext HP "$add"); [cbn; tauto|assumption..].
  Qed.
  Lemma ev_minus : forall r e1 e2 a b, ev r e1 (pointer bvptr P a) -> ev r e2 (pointer bvptr P b) ->
    ev r (minus e1 e2) (pointer bvptr P (wrap (a - b))).
  Proof.
    intros r e1 e2 a b H1 H2. rewrite pointer_ptr' in *.
    replace (wrap (a - b)) with (pwrap fl P (a - b)) by (unfold pwrap, wrap, pat; now rewrite flags_bpp).
    apply (ev_ref_op enc bvptr P prog I Hext HP "$sub"); [cbn; tauto|assumption..].
  Qed.
  Lemma ev_cell : forall r m i c f a, ev r m (memory_map bvptr P c f) -> ev r i (pointer bvptr P a) ->
    ev r (ESel m i) (scalar_of c (f a)).
  Proof.
    intros r m i c f a Hm Hi. eapply ev_sel; [exact Hm|exact Hi|].
    unfold pointer. destruct bvptr; cbn; [now rewrite Z.eqb_refl|reflexivity].
  Qed.

  (** [a] is the [i]-th cell from [d] *)
  Definition fits (d n : Z) : Prop := bvptr = true -> 0 <= n /\ signed P d + n < 2 ^ (P - 1).
  Lemma in_range : forall d n a, address bvptr P d -> address bvptr P a -> fits d n ->
    key d <= key a < key (wrap (d + n)) <-> exists i, 0 <= i < n /\ a = byte_addr bvptr P d i.
  Proof.
    intros d n a Hd Ha Hf. unfold key, wrap, byte_addr, fits, address in *. destruct bvptr.
    - specialize (Hd eq_refl). specialize (Ha eq_refl). destruct (Hf eq_refl) as [Hn Hlt].
      assert (1 <= P) as HP1 by (destruct HP as [->| ->]; lia).
      pose proof (signed_range P d HP1 Hd) as Sd. pose proof (signed_range P a HP1 Ha) as Sa.
      pose proof (signed_pat P d ltac:(lia) Hd) as Ed. pose proof (signed_pat P a ltac:(lia) Ha) as Ea.
      assert (forall i, (d + i) mod 2 ^ P = pat P (signed P d + i)) as Hdi.
      { intros i. rewrite <- Ed at 1. unfold pat. apply Zplus_mod_idemp_l. }
      assert (signed P (pat P (d + n)) = signed P d + n) as ->.
      { unfold pat at 1. rewrite (Hdi n). apply pat_signed; lia. }
      split.
      + intros H. exists (signed P a - signed P d). split; [lia|]. rewrite Hdi. rewrite <- Ea at 1. f_equal. lia.
      + intros (i & Hi & E). rewrite Hdi in E. rewrite E, pat_signed by lia. lia.
    - split; [intros H; exists (a - d); lia|]. intros (i & Hi & ->). lia.
  Qed.
  Lemma src_cell : forall d s i, wrap (wrap (s - d) + byte_addr bvptr P d i) = byte_addr bvptr P s i.
  Proof.
    intros d s i. unfold wrap, byte_addr. destruct bvptr; [|lia]. unfold pat.
    rewrite <- Zplus_mod. f_equal. lia.
  Qed.

  (** The three clauses, for a range value [rv] and a background map [mo]. *)
  Definition three (rv mo : expr) : list clause :=
      [ Clause [le (EVar "dst") (EVar "x"); lt (EVar "x") (plus (EVar "dst") (EVar "len"))]
          (ESel (EVar "M.ret") (EVar "x")) rv;
        Clause [lt (EVar "x") (EVar "dst")] (ESel (EVar "M.ret") (EVar "x")) (ESel mo (EVar "x"));
        Clause [le (plus (EVar "dst") (EVar "len")) (EVar "x")]
          (ESel (EVar "M.ret") (EVar "x")) (ESel mo (EVar "x")) ].

  Lemma three_sound : forall r rv mo c d n m mr g,
    address bvptr P d -> fits d n ->
    r "dst" = Some (pointer bvptr P d) -> r "len" = Some (pointer bvptr P n) ->
    r "M.ret" = Some (memory_map bvptr P c mr) ->
    (forall a, ev (upd_env r "x" (pointer bvptr P a)) mo (memory_map bvptr P c m)) ->
    (forall i, 0 <= i < n ->
       ev (upd_env r "x" (pointer bvptr P (byte_addr bvptr P d i))) rv (scalar_of c (g i))) ->
    returns prog I bvptr P r (Clauses (three rv mo)) <->
    cells_set (address bvptr P) (byte_addr bvptr P d) n g m mr.
  Proof.
    intros r rv mo c d n m mr g Hd Hf Rd Rn Rm Hmo Hrv.
    assert (forall a, let r' := upd_env r "x" (pointer bvptr P a) in
      ev r' (EVar "x") (pointer bvptr P a) /\ ev r' (EVar "dst") (pointer bvptr P d) /\
      ev r' (plus (EVar "dst") (EVar "len")) (pointer bvptr P (wrap (d + n))) /\
      ev r' (ESel (EVar "M.ret") (EVar "x")) (scalar_of c (mr a)) /\
      ev r' (ESel mo (EVar "x")) (scalar_of c (m a))) as Hev.
    { intros a r'. assert (ev r' (EVar "x") (pointer bvptr P a)) as Hx by (apply ev_var; reflexivity).
      assert (ev r' (EVar "dst") (pointer bvptr P d)) as Hdst by (apply ev_var; exact Rd).
      split; [exact Hx|]. split; [exact Hdst|].
      split; [apply ev_plus; [exact Hdst|apply ev_var; exact Rn]|].
      split; (eapply ev_cell; [|exact Hx]); [apply ev_var; exact Rm|apply Hmo]. }
    assert (forall i, 0 <= i < n -> address bvptr P (byte_addr bvptr P d i)) as Haddr.
    { intros i Hi. unfold address, byte_addr. intros Hb. rewrite Hb. apply Z.mod_pos_bound. destruct HP as [->| ->]; lia. }
    assert (forall a, address bvptr P a -> key (wrap (d + n)) <= key a \/ key a < key d ->
              forall i, 0 <= i < n -> a <> byte_addr bvptr P d i) as Hout.
    { intros a Ha Hk i Hi E. assert (key d <= key a < key (wrap (d + n))) by (apply (in_range d n a Hd Ha Hf); exists i; auto). lia. }
    split.
    - intros H. split.
      + intros i Hi. set (a := byte_addr bvptr P d i).
        assert (key d <= key a < key (wrap (d + n))) as Hr by (apply (in_range d n a Hd (Haddr i Hi) Hf); exists i; auto).
        destruct (Hev a) as (Hx & Hdst & Hdl & Hmr & _).
        destruct (H _ (or_introl eq_refl) a (Haddr i Hi)) as (v & Hl & Hrhs).
        { intros g' [<-|[<-|[]]].
          - destruct (ev_cmp _ _ _ _ _ Hdst Hx) as [Hle _]. destruct Hr as [Hr _]. apply Z.leb_le in Hr. rewrite Hr in Hle. exact Hle.
          - destruct (ev_cmp _ _ _ _ _ Hx Hdl) as [_ Hlt]. destruct Hr as [_ Hr]. apply Z.ltb_lt in Hr. rewrite Hr in Hlt. exact Hlt. }
        apply (scalar_of_inj c). rewrite (evaluates_det _ _ _ _ _ _ Hmr Hl). apply (evaluates_det _ _ _ _ _ _ Hrhs), Hrv, Hi.
      + intros a Ha Hno. destruct (Hev a) as (Hx & Hdst & Hdl & Hmr & Hm).
        assert (~ (key d <= key a < key (wrap (d + n)))) as Hr.
        { intros C. apply in_range in C; auto. destruct C as (i & Hi & E). exact (Hno i Hi E). }
        assert (exists v, ev (upd_env r "x" (pointer bvptr P a)) (ESel (EVar "M.ret") (EVar "x")) v /\
                          ev (upd_env r "x" (pointer bvptr P a)) (ESel mo (EVar "x")) v) as (v & Hl & Hrhs).
        { destruct (Z.lt_ge_cases (key a) (key d)) as [Hlt|Hge].
          - apply (H _ (or_intror (or_introl eq_refl)) a Ha). intros g' [<-|[]].
            destruct (ev_cmp _ _ _ _ _ Hx Hdst) as [_ HH]. apply Z.ltb_lt in Hlt. rewrite Hlt in HH. exact HH.
          - apply (H _ (or_intror (or_intror (or_introl eq_refl))) a Ha). intros g' [<-|[]].
            destruct (ev_cmp _ _ _ _ _ Hdl Hx) as [HH _]. assert (key (wrap (d + n)) <= key a) as Hle by lia.
            apply Z.leb_le in Hle. rewrite Hle in HH. exact HH. }
        apply (scalar_of_inj c). rewrite (evaluates_det _ _ _ _ _ _ Hmr Hl). exact (evaluates_det _ _ _ _ _ _ Hrhs Hm).
    - intros [H1 H2] cl Hcl a Ha r' Hg. destruct (Hev a) as (Hx & Hdst & Hdl & Hmr & Hm). fold r' in Hx, Hdst, Hdl, Hmr, Hm.
      destruct Hcl as [<-|[<-|[<-|[]]]]; cbn [cl_guards cl_lhs cl_rhs] in *.
      + pose proof (Hg _ (or_introl eq_refl)) as G1. pose proof (Hg _ (or_intror (or_introl eq_refl))) as G2.
        destruct (ev_cmp _ _ _ _ _ Hdst Hx) as [Hle _]. destruct (ev_cmp _ _ _ _ _ Hx Hdl) as [_ Hlt].
        pose proof (evaluates_det _ _ _ _ _ _ G1 Hle) as E1. pose proof (evaluates_det _ _ _ _ _ _ G2 Hlt) as E2.
        injection E1 as E1. injection E2 as E2. symmetry in E1, E2. apply Z.leb_le in E1. apply Z.ltb_lt in E2.
        destruct (proj1 (in_range d n a Hd Ha Hf) (conj E1 E2)) as (i & Hi & ->).
        exists (scalar_of c (g i)). split; [rewrite <- (H1 i Hi); exact Hmr|apply Hrv, Hi].
      + pose proof (Hg _ (or_introl eq_refl)) as G1. destruct (ev_cmp _ _ _ _ _ Hx Hdst) as [_ Hlt].
        pose proof (evaluates_det _ _ _ _ _ _ G1 Hlt) as E1. injection E1 as E1. symmetry in E1. apply Z.ltb_lt in E1.
        exists (scalar_of c (m a)). split; [rewrite <- (H2 a Ha); [exact Hmr|]|exact Hm]. apply Hout; auto.
      + pose proof (Hg _ (or_introl eq_refl)) as G1. destruct (ev_cmp _ _ _ _ _ Hdl Hx) as [Hle _].
        pose proof (evaluates_det _ _ _ _ _ _ G1 Hle) as E1. injection E1 as E1. symmetry in E1. apply Z.leb_le in E1.
        exists (scalar_of c (m a)). split; [rewrite <- (H2 a Ha); [exact Hmr|]|exact Hm]. apply Hout; auto.
  Qed.

  Lemma key_cell : forall d n i, address bvptr P d -> fits d n -> 0 <= i < n -> key (byte_addr bvptr P d i) = key d + i.
  Proof.
    intros d n i Hd Hf Hi. unfold key, byte_addr, fits, address in *. destruct bvptr; [|reflexivity].
    specialize (Hd eq_refl). destruct (Hf eq_refl) as [Hn Hlt].
    assert (1 <= P) as HP1 by (destruct HP as [->| ->]; lia).
    pose proof (signed_range P d HP1 Hd) as Sd. pose proof (signed_pat P d ltac:(lia) Hd) as Ed.
    replace ((d + i) mod 2 ^ P) with (pat P (signed P d + i)); [apply pat_signed; lia|].
    rewrite <- Ed at 2. unfold pat. symmetry. apply Zplus_mod_idemp_l.
  Qed.

  Lemma set_exists : forall d n g m, address bvptr P d -> fits d n ->
    exists m', cells_set (address bvptr P) (byte_addr bvptr P d) n g m m'.
  Proof.
    intros d n g m Hd Hf.
    exists (fun a => if ((key d <=? key a) && (key a <? key d + n))%bool then g (key a - key d) else m a). split.
    - intros i Hi. rewrite (key_cell d n i Hd Hf Hi).
      replace ((key d <=? key d + i) && (key d + i <? key d + n))%bool with true by lia. f_equal. lia.
    - intros a Ha Hno. destruct ((key d <=? key a) && (key a <? key d + n))%bool eqn:E; [exfalso|reflexivity].
      apply (Hno (key a - key d)); [lia|].
      destruct (proj1 (in_range d n a Hd Ha Hf)) as (i & Hi & ->).
      { unfold key, wrap, fits, address in *. destruct bvptr; [|lia].
        specialize (Hd eq_refl). specialize (Ha eq_refl). destruct (Hf eq_refl) as [Hn Hlt].
        assert (1 <= P) as HP1 by (destruct HP as [->| ->]; lia).
        pose proof (signed_range P d HP1 Hd) as Sd. pose proof (signed_pat P d ltac:(lia) Hd) as Ed.
        replace (pat P (d + n)) with (pat P (signed P d + n)); [rewrite pat_signed by lia; lia|].
        rewrite <- Ed at 2. unfold pat. symmetry. apply Zplus_mod_idemp_l. }
      rewrite (key_cell d n i Hd Hf Hi). f_equal. lia.
  Qed.

  Lemma memcpy_clauses : forall r c d s n md ms mr,
    address bvptr P d -> fits d n ->
    r "dst" = Some (pointer bvptr P d) -> r "src" = Some (pointer bvptr P s) -> r "len" = Some (pointer bvptr P n) ->
    r "M.dst" = Some (memory_map bvptr P c md) -> r "M.src" = Some (memory_map bvptr P c ms) ->
    r "M.ret" = Some (memory_map bvptr P c mr) ->
    forall L, 0 < L ->
    returns prog I bvptr P r (memcpyProc L) <->
    cells_set (address bvptr P) (byte_addr bvptr P d) n (fun i => ms (byte_addr bvptr P s i)) md mr.
  Proof.
    intros r c d s n md ms mr Hd Hf Rd Rs Rn Rmd Rms Rmr L HL. unfold memcpyProc, MEMORY_INTRINSIC_THRESHOLD.
    replace (L <=? 0) with false by lia.
    apply (three_sound r _ _ c d n md mr _ Hd Hf Rd Rn Rmr).
    - intros a. apply ev_var. exact Rmd.
    - intros i Hi. eapply ev_cell; [apply ev_var; exact Rms|].
      rewrite <- (src_cell d s i). apply ev_plus; [|apply ev_var; reflexivity].
      apply ev_minus; apply ev_var; [exact Rs|exact Rd].
  Qed.
  Lemma memset_clauses : forall r c d n v y m mr,
    address bvptr P d -> fits d n ->
    r "dst" = Some (pointer bvptr P d) -> r "len" = Some (pointer bvptr P n) ->
    r "val" = Some v -> v = scalar_of c y ->
    r "M" = Some (memory_map bvptr P c m) -> r "M.ret" = Some (memory_map bvptr P c mr) ->
    forall L, 0 < L ->
    returns prog I bvptr P r (memsetProc L) <->
    cells_set (address bvptr P) (byte_addr bvptr P d) n (fun _ => y) m mr.
  Proof.
    intros r c d n v y m mr Hd Hf Rd Rn Rv -> Rm Rmr L HL. unfold memsetProc, MEMORY_INTRINSIC_THRESHOLD.
    replace (L <=? 0) with false by lia.
    apply (three_sound r _ _ c d n m mr _ Hd Hf Rd Rn Rmr).
    - intros a. apply ev_var. exact Rm.
    - intros i Hi. apply ev_var. exact Rv.
  Qed.
End Copy.

Lemma assign_map : forall prog I bvptr P r x c m mr,
  r x = Some (memory_map bvptr P c m) -> r "M.ret" = Some (memory_map bvptr P c mr) ->
  returns prog I bvptr P r (Assign (EVar x)) -> mr = m.
Proof.
  intros prog I bvptr P r x c m mr Hx Hr (v & Hv & He).
  pose proof (evaluates_det prog I r _ _ _ He (ev_var prog I r _ _ Hx)) as E. rewrite Hr in Hv.
  unfold memory_map in *. congruence.
Qed.
Lemma cells_set_none : forall ok D n g m, n <= 0 -> cells_set ok D n g m m.
Proof. intros. split; [intros; lia|reflexivity]. Qed.
