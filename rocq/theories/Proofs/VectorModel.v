(** An interpretation that satisfies the vector declarations. *)
From Coq Require Import ZArith List String Bool Lia FinFun.
From Verif.Base Require Import ZBits.
From Verif.Spec Require Import LLVMInt IR Encodings VectorOps VectorEnc.
From Verif.Model Require Import Boogie PreludeInt SmackRepInt Vectors VectorSem.
From Verif.Proofs Require Import Lookup PreludeCalls ExprSim VectorTable VectorTyping VectorLanes.
Import ListNotations.
Open Scope string_scope.
Open Scope list_scope.
Open Scope Z_scope.

Definition scalar_inb (t : tyname) (v : val) : bool :=
  match t, v with
  | NInt _, VInt _ => true
  | NBv w, VBv w' z => (w =? w') && (0 <=? z) && (z <? 2 ^ w)
  | NBool, VBool _ => true
  | _, _ => false
  end.
Lemma scalar_inb_true : forall t v, scalar_inb t v = true <-> scalar_in t v.
Proof.
  intros t v. split.
  - destruct t, v; cbn; intros H; try discriminate; eauto. rewrite !andb_true_iff, Z.eqb_eq, Z.leb_le, Z.ltb_lt in H. destruct H as [[-> H1] H2]. eauto.
  - destruct t; cbn; intros H; try tauto; destruct H as [z H]; try (subst v; reflexivity). destruct H as [-> H]. rewrite Z.eqb_refl. cbn. lia.
Qed.
Definition inhabited_ty (t : tyname) : bool := match t with NInt _ | NBool => true | NBv w => 0 <=? w | _ => false end.
Definition zero_of (t : tyname) : val := match t with NBv w => VBv w 0 | NBool => VBool false | _ => VInt 0 end.
Lemma zero_in : forall t, inhabited_ty t = true -> scalar_in t (zero_of t).
Proof.
  intros [w|w| | | |] H; cbn in *; try discriminate; eauto. exists 0. split; [reflexivity|]. pose proof (Z.pow_pos_nonneg 2 w). lia.
Qed.
Lemma prelude_inhabited : forallb (fun O => forallb (fun d => inhabited_ty (fd_ret d)) (preludeInt O))
  [flags BitVector false; flags BitVector true; flags WrappedInteger false; flags WrappedInteger true; flags UnboundedInteger false; flags UnboundedInteger true] = true.
Proof. vm_compute. reflexivity. Qed.
Lemma size_inhabited : forall enc p w, In w INTEGER_SIZES -> inhabited_ty (intType (flags enc p) w) = true.
Proof. intros enc p w H. pose proof (size_pos w H). destruct enc; cbn; try reflexivity. apply Z.leb_le. lia. Qed.

Section Model.
  Context (enc : encoding) (p : bool) (I : interp).
  Notation O := (flags enc p).
  Notation prog := (preludeInt (flags enc p)).
  Context (K : vcast -> vtype -> vtype -> vval -> vval).

  Definition scalar_value (g : fname) (xs : list val) : val :=
    match lookup prog g with
    | Some d => match eval_call prog I 5 g xs with
                | Some v => if scalar_inb (fd_ret d) v then v else zero_of (fd_ret d)
                | None => zero_of (fd_ret d)
                end
    | None => VInt 0
    end.
  Definition index_is (i : val) (j : nat) : bool := match i with VInt z => z =? Z.of_nat j | _ => false end.
  Definition canonical (f : vname) (args : list vval) : vval :=
    match scalar_name f with
    | Some g => SV (scalar_value g (match unSs args with Some xs => xs | None => [] end))
    | None =>
        match vn_op f, vn_types f, args with
        | (OBin _ | OCmp _) as o, [Vec n t], [VV _ _ us; VV _ _ vs] =>
            VV n t (map (fun i => scalar_value (indexedName (op_string o) [t]) [nth i us (VInt 0); nth i vs (VInt 0)]) (seq 0 n))
        | OShuffle mask, [Vec n t], [VV _ _ us; VV _ _ vs] =>
            VV (List.length mask) t (map (fun m => if m <? Z.of_nat n then nth (Z.to_nat m) us (VInt 0) else nth (Z.to_nat (m - Z.of_nat n)) vs (VInt 0)) mask)
        | OInsert, [Vec n t; _], [VV _ _ us; SV x; SV i] =>
            VV n t (map (fun j => if index_is i j then x else nth j us (VInt 0)) (seq 0 n))
        | OExtract, [Vec n t; _], [VV _ _ us; SV i] =>
            SV (match find (index_is i) (seq 0 n) with Some j => nth j us (VInt 0) | None => zero_of t end)
        | OCast c, [s; d], [v] => K c s d v
        | _, _, _ => SV (VInt 0)
        end
    end.

  Definition cast_ok_in (c : vcast) (s d : vtype) : Prop :=
    forall v, in_type v s -> in_type (K c s d v) d /\ K c d s (K c s d v) = v /\
      match s, d with
      | Sc _, Vec 1 t => match v with SV x => K c s d v = VV 1 t [x] | _ => True end
      | Vec 1 t, Sc _ => match v with VV _ _ [x] => K c s d v = SV x | _ => True end
      | _, _ => True
      end.
  Definition casts_fine (i : vinst) : Prop :=
    match i with IVCast c src dst => cast_ok_in c (typ O src) (typ O dst) /\ cast_ok_in c (typ O dst) (typ O src) | _ => True end.

  Lemma scalar_value_in : forall g d xs, lookup prog g = Some d -> scalar_in (fd_ret d) (scalar_value g xs).
  Proof.
    intros g d xs H. unfold scalar_value. rewrite H.
    assert (inhabited_ty (fd_ret d) = true) as Hi.
    { pose proof prelude_inhabited as P. rewrite forallb_forall in P. specialize (P _ (flags_in enc p)). rewrite forallb_forall in P. apply P. now apply lookup_In in H. }
    destruct (eval_call prog I 5 g xs) as [v|]; [|now apply zero_in].
    destruct (scalar_inb (fd_ret d) v) eqn:E; [now apply scalar_inb_true|now apply zero_in].
  Qed.
  Lemma nth_in : forall t us i d, Forall (scalar_in t) us -> (i < List.length us)%nat -> scalar_in t (nth i us d).
  Proof. intros t us i d H Hi. rewrite Forall_forall in H. apply H, nth_In, Hi. Qed.
  Lemma canonical_scalar : forall o t g xs, scalar_name (VName o [Sc t]) = Some g -> canonical (VName o [Sc t]) (map SV xs) = SV (scalar_value g xs).
  Proof. intros o t g xs H. unfold canonical. rewrite H, unSs_map. reflexivity. Qed.

  Context (l : list vinst) (tbl : list decl).
  Hypothesis W : Forall well_formed l.
  Hypothesis HT : declarations O [] l = Some tbl.
  Hypothesis HS : Forall (supported_inst enc) l.
  Hypothesis HC : Forall casts_fine l.

  Lemma two_vectors : forall n t vs, Forall2 in_type vs [Vec n t; Vec n t] -> exists us ws, vs = [VV n t us; VV n t ws] /\
    List.length us = n /\ List.length ws = n /\ Forall (scalar_in t) us /\ Forall (scalar_in t) ws.
  Proof.
    intros n t vs H. inversion H as [|a ? ? ? H1 H2]; subst. inversion H2 as [|b ? ? ? H3 H4]; subst. inversion H4; subst.
    destruct a as [?|? ? us]; [destruct H1|]. destruct b as [?|? ? ws]; [destruct H3|]. destruct H1 as (-> & -> & ? & ?), H3 as (-> & -> & ? & ?).
    exists us, ws. auto.
  Qed.

  Lemma fun_cases : forall F, In (DFun F) tbl -> forall vs, Forall2 in_type vs (map snd (vf_params F)) ->
    in_type (canonical (vf_name F) vs) (vf_ret F) /\
    forall b, vf_body F = Some b -> veval prog I canonical (assign (vf_params F) vs) b = Some (canonical (vf_name F) vs).
  Proof.
    intros F HF vs Hvs. destruct (table_from O l tbl _ W HT HF) as (i & f & ds & Hi & E & Hd).
    pose proof (proj1 (Forall_forall _ _) W i Hi) as Wi. pose proof (proj1 (Forall_forall _ _) HS i Hi) as Si. pose proof (proj1 (Forall_forall _ _) HC i Hi) as Ci.
    destruct i as [op n w|q n w|c src dst|n w n' mask|n w iw|n w iw]; cbn [visit] in E; cbn [supported_inst well_formed] in Si, Wi.
    - injection E as <- <-. destruct Hd as [Hd|[Hd|[Hd|[]]]]; try discriminate. injection Hd as <-.
      apply two_vectors in Hvs as (us & ws & -> & L1 & L2 & F1 & F2).
      destruct (bin_decl enc p op w (proj2 Wi)) as (d & D1 & D2 & D3).
      change (canonical (vf_name (binary O op n w)) [VV n (intType O w) us; VV n (intType O w) ws]) with
        (VV n (intType O w) (map (fun i => scalar_value (indexedName (INSTRUCTION_TABLE op) [intType O w]) [nth i us (VInt 0); nth i ws (VInt 0)]) (seq 0 n))).
      split.
      + cbn [binary vf_ret in_type]. rewrite map_length, seq_length. repeat split. apply Forall_forall. intros v Hv. apply in_map_iff in Hv as (i & <- & _).
        pose proof (scalar_value_in _ d [nth i us (VInt 0); nth i ws (VInt 0)] D1) as Q. rewrite D3 in Q. exact Q.
      + intros b Hb. cbn [binary vf_body] in Hb. injection Hb as <-. cbn [binary vf_params assign]. apply mk_map; [|apply seq_length].
        intros i Hi'. apply in_seq in Hi'. rewrite veval_fun. cbn [vevals].
        rewrite (sel_var prog I _ _ "v1" n _ i us (VInt 0)); [|reflexivity|lia].
        rewrite (sel_var prog I _ _ "v2" n _ i ws (VInt 0)); [|reflexivity|lia]. reflexivity.
    - subst w. injection E as <- <-. destruct Hd as [Hd|[Hd|[Hd|[Hd|[Hd|[]]]]]]; try discriminate. injection Hd as <-.
      apply two_vectors in Hvs as (us & ws & -> & L1 & L2 & F1 & F2).
      destruct (cmp_decl enc p q 1 (proj2 Wi)) as (d & D1 & D2 & D3).
      change (canonical (vf_name (cmp O q n 1)) [VV n (intType O 1) us; VV n (intType O 1) ws]) with
        (VV n (intType O 1) (map (fun i => scalar_value (indexedName (CMPINST_TABLE q) [intType O 1]) [nth i us (VInt 0); nth i ws (VInt 0)]) (seq 0 n))).
      split.
      + cbn [cmp vf_ret in_type]. rewrite map_length, seq_length. repeat split. apply Forall_forall. intros v Hv. apply in_map_iff in Hv as (i & <- & _).
        pose proof (scalar_value_in _ d [nth i us (VInt 0); nth i ws (VInt 0)] D1) as Q. rewrite D3 in Q. exact Q.
      + intros b Hb. cbn [cmp vf_body] in Hb. injection Hb as <-. cbn [cmp vf_params assign]. apply mk_map; [|apply seq_length].
        intros i Hi'. apply in_seq in Hi'. rewrite veval_fun. cbn [vevals].
        rewrite (sel_var prog I _ _ "v1" n _ i us (VInt 0)); [|reflexivity|lia].
        rewrite (sel_var prog I _ _ "v2" n _ i ws (VInt 0)); [|reflexivity|lia]. reflexivity.
    - injection E as <- <-.
      assert (exists n w, dst = LV n w) as (n & w & ->) by (clear - Wi; destruct dst; [destruct c, src; cbn in Wi; tauto|eauto]).
      set (s := typ O src) in *. set (d := typ O (LV n w)) in *.
      assert (F = castFn c s d \/ F = castFn c d s) as HFc.
      { cbn [typ] in d. unfold d in Hd. apply in_app_iff in Hd as [Hd|Hd]; [destruct s; cbn in Hd; [tauto|destruct Hd as [Hd|[Hd|[]]]; discriminate]|].
        destruct Hd as [Hd|[Hd|[Hd|[Hd|[Hd|[Hd|[]]]]]]]; try discriminate; injection Hd as <-; auto. }
      destruct Ci as [C1 C2]. fold s d in C1, C2.
      assert (forall v, canonical (VName (OCast c) [s; d]) [v] = K c s d v) as Q1 by (intros v; unfold s, d; destruct src; reflexivity).
      assert (forall v, canonical (VName (OCast c) [d; s]) [v] = K c d s v) as Q2 by (intros v; unfold s, d; destruct src; reflexivity).
      destruct HFc as [-> | ->]; cbn [castFn vf_params map snd vf_name vf_ret] in *;
        inversion Hvs as [|v ? ? ? Hv Hr]; subst; inversion Hr; subst.
      + rewrite Q1. destruct (C1 v Hv) as (A1 & _ & A2). split; [exact A1|]. intros b Hb. cbn [castFn vf_body] in Hb.
        destruct s as [t|n0 t]; unfold d in Hb, A2 |- *; cbn [typ] in *.
        * destruct n as [|[|n]]; try discriminate. injection Hb as <-. destruct v as [x|? ? ?]; [|destruct Hv]. rewrite A2. reflexivity.
        * destruct n0 as [|[|n0]]; discriminate.
      + rewrite Q2. destruct (C2 v Hv) as (A1 & _ & A2). split; [exact A1|]. intros b Hb. cbn [castFn vf_body] in Hb.
        unfold d in Hb, A2, Hv |- *; cbn [typ] in *. destruct s as [t|n0 t].
        * destruct n as [|[|n]]; try discriminate. injection Hb as <-. destruct v as [x|? ? ls]; [destruct Hv|]. destruct Hv as (-> & -> & Hl & _).
          destruct ls as [|x [|]]; try discriminate. rewrite A2. cbn. destruct (tyname_dec _ _); [reflexivity|congruence].
        * destruct n as [|[|n]]; discriminate.
    - destruct (shuffle O n w n' mask) as [F'|] eqn:EF; [|discriminate]. injection E as <- <-.
      destruct Hd as [Hd|[Hd|[Hd|[Hd|[Hd|[]]]]]]; try discriminate. injection Hd as <-.
      unfold shuffle in EF. destruct (forallb _ mask) eqn:Epos; [|discriminate]. injection EF as <-. cbn [vf_params map snd vf_name vf_ret vf_body] in *.
      apply two_vectors in Hvs as (us & ws & -> & L1 & L2 & F1 & F2). destruct Wi as (_ & _ & Hlen & Hm). rewrite Forall_forall in Hm.
      change (canonical (VName (OShuffle mask) [Vec n (intType O w)]) [VV n (intType O w) us; VV n (intType O w) ws]) with
        (VV (List.length mask) (intType O w) (map (fun m => if m <? Z.of_nat n then nth (Z.to_nat m) us (VInt 0) else nth (Z.to_nat (m - Z.of_nat n)) ws (VInt 0)) mask)).
      rewrite Hlen. split.
      + cbn [in_type]. rewrite map_length. repeat split; try assumption. apply Forall_forall. intros v Hv. apply in_map_iff in Hv as (m & <- & Hm').
        specialize (Hm m Hm'). destruct (m <? Z.of_nat n) eqn:Em; apply nth_in; try assumption; lia.
      + intros b Hb. injection Hb as <-. cbn [assign]. apply mk_map; [|exact Hlen]. intros m Hm'. specialize (Hm m Hm').
        destruct (m <? Z.of_nat n) eqn:Em; apply sel_var; try reflexivity; lia.
    - cbn [insert] in E. injection E as <- <-. destruct Hd as [Hd|[Hd|[Hd|Hd]]]; try discriminate; [|apply in_map_iff in Hd as (? & ? & _); discriminate].
      injection Hd as <-. cbn [vf_params map snd vf_name vf_ret vf_body] in *. split; [|discriminate].
      inversion Hvs as [|a ? ? ? H1 Hr]; subst; inversion Hr as [|x ? ? ? H2 Hr2]; subst; inversion Hr2 as [|ii ? ? ? H3 Hr3]; subst; inversion Hr3; subst.
      destruct a as [?|? ? us]; [destruct H1|]. destruct H1 as (-> & -> & L1 & F1). destruct x as [x|]; [|destruct H2]. destruct ii as [ii|]; [|destruct H3].
      cbn [canonical scalar_name scalar_types vn_types fold_right vn_op in_type]. rewrite map_length, seq_length. repeat split.
      apply Forall_forall. intros v Hv. apply in_map_iff in Hv as (j & <- & Hj). apply in_seq in Hj. destruct (index_is ii j); [exact H2|]. apply nth_in; [assumption|lia].
    - cbn [extract] in E. injection E as <- <-. destruct Hd as [Hd|[Hd|[Hd|Hd]]]; try discriminate; [|apply in_map_iff in Hd as (? & ? & _); discriminate].
      injection Hd as <-. cbn [vf_params map snd vf_name vf_ret vf_body] in *. split; [|discriminate].
      inversion Hvs as [|a ? ? ? H1 Hr]; subst; inversion Hr as [|ii ? ? ? H3 Hr3]; subst; inversion Hr3; subst.
      destruct a as [?|? ? us]; [destruct H1|]. destruct H1 as (-> & -> & L1 & F1). destruct ii as [ii|]; [|destruct H3].
      cbn [canonical scalar_name scalar_types vn_types fold_right vn_op in_type].
      destruct (find _ _) as [j|] eqn:Ef; [|apply zero_in, size_inhabited, Wi]. apply find_some in Ef as [Ef _]. apply in_seq in Ef. apply nth_in; [assumption|lia].
  Qed.

  Lemma find_index : forall i n, (i < n)%nat -> find (index_is (VInt (Z.of_nat i))) (seq 0 n) = Some i.
  Proof.
    intros i n Hi. destruct (find _ _) as [j|] eqn:E.
    - apply find_some in E as [_ E]. cbn in E. f_equal. lia.
    - pose proof (find_none _ _ E i) as H. cbn in H. rewrite Z.eqb_refl in H. assert (In i (seq 0 n)) by (apply in_seq; lia). specialize (H H0). discriminate.
  Qed.

  Lemma axiom_cases : forall f k vars lh rh vs, In (DAxiom f k vars lh rh) tbl -> Forall2 in_type vs (map snd vars) ->
    exists v, veval prog I canonical (assign vars vs) lh = Some v /\ veval prog I canonical (assign vars vs) rh = Some v.
  Proof.
    intros f0 k vars lh rh vs HA Hvs. destruct (table_from O l tbl _ W HT HA) as (i & f & ds & Hi & E & Hd).
    pose proof (proj1 (Forall_forall _ _) W i Hi) as Wi. pose proof (proj1 (Forall_forall _ _) HC i Hi) as Ci.
    destruct i as [op n w|q n w|c src dst|n w n' mask|n w iw|n w iw]; cbn [visit] in E; cbn [well_formed] in Wi.
    - injection E as <- <-. destruct Hd as [Hd|[Hd|[Hd|[]]]]; discriminate.
    - injection E as <- <-. destruct Hd as [Hd|[Hd|[Hd|[Hd|[Hd|[]]]]]]; discriminate.
    - injection E as <- <-.
      assert (exists n w, dst = LV n w) as (n & w & ->) by (clear - Wi; destruct dst; [destruct c, src; cbn in Wi; tauto|eauto]).
      set (s := typ O src) in *. set (d := typ O (LV n w)) in *.
      assert (DAxiom f0 k vars lh rh = inverseAxiom c s d \/ DAxiom f0 k vars lh rh = inverseAxiom c d s) as HFc.
      { cbn [typ] in d. unfold d in Hd. apply in_app_iff in Hd as [Hd|Hd]; [destruct s; cbn in Hd; [tauto|destruct Hd as [Hd|[Hd|[]]]; discriminate]|].
        destruct Hd as [Hd|[Hd|[Hd|[Hd|[Hd|[Hd|[]]]]]]]; try discriminate; rewrite <- Hd; auto. }
      destruct Ci as [C1 C2]. fold s d in C1, C2.
      assert (forall v, canonical (VName (OCast c) [s; d]) [v] = K c s d v) as Q1 by (intros v; unfold s, d; destruct src; reflexivity).
      assert (forall v, canonical (VName (OCast c) [d; s]) [v] = K c d s v) as Q2 by (intros v; unfold s, d; destruct src; reflexivity).
      unfold inverseAxiom in HFc.
      destruct HFc as [HFc|HFc]; injection HFc as -> -> -> -> ->; cbn [map snd] in Hvs;
        inversion Hvs as [|v ? ? ? Hv Hr]; subst; inversion Hr; subst; exists v; rewrite !veval_fun; cbn [vevals]; rewrite veval_fun;
        cbn [vevals veval assign String.eqb Ascii.eqb Bool.eqb].
      + rewrite Q1, Q2. destruct (C1 v Hv) as (_ & -> & _). auto.
      + rewrite Q2, Q1. destruct (C2 v Hv) as (_ & -> & _). auto.
    - destruct (shuffle O n w n' mask) as [F'|] eqn:EF; [|discriminate]. injection E as <- <-. destruct Hd as [Hd|[Hd|[Hd|[Hd|[Hd|[]]]]]]; discriminate.
    - cbn [insert] in E. injection E as <- <-. destruct Hd as [Hd|[Hd|[Hd|Hd]]]; try discriminate.
      apply in_map_iff in Hd as (i & Hd & Hi'). apply in_seq in Hi'. injection Hd as <- <- <- <- <-. cbn [map snd] in Hvs.
      inversion Hvs as [|a ? ? ? H1 Hr]; subst; inversion Hr as [|x ? ? ? H2 Hr2]; subst; inversion Hr2; subst.
      destruct a as [?|? ? us]; [destruct H1|]. destruct H1 as (-> & -> & L1 & F1). destruct x as [x|]; [|destruct H2].
      eexists. split; [reflexivity|].
      rewrite (mk_map prog I canonical _ n _ _ (fun j => if index_is (VInt (Z.of_nat i)) j then x else nth j us (VInt 0))); [reflexivity| |apply seq_length].
      intros j Hj. apply in_seq in Hj. cbn [index_is]. destruct (Nat.eqb_spec i j) as [->|Hne]; [rewrite Z.eqb_refl; reflexivity|].
      destruct (Z.eqb_spec (Z.of_nat i) (Z.of_nat j)); [lia|]. apply sel_var; [reflexivity|lia].
    - cbn [extract] in E. injection E as <- <-. destruct Hd as [Hd|[Hd|[Hd|Hd]]]; try discriminate.
      apply in_map_iff in Hd as (i & Hd & Hi'). apply in_seq in Hi'. injection Hd as <- <- <- <- <-. cbn [map snd] in Hvs.
      inversion Hvs as [|a ? ? ? H1 Hr]; subst; inversion Hr; subst.
      destruct a as [?|? ? us]; [destruct H1|]. destruct H1 as (-> & -> & L1 & F1).
      eexists. split; [reflexivity|]. cbn [canonical scalar_name scalar_types vn_types fold_right vn_op].
      rewrite find_index by lia. apply sel_var; [reflexivity|lia].
  Qed.

  Lemma canonical_satisfies : satisfies prog I canonical tbl.
  Proof.
    split.
    - intros F vs HF Hvs. now apply (fun_cases F HF vs Hvs).
    - intros F b vs HF Hb Hvs. now apply (fun_cases F HF vs Hvs).
    - apply axiom_cases.
    - intros f g d vs Hg Hd Hv. unfold canonical. rewrite Hg, unSs_map. cbn [in_type]. now apply scalar_value_in.
    - intros f g d vs v Hg Hd Hv Hin He. unfold canonical. rewrite Hg, unSs_map. unfold scalar_value. rewrite Hd, He.
      now rewrite (proj2 (scalar_inb_true _ _) Hin).
  Qed.
End Model.

(** *** Conversions that keep the lanes *)
Definition relabel (c : vcast) (s d : vtype) (v : vval) : vval :=
  match d, v with
  | Vec n t, VV _ _ ls => VV n t ls
  | Vec n t, SV x => VV n t [x]
  | Sc t, VV _ _ (x :: _) => SV x
  | Sc t, _ => v
  end.
Definition sign_flip (v : val) : val := match v with VInt z => VInt (- z) | _ => v end.
Definition flipped (c : vcast) (s d : vtype) (v : vval) : vval :=
  match c, relabel c s d v with
  | VCast _, VV n t ls => VV n t (map sign_flip ls)
  | _, r => r
  end.
Lemma relabel_fine : forall enc p i, well_formed i -> keeps_lanes enc i -> casts_fine enc p relabel i.
Proof.
  intros enc p i W Hk. destruct i as [| |c src dst| | |]; try exact Logic.I. destruct Hk as [Hl Hc].
  assert (forall x, scalar_in (intType (flags enc p) (match src with LI w | LV _ w => w end)) x <->
                    scalar_in (intType (flags enc p) (match dst with LI w | LV _ w => w end)) x) as HS.
  { intros x. destruct enc eqn:E; [|reflexivity|reflexivity]. specialize (Hc eq_refl). subst c. cbn in W.
    destruct W as (L1 & L2 & _ & Eb). replace (match dst with LI w | LV _ w => w end) with (match src with LI w | LV _ w => w end); [reflexivity|].
    destruct src as [w|n w], dst as [w'|n' w']; cbn in *; try lia; subst; nia. }
  assert (exists n w, dst = LV n w) as (n & w & ->) by (clear - W; destruct dst; [destruct c, src; cbn in W; tauto|eauto]).
  cbn [casts_fine]. destruct src as [w1|n1 w1]; cbn [lane_count] in Hl; subst; cbn [typ].
  - split.
    + intros [x|? ? ?] Hv; [|destruct Hv]. cbn [relabel in_type] in *. rewrite HS in Hv. repeat split; auto.
    + intros [x|? ? ls] Hv; [destruct Hv|]. destruct Hv as (-> & -> & H1 & H2). destruct ls as [|x [|]]; try discriminate.
      inversion H2; subst. cbn. rewrite <- (HS x) in *. repeat split; auto.
  - split.
    + intros [x|? ? ls] Hv; [destruct Hv|]. destruct Hv as (-> & -> & H1 & H2). cbn [relabel in_type]. repeat split; auto.
      * eapply Forall_impl; [|exact H2]. intros x. apply HS.
      * destruct n as [|[|]]; exact Logic.I.
    + intros [x|? ? ls] Hv; [destruct Hv|]. destruct Hv as (-> & -> & H1 & H2). cbn [relabel in_type]. repeat split; auto.
      * eapply Forall_impl; [|exact H2]. intros x. apply HS.
      * destruct n as [|[|]]; exact Logic.I.
Qed.
Lemma flip_flip : forall ls t, Forall (scalar_in (NInt t)) ls -> map sign_flip (map sign_flip ls) = ls.
Proof.
  intros ls t H. induction H as [|x ls (z & ->) H IH]; [reflexivity|]. cbn. rewrite IH. do 2 f_equal. lia.
Qed.
Lemma flipped_fine : forall enc p c n w1 w2, enc <> BitVector -> casts_fine enc p flipped (IVCast (VCast c) (LV n w1) (LV n w2)).
Proof.
  intros enc p c n w1 w2 He. cbn [casts_fine typ].
  assert (forall w, intType (flags enc p) w = NInt w) as Ei by (intros w; destruct enc; [congruence|reflexivity|reflexivity]).
  rewrite !Ei. split; (intros [x|? ? ls] Hv; [destruct Hv|]; destruct Hv as (-> & -> & H1 & H2); cbn [flipped relabel in_type]; rewrite map_length;
    repeat split; [exact H1| |now rewrite (flip_flip ls _ H2)|destruct n as [|[|]]; exact Logic.I];
    apply Forall_forall; intros v Hv; apply in_map_iff in Hv as (x & <- & Hx); rewrite Forall_forall in H2; destruct (H2 x Hx) as (z & ->); cbn; eauto).
Qed.

(** *** There are fewer vectors of narrower lanes *)
Fixpoint digits (n : nat) (B z : Z) : list Z := match n with 0%nat => [] | S n => z mod B :: digits n B (z / B) end.
Fixpoint undigits (B : Z) (ds : list Z) : Z := match ds with [] => 0 | d :: ds => d + B * undigits B ds end.
Lemma digits_len : forall n B z, List.length (digits n B z) = n.
Proof. induction n; intros; cbn; auto. Qed.
Lemma digits_range : forall n B z, 0 < B -> Forall (fun d => 0 <= d < B) (digits n B z).
Proof. induction n; intros; cbn; constructor; auto. apply Z.mod_pos_bound. assumption. Qed.
Lemma undigits_digits : forall n B z, 0 < B -> 0 <= z < B ^ Z.of_nat n -> undigits B (digits n B z) = z.
Proof.
  induction n as [|n IH]; intros B z HB Hz; [cbn in *; lia|]. cbn [digits undigits]. rewrite IH; [|exact HB|].
  - pose proof (Z.div_mod z B ltac:(lia)). lia.
  - rewrite Nat2Z.inj_succ, Z.pow_succ_r in Hz by lia. split; [apply Z.div_pos; lia|]. apply Z.div_lt_upper_bound; lia.
Qed.
Lemma undigits_range : forall B ds, 0 < B -> Forall (fun d => 0 <= d < B) ds -> 0 <= undigits B ds < B ^ Z.of_nat (List.length ds).
Proof.
  intros B ds HB H. induction H as [|d ds Hd H IH]; [cbn; lia|]. cbn [undigits List.length]. rewrite Nat2Z.inj_succ, Z.pow_succ_r by lia. nia.
Qed.
Lemma undigits_inj : forall B ds es, 0 < B -> Forall (fun d => 0 <= d < B) ds -> Forall (fun d => 0 <= d < B) es ->
  List.length ds = List.length es -> undigits B ds = undigits B es -> ds = es.
Proof.
  intros B ds es HB H. revert es. induction H as [|d ds Hd H IH]; intros [|e es] He Hl E; try discriminate; [reflexivity|].
  inversion He as [|? ? He1 He2]; subst. cbn in E, Hl. assert (undigits B ds = undigits B es) as E2 by nia.
  f_equal; [rewrite E2 in E; lia|]. apply IH; auto.
Qed.
Lemma pigeonhole : forall (g : Z -> Z) N P, 0 <= N -> 0 <= P -> (forall z, 0 <= z < N -> 0 <= g z < P) ->
  (forall a b, 0 <= a < N -> 0 <= b < N -> g a = g b -> a = b) -> N <= P.
Proof.
  intros g N P HN HP Hr Hi. set (dom := map Z.of_nat (seq 0 (Z.to_nat N))).
  assert (forall x, In x dom <-> 0 <= x < N) as Hd.
  { intros x. unfold dom. rewrite in_map_iff. split; [intros (k & <- & Hk); apply in_seq in Hk; lia|]. intros Hx. exists (Z.to_nat x). rewrite in_seq. lia. }
  assert (NoDup (map g dom)) as Hn.
  { assert (NoDup dom) as Hdd. { unfold dom. apply FinFun.Injective_map_NoDup; [intros a b; lia|apply seq_NoDup]. }
    assert (forall x, In x dom -> 0 <= x < N) as Hd' by (intros x; apply Hd). clear Hd. induction Hdd as [|x m Hx Hm IH]; cbn; constructor.
    - rewrite in_map_iff. intros (y & E & Hy). apply Hx. rewrite <- (Hi y x); auto; apply Hd'; cbn; auto.
    - apply IH. intros y Hy. apply Hd'. cbn; auto. }
  assert (incl (map g dom) (map Z.of_nat (seq 0 (Z.to_nat P)))) as Hincl.
  { intros y Hy. apply in_map_iff in Hy as (x & <- & Hx). apply Hd, Hr in Hx. apply in_map_iff. exists (Z.to_nat (g x)). rewrite in_seq. lia. }
  pose proof (NoDup_incl_length Hn Hincl) as H. unfold dom in H. rewrite !map_length, !seq_length in H. lia.
Qed.

Definition bv_of (v : val) : Z := match v with VBv _ z => z | _ => 0 end.
Lemma bv_values : forall w ls, Forall (scalar_in (NBv w)) ls -> Forall (fun d => 0 <= d < 2 ^ w) (map bv_of ls) /\ ls = map (VBv w) (map bv_of ls).
Proof.
  intros w ls H. induction H as [|x ls (z & -> & Hz) H [IH1 IH2]]; [split; [constructor|reflexivity]|]. cbn. split; [constructor; assumption|].
  f_equal. exact IH2.
Qed.
Lemma no_narrowing : forall n w1 w2 (f g : vval -> vval), (1 <= n)%nat -> 0 <= w2 -> w2 < w1 ->
  (forall v, in_type v (Vec n (NBv w1)) -> in_type (f v) (Vec n (NBv w2))) ->
  (forall v, in_type v (Vec n (NBv w1)) -> g (f v) = v) -> False.
Proof.
  intros n w1 w2 f g Hn H0 Hw Hf Hg.
  set (mk := fun z => VV n (NBv w1) (map (VBv w1) (digits n (2 ^ w1) z))).
  assert (0 < 2 ^ w1) as P1 by (apply Z.pow_pos_nonneg; lia). assert (0 < 2 ^ w2) as P2 by (apply Z.pow_pos_nonneg; lia).
  assert (forall z, in_type (mk z) (Vec n (NBv w1))) as Hmk.
  { intros z. unfold mk. cbn. rewrite map_length, digits_len. repeat split. apply Forall_forall. intros v Hv. apply in_map_iff in Hv as (d & <- & Hd).
    pose proof (digits_range n (2 ^ w1) z P1) as R. rewrite Forall_forall in R. specialize (R d Hd). cbn. eauto. }
  set (h := fun z => match f (mk z) with VV _ _ ls => undigits (2 ^ w2) (map bv_of ls) | _ => 0 end).
  assert ((2 ^ w1) ^ Z.of_nat n <= (2 ^ w2) ^ Z.of_nat n) as H.
  { apply (pigeonhole h); [apply Z.pow_nonneg; lia|apply Z.pow_nonneg; lia| |].
    - intros z _. unfold h. specialize (Hf _ (Hmk z)). destruct (f (mk z)) as [|? ? ls]; [destruct Hf|]. destruct Hf as (_ & _ & L & F).
      destruct (bv_values w2 ls F) as [R _]. pose proof (undigits_range (2 ^ w2) _ P2 R) as U. rewrite map_length, L in U. exact U.
    - intros a b Ha Hb E. unfold h in E. pose proof (Hf _ (Hmk a)) as Fa. pose proof (Hf _ (Hmk b)) as Fb.
      assert (mk a = mk b) as Em.
      { rewrite <- (Hg _ (Hmk a)), <- (Hg _ (Hmk b)). f_equal.
        destruct (f (mk a)) as [|? ? la]; [destruct Fa|]. destruct (f (mk b)) as [|? ? lb]; [destruct Fb|].
        destruct Fa as (-> & -> & La & Fa), Fb as (-> & -> & Lb & Fb). f_equal.
        destruct (bv_values w2 la Fa) as [Ra Ea], (bv_values w2 lb Fb) as [Rb' Eb]. rewrite Ea, Eb. f_equal.
        apply (undigits_inj (2 ^ w2)); auto. rewrite !map_length. lia. }
      unfold mk in Em. injection Em as Em. assert (digits n (2 ^ w1) a = digits n (2 ^ w1) b) as Ed.
      { apply (f_equal (map bv_of)) in Em. rewrite !map_map in Em. cbn in Em. now rewrite !map_id in Em. }
      rewrite <- (undigits_digits n (2 ^ w1) a P1 Ha), <- (undigits_digits n (2 ^ w1) b P1 Hb), Ed. reflexivity. }
  assert (2 ^ w2 < 2 ^ w1) as Hlt by (apply Z.pow_lt_mono_r; lia).
  assert ((2 ^ w2) ^ Z.of_nat n < (2 ^ w1) ^ Z.of_nat n) by (apply Z.pow_lt_mono_l; lia). lia.
Qed.
