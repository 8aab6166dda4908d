(** C62: contracts written as code become contracts of the procedure. *)
From Coq Require Import List Bool Arith Lia.
From Verif.Spec Require Import Contracts.
From Verif.Model Require Import ExtractContracts.
From Verif.Proofs Require Import ContractsProofs ContractRegions.
Import ListNotations.

Lemma extract_some : forall alloca F L I P, last_contract F L I -> extract alloca F = Some P ->
  P = Proc (of_kind Requires (pieces F) (prefix_region F)) (of_kind Ensures (pieces F) (prefix_region F)) (prefix_region F) (L, S I).
Proof.
  intros alloca F L I P Hl H. unfold extract in H.
  destruct (contracts (pieces F)) as [|c cs] eqn:Ec.
  - exfalso. destruct Hl as [(k & e & Hc) _]. destruct (find_contract F _ _ _ _ Hc) as (s & p & Hp & _ & Hk).
    assert (Hi : In (L, s) (contracts (pieces F))) by (apply in_contracts; eauto). rewrite Ec in Hi. contradiction.
  - rewrite <- Ec in H. change (block_prefix (contracts (pieces F)) (map fst (pieces F))) with (prefix_region F) in H.
    destruct (extractable alloca (pieces F) (prefix_region F)) as [x|] eqn:Ex; [|discriminate].
    rewrite (exit_is F L I Hl alloca x Ex) in H. destruct (of_kind Invariant _ _); [|discriminate]. now injection H as <-.
Qed.
Lemma start_00 : forall F, is_start F 0 0. Proof. now left. Qed.

(** Each requires and each ensures of a function becomes one of the procedure (and there
    are no others); its expression, in any memory, has the value the argument of the
    contract has when the code up to the contracts is run there. *)
Definition expresses {A T M} (E : meaning A T M) (F : function) (L I : nat) (P : proc) (x : label) (l i : nat) : Prop :=
  forall a m v, (exists fuel, eval E (pieces F) a fuel (region P) x (0, 0) (undef E) m = Some (Value v)) <-> contract_value E F L I a m l i v.
Theorem C62_expressions : forall A T M (E : meaning A T M) F L I alloca P, last_contract F L I -> extract alloca F = Some P ->
  forall k xs, (k = Requires /\ xs = requires P \/ k = Ensures /\ xs = ensures P) ->
    (forall l i e, contract_at F l i k e -> exists x, In x xs /\ expresses E F L I P x l i) /\
    (forall x, In x xs -> exists l i e, contract_at F l i k e /\ expresses E F L I P x l i).
Proof.
  intros A T M E F L I alloca P Hl H k xs Hk. pose proof (extract_some _ _ _ _ _ Hl H) as ->. cbn [requires ensures] in Hk.
  assert (Hxs : xs = of_kind k (pieces F) (prefix_region F)) by (destruct Hk as [[-> ->]|[-> ->]]; reflexivity). clear Hk. subst xs.
  assert (Hmain : forall l s p k e, find_piece (pieces F) (l, s) = Some p -> con p = Some (k, e) -> mem_label (l, s) (prefix_region F) = true ->
    expresses E F L I (Proc (of_kind Requires (pieces F) (prefix_region F)) (of_kind Ensures (pieces F) (prefix_region F)) (prefix_region F) (L, S I)) (l, s) l (s + length (ops p))).
  { intros l s p k' e Hp Hc Hm a m v. cbn [region]. unfold contract_value.
    apply (eval_value E F a (before L I) (prefix_region F) (prefix_in F L I Hl) (prefix_out F L I Hl) (prefix_ex F L I Hl) l s p k' e Hp Hc Hm). apply start_00. }
  split.
  - intros l i e Hc. destruct (find_contract F _ _ _ _ Hc) as (s & p & Hp & <- & Hk).
    assert (Hm : In (l, s) (prefix_region F)).
    { apply (in_prefix F L I Hl). split; [eauto|]. destruct Hl as [_ Hmax]. specialize (Hmax _ _ _ _ Hc). unfold before in *. lia. }
    exists (l, s). split; [apply in_of_kind; eauto|]. eapply Hmain; eauto. now apply mem_label_in.
  - intros [l s] Hx. apply in_of_kind in Hx as (Hm & p & e & Hp & Hk). exists l, (s + length (ops p)), e.
    split; [eapply find_contract_at; eauto|]. eapply Hmain; eauto. now apply mem_label_in.
Qed.
Print Assumptions C62_expressions.

(** If the code of the contracts has no effect on the rest, the procedure satisfies its
    contract exactly if the function meets its own. *)
Theorem C62_modular : forall A T M (E : meaning A T M) F L I alloca P, last_contract F L I -> extract alloca F = Some P -> pure_prefix E F L I ->
  (verified E F P <-> meets E F L I).
Proof.
  intros A T M E F L I alloca P Hl H [Hp1 Hp2].
  assert (Htrue : forall k xs a m, (k = Requires /\ xs = requires P \/ k = Ensures /\ xs = ensures P) -> (true_in E F P xs a m <-> all_hold E F L I k a m)).
  { intros k xs a m Hk. destruct (C62_expressions A T M E F L I alloca P Hl H k xs Hk) as [H1 H2]. split.
    - intros Ht l i e Hc. destruct (H1 l i e Hc) as (x & Hx & Hex). apply (Hex a m true). apply Ht, Hx.
    - intros Ha x Hx. destruct (H2 x Hx) as (l & i & e & Hc & Hex). apply (Hex a m true). exact (Ha l i e Hc). }
  pose proof (extract_some _ _ _ _ _ Hl H) as HP. assert (Hstart : start P = (L, S I)) by now rewrite HP.
  assert (Hst : is_start F L (S I)) by (right; destruct Hl as [(k & e & Hc) _]; eauto).
  assert (Hrun : forall a m o, upto E F a (fun _ _ => True) (At 0 0 (undef E) m) o <-> upto E F a (fun _ _ => True) (At L (S I) (undef E) m) o).
  { intros a m o. destruct (Hp1 a m) as [t Ht]. rewrite (upto_then E F a _ _ _ Ht). split; intros Hu; eapply Hp2; eassumption. }
  split.
  - intros Hv a m o Hreq Ho. apply Hrun in Ho. apply upto_N in Ho as [n Ho]. destruct (execute_complete E F a n L (S I) (undef E) m o Hst Ho) as (fuel & r & Hf & ->).
    rewrite <- Hstart in Hf. destruct (Hv a m fuel r (proj2 (Htrue Requires _ a m (or_introl (conj eq_refl eq_refl))) Hreq) Hf) as (m' & -> & He).
    exists m'. split; [reflexivity|]. apply (Htrue Ensures (ensures P) a m'); [right; auto|exact He].
  - intros Hm a m fuel r Hreq Hf. rewrite Hstart in Hf. pose proof (execute_sound E F a fuel L (S I) (undef E) m r Hst Hf) as Ho. apply Hrun in Ho.
    destruct (Hm a m _ (proj1 (Htrue Requires _ a m (or_introl (conj eq_refl eq_refl))) Hreq) Ho) as (m' & Er & He). destruct r as [m2|]; [|discriminate]. injection Er as ->.
    exists m'. split; [reflexivity|]. apply (Htrue Ensures (ensures P) a m'); [right; auto|exact He].
Qed.
Print Assumptions C62_modular.

(** An invariant, the only contract of its loop, becomes an assertion at the start of the
    header, which has the value the argument has if the body is entered in the state
    there; [bs]: the blocks of the loop before that of the invariant. *)
Theorem C62_invariant : forall A T M (E : meaning A T M) F alloca header bs b rest I e asserts region,
  let loop := header :: bs ++ b :: rest in
  NoDup loop -> (forall l, In l loop -> l < length F) -> contract_at F b I Invariant e ->
  (forall l i k' e', In l loop -> contract_at F l i k' e' -> l = b /\ i = I) ->
  extract_loop alloca F header loop = Some (asserts, region) ->
  (forall x, In x asserts <-> x = (b, 0)) /\
  forall a t m v, let first := hd b bs in
    (exists fuel, eval E (pieces F) a fuel region (b, 0) (first, 0) t m = Some (Value v)) <->
    value_from E F a (fun l i => In l bs \/ l = b /\ i <= I) (At first 0 t m) b I v.
Proof.
  intros A T M E F alloca header bs b rest I e asserts region loop Hnd Hlen Hc Hu H. unfold extract_loop in H.
  pose proof (loop_region F header b I bs rest Invariant e Hnd Hc Hu) as Hr. cbv zeta in H.
  match type of H with context [loop_prefix ?u ?w ?z] => replace (loop_prefix u w z) with (body_region b bs) in H by (symmetry; exact Hr) end.
  destruct (extractable _ _ _) as [ex|]; [|discriminate]. injection H as <- <-.
  destruct (body_piece F header b I bs rest Invariant e Hc Hu) as (p & Hp & HI & Hk).
  split.
  - intros x. rewrite in_of_kind. split.
    + intros (Hm & q & e' & Hq & Hqc). destruct x as [l s]. apply mem_label_in, (body_mem F header b I bs rest Invariant e Hnd Hlen Hc Hu) in Hm as [-> [Hl| ->]]; [|reflexivity].
      destruct (Hu l (0 + length (ops q)) Invariant e') as [-> _]; [right; apply in_or_app; now left|eapply find_contract_at; eauto|reflexivity].
    + intros ->. split; [apply mem_label_in, (body_mem F header b I bs rest Invariant e Hnd Hlen Hc Hu); auto|eauto].
  - intros a t m v first. cbn zeta.
    pose proof (eval_value E F a (loop_positions b I bs) (body_region b bs) (loop_in F header b I bs rest Invariant e Hnd Hlen Hc Hu) (loop_out F header b I bs rest Invariant e Hnd Hlen Hc Hu)
      (loop_ex F header b I bs rest Invariant e Hnd Hlen Hc Hu) b 0 p Invariant e Hp Hk) as Hev.
    assert (Hm : mem_label (b, 0) (body_region b bs) = true) by (apply (body_mem F header b I bs rest Invariant e Hnd Hlen Hc Hu); auto). specialize (Hev Hm first 0 t m v (or_introl eq_refl)).
    cbn [Nat.add] in Hev. rewrite HI in Hev. exact Hev.
Qed.
Print Assumptions C62_invariant.

Definition targets (tm : term) : list nat := match tm with Jump d => [d] | Branch _ d e => [d; e] | Return => [] end.
(** Functions without contracts are left alone.  Otherwise the pass succeeds if: control
    leaves the code of the contracts only by passing the last of them, nothing later jumps
    back, that code allocates no memory, and no invariant is outside of the loops. *)
Theorem C62_accepts : forall alloca F,
  ((forall l i k e, ~ contract_at F l i k e) -> extract alloca F = Some (Proc [] [] [] (0, 0))) /\
  forall L I, last_contract F L I ->
    (forall l items tm d, nth_error F l = Some (items, tm) -> In d (targets tm) -> if l <? L then d <= L else L < d) ->
    (forall l items, nth_error F l = Some (items, Return) -> L <= l) ->
    (forall l i items tm o, before L I l i -> nth_error F l = Some (items, tm) -> nth_error items i = Some (Do o) -> alloca o = false) ->
    (forall l i e, ~ contract_at F l i Invariant e) ->
    exists P, extract alloca F = Some P /\ start P = (L, S I).
Proof.
  intros alloca F. split.
  - intros Hn. unfold extract. destruct (contracts (pieces F)) as [|[l s] cs] eqn:Ec; [reflexivity|]. exfalso.
    assert (Hi : In (l, s) (contracts (pieces F))) by (rewrite Ec; now left). apply in_contracts in Hi as (p & k & e & Hp & Hk).
    exact (Hn _ _ _ _ (find_contract_at F _ _ _ _ _ Hp Hk)).
  - intros L I Hl Hj Hr Ha Hi.
    assert (Hlen : L < length F).
    { destruct Hl as [(k & e & items & tm & H & _) _]. apply nth_error_Some. congruence. }
    assert (Hin : forall d, d <= L -> mem_label (d, 0) (prefix_region F) = true).
    { intros d Hd. apply mem_label_in, (in_prefix F L I Hl). split; [|unfold before; lia]. apply find_start; [now left|]. apply nth_error_Some. lia. }
    (* in the region *)
    assert (Hsucc : forall l s p, find_piece (pieces F) (l, s) = Some p -> mem_label (l, s) (prefix_region F) = true ->
      pt p <> PReturn /\ forall x, In x (successors p) -> mem_label x (prefix_region F) = true \/ x = (L, S I)).
    { intros l s p Hp Hm. destruct (find_describes F _ _ _ Hp) as (items & tm & Hn & (Hops & Hd) & _).
      pose proof (prefix_in F L I Hl _ _ _ Hm Hp (length (ops p)) (le_n _)) as Hb. unfold successors. destruct (con p) as [[k e]|] eqn:Ec.
      - destruct Hd as [Hc Hd]. rewrite Hd. split; [discriminate|]. intros x [<-|[]].
        destruct (Nat.eq_dec l L) as [->|Hne]; [destruct (Nat.eq_dec (s + length (ops p)) I) as [<-|Hne]; [now right|]|]; left.
        + apply mem_label_in, (in_prefix F L I Hl). split; [|unfold before in *; lia]. apply find_start; [right; exists (s + length (ops p)), k, e; split; [reflexivity|]; eapply find_contract_at; eauto|apply nth_error_Some; lia].
        + apply mem_label_in, (in_prefix F L I Hl). split; [|unfold before in *; lia]. apply find_start; [right; exists (s + length (ops p)), k, e; split; [reflexivity|]; eapply find_contract_at; eauto|congruence].
      - destruct Hd as [Hlen' Hd].
        assert (HlL : l < L).
        { destruct Hb as [Hb|[-> Hb]]; [exact Hb|exfalso]. destruct Hl as [(k & e & items' & tm' & Hn' & Hc) _]. rewrite Hn in Hn'. injection Hn' as <- <-.
          assert (I < length items) by (apply nth_error_Some; congruence). lia. }
        rewrite Hd. split.
        + destruct tm; cbn; [discriminate|discriminate|]. specialize (Hr _ _ Hn). lia.
        + intros x Hx. left. assert (Ht : forall d, In d (targets tm) -> d <= L) by (intros d Hd'; specialize (Hj _ _ _ _ Hn Hd'); apply Nat.ltb_lt in HlL; now rewrite HlL in Hj).
          destruct tm; cbn in Hx, Ht; repeat destruct Hx as [<-|Hx]; try contradiction; apply Hin, Ht; auto. }
    assert (Hout : forall l s p, find_piece (pieces F) (l, s) = Some p -> mem_label (l, s) (prefix_region F) = false ->
      forall x, In x (successors p) -> mem_label x (prefix_region F) = false).
    { intros l s p Hp Hm x Hx. destruct (find_describes F _ _ _ Hp) as (items & tm & Hn & (Hops & Hd) & Hst).
      pose proof (prefix_out F L I Hl _ _ Hst Hm) as Hb. unfold successors in Hx. destruct (con p) as [[k e]|] eqn:Ec.
      - exfalso. destruct Hl as [_ Hmax]. specialize (Hmax _ _ _ _ (find_contract_at F _ _ _ _ _ Hp Ec)). unfold before in *. lia.
      - destruct Hd as [_ Hd]. rewrite Hd in Hx. destruct (mem_label x (prefix_region F)) eqn:Em; [|reflexivity]. exfalso.
        destruct x as [d j]. apply mem_label_in, (in_prefix F L I Hl) in Em as [_ Em].
        assert (Ht : forall d, In d (targets tm) -> L < d).
        { intros d' Hd'. specialize (Hj _ _ _ _ Hn Hd'). destruct (l <? L) eqn:E; [|exact Hj]. apply Nat.ltb_lt in E. unfold before in Hb. lia. }
        assert (In d (targets tm)) by (destruct tm; cbn in *; intuition congruence). specialize (Ht _ H). unfold before in Em. lia. }
    assert (Hex : extractable alloca (pieces F) (prefix_region F) <> None).
    { unfold extractable.
      assert (E1 : entries_ok (pieces F) (prefix_region F) = true).
      { apply forallb_forall. intros [[l s] p] Hp. apply find_spec in Hp. cbn [fst snd]. destruct (mem_label (l, s) (prefix_region F)) eqn:Em; [reflexivity|]. cbn [orb].
        apply forallb_forall. intros x Hx. specialize (Hout _ _ _ Hp Em x Hx). destruct (mem_label x (tl (prefix_region F))) eqn:Et; [|reflexivity].
        apply mem_label_in in Et. assert (mem_label x (prefix_region F) = true) by (apply mem_label_in; destruct (prefix_region F); [contradiction|now right]). congruence. }
      assert (E2 : no_alloca alloca (pieces F) (prefix_region F) = true).
      { apply forallb_forall. intros [[l s] p] Hp. apply find_spec in Hp. cbn [fst snd]. destruct (mem_label (l, s) (prefix_region F)) eqn:Em; [|reflexivity]. cbn [orb negb].
        apply forallb_forall. intros o Ho. apply In_nth_error in Ho as [j Ho]. destruct (find_describes F _ _ _ Hp) as (items & tm & Hn & (Hops & _) & _).
        rewrite (Ha l (s + j) items tm o); [reflexivity| |exact Hn|now apply Hops]. apply (prefix_in F L I Hl _ _ _ Em Hp). apply Nat.lt_le_incl, nth_error_Some. congruence. }
      assert (E3 : no_return (pieces F) (prefix_region F) = true).
      { apply forallb_forall. intros [[l s] p] Hp. apply find_spec in Hp. cbn [fst snd]. destruct (mem_label (l, s) (prefix_region F)) eqn:Em; [|reflexivity]. cbn [orb negb].
        destruct (Hsucc _ _ _ Hp Em) as [Hne _]. destruct (pt p); try reflexivity. contradiction. }
      rewrite E1, E2, E3. cbn [andb].
      assert (Hx : forall x, In x (exits (pieces F) (prefix_region F)) -> x = (L, S I)).
      { intros x Hx. apply in_flat_map in Hx as ([[l s] p] & Hp & Hx). apply find_spec in Hp. cbn [fst snd] in Hx. destruct (mem_label (l, s) (prefix_region F)) eqn:Em; [|contradiction].
        apply filter_In in Hx as [Hx Hm]. destruct (Hsucc _ _ _ Hp Em) as [_ Hs]. destruct (Hs _ Hx) as [H|H]; [rewrite H in Hm; discriminate|exact H]. }
      assert (Hne : In (L, S I) (exits (pieces F) (prefix_region F))).
      { destruct (last_piece F L I Hl) as (sL & p & k & e & Hp & HI & Hc & _). unfold exits. apply in_flat_map. exists ((L, sL), p). split; [now apply find_spec|]. cbn [fst snd].
        assert (Hm : mem_label (L, sL) (prefix_region F) = true) by (apply mem_label_in, (in_prefix F L I Hl); split; [eauto|right; lia]). rewrite Hm.
        destruct (find_describes F _ _ _ Hp) as (items & tm & _ & (_ & Hd) & _). rewrite Hc in Hd. destruct Hd as [_ Hd]. unfold successors. rewrite Hd.
        apply filter_In. split; [left; now rewrite HI|]. destruct (mem_label (L, S I) (prefix_region F)) eqn:Em; [|reflexivity].
        apply mem_label_in, (in_prefix F L I Hl) in Em as [_ Hb]. unfold before in Hb. lia. }
      destruct (exits (pieces F) (prefix_region F)) as [|y r]; [contradiction|].
      replace (forallb (label_eqb y) r) with true; [discriminate|]. symmetry. apply forallb_forall. intros z Hz. apply label_eqb_eq.
      rewrite (Hx y (or_introl eq_refl)), (Hx z (or_intror Hz)). reflexivity. }
    destruct (extractable alloca (pieces F) (prefix_region F)) as [x|] eqn:Ex; [|contradiction].
    pose proof (exit_is F L I Hl alloca x Ex) as ->. unfold extract.
    destruct (contracts (pieces F)) as [|c cs] eqn:Ec.
    + exfalso. destruct Hl as [(k & e & Hc) _]. destruct (find_contract F _ _ _ _ Hc) as (s & p & Hp & _ & Hk).
      assert (Hi' : In (L, s) (contracts (pieces F))) by (apply in_contracts; eauto). rewrite Ec in Hi'. contradiction.
    + rewrite <- Ec. change (block_prefix (contracts (pieces F)) (map fst (pieces F))) with (prefix_region F). rewrite Ex.
      destruct (of_kind Invariant (pieces F) (prefix_region F)) as [|[l s] r] eqn:Ek; [eexists; split; reflexivity|]. exfalso.
      assert (Hk : In (l, s) (of_kind Invariant (pieces F) (prefix_region F))) by (rewrite Ek; now left). apply in_of_kind in Hk as (_ & p & e & Hp & Hc).
      exact (Hi _ _ _ (find_contract_at F _ _ _ _ _ Hp Hc)).
Qed.
Print Assumptions C62_accepts.

(** ** Examples.  Memory is one global number g, the local values another, x. *)
Definition demo : meaning unit nat nat := Meaning
  (fun o _ x g => match o with
     | 0 => Some (g, g)                                  (* x = g *)
     | 1 => Some (x, S g)                                (* g++ *)
     | 2 => Some (x, 1)                                  (* g = 1 *)
     | 3 => if g =? 1 then Some (x, g) else None         (* assert(g == 1) *)
     | _ => None                                         (* assert(0) *)
     end)
  (fun c _ x g => match c with 0 => 0 <? x | 1 => true | _ => x =? g end)
  (fun _ _ _ x _ => x) 0.
(** requires(g > 0); ensures(g > 0); g++; *)
Definition counter : function := [([Do 0; Contract Requires 0; Do 0; Contract Ensures 0; Do 1], Return)].
Ltac last_of := split; [do 2 eexists; do 2 eexists; split; reflexivity|];
  intros l i k e (items & tm & Hl & Hi); unfold before;
  destruct l as [|l]; [|cbn in Hl; destruct l; discriminate]; cbn in Hl; injection Hl as <- <-;
  do 5 (destruct i as [|i]; [cbn in Hi; try discriminate; lia|]); cbn in Hi; destruct i; discriminate.
Lemma counter_last : last_contract counter 0 3. Proof. last_of. Qed.
Lemma counter_pure : pure_prefix demo counter 0 3.
Proof.
  split.
  - intros a m. eexists. apply up_in; [unfold before; lia|]. cbn. apply up_in; [unfold before; lia|]. cbn. apply up_in; [unfold before; lia|]. cbn.
    apply up_in; [unfold before; lia|]. cbn. apply up_out. unfold before. lia.
  - intros a m t t' o H. inversion H; subst; [tauto|]. cbn in *. match goal with Hu : upto _ _ _ _ (At 0 5 _ _) o |- _ => inversion Hu; subst; [tauto|] end. cbn in *.
    match goal with Hu : upto _ _ _ _ (Done _) o |- _ => inversion Hu; subst end. apply up_in; [exact Coq.Init.Logic.I|]. cbn. apply up_in; [exact Coq.Init.Logic.I|]. cbn. constructor.
Qed.
(** while (...) { invariant(x == g); g++; } *)
Definition looping : function := [([], Jump 1); ([], Branch 1 2 3); ([Do 0; Contract Invariant 2; Do 1], Jump 1); ([], Return)].
Example C62_nonvacuous :
  last_contract counter 0 3 /\ pure_prefix demo counter 0 3 /\
  extract (fun _ => false) counter = Some (Proc [(0, 0)] [(0, 2)] [(0, 0); (0, 2)] (0, 4)) /\
  verified demo counter (Proc [(0, 0)] [(0, 2)] [(0, 0); (0, 2)] (0, 4)) /\
  (contract_value demo counter 0 3 tt 0 0 1 false /\ contract_value demo counter 0 3 tt 7 0 1 true) /\
  extract_loop (fun _ => false) looping 1 [1; 2] = Some ([(2, 0)], [(2, 0)]) /\ contract_at looping 2 1 Invariant 2 /\
  eval demo (pieces looping) tt 3 [(2, 0)] (2, 0) (2, 0) 3 5 = Some (Value true).
Proof.
  split; [exact counter_last|]. split; [exact counter_pure|]. split; [reflexivity|]. split.
  { intros a m fuel r Hreq Hf. destruct fuel as [|fuel]; [discriminate|]. cbn in Hf. injection Hf as <-. exists (S m). split; [reflexivity|].
    intros x [<-|[]]. exists 3. reflexivity. }
  split.
  { split; (do 3 eexists; split; [do 2 eexists; split; reflexivity|]; split; [apply up_in; [unfold before; lia|]; cbn; apply up_out; unfold before; lia|]; reflexivity). }
  split; [reflexivity|]. split; [do 2 eexists; split; reflexivity|reflexivity].
Qed.
Example C62_accepts_nonvacuous : exists P, extract (fun o => o =? 1) counter = Some P /\ start P = (0, 4).
Proof.
  apply (proj2 (C62_accepts (fun o => o =? 1) counter) 0 3 counter_last).
  - intros [|l] items tm d H; [injection H as <- <-; intros []|destruct l; discriminate].
  - lia.
  - intros l i items tm o [Hb|[-> Hb]] H Hi; [lia|]. injection H as <- <-. do 4 (destruct i as [|i]; [cbn in Hi; (discriminate || (injection Hi as <-; reflexivity))|]). lia.
  - intros [|l] i e (items & tm & H & Hi); [|destruct l; discriminate]. injection H as <- <-. do 5 (destruct i as [|i]; [discriminate|]). destruct i; discriminate.
Qed.

Definition writes : function := [([Do 2; Contract Requires 1; Do 3], Return)].
(** What the code before a contract does to memory is lost: g = 1; requires(true);
    assert(g == 1) meets its contract, but its procedure does not. *)
Theorem C62_effects_refuted : exists P, last_contract writes 0 1 /\ extract (fun _ => false) writes = Some P /\ meets demo writes 0 1 /\ ~ verified demo writes P.
Proof.
  eexists. split; [last_of|]. split; [reflexivity|]. split.
  - intros a m o _ H. exists 1. split; [|intros l i e (items & tm & Hl & Hi); destruct l as [|l]; [|destruct l; discriminate]; injection Hl as <- <-; do 3 (destruct i as [|i]; [discriminate|]); destruct i; discriminate].
    do 4 (inversion H as [|l0 i0 t0 m0 o0 _ Hu| |]; subst; [tauto|]; cbn in Hu; clear H; rename Hu into H). inversion H; subst. reflexivity.
  - intros H. destruct (H tt 0 2 Fault) as (m' & Hc & _); [|reflexivity|discriminate]. intros x [<-|[]]. exists 2. reflexivity.
Qed.
Print Assumptions C62_effects_refuted.

Definition asserts0 : function := [([Do 4; Contract Requires 1], Return)].
(** ... and so are its assertions: assert(0); requires(true) does not meet its contract,
    but its procedure does. *)
Theorem C62_assertions_refuted : exists P, last_contract asserts0 0 1 /\ extract (fun _ => false) asserts0 = Some P /\ verified demo asserts0 P /\
  exists a m, upto demo asserts0 a (fun _ _ => True) (At 0 0 (undef demo) m) Failed.
Proof.
  eexists. split; [last_of|]. split; [reflexivity|]. split.
  - intros a m fuel r _ Hf. destruct fuel as [|fuel]; [discriminate|]. cbn in Hf. injection Hf as <-. exists m. split; [reflexivity|]. intros x [].
  - exists tt, 0. apply up_in; [exact Coq.Init.Logic.I|]. cbn. constructor.
Qed.
Print Assumptions C62_assertions_refuted.

Definition conditional : function := [([], Branch 0 1 2); ([Contract Requires 1], Jump 2); ([], Return)].
Definition two_invariants : function := [([], Jump 1); ([], Branch 0 2 4); ([Contract Invariant 1; Contract Invariant 0], Jump 3); ([], Jump 1); ([], Return)].
(** The pass fails on functions with a local variable in memory before a contract, with a
    contract in one branch of a conditional, and on loops with two invariants. *)
Theorem C62_fails_refuted : extract (fun o => o =? 0) counter = None /\ extract (fun _ => false) conditional = None /\
  extract_loop (fun _ => false) two_invariants 1 [1; 2; 3] = None.
Proof. repeat split. Qed.
Print Assumptions C62_fails_refuted.

Definition stale : function := [([], Jump 1); ([Do 0], Branch 1 2 3); ([Contract Invariant 2], Jump 1); ([], Return)].
(** A value the header computes is that of the iteration before when the invariant is
    checked: in while ((x = g) ...) { invariant(x == g); ... } the assertion fails in a
    state from which the invariant is true when it is reached. *)
Theorem C62_header_refuted : exists asserts region, extract_loop (fun _ => false) stale 1 [1; 2] = Some (asserts, region) /\ In (2, 0) asserts /\
  eval demo (pieces stale) tt 2 region (2, 0) (2, 0) 0 5 = Some (Value false) /\
  upto demo stale tt (fun l _ => l = 1) (At 1 0 0 5) (At 2 0 5 5) /\ test demo 2 tt 5 5 = true.
Proof.
  do 2 eexists. split; [reflexivity|]. split; [now left|]. split; [reflexivity|]. split; [|reflexivity].
  apply up_in; [reflexivity|]. cbn. apply up_in; [reflexivity|]. cbn. apply up_out. discriminate.
Qed.
Print Assumptions C62_header_refuted.
