(** Parsing the tokens of a syntax tree gives the tree. *)
From Coq Require Import ZArith List String Ascii Bool Lia.
From Verif.Spec Require Import Identifiers BoogieSyntax.
From Verif.Model Require Import BoogieAst.
From Verif.Proofs Require Import BoogieLex.
Import ListNotations.
Open Scope string_scope.
Open Scope list_scope.
Open Scope Z_scope.

Definition ev {A} (p : nat -> parser A) (ts : list token) (r : A * list token) : Prop := eventually (fun k => p k ts = Some r).
Lemma ev0 (R : nat -> Prop) : (forall k, R (S k)) -> eventually R.
Proof. intros H. exists 1%nat. intros [|k] Hk; [lia | apply H]. Qed.
Lemma ev1 (P R : nat -> Prop) : eventually P -> (forall k, P k -> R (S k)) -> eventually R.
Proof. intros [a A] H. exists (S a). intros [|k] Hk; [lia | apply H, A; lia]. Qed.
Lemma ev2 (P Q R : nat -> Prop) : eventually P -> eventually Q -> (forall k, P k -> Q k -> R (S k)) -> eventually R.
Proof. intros [a A] [b B] H. exists (S (a + b)). intros [|k] Hk; [lia | apply H; [apply A | apply B]; lia]. Qed.
Lemma ev3 (P Q S' R : nat -> Prop) : eventually P -> eventually Q -> eventually S' -> (forall k, P k -> Q k -> S' k -> R (S k)) -> eventually R.
Proof. intros [a A] [b B] [c C] H. exists (S (a + b + c)). intros [|k] Hk; [lia | apply H; [apply A | apply B | apply C]; lia]. Qed.
Lemma evn1 (P R : nat -> Prop) : eventually P -> (forall k, P k -> R k) -> eventually R.
Proof. intros [a A] H. exists a. intros k Hk. apply H, A; lia. Qed.
Lemma evn2 (P Q R : nat -> Prop) : eventually P -> eventually Q -> (forall k, P k -> Q k -> R k) -> eventually R.
Proof. intros [a A] [b B] H. exists (a + b)%nat. intros k Hk. apply H; [apply A | apply B]; lia. Qed.
Lemma evn3 (P Q S' R : nat -> Prop) : eventually P -> eventually Q -> eventually S' -> (forall k, P k -> Q k -> S' k -> R k) -> eventually R.
Proof. intros [a A] [b B] [c C] H. exists (a + b + c)%nat. intros k Hk. apply H; [apply A | apply B | apply C]; lia. Qed.

Lemma sym_none s l ts : In s l -> is_sym l ts = false -> sym s ts = None.
Proof.
  intros Hin H. unfold is_sym in H. induction l as [|x l IH]; [destruct Hin|]. cbn in H. apply orb_false_elim in H as [H1 H2].
  destruct Hin as [->|Hin]; [destruct (sym s ts); [discriminate | reflexivity] | auto].
Qed.
Lemma is_sym_incl l' l ts : incl l' l -> is_sym l ts = false -> is_sym l' ts = false.
Proof.
  intros Hi H. unfold is_sym. induction l' as [|s l' IH]; [reflexivity|]. cbn [existsb]. rewrite (sym_none s l ts); [|apply Hi; left; reflexivity | exact H].
  apply IH. intros x Hx. apply Hi. right. exact Hx.
Qed.
Lemma operator_none l ts : is_sym (map fst l) ts = false -> operator l ts = None.
Proof.
  induction l as [|[s o] l IH]; [reflexivity|]. cbn. intros H. apply orb_false_elim in H as [H1 H2]. destruct (sym s ts); [discriminate | auto].
Qed.

Definition muls := ["*"; "/"; "%"; "**"].
Definition adds := ["+"; "-"].
Definition rels := ["=="; "!="; "<"; ">"; "<="; ">="; "<:"].
Definition all_ops := muls ++ adds ++ ["++"] ++ rels ++ ["&&"; "||"] ++ ["==>"; "<=="] ++ ["<==>"].
Definition quiets := ["["; "("; ":"].
Ltac sub := intros x Hx; cbn in *; tauto.

Lemma muls_stop ts : is_sym muls ts = false -> operator mul_ops ts = None /\ is_sym ["**"] ts = false.
Proof. intros H. split; [apply operator_none|]; (eapply is_sym_incl; [|exact H]); sub. Qed.

(** [m] levels of chains: the loop of each level stops. *)
Lemma muls_end e ts : is_sym muls ts = false -> eventually (fun k => p_muls k e ts = Some (e, ts)).
Proof. intros H. destruct (muls_stop ts H) as [S1 S2]. apply ev0. intros k. cbn [p_muls]. rewrite S1, S2. reflexivity. Qed.
Lemma adds_end e ts : is_sym adds ts = false -> eventually (fun k => p_adds k e ts = Some (e, ts)).
Proof. intros H. apply ev0. intros k. cbn [p_adds]. rewrite (operator_none add_ops ts H). reflexivity. Qed.
Lemma concs_end e ts : is_sym ["++"] ts = false -> eventually (fun k => p_concs k e ts = Some (e, ts)).
Proof. intros H. apply ev0. intros k. cbn [p_concs]. rewrite (sym_none "++" ["++"] ts); [reflexivity | left; reflexivity | exact H]. Qed.
Lemma chain_end s o e ts : sym s ts = None -> eventually (fun k => p_chain k s o e ts = Some (e, ts)).
Proof. intros H. apply ev0. intros k. cbn [p_chain]. rewrite H. reflexivity. Qed.
Lemma equivs_end e ts : is_sym ["<==>"] ts = false -> eventually (fun k => p_equivs k e ts = Some (e, ts)).
Proof. intros H. apply ev0. intros k. cbn [p_equivs]. rewrite (sym_none "<==>" ["<==>"] ts); [reflexivity | left; reflexivity | exact H]. Qed.
Lemma selects_end e ts : is_sym quiets ts = false -> eventually (fun k => p_selects k e ts = Some (e, ts)).
Proof. intros H. apply ev0. intros k. cbn [p_selects]. rewrite (sym_none "[" quiets ts); [reflexivity | left; reflexivity | exact H]. Qed.

Ltac two H1 H2 := apply (ev2 _ _ _ H1 H2); let k := fresh "k" in let E1 := fresh "E" in let E2 := fresh "E" in intros k E1 E2.
Definition loop (p : nat -> expr -> parser expr) (e : expr) (ts : list token) (r : expr * list token) : Prop := eventually (fun k => p k e ts = Some r).
Lemma factor_of a e ts r : ev p_unary a (e, ts) -> loop p_muls e ts r -> ev p_factor a r.
Proof. intros H1 H2. two H1 H2. cbn [p_factor]. rewrite E. exact E0. Qed.
Lemma term_of a e ts r : ev p_factor a (e, ts) -> loop p_adds e ts r -> ev p_term a r.
Proof. intros H1 H2. two H1 H2. cbn [p_term]. rewrite E. exact E0. Qed.
Lemma bvterm_of a e ts r : ev p_term a (e, ts) -> loop p_concs e ts r -> ev p_bvterm a r.
Proof. intros H1 H2. two H1 H2. cbn [p_bvterm]. rewrite E. exact E0. Qed.
Lemma expr_of a e ts r : ev p_implies a (e, ts) -> loop p_equivs e ts r -> ev p_expr a r.
Proof. intros H1 H2. two H1 H2. cbn [p_expr]. rewrite E. exact E0. Qed.
Lemma array_of a e ts r : ev p_atom a (e, ts) -> loop p_selects e ts r -> ev p_array a r.
Proof. intros H1 H2. two H1 H2. cbn [p_array]. rewrite E. exact E0. Qed.

Lemma mul_step o s b e e' ts r : operator mul_ops (TSym s :: b) = Some (o, b) -> ev p_unary b (e', ts) -> loop p_muls (Bin o e e') ts r -> loop p_muls e (TSym s :: b) r.
Proof. intros O H1 H2. two H1 H2. cbn [p_muls]. rewrite O, E. exact E0. Qed.
Lemma add_step o s b e e' ts r : operator add_ops (TSym s :: b) = Some (o, b) -> ev p_factor b (e', ts) -> loop p_adds (Bin o e e') ts r -> loop p_adds e (TSym s :: b) r.
Proof. intros O H1 H2. two H1 H2. cbn [p_adds]. rewrite O, E. exact E0. Qed.
Lemma conc_step b e e' ts r : ev p_term b (e', ts) -> loop p_concs (Bin OConc e e') ts r -> loop p_concs e (TSym "++" :: b) r.
Proof. intros H1 H2. two H1 H2. cbn [p_concs]. change (sym "++" (TSym "++" :: b)) with (Some b). cbv iota. rewrite E. exact E0. Qed.
Lemma equiv_step b e e' ts r : ev p_implies b (e', ts) -> loop p_equivs (Bin OIff e e') ts r -> loop p_equivs e (TSym "<==>" :: b) r.
Proof. intros H1 H2. two H1 H2. cbn [p_equivs]. change (sym "<==>" (TSym "<==>" :: b)) with (Some b). cbv iota. rewrite E. exact E0. Qed.
Lemma rel_of a e ts : ev p_bvterm a (e, ts) -> is_sym rels ts = false -> ev p_rel a (e, ts).
Proof. intros H1 H2. apply (ev1 _ _ H1). intros k E. cbn [p_rel]. rewrite E. cbn [bind]. rewrite (operator_none rel_ops ts H2). reflexivity. Qed.
Lemma rel_step o s a b e e' ts : operator rel_ops (TSym s :: b) = Some (o, b) -> ev p_bvterm a (e, TSym s :: b) -> ev p_bvterm b (e', ts) -> ev p_rel a (Bin o e e', ts).
Proof. intros O H1 H2. two H1 H2. cbn [p_rel]. rewrite E. cbn [bind]. rewrite O, E0. reflexivity. Qed.
Lemma logical_of a e ts : ev p_rel a (e, ts) -> is_sym ["&&"; "||"] ts = false -> ev p_logical a (e, ts).
Proof.
  intros H1 H2. assert (C : eventually (fun k => p_chain k "||" OOr e ts = Some (e, ts))).
  { apply chain_end. apply (sym_none _ ["&&"; "||"]); [right; left; reflexivity | exact H2]. }
  two H1 C. cbn [p_logical]. rewrite E. cbn [bind]. rewrite (is_sym_incl ["&&"] ["&&"; "||"] ts); [exact E0 | sub | exact H2].
Qed.
Lemma and_step a b e e' ts : ev p_rel a (e, TSym "&&" :: b) -> ev p_rel b (e', ts) -> is_sym ["&&"; "||"] ts = false -> ev p_logical a (Bin OAnd e e', ts).
Proof.
  intros H1 H2 H3. assert (C : eventually (fun k => p_chain k "&&" OAnd (Bin OAnd e e') ts = Some (Bin OAnd e e', ts))).
  { apply chain_end. apply (sym_none _ ["&&"; "||"]); [left; reflexivity | exact H3]. }
  assert (D : eventually (fun k => p_chain k "&&" OAnd e (TSym "&&" :: b) = Some (Bin OAnd e e', ts))).
  { two H2 C. cbn [p_chain]. change (sym "&&" (TSym "&&" :: b)) with (Some b). cbv iota. rewrite E. exact E0. }
  two H1 D. cbn [p_logical]. rewrite E. cbn [bind]. exact E0.
Qed.
Lemma or_step a b e e' ts : ev p_rel a (e, TSym "||" :: b) -> ev p_rel b (e', ts) -> is_sym ["&&"; "||"] ts = false -> ev p_logical a (Bin OOr e e', ts).
Proof.
  intros H1 H2 H3. assert (C : eventually (fun k => p_chain k "||" OOr (Bin OOr e e') ts = Some (Bin OOr e e', ts))).
  { apply chain_end. apply (sym_none _ ["&&"; "||"]); [right; left; reflexivity | exact H3]. }
  assert (D : eventually (fun k => p_chain k "||" OOr e (TSym "||" :: b) = Some (Bin OOr e e', ts))).
  { two H2 C. cbn [p_chain]. change (sym "||" (TSym "||" :: b)) with (Some b). cbv iota. rewrite E. exact E0. }
  two H1 D. cbn [p_logical]. rewrite E. cbn [bind]. exact E0.
Qed.
Lemma implies_of a e ts : ev p_logical a (e, ts) -> is_sym ["==>"; "<=="] ts = false -> ev p_implies a (e, ts).
Proof.
  intros H1 H2. apply (ev1 _ _ H1). intros k E. cbn [p_implies]. rewrite E. cbn [bind].
  rewrite (sym_none "==>" ["==>"; "<=="] ts); [|left; reflexivity | exact H2]. rewrite (is_sym_incl ["<=="] ["==>"; "<=="] ts); [reflexivity | sub | exact H2].
Qed.
Lemma imp_step a b e e' ts : ev p_logical a (e, TSym "==>" :: b) -> ev p_implies b (e', ts) -> ev p_implies a (Bin OImp e e', ts).
Proof. intros H1 H2. two H1 H2. cbn [p_implies]. rewrite E. cbn [bind]. change (sym "==>" (TSym "==>" :: b)) with (Some b). cbv iota. rewrite E0. reflexivity. Qed.

Lemma up_factor a e ts : ev p_unary a (e, ts) -> is_sym muls ts = false -> ev p_factor a (e, ts).
Proof. intros H S. exact (factor_of _ _ _ _ H (muls_end e ts S)). Qed.
Lemma up_term a e ts : ev p_factor a (e, ts) -> is_sym adds ts = false -> ev p_term a (e, ts).
Proof. intros H S. exact (term_of _ _ _ _ H (adds_end e ts S)). Qed.
Lemma up_bvterm a e ts : ev p_term a (e, ts) -> is_sym ["++"] ts = false -> ev p_bvterm a (e, ts).
Proof. intros H S. exact (bvterm_of _ _ _ _ H (concs_end e ts S)). Qed.
Lemma up_expr a e ts : ev p_implies a (e, ts) -> is_sym ["<==>"] ts = false -> ev p_expr a (e, ts).
Proof. intros H S. exact (expr_of _ _ _ _ H (equivs_end e ts S)). Qed.
Ltac up := first [eapply up_expr | eapply implies_of | eapply logical_of | eapply rel_of | eapply up_bvterm | eapply up_term | eapply up_factor]; [|first [reflexivity | eapply is_sym_incl; [|eassumption]; sub]].

Lemma expr_of_unary a e ts : ev p_unary a (e, ts) -> is_sym all_ops ts = false -> ev p_expr a (e, ts).
Proof. intros H S. repeat up. exact H. Qed.
(** An expression in parentheses *)
Lemma p_bin o a e b e' ts :
  ev p_unary a (e, TSym (op_text o) :: b) -> ev p_unary b (e', TSym ")" :: ts) -> ev p_expr a (Bin o e e', TSym ")" :: ts).
Proof.
  intros H1 H2. destruct o; cbn [op_text] in H1.
  - match type of H1 with ev _ _ (?x, ?t) => eapply (expr_of _ x t) end; [repeat up; exact H1|]. eapply (equiv_step b e e' (TSym ")" :: ts)); [repeat up; exact H2|]. apply equivs_end. reflexivity.
  - up. apply (imp_step a b e e'); [repeat up; exact H1 | repeat up; exact H2].
  - do 2 up. apply (or_step a b e e'); [repeat up; exact H1 | repeat up; exact H2 | reflexivity].
  - do 2 up. apply (and_step a b e e'); [repeat up; exact H1 | repeat up; exact H2 | reflexivity].
  - do 3 up. match type of H1 with ev _ _ (_, TSym ?s :: _) => eapply (rel_step _ s a b e e') end; [reflexivity | repeat up; exact H1 | repeat up; exact H2].
  - do 3 up. match type of H1 with ev _ _ (_, TSym ?s :: _) => eapply (rel_step _ s a b e e') end; [reflexivity | repeat up; exact H1 | repeat up; exact H2].
  - do 3 up. match type of H1 with ev _ _ (_, TSym ?s :: _) => eapply (rel_step _ s a b e e') end; [reflexivity | repeat up; exact H1 | repeat up; exact H2].
  - do 3 up. match type of H1 with ev _ _ (_, TSym ?s :: _) => eapply (rel_step _ s a b e e') end; [reflexivity | repeat up; exact H1 | repeat up; exact H2].
  - do 3 up. match type of H1 with ev _ _ (_, TSym ?s :: _) => eapply (rel_step _ s a b e e') end; [reflexivity | repeat up; exact H1 | repeat up; exact H2].
  - do 3 up. match type of H1 with ev _ _ (_, TSym ?s :: _) => eapply (rel_step _ s a b e e') end; [reflexivity | repeat up; exact H1 | repeat up; exact H2].
  - do 3 up. match type of H1 with ev _ _ (_, TSym ?s :: _) => eapply (rel_step _ s a b e e') end; [reflexivity | repeat up; exact H1 | repeat up; exact H2].
  - do 4 up. match type of H1 with ev _ _ (?x, ?t) => eapply (bvterm_of _ x t) end; [repeat up; exact H1|]. eapply (conc_step b e e' (TSym ")" :: ts)); [repeat up; exact H2|]. apply concs_end. reflexivity.
  - do 5 up. match type of H1 with ev _ _ (?x, ?t) => eapply (term_of _ x t) end; [repeat up; exact H1|]. match type of H1 with ev _ _ (_, TSym ?s :: _) => eapply (add_step _ s b e e' (TSym ")" :: ts)) end; [reflexivity | repeat up; exact H2|]. apply adds_end. reflexivity.
  - do 5 up. match type of H1 with ev _ _ (?x, ?t) => eapply (term_of _ x t) end; [repeat up; exact H1|]. match type of H1 with ev _ _ (_, TSym ?s :: _) => eapply (add_step _ s b e e' (TSym ")" :: ts)) end; [reflexivity | repeat up; exact H2|]. apply adds_end. reflexivity.
  - do 6 up. match type of H1 with ev _ _ (?x, ?t) => eapply (factor_of _ x t) end; [exact H1|]. match type of H1 with ev _ _ (_, TSym ?s :: _) => eapply (mul_step _ s b e e' (TSym ")" :: ts)) end; [reflexivity | exact H2|]. apply muls_end. reflexivity.
  - do 6 up. match type of H1 with ev _ _ (?x, ?t) => eapply (factor_of _ x t) end; [exact H1|]. match type of H1 with ev _ _ (_, TSym ?s :: _) => eapply (mul_step _ s b e e' (TSym ")" :: ts)) end; [reflexivity | exact H2|]. apply muls_end. reflexivity.
  - do 6 up. match type of H1 with ev _ _ (?x, ?t) => eapply (factor_of _ x t) end; [exact H1|]. match type of H1 with ev _ _ (_, TSym ?s :: _) => eapply (mul_step _ s b e e' (TSym ")" :: ts)) end; [reflexivity | exact H2|]. apply muls_end. reflexivity.
Qed.

(** ** First tokens *)
Definition head_ok (t : token) : Prop :=
  match t with TStr _ => False | TSym x => In x ["("; "-"; "!"] | TKw x => In x ["true"; "false"; "RNE"; "RNA"; "RTP"; "RTN"; "RTZ"] | _ => True end.
Lemma toks_head e : expr_ok e -> exists t l, toks e = t :: l /\ head_ok t /\ (base_ok e -> forall x, t = TSym x -> x = "(").
Proof.
  induction e using expr_ind'; cbn [expr_ok]; intros OK; cbn [toks]; try (eexists; eexists; split; [reflexivity|]; split; [cbn; tauto | intros _ y E; congruence]).
  - destruct (Z.ltb_spec n 0); eexists; eexists; (split; [reflexivity|]); (split; [cbn; tauto|]); cbn [base_ok]; [lia | congruence].
  - destruct b; (eexists; eexists; split; [reflexivity|]; split; [cbn; tauto | intros _ y E; congruence]).
  - eexists; eexists; split; [reflexivity|]; split; [cbn; tauto | intros []].
  - eexists; eexists; split; [reflexivity|]; split; [cbn; tauto | intros []].
  - destruct OK as (B & O & _). destruct (IHe O) as (t & l' & E & H1 & H2). rewrite E. eexists; eexists; split; [reflexivity|]. auto.
  - destruct OK as (B & O & _). destruct (IHe1 O) as (t & l' & E & H1 & H2). rewrite E. eexists; eexists; split; [reflexivity|]. auto.
  - destruct OK as (B & O & _). destruct (IHe O) as (t & l' & E & H1 & H2). rewrite E. eexists; eexists; split; [reflexivity|]. auto.
  - destruct OK.
Qed.
Lemma head_sym s t l : head_ok t -> ~ In s ["("; "-"; "!"] -> sym s (t :: l) = None.
Proof.
  intros H N. unfold sym, next. destruct t; try reflexivity. cbn [token_eqb]. destruct (String.eqb_spec s s0) as [->|_]; [contradiction | reflexivity].
Qed.
Lemma head_kw s t l : head_ok t -> ~ In s ["true"; "false"; "RNE"; "RNA"; "RTP"; "RTN"; "RTZ"] -> kw s (t :: l) = None.
Proof.
  intros H N. unfold kw, next. destruct t; try reflexivity. cbn [token_eqb]. destruct (String.eqb_spec s x) as [->|_]; [contradiction | reflexivity].
Qed.
Ltac notin := cbn; intuition discriminate.
Lemma toks_sym e s ts : expr_ok e -> ~ In s ["("; "-"; "!"] -> sym s (toks e ++ ts) = None.
Proof. intros H N. destruct (toks_head e H) as (t & l & -> & Ht & _). apply head_sym; assumption. Qed.
Lemma toks_kw e s ts : expr_ok e -> ~ In s ["true"; "false"; "RNE"; "RNA"; "RTP"; "RTN"; "RTZ"] -> kw s (toks e ++ ts) = None.
Proof. intros H N. destruct (toks_head e H) as (t & l & -> & Ht & _). apply head_kw; assumption. Qed.
Lemma commas_cons {A} (f : A -> list token) a l ts : commas (map f (a :: l)) ++ ts = f a ++ match l with [] => ts | _ => TSym "," :: commas (map f l) ++ ts end.
Proof. destruct l; cbn [map commas]; [reflexivity|]. rewrite <- app_assoc. reflexivity. Qed.

(** ** Types and bindings *)
Lemma reserved_not_type x : name x -> reserved x = false.
Proof. intros [_ H]; exact H. Qed.
Definition type_fin (ts : list token) : Prop := type_start ts = false.
Lemma p_types_ok l ts : l <> [] -> Forall (fun t => forall ts, type_fin ts -> ev p_type (toks_ty t ++ ts) (t, ts)) l ->
  type_fin ts -> sym "," ts = None -> ev p_types (commas (map toks_ty l) ++ ts) (l, ts).
Proof.
  intros N H F C. induction H as [|t l Ht H IH]; [contradiction|]. rewrite commas_cons. destruct l as [|t' l].
  - apply (ev1 _ _ (Ht ts F)). intros k E. cbn [p_types]. rewrite E. cbn [bind]. rewrite C. reflexivity.
  - specialize (IH ltac:(discriminate)). assert (F' : type_fin (TSym "," :: commas (map toks_ty (t' :: l)) ++ ts)) by reflexivity.
    two (Ht _ F') IH. cbn [p_types]. rewrite E. cbn [bind]. cbn [sym next token_eqb String.eqb Ascii.eqb Bool.eqb]. rewrite E0. reflexivity.
Qed.
Lemma p_type_ok t : ty_ok t -> forall ts, type_fin ts -> ev p_type (toks_ty t ++ ts) (t, ts).
Proof.
  induction t as [x|l r IHl IHr] using ty_ind'; cbn [ty_ok toks_ty]; intros OK ts F.
  - cbn [app]. apply ev0. intros k. destruct OK as [H|H].
    + rewrite (reserved_not_type x H). cbn [p_type]. rewrite F. reflexivity.
    + cbn in H. destruct H as [<-|[<-|[<-|[]]]]; reflexivity.
  - rewrite fold_and in OK. destruct OK as [O1 O2]. specialize (IHr O2 ts F). apply (Forall_mp _ _ _ IHl) in O1. clear IHl.
    rewrite <- app_comm_cons, <- app_assoc. cbn [app]. destruct l as [|t l].
    + apply (ev1 _ _ IHr). intros k E. cbn -[sym]. change (sym "]" (TSym "]" :: toks_ty r ++ ts)) with (Some (toks_ty r ++ ts)). cbv iota. rewrite E. reflexivity.
    + assert (L : ev p_types (commas (map toks_ty (t :: l)) ++ TSym "]" :: toks_ty r ++ ts) (t :: l, TSym "]" :: toks_ty r ++ ts))
        by (apply p_types_ok; [discriminate | exact O1 | reflexivity | reflexivity]).
      assert (N : sym "]" (commas (map toks_ty (t :: l)) ++ TSym "]" :: toks_ty r ++ ts) = None).
      { rewrite commas_cons. destruct t as [x|l' r']; cbn [toks_ty app]; [destruct (reserved x)|]; reflexivity. }
      two L IHr. cbn [p_type]. change (String.eqb "[" "(") with false. change (String.eqb "[" "[") with true. cbv iota. rewrite N, E. cbn [bind].
      change (sym "]" (TSym "]" :: toks_ty r ++ ts)) with (Some (toks_ty r ++ ts)). cbn [expect]. rewrite E0. reflexivity.
Qed.
Lemma p_bindings_ok l ts : l <> [] -> Forall binding_ok l -> type_fin ts -> sym "," ts = None -> ev p_bindings (commas (map toks_binding l) ++ ts) (l, ts).
Proof.
  intros N H F C. induction H as [|[x t] l [Hx Ht] H IH]; [contradiction|]. rewrite commas_cons. cbn [fst snd] in *. unfold toks_binding at 1. cbn [fst snd].
  assert (I : forall r, ev p_idents (TId x :: TSym ":" :: r) ([x], TSym ":" :: r)) by (intros r; apply ev0; reflexivity).
  destruct l as [|b l].
  - two (I (toks_ty t ++ ts)) (p_type_ok t Ht ts F). rewrite <- !app_comm_cons. cbn [p_bindings]. rewrite E. cbn [bind].
    change (sym ":" (TSym ":" :: toks_ty t ++ ts)) with (Some (toks_ty t ++ ts)). cbn [expect]. rewrite E0. cbn [bind map]. rewrite C. reflexivity.
  - specialize (IH ltac:(discriminate)). set (ts' := commas (map toks_binding (b :: l)) ++ ts) in *.
    apply (ev3 _ _ _ _ (I (toks_ty t ++ TSym "," :: ts')) (p_type_ok t Ht (TSym "," :: ts') eq_refl) IH). intros k E E0 E1.
    rewrite <- !app_comm_cons. cbn [p_bindings]. rewrite E. cbn [bind].
    change (sym ":" (TSym ":" :: toks_ty t ++ TSym "," :: ts')) with (Some (toks_ty t ++ TSym "," :: ts')). cbn [expect]. rewrite E0. cbn [bind map].
    change (sym "," (TSym "," :: ts')) with (Some ts'). cbv iota. rewrite E1. reflexivity.
Qed.
Lemma p_idents_ok l ts : l <> [] -> sym "," ts = None -> ev p_idents (commas (map (fun x => [TId x]) l) ++ ts) (l, ts).
Proof.
  intros N C. induction l as [|x l IH]; [contradiction|]. rewrite commas_cons. destruct l as [|y l].
  - apply ev0. intros k. cbn [app p_idents p_ident bind]. rewrite C. reflexivity.
  - specialize (IH ltac:(discriminate)). set (ts' := commas (map (fun x => [TId x]) (y :: l)) ++ ts) in *.
    apply (ev1 _ _ IH). intros k E. cbn [app p_idents p_ident bind]. change (sym "," (TSym "," :: ts')) with (Some ts'). cbv iota. rewrite E. reflexivity.
Qed.

(** ** Expressions *)
Definition fin (ts : list token) : Prop := is_sym (quiets ++ all_ops) ts = false.
Definition unary_ok (e : expr) : Prop := forall ts, is_sym quiets ts = false -> ev p_unary (toks e ++ ts) (norm e, ts).
Definition array_ok (e : expr) : Prop := forall ts r, is_sym ["("] ts = false -> loop p_selects (norm e) ts r -> ev p_array (toks e ++ ts) r.
Lemma fin_quiet ts : fin ts -> is_sym quiets ts = false.
Proof. apply is_sym_incl. intros x Hx. apply in_or_app. left. exact Hx. Qed.
Lemma fin_ops ts : fin ts -> is_sym all_ops ts = false.
Proof. apply is_sym_incl. intros x Hx. apply in_or_app. right. exact Hx. Qed.
Lemma expr_of_unary_ok e ts : unary_ok e -> fin ts -> ev p_expr (toks e ++ ts) (norm e, ts).
Proof. intros H F. apply expr_of_unary; [apply H, fin_quiet, F | apply fin_ops, F]. Qed.
Lemma norm_not_bounds e : expr_ok e -> forall h l, norm e <> Bounds h l.
Proof. destruct e; cbn [expr_ok norm]; intros H h l; try discriminate; [destruct (n <? 0); discriminate | destruct H]. Qed.

Lemma array_unary e : expr_ok e -> base_ok e -> array_ok e -> unary_ok e.
Proof.
  intros O B H ts Q. assert (P : is_sym ["("] ts = false) by (eapply is_sym_incl; [|exact Q]; sub).
  specialize (H ts (norm e, ts) P (selects_end (norm e) ts Q)). apply (ev1 _ _ H). intros k E.
  destruct (toks_head e O) as (t & l & T & H1 & H2). specialize (H2 B). cbn [p_unary].
  assert (S1 : sym "-" (toks e ++ ts) = None /\ sym "!" (toks e ++ ts) = None).
  { rewrite T. cbn [app]. unfold sym, next. destruct t; split; try reflexivity; cbn [token_eqb]; rewrite (H2 s eq_refl); reflexivity. }
  destruct S1 as [-> ->]. rewrite E. cbn [bind]. rewrite (sym_none ":" quiets ts); [reflexivity | right; right; left; reflexivity | exact Q].
Qed.
Lemma p_exprs_gen l ts : l <> [] -> Forall unary_ok l -> fin ts -> sym "," ts = None -> ev p_exprs (commas (map toks l) ++ ts) (map norm l, ts).
Proof.
  intros N H F C. induction H as [|e l He H IH]; [contradiction|]. rewrite commas_cons. destruct l as [|e' l].
  - apply (ev1 _ _ (expr_of_unary_ok e ts He F)). intros k E. cbn [p_exprs]. rewrite E. cbn [bind]. rewrite C. reflexivity.
  - specialize (IH ltac:(discriminate)). set (ts' := commas (map toks (e' :: l)) ++ ts) in *.
    two (expr_of_unary_ok e (TSym "," :: ts') He eq_refl) IH. cbn [p_exprs]. rewrite E. cbn [bind]. change (sym "," (TSym "," :: ts')) with (Some ts'). cbv iota. rewrite E0. reflexivity.
Qed.
Lemma atom_array e : (forall ts, is_sym ["("] ts = false -> ev p_atom (toks e ++ ts) (norm e, ts)) -> array_ok e.
Proof. intros H ts r Q L. exact (array_of _ _ _ _ (H ts Q) L). Qed.
Lemma paren_atom a e ts : kw "forall" a = None -> kw "exists" a = None -> ev p_expr a (e, TSym ")" :: ts) -> ev p_atom (TSym "(" :: a) (e, ts).
Proof. intros K1 K2 H. apply (ev1 _ _ H). intros k E. cbn [p_atom]. change (String.eqb "(" "(") with true. cbv iota. rewrite K1, K2, E. reflexivity. Qed.
Lemma neg_unary a e ts : ev p_unary a (e, ts) -> ev p_unary (TSym "-" :: a) (Neg e, ts).
Proof. intros H. apply (ev1 _ _ H). intros k E. cbn [p_unary]. change (sym "-" (TSym "-" :: a)) with (Some a). cbv iota. rewrite E. reflexivity. Qed.
Lemma not_unary a e ts : ev p_unary a (e, ts) -> ev p_unary (TSym "!" :: a) (Not e, ts).
Proof. intros H. apply (ev1 _ _ H). intros k E. cbn [p_unary]. change (sym "-" (TSym "!" :: a)) with (@None (list token)). change (sym "!" (TSym "!" :: a)) with (Some a). cbv iota. rewrite E. reflexivity. Qed.
Lemma atom_unary t a e ts : (forall s, t = TSym s -> s = "(") -> ev p_atom (t :: a) (e, ts) -> is_sym quiets ts = false -> ev p_unary (t :: a) (e, ts).
Proof.
  intros T H Q. apply (ev1 _ _ (array_of _ _ _ _ H (selects_end e ts Q))). intros k E. cbn [p_unary].
  assert (S1 : sym "-" (t :: a) = None /\ sym "!" (t :: a) = None).
  { unfold sym, next. destruct t; split; try reflexivity; cbn [token_eqb]; rewrite (T s eq_refl); reflexivity. }
  destruct S1 as [-> ->]. rewrite E. cbn [bind]. rewrite (sym_none ":" quiets ts); [reflexivity | right; right; left; reflexivity | exact Q].
Qed.
Lemma paren_unary e ts : expr_ok e -> unary_ok e -> is_sym quiets ts = false -> ev p_unary (TSym "(" :: toks e ++ TSym ")" :: ts) (norm e, ts).
Proof.
  intros O H Q. apply atom_unary; [congruence | | exact Q]. apply paren_atom; [apply toks_kw; [exact O | notin] | apply toks_kw; [exact O | notin] |].
  apply expr_of_unary_ok; [exact H | reflexivity].
Qed.

Lemma p_expr_main e : expr_ok e -> unary_ok e /\ (base_ok e -> array_ok e).
Proof.
  assert (A : forall e, expr_ok e -> base_ok e -> array_ok e -> unary_ok e /\ (base_ok e -> array_ok e)) by (intros; split; [apply array_unary; assumption | auto]).
  induction e using expr_ind'; intros O.
  - destruct (Z.ltb_spec n 0) as [L|L].
    + split; [|cbn; lia]. intros ts Q. cbn [toks norm]. replace (n <? 0) with true by (symmetry; apply Z.ltb_lt; exact L). cbn [app].
      apply neg_unary, atom_unary; [congruence | apply ev0; reflexivity | exact Q].
    + apply A; [exact I | exact L|]. apply atom_array. intros ts _. cbn [toks norm]. replace (n <? 0) with false by (symmetry; apply Z.ltb_ge; exact L). apply ev0. reflexivity.
  - apply A; [exact O | exact I|]. apply atom_array. intros ts _. apply ev0. reflexivity.
  - apply A; [exact O | exact I|]. apply atom_array. intros ts _. apply ev0. reflexivity.
  - apply A; [exact O | exact I|]. apply atom_array. intros ts _. apply ev0. destruct b; reflexivity.
  - apply A; [exact O | exact I|]. apply atom_array. intros ts _. apply ev0. cbn in O. destruct O as [<-|[<-|[<-|[<-|[<-|[]]]]]]; reflexivity.
  - apply A; [exact O | exact I|]. apply atom_array. intros ts Q. apply ev0. intros k. cbn [toks norm app p_atom].
    rewrite (sym_none "(" ["("] ts); [reflexivity | left; reflexivity | exact Q].
  - (* Fun *) apply A; [exact O | exact I|]. apply atom_array. intros ts _. cbn [expr_ok] in O. rewrite fold_and in O. destruct O as [_ O].
    cbn [toks norm]. rewrite <- !app_comm_cons, <- app_assoc. cbn [app]. destruct l as [|a l]; [apply ev0; reflexivity|].
    assert (L : ev p_exprs (commas (map toks (a :: l)) ++ TSym ")" :: ts) (map norm (a :: l), TSym ")" :: ts)).
    { apply p_exprs_gen; [discriminate | | reflexivity | reflexivity]. clear - H O. induction H; inversion O; constructor; [apply H; assumption | auto]. }
    assert (N : sym ")" (commas (map toks (a :: l)) ++ TSym ")" :: ts) = None).
    { rewrite commas_cons. apply toks_sym; [inversion O; assumption | notin]. }
    apply (ev1 _ _ L). intros k E. cbn [p_atom]. set (x := commas (map toks (a :: l)) ++ TSym ")" :: ts) in *.
    change (sym "(" (TSym "(" :: x)) with (Some x). cbv iota. rewrite N, E. reflexivity.
  - (* Bin *) apply A; [exact O | exact I|]. destruct O as [O1 O2]. apply atom_array. intros ts _. cbn [toks norm]. rewrite <- app_comm_cons, <- !app_assoc. cbn [app]. rewrite <- !app_assoc. cbn [app].
    apply paren_atom; [apply toks_kw; [exact O1 | notin] | apply toks_kw; [exact O1 | notin] |].
    eapply p_bin; [apply (proj1 (IHe1 O1)); destruct o; reflexivity | apply (proj1 (IHe2 O2)); reflexivity].
  - apply A; [exact O | exact I|]. destruct O as [O1 O2]. apply atom_array. intros ts _. cbn [toks norm]. rewrite <- app_comm_cons, <- !app_assoc. cbn [app]. rewrite <- !app_assoc. cbn [app].
    apply paren_atom; [apply toks_kw; [exact O1 | notin] | apply toks_kw; [exact O1 | notin] |].
    eapply (p_bin OConc); [apply (proj1 (IHe1 O1)); reflexivity | apply (proj1 (IHe2 O2)); reflexivity].
  - split; [|intros []]. intros ts Q. cbn [toks norm]. rewrite <- !app_comm_cons, <- app_assoc. cbn [app]. apply neg_unary, paren_unary; [exact O | apply IHe, O | exact Q].
  - split; [|intros []]. intros ts Q. cbn [toks norm]. rewrite <- !app_comm_cons, <- app_assoc. cbn [app]. apply not_unary, paren_unary; [exact O | apply IHe, O | exact Q].
  - (* Quant *) apply A; [exact O | exact I|]. destruct O as (N & V & O). apply atom_array. intros ts _. cbn [toks norm]. rewrite <- !app_comm_cons, <- !app_assoc. cbn [app]. rewrite <- !app_assoc. cbn [app].
    set (b := toks e ++ TSym ")" :: ts).
    assert (E1 : ev p_bindings (commas (map toks_binding v) ++ TSym "::" :: b) (v, TSym "::" :: b)) by (apply p_bindings_ok; [exact N | exact V | reflexivity | reflexivity]).
    assert (E2 : ev p_expr b (norm e, TSym ")" :: ts)) by (apply expr_of_unary_ok; [apply IHe, O | reflexivity]).
    assert (E3 : eventually (fun k => p_quant k q (commas (map toks_binding v) ++ TSym "::" :: b) = Some (Quant q v (norm e), ts))).
    { two E1 E2. cbn [p_quant]. rewrite E. cbn [bind]. change (sym "::" (TSym "::" :: b)) with (Some b). cbn [expect]. rewrite E0. reflexivity. }
    apply (ev1 _ _ E3). intros k E. cbn [p_atom]. destruct q; exact E.
  - (* Sel *) apply A; [exact O | exact I|]. cbn [expr_ok] in O. rewrite fold_and in O. destruct O as (B & O & N & OL). intros ts r Q L. cbn [toks norm]. rewrite <- !app_assoc. cbn [app]. rewrite <- !app_assoc. cbn [app].
    apply (proj2 (IHe O) B); [reflexivity|].
    assert (P : ev p_exprs (commas (map toks l) ++ TSym "]" :: ts) (map norm l, TSym "]" :: ts)).
    { apply p_exprs_gen; [exact N | | reflexivity | reflexivity]. clear - H OL. induction H; inversion OL; constructor; [apply H; assumption | auto]. }
    set (b := commas (map toks l) ++ TSym "]" :: ts) in *.
    two P L. cbn [p_selects]. change (sym "[" (TSym "[" :: b)) with (Some b). cbv iota. rewrite E. cbn [bind].
    change (sym ":=" (TSym "]" :: ts)) with (@None (list token)). change (sym "]" (TSym "]" :: ts)) with (Some ts). cbn [expect].
    cbn [norm] in E0. replace (match map norm l with [Bounds hi lo] => Extract (norm e) hi lo | _ => Sel (norm e) (map norm l) end) with (Sel (norm e) (map norm l)); [exact E0|].
    destruct l as [|i [|j l]]; [contradiction | | cbn [map]; destruct (norm i); reflexivity]. inversion OL. cbn [map].
    pose proof (norm_not_bounds i ltac:(assumption)) as NB. destruct (norm i); try reflexivity. exfalso. exact (NB _ _ eq_refl).
  - (* Upd *) apply A; [exact O | exact I|]. cbn [expr_ok] in O. rewrite fold_and in O. destruct O as (B & O & N & OL & OV). intros ts r Q L. cbn [toks norm]. rewrite <- !app_assoc. cbn [app]. rewrite <- !app_assoc. cbn [app]. rewrite <- !app_assoc. cbn [app].
    apply (proj2 (IHe1 O) B); [reflexivity|]. set (b1 := toks e2 ++ TSym "]" :: ts).
    assert (P : ev p_exprs (commas (map toks l) ++ TSym ":=" :: b1) (map norm l, TSym ":=" :: b1)).
    { apply p_exprs_gen; [exact N | | reflexivity | reflexivity]. clear - H OL. induction H; inversion OL; constructor; [apply H; assumption | auto]. }
    assert (PV : ev p_expr b1 (norm e2, TSym "]" :: ts)) by (apply expr_of_unary_ok; [apply IHe2, OV | reflexivity]).
    set (b := commas (map toks l) ++ TSym ":=" :: b1) in *.
    apply (ev3 _ _ _ _ P PV L). intros k E E0 E1. cbn [p_selects]. change (sym "[" (TSym "[" :: b)) with (Some b). cbv iota. rewrite E. cbn [bind].
    change (sym ":=" (TSym ":=" :: b1)) with (Some b1). cbv iota. rewrite E0. cbn [bind]. change (sym "]" (TSym "]" :: ts)) with (Some ts). cbn [expect]. cbn [norm] in E1.
    destruct l as [|i [|j l]]; [contradiction | | cbn [map] in *; destruct (norm i); exact E1]. inversion OL. cbn [map] in *.
    pose proof (norm_not_bounds i ltac:(assumption)) as NB. destruct (norm i); try exact E1. exfalso. exact (NB _ _ eq_refl).
  - (* Extract *) apply A; [exact O | exact I|]. destruct O as (B & O & H1 & H2). intros ts r Q L. cbn [toks norm]. rewrite <- app_assoc. cbn [app].
    apply (proj2 (IHe O) B); [reflexivity|].
    assert (PA : forall ts, is_sym ["["] ts = false -> ev p_array (TNum h :: ts) (Num h, ts)).
    { intros u Hu. eapply array_of; [apply ev0; reflexivity|]. apply ev0. intros k. cbn [p_selects]. rewrite (sym_none "[" ["["] u); [reflexivity | left; reflexivity | exact Hu]. }
    assert (PU : ev p_unary (TNum h :: TSym ":" :: TNum l :: TSym "]" :: ts) (Bounds h l, TSym "]" :: ts)).
    { apply (ev1 _ _ (PA (TSym ":" :: TNum l :: TSym "]" :: ts) eq_refl)). intros k E. cbn [p_unary].
      change (sym "-" (TNum h :: TSym ":" :: TNum l :: TSym "]" :: ts)) with (@None (list token)). change (sym "!" (TNum h :: TSym ":" :: TNum l :: TSym "]" :: ts)) with (@None (list token)). cbv iota.
      rewrite E. reflexivity. }
    assert (PE : ev p_exprs (TNum h :: TSym ":" :: TNum l :: TSym "]" :: ts) ([Bounds h l], TSym "]" :: ts)).
    { apply (ev1 _ _ (expr_of_unary _ _ _ PU eq_refl)). intros k E. cbn [p_exprs]. rewrite E. reflexivity. }
    two PE L. cbn [p_selects]. set (b := TNum h :: TSym ":" :: TNum l :: TSym "]" :: ts) in *. change (sym "[" (TSym "[" :: b)) with (Some b). cbv iota. rewrite E. cbn [bind].
    change (sym ":=" (TSym "]" :: ts)) with (@None (list token)). change (sym "]" (TSym "]" :: ts)) with (Some ts). cbn [expect]. exact E0.
  - destruct O.
  - (* Ite *) apply A; [exact O | exact I|]. destruct O as (O1 & O2 & O3). apply atom_array. intros ts _. cbn [toks norm]. repeat (rewrite <- ?app_comm_cons, <- ?app_assoc; cbn [app]).
    apply paren_atom; [reflexivity | reflexivity|]. set (b3 := toks e3 ++ TSym ")" :: ts). set (b2 := toks e2 ++ TKw "else" :: b3).
    assert (E1 : ev p_expr (toks e1 ++ TKw "then" :: b2) (norm e1, TKw "then" :: b2)) by (apply expr_of_unary_ok; [apply IHe1, O1 | reflexivity]).
    assert (E2 : ev p_expr b2 (norm e2, TKw "else" :: b3)) by (apply expr_of_unary_ok; [apply IHe2, O2 | reflexivity]).
    assert (E3 : ev p_expr b3 (norm e3, TSym ")" :: ts)) by (apply expr_of_unary_ok; [apply IHe3, O3 | reflexivity]).
    apply expr_of_unary; [|reflexivity]. apply atom_unary; [congruence | | reflexivity].
    apply (ev3 _ _ _ _ E1 E2 E3). intros k F1 F2 F3. cbn [p_atom]. change (String.eqb "if" "true") with false. change (String.eqb "if" "false") with false.
    change (existsb (String.eqb "if") rounding_modes) with false. change (String.eqb "if" "if") with true. cbv iota. rewrite F1. cbn [bind].
    change (kw "then" (TKw "then" :: b2)) with (Some b2). cbn [expect]. rewrite F2. cbn [bind]. change (kw "else" (TKw "else" :: b3)) with (Some b3). cbn [expect]. rewrite F3. reflexivity.
Qed.
Lemma p_expr_ok e ts : expr_ok e -> fin ts -> ev p_expr (toks e ++ ts) (norm e, ts).
Proof. intros O F. apply expr_of_unary_ok; [apply p_expr_main, O | exact F]. Qed.
Lemma p_exprs_ok l ts : l <> [] -> Forall expr_ok l -> fin ts -> sym "," ts = None -> ev p_exprs (commas (map toks l) ++ ts) (map norm l, ts).
Proof. intros N H F C. apply p_exprs_gen; auto. eapply Forall_impl; [|exact H]. intros e He. apply p_expr_main, He. Qed.

(** ** Attributes and statements *)
Ltac symb := repeat match goal with
  | |- context [sym ?s (TSym ?t :: ?x)] => let b := eval vm_compute in (String.eqb s t) in
      (match b with true => change (sym s (TSym t :: x)) with (Some x) | false => change (sym s (TSym t :: x)) with (@None (list token)) end)
  | |- context [sym ?s (TId ?t :: ?x)] => change (sym s (TId t :: x)) with (@None (list token))
  | |- context [sym ?s (TKw ?t :: ?x)] => change (sym s (TKw t :: x)) with (@None (list token))
  | |- context [kw ?s (TId ?t :: ?x)] => change (kw s (TId t :: x)) with (@None (list token))
  | |- context [kw ?s (TSym ?t :: ?x)] => change (kw s (TSym t :: x)) with (@None (list token))
  | |- context [kw ?s (TKw ?t :: ?x)] => let b := eval vm_compute in (String.eqb s t) in
      (match b with true => change (kw s (TKw t :: x)) with (Some x) | false => change (kw s (TKw t :: x)) with (@None (list token)) end)
  | _ => progress cbn [bind expect p_ident]
  end.
Definition norm_aval (v : aval) : aval := match v with AExpr e => AExpr (norm e) | v => v end.
Lemma p_aval_ok v ts : aval_ok v -> fin ts -> ev p_aval (toks_aval v ++ ts) (norm_aval v, ts).
Proof.
  destruct v as [s|e]; cbn [aval_ok toks_aval norm_aval]; intros O F; [apply ev0; reflexivity|].
  apply (evn1 _ _ (p_expr_ok e ts O F)). intros k E. unfold p_aval. rewrite E. destruct (toks_head e O) as (t & l & -> & H & _). cbn [app].
  destruct t; try reflexivity. destruct H.
Qed.
Lemma p_avals_ok l ts : l <> [] -> Forall aval_ok l -> fin ts -> sym "," ts = None -> ev p_avals (commas (map toks_aval l) ++ ts) (map norm_aval l, ts).
Proof.
  intros N H F C. induction H as [|e l He H IH]; [contradiction|]. rewrite commas_cons. destruct l as [|e' l].
  - apply (ev1 _ _ (p_aval_ok e ts He F)). intros k E. cbn [p_avals]. rewrite E. cbn [bind]. rewrite C. reflexivity.
  - specialize (IH ltac:(discriminate)). set (ts' := commas (map toks_aval (e' :: l)) ++ ts) in *.
    two (p_aval_ok e (TSym "," :: ts') He eq_refl) IH. cbn [p_avals]. rewrite E. symb. rewrite E0. reflexivity.
Qed.
Lemma p_attrs_ok l ts : Forall attr_ok l -> sym "{" ts = None -> ev p_attrs (toks_attrs l ++ ts) (map norm_attr l, ts).
Proof.
  intros H C. induction H as [|[x vs] l [Hx Hv] H IH]; [apply ev0; intros k; cbn [toks_attrs flat_map app p_attrs map]; rewrite C; reflexivity|].
  unfold toks_attrs in *. cbn [flat_map map at_name at_vals] in *. unfold toks_attr at 1. cbn [at_name at_vals].
  set (b := flat_map toks_attr l ++ ts) in *. rewrite <- app_assoc. fold b. repeat (rewrite <- ?app_comm_cons, <- ?app_assoc; cbn [app]).
  destruct vs as [|v vs].
  - apply (ev1 _ _ IH). intros k E. cbn [map commas app p_attrs]. symb. rewrite E. reflexivity.
  - assert (P : ev p_avals (commas (map toks_aval (v :: vs)) ++ TSym "}" :: b) (map norm_aval (v :: vs), TSym "}" :: b)).
    { apply p_avals_ok; [discriminate | exact Hv | reflexivity | reflexivity]. }
    assert (N : sym "}" (commas (map toks_aval (v :: vs)) ++ TSym "}" :: b) = None).
    { rewrite commas_cons. inversion Hv as [|? ? A _]; subst. destruct v as [s|e]; [reflexivity|]. apply toks_sym; [exact A | notin]. }
    two P IH. cbn [p_attrs]. symb. rewrite N, E. symb. rewrite E0. reflexivity.
Qed.

Lemma lhs_loop e : lhs_ok e -> exists x tl, toks e = TId x :: tl /\ (match tl with t :: _ => t = TSym "[" | [] => True end) /\
  forall ts r, loop p_lhs_indices (norm e) ts r -> loop p_lhs_indices (Var x) (tl ++ ts) r.
Proof.
  induction e using expr_ind'; cbn [lhs_ok]; try contradiction.
  - intros _. exists x, []. split; [reflexivity|]. split; [exact I|]. auto.
  - intros (H1 & H2 & H3). destruct (IHe H1) as (x & tl & T & Hd & L). exists x, (tl ++ TSym "[" :: commas (map toks l) ++ [TSym "]"]).
    cbn [toks]. rewrite T. split; [reflexivity|]. split; [destruct tl; [reflexivity | exact Hd]|].
    intros ts r R. rewrite <- app_assoc. apply L. cbn [app]. rewrite <- app_assoc. cbn [app].
    assert (P : ev p_exprs (commas (map toks l) ++ TSym "]" :: ts) (map norm l, TSym "]" :: ts)) by (apply p_exprs_ok; [exact H2 | exact H3 | reflexivity | reflexivity]).
    two P R. cbn [p_lhs_indices]. symb. rewrite E. symb. exact E0.
Qed.
Lemma p_lhss_ok l ts : l <> [] -> Forall lhs_ok l -> sym "[" ts = None -> sym "," ts = None -> ev p_lhss (commas (map toks l) ++ ts) (map norm l, ts).
Proof.
  intros N H B C. induction H as [|e l He H IH]; [contradiction|]. rewrite commas_cons. destruct (lhs_loop e He) as (x & tl & T & _ & L). rewrite T. cbn [app].
  assert (END : forall ts, sym "[" ts = None -> loop p_lhs_indices (norm e) ts (norm e, ts)) by (intros u Hu; apply ev0; intros k; cbn [p_lhs_indices]; rewrite Hu; reflexivity).
  destruct l as [|e' l].
  - apply (ev1 _ _ (L _ _ (END ts B))). intros k E. cbn [p_lhss]. symb. rewrite E. cbn [bind]. rewrite C. reflexivity.
  - specialize (IH ltac:(discriminate)). set (ts' := commas (map toks (e' :: l)) ++ ts) in *.
    two (L _ _ (END (TSym "," :: ts') eq_refl)) IH. cbn [p_lhss]. symb. rewrite E. symb. rewrite E0. reflexivity.
Qed.
Lemma p_args_ok l ts : Forall expr_ok l -> ev p_args (TSym "(" :: commas (map toks l) ++ TSym ")" :: ts) (map norm l, ts).
Proof.
  intros H. destruct l as [|e l]; [apply ev0; reflexivity|].
  assert (P : ev p_exprs (commas (map toks (e :: l)) ++ TSym ")" :: ts) (map norm (e :: l), TSym ")" :: ts)) by (apply p_exprs_ok; [discriminate | exact H | reflexivity | reflexivity]).
  assert (N : sym ")" (commas (map toks (e :: l)) ++ TSym ")" :: ts) = None) by (rewrite commas_cons; apply toks_sym; [inversion H; assumption | notin]).
  apply (evn1 _ _ P). intros k E. unfold p_args. symb. rewrite N, E. symb. reflexivity.
Qed.
Lemma toks_brace e ts : expr_ok e -> sym "{" (toks e ++ ts) = None.
Proof. intros H. apply toks_sym; [exact H | notin]. Qed.

Ltac assoc := repeat (rewrite <- ?app_comm_cons, <- ?app_assoc; cbn [app]).
Lemma p_stmt_ok s ts : stmt_ok s -> match norm_stmt s with [s'] => ev p_stmt (toks_stmt s ++ ts) (s', ts) | _ => toks_stmt s = [] /\ norm_stmt s = [] end.
Proof.
  destruct s as [a e|a e|l r|a rets p args|l|l| |s]; cbn [stmt_ok norm_stmt toks_stmt]; [..|intros _; split; reflexivity].
  - intros [H1 H2]. assoc. pose proof (p_expr_ok e (TSym ";" :: ts) H2 eq_refl) as P. set (b := toks e ++ TSym ";" :: ts) in *.
    apply (evn2 _ _ _ (p_attrs_ok a b H1 (toks_brace e _ H2)) P). intros k E E0. unfold p_stmt. cbn [case_kw]. symb. rewrite E. cbn [bind]. rewrite E0. reflexivity.
  - intros [H1 H2]. assoc. pose proof (p_expr_ok e (TSym ";" :: ts) H2 eq_refl) as P. set (b := toks e ++ TSym ";" :: ts) in *.
    apply (evn2 _ _ _ (p_attrs_ok a b H1 (toks_brace e _ H2)) P). intros k E E0. unfold p_stmt. cbn [case_kw]. symb. rewrite E. cbn [bind]. rewrite E0. reflexivity.
  - intros (N1 & H1 & N2 & H2). assoc. pose proof (p_exprs_ok r (TSym ";" :: ts) N2 H2 eq_refl eq_refl) as P. set (b := commas (map toks r) ++ TSym ";" :: ts) in *.
    pose proof (p_lhss_ok l (TSym ":=" :: b) N1 H1 eq_refl eq_refl) as Q.
    apply (evn2 _ _ _ Q P). intros k E E0. unfold p_stmt.
    assert (K : exists x u, commas (map toks l) ++ TSym ":=" :: b = TId x :: u).
    { destruct l as [|e l]; [contradiction|]. rewrite commas_cons. inversion H1 as [|? ? A _]; subst. destruct (lhs_loop e A) as (x & tl & T & _ & _). rewrite T. cbn [app]. eauto. }
    destruct K as (x & u & K). rewrite K in *. cbn [case_kw]. symb. rewrite E. symb. rewrite E0. reflexivity.
  - intros (H1 & H2 & H3 & H4). assoc. pose proof (p_args_ok args (TSym ";" :: ts) H4) as P.
    assert (EQ : (commas (map toks args) ++ [TSym ")"; TSym ";"]) ++ ts = commas (map toks args) ++ TSym ")" :: TSym ";" :: ts) by (rewrite <- app_assoc; reflexivity).
    set (b := TSym "(" :: commas (map toks args) ++ TSym ")" :: TSym ";" :: ts) in *.
    destruct rets as [|x rets].
    + assoc. fold b. assert (I : ev p_idents (TId p :: b) ([p], b)) by (apply ev0; reflexivity).
      apply (evn3 _ _ _ _ (p_attrs_ok a (TId p :: b) H1 eq_refl) I P). intros k E E0 E1. unfold p_stmt. cbn [case_kw]. symb. rewrite E. cbn [bind]. rewrite E0. cbn [bind].
      change (sym ":=" b) with (@None (list token)). cbv iota. rewrite E1. reflexivity.
    + assoc. fold b. pose proof (p_idents_ok (x :: rets) (TSym ":=" :: TId p :: b) ltac:(discriminate) eq_refl) as I. set (c := commas (map (fun x => [TId x]) (x :: rets)) ++ TSym ":=" :: TId p :: b) in *.
      assert (C : sym "{" c = None) by (unfold c; rewrite commas_cons; reflexivity).
      apply (evn3 _ _ _ _ (p_attrs_ok a c H1 C) I P). intros k E E0 E1. unfold p_stmt. cbn [case_kw]. symb. rewrite E. cbn [bind]. rewrite E0. symb. rewrite E1. reflexivity.
  - intros [N H]. assoc. apply (evn1 _ _ (p_idents_ok l (TSym ";" :: ts) N eq_refl)). intros k E. unfold p_stmt. cbn [case_kw]. symb. rewrite E. reflexivity.
  - intros [N H]. assoc. apply (evn1 _ _ (p_idents_ok l (TSym ";" :: ts) N eq_refl)). intros k E. unfold p_stmt. cbn [case_kw]. symb. rewrite E. reflexivity.
  - intros _. apply ev0. reflexivity.
Qed.
Lemma stmt_no_label s ts : stmt_ok s -> norm_stmt s <> [] -> label (toks_stmt s ++ ts) = None /\ sym "}" (toks_stmt s ++ ts) = None.
Proof.
  destruct s as [a e|a e|l r|a rets p args|l|l| |s]; cbn [stmt_ok norm_stmt toks_stmt]; intros H N; try (split; reflexivity); [|contradiction].
  destruct H as (NL & HL & _). destruct l as [|e l]; [contradiction|]. assoc. rewrite commas_cons. inversion HL as [|? ? A _]; subst.
  destruct (lhs_loop e A) as (x & tl & T & Hd & _). rewrite T. split; [|reflexivity]. unfold label. cbn [app p_ident bind].
  destruct tl as [|t tl]; [destruct l; reflexivity|]. subst t. reflexivity.
Qed.
Definition stops (ts : list token) : Prop := label ts <> None \/ sym "}" ts <> None.
Lemma p_stmts_ok l ts : Forall stmt_ok l -> stops ts -> ev p_stmts (flat_map toks_stmt l ++ ts) (flat_map norm_stmt l, ts).
Proof.
  intros H S. induction H as [|s l Hs H IH].
  - apply ev0. intros k. cbn [flat_map app p_stmts]. destruct S as [S|S]; [destruct (label ts); [reflexivity | contradiction] | destruct (label ts), (sym "}" ts); try reflexivity; contradiction].
  - cbn [flat_map]. rewrite <- app_assoc. pose proof (p_stmt_ok s (flat_map toks_stmt l ++ ts) Hs) as P.
    pose proof (stmt_no_label s (flat_map toks_stmt l ++ ts) Hs) as NL.
    destruct (norm_stmt s) as [|s' [|s'' l']] eqn:EN.
    + destruct P as [-> _]. exact IH.
    + destruct (NL ltac:(discriminate)) as [N1 N2]. two P IH. cbn [p_stmts]. rewrite N1, N2, E. cbn [bind]. rewrite E0. reflexivity.
    + destruct P as [_ P]. discriminate P.
Qed.
Lemma p_blocks_ok l ts : Forall block_ok l -> label ts = None -> sym "}" ts <> None -> ev p_blocks (flat_map toks_block l ++ ts) (map norm_block l, ts).
Proof.
  intros H L B. induction H as [|[x ss] l [Hx Hs] H IH]; [apply ev0; intros k; cbn [flat_map app p_blocks map]; rewrite L; reflexivity|].
  cbn [b_name b_stmts flat_map map] in *. unfold toks_block at 1. cbn [b_name b_stmts].
  replace (String.eqb x "") with false by (destruct x; [destruct Hx as [[] _] | reflexivity]). assoc.
  assert (S : stops (flat_map toks_block l ++ ts)).
  { destruct H as [|[y ys] l [Hy _] H]; [right; exact B|]. left. cbn [b_name flat_map]. unfold toks_block at 1. cbn [b_name].
    replace (String.eqb y "") with false by (destruct y; [destruct Hy as [[] _] | reflexivity]). assoc. discriminate. }
  two (p_stmts_ok ss _ Hs S) IH. cbn [p_blocks]. unfold label. symb. rewrite E. cbn [bind]. rewrite E0. reflexivity.
Qed.

(** ** Declarations *)
Lemma p_locals_ok l ts : Forall binding_ok l -> kw "var" ts = None -> ev p_locals (flat_map toks_var l ++ ts) (l, ts).
Proof.
  intros H K. induction H as [|b l Hb H IH]; [apply ev0; intros k; cbn [flat_map app p_locals]; rewrite K; reflexivity|].
  cbn [flat_map]. unfold toks_var at 1. assoc.
  pose proof (p_bindings_ok [b] (TSym ";" :: flat_map toks_var l ++ ts) ltac:(discriminate) ltac:(constructor; [exact Hb | constructor]) eq_refl eq_refl) as P. cbn [map commas] in P.
  two P IH. cbn [p_locals]. symb. unfold p_var, semi. rewrite E. symb. rewrite E0. reflexivity.
Qed.
Definition spec_end (ts : list token) : Prop := kw "modifies" ts = None /\ kw "requires" ts = None /\ kw "ensures" ts = None.
Lemma p_ensures_ok l ts : Forall expr_ok l -> spec_end ts -> ev p_specs (flat_map (fun e => TKw "ensures" :: toks e ++ [TSym ";"]) l ++ ts) (([], [], map norm l), ts).
Proof.
  intros H (S1 & S2 & S3). induction H as [|e l He H IH]; [apply ev0; intros k; cbn [flat_map app p_specs case_kw map]; rewrite S1, S2, S3; reflexivity|].
  cbn [flat_map map]. assoc. two (p_expr_ok e (TSym ";" :: flat_map (fun e => TKw "ensures" :: toks e ++ [TSym ";"]) l ++ ts) He eq_refl) IH.
  cbn [p_specs case_kw]. symb. unfold semi at 1. rewrite E. symb. rewrite E0. reflexivity.
Qed.
Lemma p_requires_ok l l' ts : Forall expr_ok l -> Forall expr_ok l' -> spec_end ts ->
  ev p_specs (flat_map (fun e => TKw "requires" :: toks e ++ [TSym ";"]) l ++ flat_map (fun e => TKw "ensures" :: toks e ++ [TSym ";"]) l' ++ ts) (([], map norm l, map norm l'), ts).
Proof.
  intros H H' S. induction H as [|e l He H IH]; [apply p_ensures_ok; assumption|].
  cbn [flat_map map]. assoc. match type of IH with ev _ ?x _ => two (p_expr_ok e (TSym ";" :: x) He eq_refl) IH end.
  cbn [p_specs case_kw]. symb. unfold semi at 1. rewrite E. symb. rewrite E0. reflexivity.
Qed.
Lemma p_specs_ok m l l' ts : Forall expr_ok l -> Forall expr_ok l' -> spec_end ts ->
  ev p_specs ((match m with [] => [] | x :: m => TKw "modifies" :: commas (map (fun x => [TId x]) (x :: m)) ++ [TSym ";"] end) ++
    flat_map (fun e => TKw "requires" :: toks e ++ [TSym ";"]) l ++ flat_map (fun e => TKw "ensures" :: toks e ++ [TSym ";"]) l' ++ ts) ((m, map norm l, map norm l'), ts).
Proof.
  intros H H' S. pose proof (p_requires_ok l l' ts H H' S) as P. destruct m as [|x m]; [exact P|]. assoc.
  match type of P with ev _ ?x' _ => two (p_idents_ok (x :: m) (TSym ";" :: x') ltac:(discriminate) eq_refl) P end.
  cbn [p_specs case_kw]. symb. unfold semi at 1. rewrite E. symb. rewrite E0. cbn [bind]. rewrite app_nil_r. reflexivity.
Qed.
Lemma p_params_ok l ts : Forall binding_ok l -> ev p_params (TSym "(" :: commas (map toks_binding l) ++ TSym ")" :: ts) (l, ts).
Proof.
  intros H. destruct l as [|b l]; [apply ev0; reflexivity|].
  assert (N : sym ")" (commas (map toks_binding (b :: l)) ++ TSym ")" :: ts) = None) by (rewrite commas_cons; reflexivity).
  apply (evn1 _ _ (p_bindings_ok (b :: l) (TSym ")" :: ts) ltac:(discriminate) H eq_refl eq_refl)). intros k E. unfold p_params. symb. rewrite N, E. symb. reflexivity.
Qed.
Lemma name_neq_empty x : name x -> String.eqb x "" = false.
Proof. destruct x; [intros [[] _] | reflexivity]. Qed.
Lemma blocks_stop l ts : Forall block_ok l -> stops (flat_map toks_block l ++ TSym "}" :: ts).
Proof.
  intros H. destruct H as [|[y ys] l [Hy _] H]; [right; discriminate|]. left. cbn [b_name flat_map] in *. unfold toks_block at 1. cbn [b_name].
  rewrite (name_neq_empty y Hy). assoc. discriminate.
Qed.
Lemma p_body_ok ls bs ts : Forall binding_ok ls -> blocks_ok bs -> bs <> [] ->
  ev p_body (TSym "{" :: flat_map toks_var ls ++ flat_map toks_block bs ++ TSym "}" :: ts) ((ls, norm_blocks bs), ts).
Proof.
  intros HL HB N. destruct bs as [|b bs]; [contradiction|]. destruct HB as [H1 H2].
  pose proof (p_blocks_ok bs (TSym "}" :: ts) H2 eq_refl ltac:(discriminate)) as PB.
  assert (K : forall l u, Forall stmt_ok l -> kw "var" u = None -> kw "var" (flat_map toks_stmt l ++ u) = None).
  { clear. intros l u H Hu. induction H as [|s l Hs H IH]; [exact Hu|]. cbn [flat_map]. rewrite <- app_assoc.
    destruct s as [a e|a e|l0 r|a rets p args|l0|l0| |s]; try reflexivity; [|exact IH].
    cbn [toks_stmt]. destruct Hs as (N & HL & _). destruct l0 as [|e l0]; [contradiction|]. rewrite <- app_assoc, commas_cons. inversion HL as [|? ? A _]; subst.
    destruct (lhs_loop e A) as (x & tl & T & _). rewrite T. reflexivity. }
  assert (KB : kw "var" (flat_map toks_block bs ++ TSym "}" :: ts) = None).
  { destruct H2 as [|[y ys] l [Hy _] H]; [reflexivity|]. cbn [b_name flat_map] in *. unfold toks_block at 1. cbn [b_name]. rewrite (name_neq_empty y Hy). reflexivity. }
  destruct b as [x ss]. cbn [b_name b_stmts flat_map] in *. rewrite <- app_assoc.
  destruct H1 as [[-> Hs]|[Hx Hs]]; cbn [b_name b_stmts] in *.
  - unfold toks_block at 1. cbn [b_name b_stmts]. change (String.eqb "" "") with true. cbv iota. cbn [app].
    pose proof (p_stmts_ok ss _ Hs (blocks_stop bs ts H2)) as PS. set (u := flat_map toks_block bs ++ TSym "}" :: ts) in *.
    apply (evn3 _ _ _ _ (p_locals_ok ls (flat_map toks_stmt ss ++ u) HL (K ss u Hs KB)) PS PB). intros k E E0 E1.
    unfold p_body. symb. rewrite E. cbn [bind]. rewrite E0. cbn [bind]. rewrite E1. symb. reflexivity.
  - pose proof (p_blocks_ok (Block x ss :: bs) (TSym "}" :: ts) ltac:(constructor; [split; assumption | assumption]) eq_refl ltac:(discriminate)) as PB'. cbn [flat_map] in PB'. rewrite <- app_assoc in PB'.
    set (u := toks_block (Block x ss) ++ flat_map toks_block bs ++ TSym "}" :: ts) in *.
    assert (U : exists u', u = TId x :: TSym ":" :: u') by (unfold u, toks_block; cbn [b_name]; rewrite (name_neq_empty x Hx); assoc; eauto). destruct U as [u' U].
    assert (PS : ev p_stmts u ([], u)) by (rewrite U; apply ev0; reflexivity).
    assert (KU : kw "var" u = None) by (rewrite U; reflexivity).
    apply (evn3 _ _ _ _ (p_locals_ok ls u HL KU) PS PB'). intros k E E0 E1.
    unfold p_body. symb. rewrite E. cbn [bind]. rewrite E0. cbn [bind]. rewrite E1. symb. unfold norm_blocks. cbn [b_name]. rewrite (name_neq_empty x Hx). reflexivity.
Qed.
Lemma ev_and (P Q : nat -> Prop) : eventually P -> eventually Q -> eventually (fun k => P k /\ Q k).
Proof. intros H1 H2. apply (evn2 _ _ _ H1 H2). auto. Qed.
(** What may follow a declaration *)
Definition decl_end (ts : list token) : Prop := spec_end ts.
Definition toks_specs (m : list string) (l l' : list expr) : list token :=
  (match m with [] => [] | x :: m => TKw "modifies" :: commas (map (fun x => [TId x]) (x :: m)) ++ [TSym ";"] end) ++
  flat_map (fun e => TKw "requires" :: toks e ++ [TSym ";"]) l ++ flat_map (fun e => TKw "ensures" :: toks e ++ [TSym ";"]) l'.
Lemma toks_specs_ok m l l' ts : Forall expr_ok l -> Forall expr_ok l' -> spec_end ts -> ev p_specs (toks_specs m l l' ++ ts) ((m, map norm l, map norm l'), ts).
Proof. intros H H' S. unfold toks_specs. rewrite <- !app_assoc. apply p_specs_ok; assumption. Qed.
Lemma specs_head m l l' ts : (kw "returns" ts = None -> kw "returns" (toks_specs m l l' ++ ts) = None) /\ (sym ";" ts = None -> sym ";" (toks_specs m l l' ++ ts) = None).
Proof. unfold toks_specs. destruct m; [destruct l; [destruct l'|]|]; split; intros H; try reflexivity; exact H. Qed.
Lemma p_proc_ok p ts : proc_ok p -> decl_end ts -> ev p_decl (toks_proc p ++ ts) (norm_decl (DProc p), ts).
Proof.
  destruct p as [a x ps rs m rq en ls bs]. unfold proc_ok, toks_proc. cbn [norm_decl pr_attrs pr_name pr_params pr_rets pr_mods pr_requires pr_ensures pr_locals pr_blocks].
  intros (H1 & H2 & H3 & H4 & H5 & H6 & H7 & H8 & H9 & H10) DE.
  set (body := match bs with [] => [] | b :: bs => TSym "{" :: flat_map toks_var ls ++ flat_map toks_block (b :: bs) ++ [TSym "}"] end).
  set (endp := match bs with [] => [TSym ";"] | _ :: _ => [] end).
  set (retp := match rs with [] => [] | r :: rs => TKw "returns" :: TSym "(" :: commas (map toks_binding (r :: rs)) ++ [TSym ")"] end).
  match goal with |- ev _ ?u _ => replace u with (TKw "procedure" :: toks_attrs a ++ TId x :: TSym "(" :: commas (map toks_binding ps) ++ TSym ")" :: retp ++ endp ++ toks_specs m rq en ++ body ++ ts)
    by (unfold toks_specs; assoc; reflexivity) end.
  set (c := endp ++ toks_specs m rq en ++ body ++ ts).
  assert (PR : eventually (fun k => match kw "returns" (retp ++ c) with Some ts => p_params k ts | None => Some ([], retp ++ c) end = Some (rs, c))).
  { unfold retp. destruct rs as [|r rs].
    - apply ev0. intros k. replace (kw "returns" ([] ++ c)) with (@None (list token)); [reflexivity|]. symmetry. unfold c, endp, body.
      destruct bs; [reflexivity|]. cbn [app]. apply specs_head. reflexivity.
    - apply (evn1 _ _ (p_params_ok (r :: rs) c H4)). intros k E. assoc. symb. exact E. }
  pose proof (p_params_ok ps (retp ++ c) H3) as PP.
  pose proof (p_attrs_ok a (TId x :: TSym "(" :: commas (map toks_binding ps) ++ TSym ")" :: retp ++ c) H1 eq_refl) as PA.
  assert (SE : spec_end (body ++ ts)) by (unfold body; destruct bs; [exact DE | repeat split]).
  pose proof (toks_specs_ok m rq en (body ++ ts) H6 H7 SE) as PS.
  destruct bs as [|b bs].
  - rewrite (H10 eq_refl) in *. apply (evn2 _ _ _ (ev_and _ _ PA PP) (ev_and _ _ PR PS)). intros k [E E0] [E1 E2].
    unfold p_decl. cbn [case_kw]. symb. rewrite E. symb. rewrite E0. cbn [bind]. rewrite E1. cbn [bind].
    unfold c, endp. cbn [app]. symb. rewrite E2. reflexivity.
  - pose proof (p_body_ok ls (b :: bs) ts H8 H9 ltac:(discriminate)) as PB.
    replace (TSym "{" :: flat_map toks_var ls ++ flat_map toks_block (b :: bs) ++ TSym "}" :: ts) with (body ++ ts) in PB by (unfold body; assoc; reflexivity).
    apply (evn3 _ _ _ _ (ev_and _ _ PA PP) (ev_and _ _ PR PS) PB). intros k [E E0] [E1 E2] E3.
    unfold p_decl. cbn [case_kw]. symb. rewrite E. symb. rewrite E0. cbn [bind]. rewrite E1. cbn [bind].
    replace (sym ";" c) with (@None (list token)) by (symmetry; unfold c, endp; cbn [app]; apply specs_head; reflexivity).
    unfold c at 1, endp. cbn [app]. rewrite E2. cbn [bind]. rewrite E3. reflexivity.
Qed.
Lemma p_decl_ok d ts : decl_ok d -> decl_end ts -> ev p_decl (toks_decl d ++ ts) (norm_decl d, ts).
Proof.
  intros OK DE. destruct d as [a x alias|a e|a u x t|a f ps t body|a x t|p]; cbn [decl_ok toks_decl norm_decl] in *.
  - destruct OK as (H1 & H2 & H3). assoc. destruct alias as [t|].
    + assoc. match goal with |- ev _ (_ :: _ ++ ?b) _ => apply (evn2 _ _ _ (p_attrs_ok a b H1 eq_refl) (p_type_ok t H3 (TSym ";" :: ts) eq_refl)) end.
      intros k E E0. unfold p_decl. cbn [case_kw]. symb. rewrite E. symb. rewrite E0. reflexivity.
    + assoc. match goal with |- ev _ (_ :: _ ++ ?b) _ => apply (evn1 _ _ (p_attrs_ok a b H1 eq_refl)) end.
      intros k E. unfold p_decl. cbn [case_kw]. symb. rewrite E. reflexivity.
  - destruct OK as (H1 & H2). assoc. pose proof (p_expr_ok e (TSym ";" :: ts) H2 eq_refl) as P. set (b := toks e ++ TSym ";" :: ts) in *.
    apply (evn2 _ _ _ (p_attrs_ok a b H1 (toks_brace e _ H2)) P). intros k E E0. unfold p_decl. cbn [case_kw]. symb. rewrite E. cbn [bind]. rewrite E0. reflexivity.
  - destruct OK as (H1 & H2 & H3). assoc. destruct u; assoc;
      match goal with |- ev _ (_ :: _ ++ ?b) _ => apply (evn2 _ _ _ (p_attrs_ok a b H1 eq_refl) (p_type_ok t H3 (TSym ";" :: ts) eq_refl)) end;
      intros k E E0; unfold p_decl; cbn [case_kw]; symb; rewrite E; symb; rewrite E0; reflexivity.
  - destruct OK as (H1 & H2 & H3 & H4 & H5). assoc.
    match goal with |- context [TSym ")" :: TKw "returns" :: TSym "(" :: toks_ty t ++ ?b] => set (c := b) end.
    pose proof (p_type_ok t H4 (TSym ")" :: match body with Some e => TSym "{" :: toks e ++ TSym "}" :: ts | None => TSym ";" :: ts end) eq_refl) as PT.
    assert (C : c = TSym ")" :: match body with Some e => TSym "{" :: toks e ++ TSym "}" :: ts | None => TSym ";" :: ts end) by (unfold c; destruct body; assoc; reflexivity).
    rewrite <- C in PT. clearbody c.
    pose proof (p_params_ok ps (TKw "returns" :: TSym "(" :: toks_ty t ++ c) H3) as PP.
    set (b := TSym "(" :: commas (map toks_binding ps) ++ TSym ")" :: TKw "returns" :: TSym "(" :: toks_ty t ++ c) in *.
    destruct body as [e|]; [rename C into C'|].
    + apply (evn2 _ _ _ (ev_and _ _ (p_attrs_ok a (TId f :: b) H1 eq_refl) PP) (ev_and _ _ PT (p_expr_ok e (TSym "}" :: ts) H5 eq_refl))).
      intros k [E E0] [E1 E2]. unfold p_decl. cbn [case_kw]. symb. rewrite E. symb. rewrite E0. symb. rewrite E1, C'. symb. rewrite E2. symb. reflexivity.
    + apply (evn3 _ _ _ _ (p_attrs_ok a (TId f :: b) H1 eq_refl) PP PT).
      intros k E E0 E1. unfold p_decl. cbn [case_kw]. symb. rewrite E. symb. rewrite E0. symb. rewrite E1, C. symb. reflexivity.
  - destruct OK as (-> & H2 & H3). unfold toks_var, toks_binding. cbn [fst snd]. assoc.
    match goal with |- ev _ (_ :: ?b) _ => apply (evn2 _ _ _ (p_attrs_ok [] b ltac:(constructor) eq_refl) (p_type_ok t H3 (TSym ";" :: ts) eq_refl)) end.
    intros k E E0. cbn [toks_attrs flat_map app] in E. unfold p_decl. cbn [case_kw]. symb. rewrite E. symb. rewrite E0. reflexivity.
  - apply p_proc_ok; assumption.
Qed.
Lemma toks_decl_head d : decl_ok d -> exists x l, toks_decl d = TKw x :: l /\ In x ["type"; "axiom"; "const"; "function"; "var"; "procedure"].
Proof. destruct d; intros _; cbn [toks_decl]; unfold toks_var, toks_proc; eexists; eexists; (split; [reflexivity | cbn; tauto]). Qed.
Lemma decls_end l : Forall decl_ok l -> decl_end (flat_map toks_decl l).
Proof.
  intros H. destruct H as [|d l Hd H]; [repeat split|]. cbn [flat_map]. destruct (toks_decl_head d Hd) as (x & u & -> & Hx). cbn [app].
  cbn in Hx. repeat (destruct Hx as [<-|Hx]; [repeat split|]). destruct Hx.
Qed.
Lemma p_program_ok l : Forall decl_ok l -> eventually (fun k => p_program k (flat_map toks_decl l) = Some (map norm_decl l)).
Proof.
  induction 1 as [|d l Hd H IH]; [apply ev0; reflexivity|]. cbn [flat_map map].
  two (p_decl_ok d (flat_map toks_decl l) Hd (decls_end l H)) IH. destruct (toks_decl_head d Hd) as (x & u & T & _). rewrite T in *. cbn [app] in *.
  cbn [p_program]. rewrite E. cbn [bind]. rewrite E0. reflexivity.
Qed.
