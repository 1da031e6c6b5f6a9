(** Which nodes can be below which. *)
From Coq Require Import String List Arith NArith Bool Lia.
Import ListNotations.
From Verif Require Import Kinds KindFacts ParserSyntax ParserModel GrammarData ParserTree ParserTerm ParserBuild ParserSpec ParserChecks ParserOutcome
  TextModel Utf8Model LexerModel LexerSpec LexerProps FormatData FormatModel FormatTree FormatText FormatParse TreeModel TreePlace TreeShape VarRegions.

Fixpoint callees (s : stmt) : list kind :=
  match s with
  | Call r => [r]
  | Seq a b => callees a ++ callees b
  | If _ s | While _ s => callees s
  | Match a => callees_arms a
  | Skip | Expect _ | Sync _ => []
  end
with callees_arms (a : arms) : list kind := match a with Arm _ s a => callees s ++ callees_arms a | ArmEnd _ => [] end.
Definition node_of (ks : list kind) (t : ptree) : Prop := forall k ts, t = PNode k ts -> k = K_Error \/ In k ks.
Lemma node_of_err ks e : node_of ks (PErr e).
Proof. intros k ts H. discriminate. Qed.
Lemma node_of_junk ks ts : node_of ks (PNode K_Error ts).
Proof. intros k us H. injection H as <- _. left. reflexivity. Qed.
Lemma node_of_leaf ks k : node_of ks (PLeaf k).
Proof. intros k' ts H. discriminate. Qed.
Lemma node_of_more ks ks' ts : incl ks ks' -> Forall (node_of ks) ts -> Forall (node_of ks') ts.
Proof. intros I. apply Forall_impl. intros t H k us E. destruct (H _ _ E); auto. Qed.
Lemma ex_callees gas :
  (forall s rest f ret o, ex rule_of gas s rest f = Ok (ret, o) -> Forall (node_of (callees s)) (fst (fst o))) /\
  (forall a c rest f ret o, ex_arms rule_of gas c a rest f = Ok (ret, o) -> Forall (node_of (callees_arms a)) (fst (fst o))) /\
  (forall r rest f o, ex_rule rule_of gas r rest f = Ok o -> Forall (node_of [r]) (fst (fst o))).
Proof.
  induction gas as [|g (IHs & IHa & IHr)]; [split; [|split]; intros; discriminate|]. split; [|split].
  - intros s rest f ret o H. destruct s; cbn [ex callees] in H |- *.
    + injection H as <- <-. constructor.
    + inv_bind H. destruct a as [ret1 [[ts1 rest1] f1]]. apply IHs in E. cbn [fst] in E. apply (node_of_more _ (callees s1 ++ callees s2)) in E; [|apply incl_appl, incl_refl].
      destruct ret1; [injection H as <- <-; exact E|].
      inv_bind H. destruct a as [ret2 [[ts2' rest2] f2]]. injection H as <- <-. apply IHs in E0. cbn [fst] in *. apply Forall_app. split; [exact E|].
      eapply node_of_more; [|exact E0]. apply incl_appr, incl_refl.
    + inv_bind H. injection H as <- <-. unfold texpect in E. inv_bind E. destruct a0 as [c f1]. destruct (kind_eqb c k).
      * inv_bind E. destruct a0 as [c' r]. injection E as <-. constructor; [apply node_of_leaf|constructor].
      * injection E as <-. constructor; [apply node_of_err|constructor].
    + inv_bind H. injection H as <- <-. apply IHr in E. exact E.
    + inv_bind H. destruct a as [c f1]. destruct (kind_in _ _); [eapply IHs; eassumption|]. injection H as <- <-. constructor.
    + inv_bind H. destruct a as [c f1]. destruct (negb _ && _); [|injection H as <- <-; constructor]. inv_bind H. injection H as <- <-.
      unfold terror_until in E0. inv_bind E0. destruct a0 as [c' f']. destruct (_ || _); [injection E0 as <-; constructor; [apply node_of_err|constructor]|].
      inv_bind E0. destruct a0 as [[us rest2] f3]. injection E0 as <-. constructor; [apply node_of_err|]. constructor; [apply node_of_junk|constructor].
    + inv_bind H. destruct a as [c f1]. destruct (kind_in _ _); [|injection H as <- <-; constructor].
      inv_bind H. destruct a as [ret1 [[ts1 rest1] f1']]. apply IHs in E0 as H1.
      destruct ret1; [injection H as <- <-; exact H1|].
      destruct (length rest1 =? length rest); [injection H as <- <-; exact H1|].
      inv_bind H. destruct a as [ret2 [[ts2' rest2] f2]]. injection H as <- <-. apply IHs in E1. cbn [fst callees] in *. apply Forall_app. split; assumption.
    + inv_bind H. destruct a0 as [c f1]. eapply IHa; eassumption.
  - intros a c rest f ret o H. destruct a; cbn [ex_arms callees_arms] in H |- *.
    + destruct (kind_in _ _); [apply IHs in H|apply IHa in H]; (eapply node_of_more; [|exact H]); [apply incl_appl, incl_refl|apply incl_appr, incl_refl].
    + destruct (kind_eqb _ _); [injection H as <- <-; constructor|]. inv_bind H. injection H as <- <-. unfold tdflt in E.
      destruct d; [injection E as <-; constructor|]. unfold tawe in E. inv_bind E. destruct a0 as [c' f1].
      destruct (kind_in c' recovery_tokens); [injection E as <-; constructor; [apply node_of_err|constructor]|]. inv_bind E. destruct a0. injection E as <-.
      constructor; [apply node_of_err|]. constructor; [apply node_of_junk|constructor].
  - intros r rest f o H. cbn [ex_rule] in H. destruct (rule_of r) as [R|] eqn:ER; [|discriminate]. pose proof (rule_kind_ok _ _ ER) as Ek.
    assert (forall ts, node_of [r] (PNode (r_kind R) ts)) as Hr by (intros ts k us E; injection E as <- _; right; left; symmetry; exact Ek).
    inv_bind H. destruct a as [go f1]. destruct go; [|injection H as <-; constructor]. inv_bind H. destruct a as [ret [[ts1 rest1] f2]].
    destruct ret; [injection H as <-; constructor; [apply Hr|constructor; [apply node_of_junk|constructor]]|].
    destruct (r_unit R); [|injection H as <-; constructor; [apply Hr|constructor]].
    inv_bind H. destruct a as [c f3]. destruct (kind_eqb _ _); [injection H as <-; constructor; [apply Hr|constructor]|].
    inv_bind H. destruct a as [[us rest3] f4]. injection H as <-. constructor; [apply Hr|constructor].
Qed.
Lemma ran_callees k ts k' us : ran k ts -> In (PNode k' us) ts -> k' = K_Error \/ exists R, rule_of k = Some R /\ In k' (callees (r_body R)).
Proof.
  intros [[-> F]|(R & gas & rest & f & ret & vs & rest' & f' & ER & E & Hus)] Hin.
  - rewrite Forall_forall in F. destruct (F _ Hin) as [k E]. discriminate.
  - apply (proj1 (ex_callees gas)) in E. cbn [fst] in E. rewrite Forall_forall in E. destruct Hus as [->|(_ & js & ->)].
    + destruct (E _ Hin _ _ eq_refl) as [H|H]; [left; exact H|right; eauto].
    + apply in_app_or in Hin as [Hin|[Hin|[]]]; [|injection Hin as <- _; left; reflexivity]. destruct (E _ Hin _ _ eq_refl) as [H|H]; [left; exact H|right; eauto].
Qed.
Lemma pnode_prune t k us : In (PNode k us) (prune t) -> pleavess us <> [] /\ exists ts, t = PNode k ts.
Proof.
  induction t as [k0|k0 ts IH|e] using ptree_rect'; cbn [prune].
  - intros [H|[]]. discriminate.
  - destruct (flat_map pleaves ts) as [|h r] eqn:L.
    + intros H. exfalso. apply in_flat_map in H as (u & Hu & H). rewrite Forall_forall in IH. destruct (IH _ Hu H) as [Hne (vs & ->)].
      assert (pleavess us = []) as Z; [|congruence].
      assert (pleaves (PNode k vs) = []) as Zv.
      { apply in_split in Hu as (a & b & ->). rewrite flat_map_app in L. apply app_eq_nil in L as [_ L]. cbn [flat_map] in L. apply app_eq_nil in L. tauto. }
      assert (flat_map pleaves (prune (PNode k vs)) = []) as Zp.
      { assert (prunes [PNode k vs] = prune (PNode k vs)) as <- by (unfold prunes; cbn [flat_map]; apply app_nil_r). change (flat_map pleaves) with pleavess. rewrite pleavess_prunes.
        unfold pleavess. cbn [flat_map]. rewrite Zv. reflexivity. }
      apply in_split in H as (a & b & Ep). rewrite Ep, flat_map_app in Zp. apply app_eq_nil in Zp as [_ Zp]. cbn [flat_map pleaves] in Zp. apply app_eq_nil in Zp. tauto.
    + intros [H|[]]. injection H as <- <-. split; [|eauto]. change (pleavess (prunes ts) <> []). rewrite pleavess_prunes. unfold pleavess. rewrite L. discriminate.
  - intros [H|[]]. discriminate.
Qed.
Lemma pnode_prunes ts k us : In (PNode k us) (prunes ts) -> exists vs, In (PNode k vs) ts.
Proof. intros H. apply in_flat_map in H as (u & Hu & H). destruct (pnode_prune _ _ _ H) as [_ (vs & ->)]. eauto. Qed.
Lemma map_tok_node u k cs : ~ In (Node k cs) (map tok u).
Proof. intros H. apply in_map_iff in H as (x & E & _). discriminate. Qed.
Lemma tplaces_nodes ts k cs : forall l, In (Node k cs) (fst (tplaces ts l)) -> exists us, In (PNode k us) ts.
Proof.
  induction ts as [|t ts IH]; intros l Hin; [destruct Hin|]. unfold tplaces in Hin. cbn [places] in Hin. fold tplace tplaces in Hin.
  assert (In (Node k cs) (fst (tplace t l)) -> exists us, t = PNode k us) as H1.
  { clear. intros H. destruct t as [k0|k0 ts|e].
    - unfold tplace, place in H. destruct (split_trivia lkind l) as [u n]. destruct n as [|x n]; cbn [fst] in H; [exfalso; eapply map_tok_node, H|].
      apply in_app_or in H as [H|[H|[]]]; [exfalso; eapply map_tok_node, H|discriminate].
    - unfold tplace in H. rewrite place_node in H. fold tplaces in H. destruct (if is_unit k0 then _ else _) as [u n]. destruct (tplaces ts n) as [ds m]. cbn [fst] in H.
      apply in_app_or in H as [H|[H|[]]]; [exfalso; eapply map_tok_node, H|]. injection H as <- _. eauto.
    - destruct H. }
  destruct (tplace t l) as [a m]. cbn [fst] in *. specialize (IH m). destruct (tplaces ts m) as [b m']. cbn [fst] in *. apply in_app_or in Hin as [Hin|Hin].
  - destruct (H1 Hin) as [us ->]. exists us. left. reflexivity.
  - destruct (IH Hin) as [us H]. exists us. right. exact H.
Qed.
(** what a node's children can be *)
Definition kid_of (k k' : kind) : Prop := k' = K_Error \/ exists R, rule_of k = Some R /\ In k' (callees (r_body R)).
Theorem doc_kids err t x p k cs k' ds : doc_tree err t x -> at_path x p = Some (Node k cs) -> In (Node k' ds) cs -> kid_of k k'.
Proof.
  intros D E Hin. destruct p as [|i p].
  - injection E as Ex. rewrite Ex in D. destruct (doc_tree_run _ _ _ D) as (ts & (gas & f & Er) & L & Ey). injection Ey as -> ->.
    apply (proj2 (proj2 (ex_every gas))) in Er. cbn [fst] in Er. inversion Er as [|? ? (k & us & Ek & _ & Hr & _) _]; subst. injection Ek as <- <-.
    unfold placed in Hin. fold tplaces in Hin. pose proof (tplaces_nodes (prunes ts) k' ds (lex err t)) as H1.
    destruct (tplaces (prunes ts) (lex err t)) as [xs n]. cbn [fst] in H1. apply in_app_or in Hin as [Hin|Hin]; [|exfalso; eapply map_tok_node, Hin].
    destruct (H1 Hin) as [us H]. apply pnode_prunes in H as [vs H]. exact (ran_callees _ _ _ _ Hr H).
  - apply (doc_node_at _ _ _ _ _ _ D) in E; [|discriminate]. destruct E as (us & l & rest & _ & Hr & _ & _ & _ & ->).
    destruct (tplaces_nodes _ _ _ _ Hin) as [vs H]. apply pnode_prunes in H as [ws H]. exact (ran_callees _ _ _ _ Hr H).
Qed.
(** a set of kinds closed under calls *)
Definition closed_under (ks : list kind) : bool :=
  forallb (fun k => match rule_of k with Some R => forallb (fun c => kind_in c ks) (callees (r_body R)) | None => true end) ks && kind_in K_Error ks.
Theorem doc_below err t x ks : doc_tree err t x -> closed_under ks = true -> forall p k cs q k' ds, at_path x p = Some (Node k cs) -> In k ks ->
  at_path x (p ++ q) = Some (Node k' ds) -> In k' ks.
Proof.
  intros D C. apply andb_prop in C as [C Ce]. rewrite forallb_forall in C. apply kind_in_In in Ce. intros p k cs q. revert p k cs. induction q as [|i q IH]; intros p k cs k' ds Ep Hk Eq.
  - rewrite app_nil_r, Ep in Eq. injection Eq as <- <-. exact Hk.
  - replace (p ++ i :: q) with ((p ++ [i]) ++ q) in Eq by (rewrite <- app_assoc; reflexivity).
    assert (exists c, nth_error cs i = Some c /\ at_path x (p ++ [i]) = Some c) as (c & Ec & Ei).
    { rewrite !at_path_app, Ep in Eq. rewrite at_path_app, Ep. cbn [at_path] in *. destruct (nth_error cs i) as [c|]; [exists c; auto|discriminate]. }
    destruct c as [kt w|k1 cs1].
    + rewrite at_path_app, Ei in Eq. destruct q; discriminate.
    + eapply IH; [exact Ei| |exact Eq]. destruct (doc_kids _ _ _ _ _ _ _ _ D Ep (nth_error_In _ _ Ec)) as [->|(R & ER & Hin)]; [exact Ce|].
      specialize (C _ Hk). rewrite ER, forallb_forall in C. apply kind_in_In, C, Hin.
Qed.
(** kinds reachable by calls *)
Fixpoint reach (gas : nat) (todo seen : list kind) : list kind :=
  match gas with
  | 0 => seen
  | S g => match todo with
           | [] => seen
           | k :: r => if kind_in k seen then reach g r seen else reach g (match rule_of k with Some R => callees (r_body R) | None => [] end ++ r) (k :: seen)
           end
  end.
Definition under_triples : list kind := reach 2000 [K_TriplesBlock] [K_Error].
Definition under_data : list kind := reach 2000 [K_InlineData] [K_Error].
Lemma under_triples_ok : closed_under under_triples && kind_in K_TriplesBlock under_triples && negb (kind_in K_SubSelect under_triples) = true.
Proof. vm_compute. reflexivity. Qed.
Lemma under_data_ok : closed_under under_data && kind_in K_InlineData under_data && negb (kind_in K_SubSelect under_data) = true.
Proof. vm_compute. reflexivity. Qed.
