(** The order of the children of a node, as its rule prescribes. *)
From Coq Require Import String List Arith NArith Bool Lia.
Import ListNotations.
From Verif Require Import Kinds KindFacts ParserSyntax ParserModel GrammarData ParserTree ParserTerm ParserBuild ParserSpec ParserChecks ParserOutcome
  TextModel Utf8Model LexerModel LexerSpec LexerProps FormatData FormatModel FormatTree FormatText FormatParse TreeModel TreePlace TreeShape TreeKids.

Inductive item := Leaf (k : kind) | Sub (k : kind).
(** the children but trivia *)
Definition item_of (x : tree) : list item := match x with Tok k _ => if is_trivia k then [] else [Leaf k] | Node k _ => [Sub k] end.
Definition items : list tree -> list item := flat_map item_of.
(** what a statement can produce, where nodes without a token do not show *)
Inductive gives : stmt -> list item -> Prop :=
| g_skip : gives Skip []
| g_seq a b l m : gives a l -> gives b m -> gives (Seq a b) (l ++ m)
| g_stop a b l : gives a l -> gives (Seq a b) l
| g_expect k : gives (Expect k) [Leaf k]
| g_missing k : gives (Expect k) []
| g_call r : gives (Call r) [Sub r]
| g_empty r : gives (Call r) []
| g_if fs s l : gives s l -> gives (If fs s) l
| g_if_not fs s : gives (If fs s) []
| g_sync fs : gives (Sync fs) []
| g_sync_junk fs : gives (Sync fs) [Sub K_Error]
| g_while fs s l m : gives s l -> gives (While fs s) m -> gives (While fs s) (l ++ m)
| g_while_end fs s : gives (While fs s) []
| g_match a l : gives_arms a l -> gives (Match a) l
with gives_arms : arms -> list item -> Prop :=
| g_arm fs s a l : gives s l -> gives_arms (Arm fs s a) l
| g_next fs s a l : gives_arms a l -> gives_arms (Arm fs s a) l
| g_end d : gives_arms (ArmEnd d) []
| g_junk e : gives_arms (ArmEnd (DErr e)) [Sub K_Error].

Definition pitem (t : ptree) : list item := match t with PLeaf k => [Leaf k] | PNode k _ => [Sub k] | PErr _ => [] end.
Definition pitems (ts : list ptree) : list item := flat_map pitem (prunes ts).
Lemma pitems_app a b : pitems (a ++ b) = pitems a ++ pitems b.
Proof. unfold pitems, prunes. rewrite !flat_map_app. reflexivity. Qed.
Lemma leafless_prune t : pleaves t = [] -> flat_map pitem (prune t) = [].
Proof.
  induction t as [k|k ts IH|e] using ptree_rect'; intros L; [discriminate| |reflexivity]. cbn [prune pleaves] in *. rewrite L.
  induction IH as [|t l Ht _ IHl]; [reflexivity|]. cbn [flat_map] in *. apply app_eq_nil in L as [L1 L2]. rewrite flat_map_app, (Ht L1), (IHl L2). reflexivity.
Qed.
Lemma pitems_node k ts : pitems [PNode k ts] = match pleavess ts with [] => [] | _ => [Sub k] end.
Proof.
  unfold pitems, prunes. cbn [flat_map]. rewrite app_nil_r. destruct (pleavess ts) as [|h r] eqn:L; [apply leafless_prune; exact L|].
  cbn [prune]. unfold pleavess in L. rewrite L. reflexivity.
Qed.
Lemma call_items r k ts : k = r -> gives (Call r) (pitems [PNode k ts]).
Proof. intros ->. rewrite pitems_node. destruct (pleavess ts); constructor. Qed.
Lemma junk_items e js : pitems [PErr e; PNode K_Error js] = [] \/ pitems [PErr e; PNode K_Error js] = [Sub K_Error].
Proof. change [PErr e; PNode K_Error js] with ([PErr e] ++ [PNode K_Error js]). rewrite pitems_app, pitems_node. destruct (pleavess js); [left|right]; reflexivity. Qed.
Lemma ex_gives gas :
  (forall s rest f ret o, ex rule_of gas s rest f = Ok (ret, o) -> gives s (pitems (fst (fst o)))) /\
  (forall a c rest f ret o, ex_arms rule_of gas c a rest f = Ok (ret, o) -> gives_arms a (pitems (fst (fst o)))) /\
  (forall r rest f o, ex_rule rule_of gas r rest f = Ok o -> gives (Call r) (pitems (fst (fst o)))).
Proof.
  induction gas as [|g (IHs & IHa & IHr)]; [split; [|split]; intros; discriminate|]. split; [|split].
  - intros s rest f ret o H. destruct s; cbn [ex] in H |- *.
    + injection H as <- <-. constructor.
    + inv_bind H. destruct a as [ret1 [[ts1 rest1] f1]]. apply IHs in E. cbn [fst] in E.
      destruct ret1; [injection H as <- <-; apply g_stop, E|].
      inv_bind H. destruct a as [ret2 [[ts2' rest2] f2]]. injection H as <- <-. apply IHs in E0. cbn [fst] in *. rewrite pitems_app. apply g_seq; assumption.
    + inv_bind H. injection H as <- <-. unfold texpect in E. inv_bind E. destruct a0 as [c f1]. destruct (kind_eqb_spec c k) as [->|].
      * inv_bind E. destruct a0 as [c' r]. injection E as <-. unfold tnth in E0. destruct f; [discriminate|]. injection E0 as E0 _. destruct rest; [discriminate|]. injection E1 as <- <-. cbn in E0. subst k0. apply g_expect.
      * injection E as <-. apply g_missing.
    + inv_bind H. injection H as <- <-. apply IHr in E. exact E.
    + inv_bind H. destruct a as [c f1]. destruct (kind_in _ _); [eapply g_if, IHs; eassumption|]. injection H as <- <-. apply g_if_not.
    + inv_bind H. destruct a as [c f1]. destruct (negb _ && _); [|injection H as <- <-; apply g_sync]. inv_bind H. injection H as <- <-.
      unfold terror_until in E0. inv_bind E0. destruct a0 as [c' f']. destruct (_ || _); [injection E0 as <-; apply g_sync|].
      inv_bind E0. destruct a0 as [[us rest2] f3]. injection E0 as <-. cbn [fst]. destruct (junk_items fs us) as [-> | ->]; [apply g_sync|apply g_sync_junk].
    + inv_bind H. destruct a as [c f1]. destruct (kind_in _ _); [|injection H as <- <-; apply g_while_end].
      inv_bind H. destruct a as [ret1 [[ts1 rest1] f1']]. apply IHs in E0 as H1.
      assert (gives (While fs s) (pitems ts1)) as H2 by (rewrite <- (app_nil_r (pitems ts1)); apply g_while; [exact H1|apply g_while_end]).
      destruct ret1; [injection H as <- <-; exact H2|].
      destruct (length rest1 =? length rest); [injection H as <- <-; exact H2|].
      inv_bind H. destruct a as [ret2 [[ts2' rest2] f2]]. injection H as <- <-. apply IHs in E1. cbn [fst] in *. rewrite pitems_app. apply g_while; assumption.
    + inv_bind H. destruct a0 as [c f1]. eapply g_match, IHa; eassumption.
  - intros a c rest f ret o H. destruct a; cbn [ex_arms] in H |- *.
    + destruct (kind_in _ _); [apply g_arm; eapply IHs, H|apply g_next; eapply IHa, H].
    + destruct (kind_eqb _ _); [injection H as <- <-; apply g_end|]. inv_bind H. injection H as <- <-. unfold tdflt in E.
      destruct d; [injection E as <-; apply g_end|]. unfold tawe in E. inv_bind E. destruct a0 as [c' f1].
      destruct (kind_in c' recovery_tokens); [injection E as <-; apply g_end|]. inv_bind E. destruct a0. injection E as <-.
      apply g_junk.
  - intros r rest f o H. cbn [ex_rule] in H. destruct (rule_of r) as [R|] eqn:ER; [|discriminate]. pose proof (rule_kind_ok _ _ ER) as Ek.
    inv_bind H. destruct a as [go f1]. destruct go; [|injection H as <-; apply g_empty]. inv_bind H. destruct a as [ret [[ts1 rest1] f2]].
    destruct ret.
    { injection H as <-. cbn [fst]. change [PNode (r_kind R) ts1; PNode K_Error []] with ([PNode (r_kind R) ts1] ++ [PNode K_Error []]). rewrite pitems_app, (pitems_node K_Error), app_nil_r. apply call_items, Ek. }
    destruct (r_unit R); [|injection H as <-; apply call_items, Ek].
    inv_bind H. destruct a as [c f3]. destruct (kind_eqb _ _); [injection H as <-; apply call_items, Ek|].
    inv_bind H. destruct a as [[us rest3] f4]. injection H as <-. apply call_items, Ek.
Qed.
(** the items of a run, the junk after a unit included *)
Definition node_gives (k : kind) (l : list item) : Prop :=
  exists R, rule_of k = Some R /\ (gives (r_body R) l \/ (r_unit R = true /\ exists m, l = m ++ [Sub K_Error] /\ gives (r_body R) m)).
Lemma ran_gives k ts : ran k ts -> k <> K_Error -> node_gives k (pitems ts).
Proof.
  intros [[-> F]|(R & gas & rest & f & ret & vs & rest' & f' & ER & E & Hus)] Hk; [congruence|]. exists R. split; [exact ER|].
  apply (proj1 (ex_gives gas)) in E. cbn [fst] in E. destruct Hus as [->|(U & js & ->)]; [left; exact E|]. rewrite pitems_app, pitems_node.
  destruct (pleavess js); [left; rewrite app_nil_r; exact E|right]. split; [exact U|]. eauto.
Qed.
Lemma items_trivia u : Forall (fun x => is_trivia (lkind x) = true) u -> items (map tok u) = [].
Proof. induction 1 as [|x u H _ IH]; [reflexivity|]. unfold items in *. cbn [map flat_map tok item_of]. fold (lkind x). rewrite H. exact IH. Qed.
Lemma items_app a b : items (a ++ b) = items a ++ items b.
Proof. apply flat_map_app. Qed.
Lemma tplace_items t l rest : seen l = pleaves t ++ rest -> items (fst (tplace t l)) = pitem t.
Proof.
  destruct t as [k|k ts|e]; intros Hs.
  - unfold tplace, place. destruct (split_trivia_spec lkind l) as (u & n & -> & -> & F & Hn). unfold seen in Hs. rewrite sig_app, (sig_trivia _ u F) in Hs. cbn [app pleaves] in Hs.
    destruct n as [|x n]; [discriminate|]. rewrite sig_cons in Hs by exact Hn. injection Hs as Hk _. cbn [fst]. rewrite items_app, (items_trivia _ F). unfold items. cbn [flat_map tok item_of app].
    fold (lkind x). rewrite Hn, Hk. reflexivity.
  - unfold tplace. rewrite place_node. fold tplaces. destruct (is_unit k).
    + destruct (tplaces ts l). reflexivity.
    + destruct (split_trivia_spec lkind l) as (u & n & -> & -> & F & _). destruct (tplaces ts n). cbn [fst]. rewrite items_app, (items_trivia _ F). reflexivity.
  - reflexivity.
Qed.
Lemma tplaces_items ts : forall l rest, seen l = pleavess ts ++ rest -> items (fst (tplaces ts l)) = flat_map pitem ts /\ seen (snd (tplaces ts l)) = rest.
Proof.
  induction ts as [|t ts IH]; intros l rest Hs; [split; [reflexivity|exact Hs]|]. unfold tplaces. cbn [places]. fold tplace tplaces.
  change (pleavess (t :: ts)) with (pleaves t ++ pleavess ts) in Hs. rewrite <- app_assoc in Hs. pose proof (tplace_seen _ _ _ Hs) as Hs2. apply tplace_items in Hs.
  destruct (tplace t l) as [a m]. cbn [fst snd] in *. destruct (IH _ _ Hs2) as [H1 H2]. destruct (tplaces ts m) as [b m']. cbn [fst snd flat_map] in *. rewrite items_app, Hs, H1. auto.
Qed.
(** the children of every node of a document's tree are in the order of its rule *)
Theorem doc_items err t x p k cs : doc_tree err t x -> at_path x p = Some (Node k cs) -> k <> K_Error -> node_gives k (items cs).
Proof.
  intros D E Hk. destruct p as [|i p].
  - injection E as Ex. rewrite Ex in D. destruct (doc_tree_run _ _ _ D) as (ts & (gas & f & Er) & L & Ey). injection Ey as -> ->.
    apply (proj2 (proj2 (ex_every gas))) in Er. cbn [fst] in Er. inversion Er as [|? ? (k & us & Ek & _ & Hr & _) _]; subst. injection Ek as <- <-.
    unfold placed. fold tplaces. assert (seen (lex err t) = pleavess (prunes ts) ++ []) as Hs by (rewrite app_nil_r, pleavess_prunes; symmetry; exact L).
    destruct (tplaces_items _ _ _ Hs) as [H1 H2]. destruct (tplaces (prunes ts) (lex err t)) as [xs n]. cbn [fst snd] in *. rewrite items_app, H1, (items_trivia _ (sig_nil _ _ H2)), app_nil_r.
    apply ran_gives; assumption.
  - apply (doc_node_at _ _ _ _ _ _ D) in E; [|discriminate]. destruct E as (us & l & rest & _ & Hr & _ & _ & Hs & ->). rewrite <- pleavess_prunes in Hs.
    destruct (tplaces_items _ _ _ Hs) as [-> _]. apply ran_gives; assumption.
Qed.
