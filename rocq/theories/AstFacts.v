(** Facts about the AST accessors of DiagModel.v on the trees of documents. *)
From Coq Require Import String List Arith NArith Bool Lia Sorted.
Import ListNotations.
From Verif Require Import ServerModel Kinds KindFacts ParserSyntax ParserModel GrammarData ParserTree ParserTerm ParserBuild ParserSpec ParserChecks ParserOutcome
  TextModel TextSpec TextProofs Utf8Model LexerRegex LexerData LexerModel LexerSpec LexerProofs LexerProps FormatData FormatModel FormatTree FormatText FormatParse
  TreeModel TreePlace TreeShape TreeKids TreeItems VarModel VarSpec VarRegions VarDoc LexRename VarProps DiagModel DiagSpec.

Lemma node_at_fun x p k k' : node_at x p k -> node_at x p k' -> k = k'.
Proof. intros [cs E] [ds E']. rewrite E in E'. congruence. Qed.
Lemma kind_is_node x p k k' : node_at x p k' -> kind_is x p k = kind_eqb k' k.
Proof. intros [cs E]. unfold kind_is, kind_at. rewrite E. reflexivity. Qed.
Lemma kind_is_iff x p k k' : node_at x p k' -> kind_is x p k = true <-> k' = k.
Proof. intros H. rewrite (kind_is_node _ _ _ _ H). apply kind_eqb_eq. Qed.

Lemma in_imap {A B} (f : nat -> A -> B) l y : forall i, In y (imap f i l) <-> exists j a, nth_error l j = Some a /\ y = f (i + j) a.
Proof.
  induction l as [|a l IH]; intros i; cbn [imap].
  - split; [intros []|]. intros (j & a & E & _). destruct j; discriminate.
  - cbn [In]. rewrite IH. split.
    + intros [<-|(j & b & E & ->)]; [exists 0, a; rewrite Nat.add_0_r; auto|]. exists (S j), b. split; [exact E|]. f_equal. lia.
    + intros (j & b & E & ->). destruct j as [|j]; cbn in E; [injection E as ->; left; rewrite Nat.add_0_r; reflexivity|]. right. exists j, b. split; [exact E|]. f_equal. lia.
Qed.
Lemma app_one_inv {A} (p q : list A) i j : p ++ [i] = q ++ [j] -> p = q /\ i = j.
Proof. intros H. apply app_inj_tail in H. exact H. Qed.
Lemma at_child x p k cs i : at_path x p = Some (Node k cs) -> at_path x (p ++ [i]) = nth_error cs i.
Proof. intros E. rewrite at_path_app, E. cbn [at_path]. destruct (nth_error cs i); reflexivity. Qed.
Lemma child_inv x p i y : at_path x (p ++ [i]) = Some y -> exists k cs, at_path x p = Some (Node k cs) /\ nth_error cs i = Some y.
Proof.
  rewrite at_path_app. destruct (at_path x p) as [[k w|k cs]|]; [discriminate| |discriminate]. cbn [at_path]. destruct (nth_error cs i) as [c|] eqn:E; [|discriminate].
  intros [= ->]. eauto.
Qed.
Lemma in_child_nodes x p q : In q (child_nodes x p) <-> exists i k, q = p ++ [i] /\ node_at x q k.
Proof.
  unfold child_nodes. split.
  - destruct (at_path x p) as [[|k cs]|] eqn:E; try (intros []). intros H. apply in_concat in H as (l & Hl & Hq). apply in_imap in Hl as (j & c & Ec & ->).
    destruct c as [|k' ds]; cbn [is_node] in Hq; [destruct Hq|]. destruct Hq as [<-|[]]. exists j, k'. split; [reflexivity|]. exists ds. rewrite (at_child _ _ _ _ _ E). exact Ec.
  - intros (i & k & -> & ds & E). apply child_inv in E as (k0 & cs & Ep & Ec). rewrite Ep. apply in_concat. exists [p ++ [i]]. split; [|left; reflexivity].
    apply in_imap. exists i, (Node k ds). split; [exact Ec|reflexivity].
Qed.
Lemma before_app p : forall q r, doc_before q r -> doc_before (p ++ q) (p ++ r).
Proof. induction p as [|i p IH]; intros q r H; [exact H|]. cbn. apply before_below, IH, H. Qed.
Lemma sorted_map_app p l : StronglySorted doc_before l -> StronglySorted doc_before (map (app p) l).
Proof.
  induction 1 as [|x l Hs IH Hx]; cbn; constructor; [exact IH|]. apply Forall_forall. intros y Hy. apply in_map_iff in Hy as (z & <- & Hz).
  apply before_app. eapply Forall_forall in Hx; eassumption.
Qed.
Lemma child_nodes_sorted x p : StronglySorted doc_before (child_nodes x p).
Proof.
  unfold child_nodes. destruct (at_path x p) as [[|k cs]|]; try constructor. generalize 0. induction cs as [|c cs IH]; intros n; cbn [imap concat]; [constructor|].
  apply StronglySorted_app; [destruct (is_node c); constructor; constructor|apply IH|]. intros a b Ha Hb. destruct (is_node c); [|destruct Ha]. destruct Ha as [<-|[]].
  apply in_concat in Hb as (l & Hl & Hb). apply in_imap in Hl as (j & d & _ & ->). destruct (is_node d); [|destruct Hb]. destruct Hb as [<-|[]]. apply before_app, before_here. lia.
Qed.
Lemma in_node_paths x : forall p, In p (node_paths x) <-> exists k, node_at x p k.
Proof.
  induction x as [k w|k cs IH] using tree_ind'; intros p; cbn [node_paths].
  - split; [intros []|]. intros (k' & cs & E). destruct p; discriminate.
  - split.
    + intros [<-|H]; [exists k, cs; reflexivity|]. apply (in_imap_concat node_paths) in H as (j & c & q & E & -> & H). apply (nth_error_Forall _ _ _ _ IH E) in H as (k' & ds & H).
      exists k', ds. cbn. rewrite E. exact H.
    + intros (k' & ds & E). destruct p as [|j q]; [left; reflexivity|right]. cbn in E. destruct (nth_error cs j) as [c|] eqn:Ec; [|discriminate].
      apply (in_imap_concat node_paths). exists j, c, q. split; [exact Ec|]. split; [reflexivity|]. apply (nth_error_Forall _ _ _ _ IH Ec). exists k', ds. exact E.
Qed.
Lemma node_paths_sorted x : StronglySorted doc_before (node_paths x).
Proof.
  induction x as [k w|k cs IH] using tree_ind'; cbn [node_paths]; [constructor|]. constructor; [apply sorted_children, IH|].
  apply Forall_forall. intros y Hy. apply in_imap_concat in Hy as (j & d & r & _ & -> & _). apply before_inner.
Qed.
Lemma in_descendants x p q : In q (descendants x p) <-> exists r k, q = p ++ r /\ node_at x q k.
Proof.
  unfold descendants. destruct (at_path x p) as [y|] eqn:E.
  - rewrite in_map_iff. split.
    + intros (r & <- & H). apply in_node_paths in H as (k & cs & H). exists r, k. split; [reflexivity|]. exists cs. rewrite at_path_app, E. exact H.
    + intros (r & k & -> & cs & H). exists r. split; [reflexivity|]. apply in_node_paths. exists k, cs. rewrite at_path_app, E in H. exact H.
  - split; [intros []|]. intros (r & k & -> & cs & H). rewrite at_path_app, E in H. discriminate.
Qed.
Lemma descendants_sorted x p : StronglySorted doc_before (descendants x p).
Proof. unfold descendants. destruct (at_path x p) as [y|]; [|constructor]. apply sorted_map_app, node_paths_sorted. Qed.
Lemma in_nodes_of_kind x p k q : In q (nodes_of_kind x p k) <-> exists r, q = p ++ r /\ node_at x q k.
Proof.
  unfold nodes_of_kind. rewrite filter_In, in_descendants. split.
  - intros [(r & k' & -> & H) K]. apply (kind_is_iff _ _ _ _ H) in K. subst k'. eauto.
  - intros (r & -> & H). split; [eauto|]. apply (kind_is_iff _ _ _ _ H). reflexivity.
Qed.
Lemma nodes_of_kind_sorted x p k : StronglySorted doc_before (nodes_of_kind x p k).
Proof. apply StronglySorted_filter, descendants_sorted. Qed.

Lemma vmap_done {A B} (f : A -> vout B) (R : A -> B -> Prop) l : (forall a, In a l -> exists b, f a = VDone b /\ R a b) -> exists bs, vmap f l = VDone bs /\ Forall2 R l bs.
Proof.
  induction l as [|a l IH]; intros H; [exists []; split; [reflexivity|constructor]|]. destruct (H a (or_introl eq_refl)) as (b & E & Hb).
  destruct (IH (fun z Hz => H z (or_intror Hz))) as (bs & Es & F). exists (b :: bs). cbn [vmap]. rewrite E. cbn [vbind]. rewrite Es. split; [reflexivity|]. constructor; assumption.
Qed.

(** ** parents *)
Lemma error_leaves cs : placed_node K_Error cs -> forall k ds, ~ In (Node k ds) cs.
Proof.
  intros (us & l & rest & _ & Hr & _ & _ & _ & ->) k ds Hin. destruct Hr as [[_ F]|(R & gas & rest0 & f & ret & vs & rest' & f' & ER & _)]; [|discriminate].
  apply tplaces_nodes in Hin as [ws H]. apply pnode_prunes in H as [zs H]. rewrite Forall_forall in F. destruct (F _ H). discriminate.
Qed.
(** the kinds of nodes that can be the parent of a node of kind [k] *)
Definition called_from (k : kind) (ks : list kind) : bool := all_rules (fun r R => negb (kind_in k (callees (r_body R))) || kind_in r ks).
Lemma doc_parent err t x q i k' : doc_tree err t x -> node_at x (q ++ [i]) k' -> exists k, node_at x q k /\ k <> K_Error /\ kid_of k k'.
Proof.
  intros D [ds E]. apply child_inv in E as (k & cs & Eq & Ec). exists k. split; [exists cs; exact Eq|].
  assert (kid_of k k') as K by (eapply doc_kids; [exact D|exact Eq|eapply nth_error_In, Ec]). split; [|exact K].
  intros ->. destruct q as [|j q].
  - destruct (doc_tree_nodes _ _ _ D) as (k0 & cs0 & -> & U & _). injection Eq as -> ->. discriminate.
  - eapply error_leaves; [eapply doc_node_at; [exact D| |exact Eq]; discriminate|eapply nth_error_In, Ec].
Qed.
Lemma doc_parent_in err t x q i k' ks : doc_tree err t x -> node_at x (q ++ [i]) k' -> k' <> K_Error -> called_from k' ks = true -> exists k, node_at x q k /\ In k ks.
Proof.
  intros D H He C. destruct (doc_parent _ _ _ _ _ _ D H) as (k & Hk & _ & [K|(R & ER & Hin)]); [congruence|]. exists k. split; [exact Hk|].
  unfold called_from in C. pose proof (all_rules_spec _ C _ _ ER) as H2. cbv beta in H2. apply kind_in_In in Hin. rewrite Hin in H2. cbn [negb orb] in H2. apply kind_in_In, H2.
Qed.
Lemma doc_root err t x : doc_tree err t x -> exists k, node_at x [] k /\ (k = K_QueryUnit \/ k = K_UpdateUnit).
Proof.
  intros D. destruct (doc_tree_run _ _ _ D) as (ts & _ & _ & ->). eexists. split; [eexists; reflexivity|]. unfold entry_for. destruct (entry_of_unit (with_spans 0 (lex err t))) as [-> | ->]; auto.
Qed.

(** ** the order of children *)
Definition item_eqb (a b : item) : bool := match a, b with Leaf k, Leaf k' | Sub k, Sub k' => kind_eqb k k' | _, _ => false end.
Lemma item_eqb_eq a b : item_eqb a b = true <-> a = b.
Proof. destruct a, b; cbn; try (split; [discriminate|congruence]); rewrite kind_eqb_eq; split; congruence. Qed.
Definition any (_ : item) : bool := true.
Definition any_sub (a : item) : bool := match a with Sub _ => true | Leaf _ => false end.
(** can a statement produce an item of [f]? *)
Fixpoint may (f : item -> bool) (s : stmt) : bool :=
  match s with
  | Skip => false
  | Seq a b => may f a || may f b
  | Expect k => f (Leaf k)
  | Call r => f (Sub r)
  | If _ s | While _ s => may f s
  | Sync _ => f (Sub K_Error)
  | Match a => may_arms f a
  end
with may_arms (f : item -> bool) (a : arms) : bool :=
  match a with
  | Arm _ s a => may f s || may_arms f a
  | ArmEnd (DErr _) => f (Sub K_Error)
  | ArmEnd _ => false
  end.
(** an item of [g] never comes after an item of [f] *)
Fixpoint never_after (f g : item -> bool) (s : stmt) : bool :=
  match s with
  | Seq a b => never_after f g a && never_after f g b && negb (may f a && may g b)
  | If _ s => never_after f g s
  | While _ s => never_after f g s && negb (may f s && may g s)
  | Match a => never_after_arms f g a
  | _ => true
  end
with never_after_arms (f g : item -> bool) (a : arms) : bool :=
  match a with
  | Arm _ s a => never_after f g s && never_after_arms f g a
  | ArmEnd _ => true
  end.
Scheme gives_mut := Induction for gives Sort Prop with gives_arms_mut := Induction for gives_arms Sort Prop.
Lemma gives_may f s l : gives s l -> may f s = false -> Forall (fun a => f a = false) l.
Proof.
  intros H. induction H using gives_mut with (P0 := fun a l _ => may_arms f a = false -> Forall (fun a => f a = false) l); cbn [may may_arms]; intros M;
    try (apply orb_false_iff in M as [M1 M2]); try apply Forall_app; auto.
Qed.
Definition apart (f g : item -> bool) (a b : item) : Prop := f a && g b = false.
Lemma pairs_app {A} (R : A -> A -> Prop) l m : ForallOrdPairs R l -> ForallOrdPairs R m -> (forall a b, In a l -> In b m -> R a b) -> ForallOrdPairs R (l ++ m).
Proof.
  induction 1 as [|a l Ha _ IH]; intros Hm H; [exact Hm|]. cbn. constructor.
  - apply Forall_app. split; [exact Ha|]. apply Forall_forall. intros b Hb. apply H; [left; reflexivity|exact Hb].
  - apply IH; [exact Hm|]. intros c b Hc. apply H. right. exact Hc.
Qed.
Lemma pairs_one {A} (R : A -> A -> Prop) a : ForallOrdPairs R [a].
Proof. constructor; constructor. Qed.
Lemma may_apart f g s s' l m : gives s l -> gives s' m -> may f s && may g s' = false -> forall a b, In a l -> In b m -> apart f g a b.
Proof.
  intros H H' M a b Ha Hb. unfold apart. apply andb_false_iff in M as [M|M].
  - pose proof (gives_may _ _ _ H M) as F. rewrite Forall_forall in F. rewrite (F _ Ha). reflexivity.
  - pose proof (gives_may _ _ _ H' M) as F. rewrite Forall_forall in F. rewrite (F _ Hb). apply andb_false_r.
Qed.
Lemma gives_order f g s l : gives s l -> never_after f g s = true -> ForallOrdPairs (apart f g) l.
Proof.
  intros H. induction H using gives_mut with (P0 := fun a l _ => never_after_arms f g a = true -> ForallOrdPairs (apart f g) l); cbn [never_after never_after_arms]; intros M;
    try apply pairs_one; try constructor; try (apply andb_prop in M as [M M3]; apply negb_true_iff in M3); try (apply andb_prop in M as [M1 M2]); auto.
  - apply pairs_app; auto. eapply may_apart; eassumption.
  - assert (ForallOrdPairs (apart f g) m) by (apply IHgives2; cbn [never_after]; rewrite M, M3; reflexivity). apply pairs_app; auto.
    eapply (may_apart f g s (While fs s)); eassumption.
Qed.
Definition ordered (k : kind) (f g : item -> bool) : bool := match rule_of k with Some R => negb (r_unit R) && never_after f g (r_body R) | None => false end.
Lemma items_pairs (R : item -> item -> Prop) cs : ForallOrdPairs R (items cs) ->
  forall i j ci cj a b, i < j -> nth_error cs i = Some ci -> nth_error cs j = Some cj -> In a (item_of ci) -> In b (item_of cj) -> R a b.
Proof.
  induction cs as [|c cs IH]; intros H i j ci cj a b Hij Ei Ej Ha Hb; [destruct i; discriminate|]. unfold items in H. cbn [flat_map] in H. fold (items cs) in H.
  destruct j as [|j]; [lia|]. cbn in Ej. assert (In b (items cs)) as Hin by (apply in_flat_map; exists cj; split; [eapply nth_error_In, Ej|exact Hb]).
  destruct i as [|i]; cbn in Ei.
  - injection Ei as ->. clear IH. induction (item_of ci) as [|d l IHl]; [destruct Ha|]. cbn [app] in H. inversion H as [|? ? F H']; subst. destruct Ha as [->|Ha]; [|apply IHl; assumption].
    rewrite Forall_forall in F. apply F, in_or_app. right. exact Hin.
  - apply (IH ltac:(clear -H; induction (item_of c); [exact H|inversion H; auto]) i j ci cj a b); [lia|assumption..].
Qed.
Lemma doc_order err t x p k cs f g i j ci cj a b : doc_tree err t x -> at_path x p = Some (Node k cs) -> ordered k f g = true -> i < j ->
  nth_error cs i = Some ci -> nth_error cs j = Some cj -> In a (item_of ci) -> In b (item_of cj) -> f a = true -> g b = true -> False.
Proof.
  intros D E O Hij Ei Ej Ha Hb Fa Gb. unfold ordered in O. destruct (rule_of k) as [R|] eqn:ER; [|discriminate]. apply andb_prop in O as [U O]. apply negb_true_iff in U.
  assert (k <> K_Error) as Hk by (intros ->; discriminate). destruct (doc_items _ _ _ _ _ _ D E Hk) as (R' & ER' & [G|[U' _]]); rewrite ER in ER'; injection ER' as <-; [|congruence].
  pose proof (items_pairs _ _ (gives_order _ _ _ _ G O) _ _ _ _ _ _ Hij Ei Ej Ha Hb) as H. unfold apart in H. rewrite Fa, Gb in H. discriminate.
Qed.
Lemma nodes_order err t x p k f g i j a b : doc_tree err t x -> node_at x p k -> ordered k f g = true -> node_at x (p ++ [i]) a -> node_at x (p ++ [j]) b -> f (Sub a) = true -> g (Sub b) = true -> j <= i.
Proof.
  intros D [cs E] O [ca Ea] [cb Eb] Fa Gb. rewrite (at_child _ _ _ _ i E) in Ea. rewrite (at_child _ _ _ _ j E) in Eb. destruct (le_lt_dec j i) as [H|H]; [exact H|exfalso].
  eapply doc_order; [exact D|exact E|exact O|exact H|exact Ea|exact Eb|left; reflexivity|left; reflexivity|exact Fa|exact Gb].
Qed.
(** at most one child satisfies [f] *)
Lemma node_unique err t x p k f i j a b : doc_tree err t x -> node_at x p k -> ordered k f f = true -> node_at x (p ++ [i]) a -> node_at x (p ++ [j]) b -> f (Sub a) = true -> f (Sub b) = true -> i = j.
Proof. intros D H O Ha Hb Fa Fb. apply Nat.le_antisymm; [exact (nodes_order _ _ _ _ _ _ _ _ _ _ _ D H O Hb Ha Fb Fa)|exact (nodes_order _ _ _ _ _ _ _ _ _ _ _ D H O Ha Hb Fa Fb)]. Qed.

(** ** the accessors *)
Lemma first_child_by_kind_some x p f q : first_child_by_kind x p f = Some q -> exists i k, q = p ++ [i] /\ node_at x q k /\ f k = true.
Proof.
  unfold first_child_by_kind. intros H. apply find_some in H as [Hin H]. apply in_child_nodes in Hin as (i & k & -> & Hk). exists i, k. split; [reflexivity|]. split; [exact Hk|].
  destruct Hk as [cs E]. unfold kind_at in H. rewrite E in H. exact H.
Qed.
Lemma first_child_by_kind_none x p f i k : first_child_by_kind x p f = None -> node_at x (p ++ [i]) k -> f k = false.
Proof.
  unfold first_child_by_kind. intros H Hk. assert (In (p ++ [i]) (child_nodes x p)) as Hin by (apply in_child_nodes; eauto).
  pose proof (find_none _ _ H _ Hin) as K. destruct Hk as [cs E]. unfold kind_at in K. cbv beta in K. rewrite E in K. exact K.
Qed.
(** the only child of its kind *)
Lemma first_child_by_kind_iff err t x p k k' i : doc_tree err t x -> node_at x p k -> ordered k (item_eqb (Sub k')) (item_eqb (Sub k')) = true ->
  first_child_by_kind x p (is k') = Some (p ++ [i]) <-> node_at x (p ++ [i]) k'.
Proof.
  intros D H O. assert (forall k, is k' k = true <-> k = k') as I by (intros k0; unfold is; apply kind_eqb_eq).
  split; intros K.
  - apply first_child_by_kind_some in K as (j & k2 & E & Hn & F). apply app_one_inv in E as [_ <-]. apply I in F. subst. exact Hn.
  - destruct (first_child_by_kind x p (is k')) as [q|] eqn:E.
    + apply first_child_by_kind_some in E as (j & k2 & -> & Hn & F). apply I in F. subst k2. f_equal. f_equal. f_equal.
      eapply node_unique; [exact D|exact H|exact O|exact Hn|exact K| |]; cbn; apply kind_eqb_refl.
    + apply (first_child_by_kind_none _ _ _ _ _ E) in K. rewrite (proj2 (I k') eq_refl) in K. discriminate.
Qed.
Lemma first_child_spec x p q : first_child x p = Some q -> exists i k, q = p ++ [i] /\ node_at x q k /\ forall j k', node_at x (p ++ [j]) k' -> i <= j.
Proof.
  unfold first_child. intros H. destruct (child_nodes x p) as [|c l] eqn:E; [discriminate|]. injection H as ->. assert (In q (child_nodes x p)) as Hin by (rewrite E; left; reflexivity).
  apply in_child_nodes in Hin as (i & k & -> & Hk). exists i, k. split; [reflexivity|]. split; [exact Hk|]. intros j k' Hj.
  assert (In (p ++ [j]) (child_nodes x p)) as Hin by (apply in_child_nodes; eauto). pose proof (child_nodes_sorted x p) as S. rewrite E in Hin, S. destruct Hin as [Hin|Hin].
  - apply app_one_inv in Hin as [_ ->]. lia.
  - inversion S as [|? ? _ F]; subst. rewrite Forall_forall in F. apply F in Hin. clear -Hin. induction p as [|h p IH]; cbn in Hin; inversion Hin; subst; auto; lia.
Qed.
Lemma first_child_none x p i k : first_child x p = None -> ~ node_at x (p ++ [i]) k.
Proof.
  unfold first_child. intros H Hk. assert (In (p ++ [i]) (child_nodes x p)) as Hin by (apply in_child_nodes; eauto). destruct (child_nodes x p); [destruct Hin|discriminate].
Qed.
Lemma sorted_last l : StronglySorted doc_before l -> forall q, last_of l = Some q -> In q l /\ forall r, In r l -> r = q \/ doc_before r q.
Proof.
  unfold last_of. intros S q H. destruct (rev l) as [|z m] eqn:E; [discriminate|]. injection H as ->. apply (f_equal (@rev _)) in E. rewrite rev_involutive in E. cbn in E. subst l.
  split; [apply in_or_app; right; left; reflexivity|]. intros r Hr. apply in_app_or in Hr as [Hr|[<-|[]]]; [right|left; reflexivity].
  induction (rev m) as [|a n IH]; [destruct Hr|]. cbn in S. inversion S as [|? ? S' F]; subst. destruct Hr as [->|Hr]; [|apply IH; assumption].
  rewrite Forall_forall in F. apply F, in_or_app. right. left. reflexivity.
Qed.
Lemma before_child p i j : doc_before (p ++ [i]) (p ++ [j]) -> i < j.
Proof. induction p as [|h p IH]; cbn; intros H; inversion H; subst; auto; match goal with K : doc_before [] [] |- _ => inversion K | _ => idtac end; try lia. Qed.
Lemma last_child_spec x p q : last_child x p = Some q -> exists i k, q = p ++ [i] /\ node_at x q k /\ forall j k', node_at x (p ++ [j]) k' -> j <= i.
Proof.
  unfold last_child. intros H. destruct (sorted_last _ (child_nodes_sorted x p) _ H) as [Hin L]. apply in_child_nodes in Hin as (i & k & -> & Hk). exists i, k. split; [reflexivity|]. split; [exact Hk|].
  intros j k' Hj. destruct (L (p ++ [j])) as [E|B]; [apply in_child_nodes; eauto|apply app_one_inv in E as [_ ->]; lia|apply before_child in B; lia].
Qed.
Lemma last_child_none x p i k : last_child x p = None -> ~ node_at x (p ++ [i]) k.
Proof.
  unfold last_child, last_of. intros H Hk. assert (In (p ++ [i]) (child_nodes x p)) as Hin by (apply in_child_nodes; eauto). destruct (child_nodes x p) as [|c l]; [exact Hin|]. cbn [rev] in H. destruct (rev l); discriminate.
Qed.
(** the last child, if it can only be last *)
Lemma last_child_iff err t x p k k' i : doc_tree err t x -> node_at x p k -> ordered k (item_eqb (Sub k')) any_sub = true ->
  of_kind x k' (last_child x p) = Some (p ++ [i]) <-> node_at x (p ++ [i]) k'.
Proof.
  intros D H O. unfold of_kind. split; intros K.
  - destruct (last_child x p) as [q|] eqn:E; [|discriminate]. apply last_child_spec in E as (j & k2 & -> & Hn & _). destruct (kind_is x (p ++ [j]) k') eqn:F; [|discriminate].
    apply (kind_is_iff _ _ _ _ Hn) in F. subst. injection K as E. apply app_one_inv in E as [_ ->]. exact Hn.
  - destruct (last_child x p) as [q|] eqn:E; [|exfalso; eapply last_child_none; eassumption]. apply last_child_spec in E as (j & k2 & -> & Hn & L).
    assert (i = j) as ->.
    { apply Nat.le_antisymm; [eapply L, K|]. eapply nodes_order; [exact D|exact H|exact O|exact K|exact Hn|cbn; apply kind_eqb_refl|reflexivity]. }
    rewrite (proj2 (kind_is_iff _ _ _ _ K) eq_refl). reflexivity.
Qed.
Lemma first_child_iff err t x p k k' i : doc_tree err t x -> node_at x p k -> ordered k any_sub (item_eqb (Sub k')) = true ->
  of_kind x k' (first_child x p) = Some (p ++ [i]) <-> node_at x (p ++ [i]) k'.
Proof.
  intros D H O. unfold of_kind. split; intros K.
  - destruct (first_child x p) as [q|] eqn:E; [|discriminate]. apply first_child_spec in E as (j & k2 & -> & Hn & _). destruct (kind_is x (p ++ [j]) k') eqn:F; [|discriminate].
    apply (kind_is_iff _ _ _ _ Hn) in F. subst. injection K as E. apply app_one_inv in E as [_ ->]. exact Hn.
  - destruct (first_child x p) as [q|] eqn:E; [|exfalso; eapply first_child_none; eassumption]. apply first_child_spec in E as (j & k2 & -> & Hn & L).
    assert (i = j) as ->.
    { apply Nat.le_antisymm; [|eapply L, K]. eapply nodes_order; [exact D|exact H|exact O|exact Hn|exact K|reflexivity|cbn; apply kind_eqb_refl]. }
    rewrite (proj2 (kind_is_iff _ _ _ _ K) eq_refl). reflexivity.
Qed.

(** ** the parts of a query *)
Lemma path_split (p : path) : p = [] \/ exists q i, p = q ++ [i].
Proof. destruct p as [|i p]; [left; reflexivity|right]. destruct (@exists_last _ (i :: p)) as (q & j & E); [discriminate|]. exists q, j. exact E. Qed.
Lemma root_only err t x p k : doc_tree err t x -> node_at x p k -> k <> K_Error -> called_from k [] = true -> p = [].
Proof. intros D H E C. destruct (path_split p) as [->|(q & i & ->)]; [reflexivity|]. destruct (doc_parent_in _ _ _ _ _ _ _ D H E C) as (k0 & _ & []). Qed.
Lemma kid_kinds err t x p i k k' : doc_tree err t x -> node_at x p k -> node_at x (p ++ [i]) k' -> kid_of k k'.
Proof. intros D H K. destruct (doc_parent _ _ _ _ _ _ D K) as (k0 & H0 & _ & C). rewrite (node_at_fun _ _ _ _ H H0). exact C. Qed.
Lemma unit_kids err t x i k : doc_tree err t x -> query_doc x -> node_at x [i] k -> k = K_Query \/ k = K_Error.
Proof. intros D Q H. destruct (kid_kinds err t x [] i K_QueryUnit k D Q H) as [->|(R & ER & Hin)]; [right; reflexivity|]. injection ER as <-. destruct Hin as [<-|[]]. left; reflexivity. Qed.
Lemma query_at err t x p : doc_tree err t x -> node_at x p K_Query -> exists i, p = [i] /\ query_doc x.
Proof.
  intros D H. destruct (path_split p) as [->|(q & i & ->)].
  - destruct (doc_root _ _ _ D) as (k & Hk & Ek). pose proof (node_at_fun _ _ _ _ H Hk) as <-. destruct Ek; discriminate.
  - destruct (doc_parent_in _ _ _ _ _ _ [K_QueryUnit] D H) as (k & Hk & [<-|[]]); [discriminate|vm_compute; reflexivity|].
    assert (q = []) as -> by (eapply root_only; [exact D|exact Hk|discriminate|vm_compute; reflexivity]). exists i. split; [reflexivity|exact Hk].
Qed.
Lemma query_first err t x i : doc_tree err t x -> node_at x [i] K_Query -> first_child x [] = Some [i].
Proof.
  intros D H. destruct (query_at _ _ _ _ D H) as (_ & _ & [cs E]). destruct (first_child x []) as [q|] eqn:F; [|exfalso; eapply (first_child_none x [] i); eassumption].
  apply first_child_spec in F as (j & k & -> & Hk & L). cbn [app] in *. specialize (L i K_Query H). f_equal. f_equal.
  destruct (Nat.eq_dec j i) as [->|N]; [reflexivity|exfalso]. assert (j < i) as Hlt by lia.
  destruct H as [ds Ei], Hk as [es Ej]. cbn in E. injection E as ->. cbn [at_path] in Ei, Ej. destruct (nth_error cs i) as [ci|] eqn:Ni; [|discriminate]. destruct (nth_error cs j) as [cj|] eqn:Nj; [|discriminate].
  injection Ei as ->. injection Ej as ->.
  destruct (doc_items err t (Node K_QueryUnit cs) [] K_QueryUnit cs D eq_refl) as (R & ER & G); [discriminate|]. injection ER as <-.
  assert (ForallOrdPairs (apart any_sub (item_eqb (Sub K_Query))) (items cs)) as P.
  { destruct G as [G|(_ & m & -> & G)]; cbn [r_body parse_QueryUnit] in G; inversion G; subst; cbn [app]; try apply pairs_one; try constructor; try constructor; try reflexivity; try constructor; constructor. }
  pose proof (items_pairs _ _ P j i _ _ _ _ Hlt Nj Ni (or_introl eq_refl) (or_introl eq_refl)) as A. unfold apart in A. cbn in A. discriminate.
Qed.
Lemma select_query_iff err t x sq : doc_tree err t x -> query_doc x -> select_query x = Some sq <-> node_at x sq K_SelectQuery.
Proof.
  intros D Q. unfold select_query. split.
  - destruct (first_child x []) as [q|] eqn:F; [|discriminate]. apply first_child_spec in F as (i & k & -> & Hk & _). cbn [app] in *. intros H.
    apply first_child_by_kind_some in H as (j & k' & -> & Hk' & S). destruct (kid_kinds _ _ _ _ _ _ _ D Hk Hk') as [->|(R & ER & Hin)]; [discriminate|].
    destruct (unit_kids _ _ _ _ _ D Q Hk) as [->| ->]; [|discriminate]. injection ER as <-. destruct k'; try discriminate S; [exact Hk'|]. exfalso. apply kind_in_In in Hin. vm_compute in Hin. discriminate.
  - intros H. destruct (path_split sq) as [->|(q & i & ->)]; [pose proof (node_at_fun _ _ _ _ H Q); discriminate|].
    destruct (doc_parent_in _ _ _ _ _ _ [K_Query] D H) as (k & Hk & [<-|[]]); [discriminate|vm_compute; reflexivity|]. destruct (query_at _ _ _ _ D Hk) as (j & -> & _).
    rewrite (query_first _ _ _ _ D Hk). destruct (first_child_by_kind x [j] select_like) as [r|] eqn:E.
    + apply first_child_by_kind_some in E as (l & k' & -> & Hl & S). f_equal. f_equal. f_equal.
      eapply (node_unique _ _ _ _ _ (fun a => match a with Sub k => select_like k | Leaf _ => false end) l i); [exact D|exact Hk|vm_compute; reflexivity|exact Hl|exact H|exact S|reflexivity].
    + pose proof (first_child_by_kind_none _ _ _ _ _ E H). discriminate.
Qed.
Lemma prologue_iff err t x pr : doc_tree err t x -> query_doc x -> prologue x = Some pr <-> node_at x pr K_Prologue.
Proof.
  intros D Q. unfold prologue. split.
  - destruct (first_child x []) as [q|] eqn:F; [|discriminate]. intros H. apply first_child_by_kind_some in H as (j & k' & -> & Hk' & S). apply kind_eqb_eq in S. subst. exact Hk'.
  - intros H. destruct (path_split pr) as [->|(q & i & ->)]; [pose proof (node_at_fun _ _ _ _ H Q); discriminate|].
    destruct (doc_parent_in _ _ _ _ _ _ [K_Query; K_Update] D H) as (k & Hk & Hin); [discriminate|vm_compute; reflexivity|].
    assert (k = K_Query) as ->.
    { destruct Hin as [<-|[<-|[]]]; [reflexivity|]. exfalso. assert (forall p, ~ node_at x p K_Update) as NU; [|exact (NU _ Hk)]. clear - D Q. intros p. induction p as [|a p IH] using rev_ind; intros H.
      - pose proof (node_at_fun _ _ _ _ H Q). discriminate.
      - destruct (doc_parent_in _ _ _ _ _ _ [K_UpdateUnit; K_Update] D H) as (k & Hk & [<-|[<-|[]]]); [discriminate|vm_compute; reflexivity| |exact (IH Hk)].
        assert (p = []) as -> by (eapply root_only; [exact D|exact Hk|discriminate|vm_compute; reflexivity]). pose proof (node_at_fun _ _ _ _ Hk Q). discriminate. }
    destruct (query_at _ _ _ _ D Hk) as (j & -> & _). rewrite (query_first _ _ _ _ D Hk).
    apply (first_child_by_kind_iff _ _ _ _ _ _ _ D Hk); [vm_compute; reflexivity|exact H].
Qed.
Lemma declarations_iff err t x d : doc_tree err t x -> query_doc x ->
  (exists pr, prologue x = Some pr /\ In d (prefix_declarations x pr)) <-> node_at x d K_PrefixDecl.
Proof.
  intros D Q. unfold prefix_declarations. split.
  - intros (pr & _ & H). apply filter_In in H as [Hin K]. apply in_child_nodes in Hin as (i & k & -> & Hk). apply (kind_is_iff _ _ _ _ Hk) in K. subst. exact Hk.
  - intros H. destruct (path_split d) as [->|(q & i & ->)]; [pose proof (node_at_fun _ _ _ _ H Q); discriminate|].
    destruct (doc_parent_in _ _ _ _ _ _ [K_Prologue] D H) as (k & Hk & [<-|[]]); [discriminate|vm_compute; reflexivity|]. exists q. split; [apply (prologue_iff _ _ _ _ D Q), Hk|].
    apply filter_In. split; [apply in_child_nodes; eauto|]. apply (kind_is_iff _ _ _ _ H). reflexivity.
Qed.
(** every node of a query but the root and error nodes is in the query *)
Lemma in_query err t x p k : doc_tree err t x -> query_doc x -> node_at x p k -> k <> K_Error -> k <> K_QueryUnit -> exists i r, p = i :: r /\ node_at x [i] K_Query.
Proof.
  intros D Q H He Hu. destruct p as [|i r]; [pose proof (node_at_fun _ _ _ _ H Q); congruence|]. exists i, r. split; [reflexivity|].
  assert (exists k0, node_at x [i] k0) as [k0 Hk0].
  { destruct H as [cs E]. change (i :: r) with ([i] ++ r) in E. rewrite at_path_app in E. destruct (at_path x [i]) as [[k1 w|k1 ds]|] eqn:E1; [destruct r; discriminate| |discriminate]. exists k1, ds. exact E1. }
  destruct (unit_kids _ _ _ _ _ D Q Hk0) as [->| ->]; [exact Hk0|exfalso]. destruct r as [|j r]; [pose proof (node_at_fun _ _ _ _ H Hk0); congruence|].
  assert (exists k1, node_at x ([i] ++ [j]) k1) as [k1 Hk1].
  { destruct H as [cs E]. change (i :: j :: r) with ([i; j] ++ r) in E. rewrite at_path_app in E. change ([i] ++ [j]) with [i; j]. destruct (at_path x [i; j]) as [[k1 w|k1 ds]|] eqn:E1; [|exists k1, ds; exact E1|discriminate].
    destruct r; discriminate. }
  destruct (doc_parent _ _ _ _ _ _ D Hk1) as (k2 & Hk2 & N & _). apply N. eapply node_at_fun; eassumption.
Qed.
Lemma strip_prologue_first err t x : doc_tree err t x -> query_doc x -> strip_prologue x = first_child x [].
Proof.
  intros D Q. unfold strip_prologue, first_child. destruct (child_nodes x []) as [|q l] eqn:E; [reflexivity|]. assert (In q (child_nodes x [])) as Hin by (rewrite E; left; reflexivity).
  apply in_child_nodes in Hin as (i & k & -> & Hk). cbn [app] in *. rewrite (kind_is_node _ _ _ _ Hk). destruct (unit_kids _ _ _ _ _ D Q Hk) as [->| ->]; reflexivity.
Qed.
(** all prefixed names of a query *)
Lemma names_of_query err t x p : doc_tree err t x -> query_doc x ->
  (exists q, strip_prologue x = Some q /\ In p (nodes_of_kind x q K_PrefixedName)) <-> node_at x p K_PrefixedName.
Proof.
  intros D Q. rewrite (strip_prologue_first _ _ _ D Q). split.
  - intros (q & _ & H). apply in_nodes_of_kind in H as (r & -> & H). exact H.
  - intros H. destruct (in_query _ _ _ _ _ D Q H) as (i & r & -> & Hq); try discriminate. exists [i]. split; [eapply query_first; eassumption|]. apply in_nodes_of_kind. exists r. split; [reflexivity|exact H].
Qed.

(** ** IRIs *)
Lemma expect_run g k rest f o : kind_in (look rest) [k] = true -> ex rule_of g (Expect k) rest f = Ok o -> fst (fst (snd o)) = [PLeaf k].
Proof.
  intros Hk Ho. destruct g; [discriminate|]. cbn [ex] in Ho. inv_bind Ho. injection Ho as <-. cbn [snd]. unfold texpect in E. inv_bind E. destruct a0 as [c f2].
  unfold tnth in E0. destruct f; [discriminate|]. injection E0 as <- _. apply kind_in_In in Hk. destruct Hk as [Hk|[]]. rewrite <- Hk, kind_eqb_refl in E. inv_bind E. destruct a0 as [c r].
  injection E as <-. destruct rest; [discriminate|]. injection E0 as <- <-. cbn in Hk. subst. reflexivity.
Qed.
Lemma name_run g rest f o : kind_in (look rest) [K_PNAME_NS; K_PNAME_LN] = true -> ex_rule rule_of g K_PrefixedName rest f = Ok o ->
  exists k, fst (fst o) = [PNode K_PrefixedName [PLeaf k]] /\ (k = K_PNAME_NS \/ k = K_PNAME_LN).
Proof.
  intros Hk Ho. destruct g as [|g]; [discriminate|]. cbn [ex_rule] in Ho. change (rule_of K_PrefixedName) with (Some parse_PrefixedName) in Ho. cbn [r_escape parse_PrefixedName r_kind r_body r_unit] in Ho.
  cbn [bind] in Ho. inv_bind Ho. destruct a as [ret [[ts1 rest1] f2]].
  assert (exists k, ret = false /\ ts1 = [PLeaf k] /\ (k = K_PNAME_NS \/ k = K_PNAME_LN)) as (k & -> & -> & Hk').
  { clear Ho. destruct g as [|g]; [discriminate|]. cbn [ex] in E. inv_bind E. destruct a as [c f3]. unfold tnth in E0. destruct f; [discriminate|]. injection E0 as <- <-.
    assert (forall g0 k f0 o0, ex rule_of g0 (Expect k) rest f0 = Ok o0 -> fst o0 = false) as Hr.
    { intros g0 k f0 o0 H. destruct g0; [discriminate|]. cbn [ex] in H. inv_bind H. injection H as <-. reflexivity. }
    destruct g as [|g]; [discriminate|]. cbn [ex_arms] in E. destruct (kind_in (look rest) [K_PNAME_LN]) eqn:K1.
    { exists K_PNAME_LN. split; [exact (Hr _ _ _ _ E)|]. apply (expect_run _ _ _ _ _ K1) in E. cbn [snd fst] in E. auto. }
    destruct g as [|g]; [discriminate|]. cbn [ex_arms] in E. destruct (kind_in (look rest) [K_PNAME_NS]) eqn:K2.
    { exists K_PNAME_NS. split; [exact (Hr _ _ _ _ E)|]. apply (expect_run _ _ _ _ _ K2) in E. cbn [snd fst] in E. auto. }
    exfalso. apply kind_in_In in Hk as [Hk|[Hk|[]]]; rewrite <- Hk in *; discriminate. }
  cbn in Ho. injection Ho as <-. exists k. split; [reflexivity|exact Hk'].
Qed.
Lemma iri_run gas rest f ret us rest' f' : ex rule_of gas (r_body parse_iri) rest f = Ok (ret, (us, rest', f')) ->
  us = [PLeaf K_IRIREF] \/ (exists k, us = [PNode K_PrefixedName [PLeaf k]] /\ (k = K_PNAME_NS \/ k = K_PNAME_LN)) \/ (exists e c, us = [PErr e; PNode K_Error [PLeaf c]]) \/ pleavess us = [].
Proof.
  cbn [r_body parse_iri]. destruct gas as [|g]; [discriminate|]. intros H. cbn [ex] in H. inv_bind H. destruct a as [c f1].
  unfold tnth in E. destruct f; [discriminate|]. injection E as Ec _. subst c.
  destruct g as [|g]; [discriminate|]. cbn [ex_arms] in H. destruct (kind_in (look rest) [K_IRIREF]) eqn:K1.
  { left. apply (expect_run _ _ _ _ _ K1) in H. exact H. }
  destruct g as [|g]; [discriminate|]. cbn [ex_arms] in H. destruct (kind_in (look rest) [K_PNAME_NS; K_PNAME_LN]) eqn:K2.
  { right. left. destruct g as [|g]; [discriminate|]. cbn [ex] in H. inv_bind H. injection H as <- ->. apply (name_run _ _ _ _ K2) in E. exact E. }
  right. right. destruct g as [|g]; [discriminate|]. cbn [ex_arms] in H. destruct (kind_eqb (look rest) K_Eof).
  { injection H as <- <- <-. right. reflexivity. }
  inv_bind H. injection H as <- ->. unfold tdflt, tawe in E. inv_bind E. destruct a as [c f2]. destruct (kind_in c recovery_tokens).
  - injection E as <- <- <-. right. reflexivity.
  - inv_bind E. destruct a as [c' r]. injection E as <- <- <-. left. eauto.
Qed.
Lemma split_leads x n : is_trivia (lkind x) = false -> split_trivia lkind (x :: n) = ([], x :: n).
Proof. intros H. cbn [split_trivia]. rewrite H. reflexivity. Qed.
Theorem iri_node cs : placed_node K_iri cs ->
  (exists w, cs = [Tok K_IRIREF w]) \/ (exists k w, cs = [Node K_PrefixedName [Tok k w]] /\ (k = K_PNAME_NS \/ k = K_PNAME_LN)) \/ (exists kw w, cs = [Node K_Error [Tok kw w]]).
Proof.
  intros (us & l & rest & _ & Hr & Hl & Hd & Hs & ->). destruct Hr as [[E _]|(R & gas & rest0 & f & ret & us' & rest' & f' & ER & E & Hus)]; [discriminate|].
  injection ER as <-. destruct Hus as [->|[U _]]; [|discriminate]. apply iri_run in E.
  assert (l <> []) as Hne. { intros ->. destruct (pleavess us'); [congruence|discriminate]. } destruct l as [|y n]; [congruence|]. cbn [leads] in Hd. unfold seen in Hs. rewrite sig_cons in Hs by exact Hd.
  destruct E as [->|[(k & -> & Hk)|[(e & c & ->)|E]]]; [left|right; left|right; right|].
  - injection Hs as Hs _. change (prunes [PLeaf K_IRIREF]) with [PLeaf K_IRIREF]. exists (snd y). unfold tplaces, places, place. rewrite (split_leads _ _ Hd). cbn [fst map app]. unfold tok. unfold lkind in Hs. rewrite Hs. reflexivity.
  - injection Hs as Hs _. change (prunes [PNode K_PrefixedName [PLeaf k]]) with [PNode K_PrefixedName [PLeaf k]]. exists k, (snd y). split; [|exact Hk].
    unfold tplaces. cbn [places place]. change (is_unit K_PrefixedName) with false. cbv beta iota. rewrite (split_leads _ _ Hd). cbv beta iota. rewrite (split_leads _ _ Hd). cbn [fst map app]. unfold tok. unfold lkind in Hs. rewrite Hs. reflexivity.
  - change (prunes [PErr e; PNode K_Error [PLeaf c]]) with [PErr e; PNode K_Error [PLeaf c]]. exists (fst y), (snd y).
    unfold tplaces. cbn [places place]. change (is_unit K_Error) with false. cbv beta iota. rewrite (split_leads _ _ Hd). cbv beta iota. rewrite (split_leads _ _ Hd). reflexivity.
  - congruence.
Qed.
Lemma doc_inner err t x p k : doc_tree err t x -> node_at x p k -> k <> K_QueryUnit -> k <> K_UpdateUnit -> p <> [].
Proof. intros D H N1 N2 ->. destruct (doc_root _ _ _ D) as (k' & H' & E). pose proof (node_at_fun _ _ _ _ H H'). subst. destruct E; congruence. Qed.
Lemma doc_iri err t x p cs : doc_tree err t x -> at_path x p = Some (Node K_iri cs) ->
  (exists w, cs = [Tok K_IRIREF w]) \/ (exists k w, cs = [Node K_PrefixedName [Tok k w]] /\ (k = K_PNAME_NS \/ k = K_PNAME_LN)) \/ (exists kw w, cs = [Node K_Error [Tok kw w]]).
Proof. intros D E. apply iri_node. eapply doc_node_at; [exact D| |exact E]. eapply doc_inner; [exact D|exists cs; exact E|discriminate|discriminate]. Qed.
Lemma doc_name err t x p cs : doc_tree err t x -> at_path x p = Some (Node K_PrefixedName cs) -> exists k w, cs = [Tok k w] /\ (k = K_PNAME_NS \/ k = K_PNAME_LN).
Proof.
  intros D E. assert (node_at x p K_PrefixedName) as H by (exists cs; exact E). destruct (path_split p) as [->|(q & i & ->)]; [exfalso; eapply doc_inner; [exact D|exact H|discriminate|discriminate|reflexivity]|].
  destruct (doc_parent_in _ _ _ _ _ _ [K_iri] D H) as (k & [ds Ek] & [<-|[]]); [discriminate|vm_compute; reflexivity|]. rewrite (at_child _ _ _ _ _ Ek) in E.
  destruct (doc_iri _ _ _ _ _ D Ek) as [(w & ->)|[(k & w & -> & Hk)|(kw & w & ->)]]; destruct i as [|[|i]]; try discriminate E. injection E as <-. exists k, w. split; [reflexivity|exact Hk].
Qed.

(** ** the texts of names *)
Lemma chr_match c w : matches (Chr c) w -> w = [c].
Proof. intros H. inversion H as [|d rs E| | | | |]; subst. cbn in E. rewrite orb_false_r in E. apply andb_prop in E as [E1 E2]. apply N.leb_le in E1. apply N.leb_le in E2. f_equal. apply N.le_antisymm; assumption. Qed.
Lemma cat_match a b w : matches (Cat a b) w -> exists u v, w = u ++ v /\ matches a u /\ matches b v.
Proof. intros H. inversion H; subst. eauto. Qed.
Definition is_chr (c : char) (r : re) : bool := match r with Cls [(a, b)] => N.eqb a c && N.eqb b c | _ => false end.
Lemma is_chr_ok c r w : is_chr c r = true -> matches r w -> w = [c].
Proof.
  destruct r as [|[|[a b] [|? ?]]| | |]; try discriminate. cbn. intros H M. apply andb_prop in H as [H1 H2]. apply N.eqb_eq in H1. apply N.eqb_eq in H2. subst. exact (chr_match _ _ M).
Qed.
Definition name_shape (x : kind * re * bool) : bool :=
  let '(k, r, _) := x in
  match k with
  | K_PNAME_NS => match r with Cat a b => avoids COLON a && is_chr COLON b | _ => false end
  | K_PNAME_LN => match r with Cat a (Cat b _) => avoids COLON a && is_chr COLON b | _ => false end
  | K_IRIREF => match r with Cat a (Cat _ b) => is_chr 60%N a && is_chr 62%N b | _ => false end
  | _ => true
  end.
Lemma names_shaped : forallb name_shape lexer_rules = true.
Proof. vm_compute. reflexivity. Qed.
Lemma lex_rule err t k w : In (k, w) (lex err t) -> k <> K_Error -> exists r wb, In (k, r, wb) lexer_rules /\ matches r w.
Proof.
  intros Hin Hk. revert Hin. pattern t, (lex err t). revert t. apply lex_ind; [intros []| |].
  - intros t k0 m _ M _ Lm IH [E|Hin]; [|exact (IH Hin)]. injection E as -> <-. destruct (some_match_elim _ _ _ M) as (r & wb & z & v & Hr & Ez & Lz & Mz & _).
    assert (firstn m t = z) as -> by (rewrite Ez, <- Lz; apply firstn_exact). eauto.
  - intros t _ _ IH [E|Hin]; [|exact (IH Hin)]. congruence.
Qed.
Lemma lex_ns_text err t w : In (K_PNAME_NS, w) (lex err t) -> exists p, w = p ++ [COLON] /\ ~ In COLON p.
Proof.
  intros H. apply lex_rule in H as (r & wb & Hin & M); [|discriminate]. pose proof names_shaped as S. rewrite forallb_forall in S. apply S in Hin. cbn [name_shape] in Hin. clear S.
  destruct r; try discriminate Hin. apply andb_prop in Hin as [A B]. apply cat_match in M as (u & v & -> & M1 & M2). apply (is_chr_ok _ _ _ B) in M2. subst. exists u. split; [reflexivity|]. eapply avoids_ok; eassumption.
Qed.
Lemma lex_ln_text err t w : In (K_PNAME_LN, w) (lex err t) -> exists p r, w = p ++ COLON :: r /\ ~ In COLON p.
Proof.
  intros H. apply lex_rule in H as (r & wb & Hin & M); [|discriminate]. pose proof names_shaped as S. rewrite forallb_forall in S. apply S in Hin. cbn [name_shape] in Hin. clear S.
  destruct r as [| |a [| |b c| |]| |]; try discriminate Hin. apply andb_prop in Hin as [A B]. apply cat_match in M as (u & v & -> & M1 & M2). apply cat_match in M2 as (v1 & v2 & -> & M2 & M3). apply (is_chr_ok _ _ _ B) in M2. subst.
  exists u, v2. split; [reflexivity|]. eapply avoids_ok; eassumption.
Qed.
Lemma lex_iriref_text err t w : In (K_IRIREF, w) (lex err t) -> exists u, w = 60%N :: u ++ [62%N].
Proof.
  intros H. apply lex_rule in H as (r & wb & Hin & M); [|discriminate]. pose proof names_shaped as S. rewrite forallb_forall in S. apply S in Hin. cbn [name_shape] in Hin. clear S.
  destruct r as [| |a [| |b c| |]| |]; try discriminate Hin. apply andb_prop in Hin as [A B]. apply cat_match in M as (u & v & -> & M1 & M2). apply cat_match in M2 as (v1 & v2 & -> & M2 & M3). apply (is_chr_ok _ _ _ B) in M3. apply (is_chr_ok _ _ _ A) in M1. subst.
  exists v1. reflexivity.
Qed.
Lemma split_colon_spec p r : ~ In COLON p -> split_colon (p ++ COLON :: r) = Some (p, r).
Proof.
  induction p as [|c p IH]; intros H; cbn; [reflexivity|]. destruct (N.eqb_spec c COLON) as [->|N]; [exfalso; apply H; left; reflexivity|]. rewrite IH; [reflexivity|]. intros Hin. apply H. right. exact Hin.
Qed.
