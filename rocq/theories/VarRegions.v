(** find_variable_occurrences computes the classes of [same_variable]. *)
From Coq Require Import String List Arith NArith Bool Lia Relations Sorted.
Import ListNotations.
From Verif Require Import ServerModel Kinds KindFacts ParserModel TextModel LexerSpec FormatData FormatModel FormatTree TreeModel VarModel VarUnion VarSpec.

(** ** paths *)
Lemma path_eqb_eq p : forall q, path_eqb p q = true <-> p = q.
Proof.
  induction p as [|i p IH]; intros [|j q]; cbn; split; intros H; try reflexivity; try discriminate.
  - apply andb_true_iff in H as [H1 H2]. apply Nat.eqb_eq in H1. apply IH in H2. congruence.
  - injection H as -> ->. rewrite Nat.eqb_refl. apply IH. reflexivity.
Qed.
Lemma at_path_app p : forall t q, at_path t (p ++ q) = match at_path t p with Some x => at_path x q | None => None end.
Proof.
  induction p as [|i p IH]; intros t q; [reflexivity|]. cbn. destruct t as [k w|k cs]; [reflexivity|].
  destruct (nth_error cs i); [apply IH|reflexivity].
Qed.
Lemma prefixes_snoc p i : prefixes (p ++ [i]) = prefixes p ++ [p ++ [i]].
Proof. induction p as [|j p IH]; [reflexivity|]. cbn [prefixes app]. rewrite IH, map_app. reflexivity. Qed.
Lemma ancestors_nil : ancestors [] = [[]].
Proof. reflexivity. Qed.
Lemma ancestors_snoc p i : ancestors (p ++ [i]) = (p ++ [i]) :: ancestors p.
Proof. unfold ancestors. rewrite prefixes_snoc, rev_unit. reflexivity. Qed.
Lemma in_ancestors p : forall q, In q (ancestors p) <-> exists r, p = q ++ r.
Proof.
  intros q. unfold ancestors. rewrite <- in_rev. revert q. induction p as [|i p IH]; intros q; cbn [prefixes].
  - split; [intros [<-|[]]; exists []; reflexivity|]. intros [r H]. destruct q; [left; reflexivity|discriminate].
  - split.
    + intros [<-|H]; [exists (i :: p); reflexivity|]. apply in_map_iff in H as (q' & <- & H). apply IH in H as [r ->]. exists r. reflexivity.
    + intros [r H]. destruct q as [|j q]; [left; reflexivity|]. right. injection H as -> E. apply in_map. apply IH. exists r. exact E.
Qed.
Lemma parent_snoc p i : parent (p ++ [i]) = Some p.
Proof. unfold parent. rewrite removelast_last. destruct p; reflexivity. Qed.

Lemma boundary_spec t p : boundary t p = true <-> sub_select t p.
Proof.
  unfold boundary, sub_select, is_kind. split.
  - destruct (at_path t p) as [[k w|k cs]|]; cbn; try discriminate. intros H. apply kind_eqb_eq in H. subst. eauto.
  - intros [cs ->]. reflexivity.
Qed.
Lemma is_var_at_spec t p : is_var_at t p = true <-> variable t p.
Proof.
  unfold is_var_at, variable, is_var, is_kind. split.
  - destruct (at_path t p) as [[k w|k cs]|]; cbn; try discriminate. intros H. apply kind_eqb_eq in H. subst. eauto.
  - intros [cs ->]. reflexivity.
Qed.

Definition scope (t : tree) (p : path) : path := match find (boundary t) (ancestors p) with Some r => r | None => [] end.
Lemma scope_nil t : scope t [] = [].
Proof. unfold scope. rewrite ancestors_nil. cbn [find]. destruct (boundary t []); reflexivity. Qed.
Lemma scope_snoc t p i : scope t (p ++ [i]) = if boundary t (p ++ [i]) then p ++ [i] else scope t p.
Proof. unfold scope. rewrite ancestors_snoc. cbn [find]. destruct (boundary t (p ++ [i])); reflexivity. Qed.
Lemma scope_prefix t p : exists r, p = scope t p ++ r.
Proof.
  induction p as [|i p IH] using rev_ind; [rewrite scope_nil; exists []; reflexivity|]. rewrite scope_snoc. destruct (boundary t (p ++ [i])).
  - exists []. rewrite app_nil_r. reflexivity.
  - destruct IH as [r E]. exists (r ++ [i]). rewrite app_assoc, <- E. reflexivity.
Qed.
Lemma find_none_ancestors t p : find (boundary t) (ancestors p) = None -> forall s r, p = s ++ r -> ~ sub_select t s.
Proof. intros H s r E Hs. apply boundary_spec in Hs. rewrite (find_none _ _ H s) in Hs; [discriminate|]. apply in_ancestors. exists r. exact E. Qed.
Lemma scope_longest t p : forall s r, p = s ++ r -> sub_select t s -> length s <= length (scope t p).
Proof.
  induction p as [|i p IH] using rev_ind; intros s r E Hs.
  - destruct s; [cbn; lia|discriminate].
  - rewrite scope_snoc. destruct (boundary t (p ++ [i])) eqn:B.
    + rewrite E, app_length. lia.
    + destruct r as [|x r _] using rev_ind.
      * rewrite app_nil_r in E. subst s. apply boundary_spec in Hs. congruence.
      * rewrite app_assoc in E. apply app_inj_tail in E as [E _]. eapply IH; eassumption.
Qed.
Lemma in_scope_scope t p : in_scope t p (scope t p).
Proof.
  destruct (scope_prefix t p) as [r E]. destruct (find (boundary t) (ancestors p)) as [s|] eqn:F.
  - assert (scope t p = s) as Hs by (unfold scope; rewrite F; reflexivity).
    pose proof (find_some _ _ F) as [_ B]. apply boundary_spec in B. pose proof (scope_longest t p) as L. rewrite Hs in *. rewrite E in L |- *.
    apply inside; [exact B|]. intros s' r' E'. apply (L s' r' E').
  - unfold scope. rewrite F. apply outermost. apply find_none_ancestors, F.
Qed.
Lemma prefix_length_eq (a r b s : path) : a ++ r = b ++ s -> length a = length b -> a = b.
Proof. revert b; induction a as [|x a IH]; intros [|y b] E L; cbn in *; try discriminate; [reflexivity|]. injection E as -> E. f_equal. apply IH; [exact E|lia]. Qed.
Lemma in_scope_fun t p s : in_scope t p s -> s = scope t p.
Proof.
  intros H. destruct H as [s r Hs L|p H].
  - destruct (scope_prefix t (s ++ r)) as [r' E]. eapply prefix_length_eq; [exact E|]. apply Nat.le_antisymm.
    + apply (scope_longest t (s ++ r) s r eq_refl Hs).
    + destruct (find (boundary t) (ancestors (s ++ r))) as [u|] eqn:F.
      * assert (scope t (s ++ r) = u) as Hu by (unfold scope; rewrite F; reflexivity). apply (L _ _ E). rewrite Hu. apply boundary_spec. apply (find_some _ _ F).
      * unfold scope. rewrite F. cbn. lia.
  - unfold scope. destruct (find (boundary t) (ancestors p)) as [u|] eqn:F; [|reflexivity]. apply find_some in F as [Hin B].
    apply in_ancestors in Hin as [r E]. apply boundary_spec in B. destruct (H _ _ E B).
Qed.
Lemma in_scope_iff t p s : in_scope t p s <-> s = scope t p.
Proof. split; [apply in_scope_fun|]. intros ->. apply in_scope_scope. Qed.

(** ** the variables below a node *)
Lemma in_imap_concat (f : tree -> list path) cs p : forall i, In p (concat (imap (fun i c => map (cons i) (f c)) i cs)) <->
  exists j c q, nth_error cs j = Some c /\ p = (i + j) :: q /\ In q (f c).
Proof.
  induction cs as [|c cs IH]; intros i; cbn [imap concat].
  - split; [intros []|]. intros (j & c & q & E & _). destruct j; discriminate.
  - rewrite in_app_iff, in_map_iff, IH. split.
    + intros [(q & <- & H)|(j & c' & q & E & -> & H)].
      * exists 0, c, q. rewrite Nat.add_0_r. split; [reflexivity|]. split; [reflexivity|exact H].
      * exists (S j), c', q. split; [exact E|]. split; [f_equal; lia|exact H].
    + intros (j & c' & q & E & -> & H). destruct j as [|j]; cbn in E.
      * injection E as ->. left. exists q. rewrite Nat.add_0_r. split; [reflexivity|exact H].
      * right. exists j, c', q. split; [exact E|]. split; [f_equal; lia|exact H].
Qed.
Lemma nth_error_Forall {A} (P : A -> Prop) l i x : Forall P l -> nth_error l i = Some x -> P x.
Proof. intros F E. eapply Forall_forall; [exact F|]. eapply nth_error_In, E. Qed.
Lemma in_vars_below t : forall p, In p (vars_below t) <-> variable t p.
Proof.
  induction t as [k w|k cs IH] using tree_ind'; intros p; cbn [vars_below].
  - split; [intros []|]. intros [cs H]. destruct p; discriminate.
  - rewrite in_app_iff, (in_imap_concat vars_below). unfold variable. split.
    + intros [H|(j & c & q & E & -> & H)].
      * destruct (kind_eqb k K_Var) eqn:K; [|destruct H]. apply kind_eqb_eq in K. subst. destruct H as [<-|[]]. exists cs. reflexivity.
      * cbn. rewrite E. apply (nth_error_Forall _ _ _ _ IH E). exact H.
    + intros [ds H]. destruct p as [|j q]; cbn in H.
      * injection H as -> ->. left. rewrite (proj2 (kind_eqb_eq K_Var K_Var) eq_refl). left. reflexivity.
      * destruct (nth_error cs j) as [c|] eqn:E; [|discriminate]. right. exists j, c, q. split; [exact E|]. split; [reflexivity|].
        apply (nth_error_Forall _ _ _ _ IH E). exists ds. exact H.
Qed.

(** ** document order *)
Lemma doc_before_trans p q r : doc_before p q -> doc_before q r -> doc_before p r.
Proof.
  intros H. revert r. induction H; intros r Hr; inversion Hr; subst; try (constructor; try lia; try assumption; fail).
  apply before_below. apply IHdoc_before. assumption.
Qed.
Lemma doc_before_irrefl p : ~ doc_before p p.
Proof. induction p as [|i p IH]; intros H; inversion H; subst; [lia|]. apply IH. assumption. Qed.
Lemma StronglySorted_app {A} (R : A -> A -> Prop) l1 l2 :
  StronglySorted R l1 -> StronglySorted R l2 -> (forall x y, In x l1 -> In y l2 -> R x y) -> StronglySorted R (l1 ++ l2).
Proof.
  induction 1 as [|x l Hs IH Hx]; intros H2 H; [exact H2|]. cbn. constructor.
  - apply IH; [exact H2|]. intros a b Ha. apply H. right. exact Ha.
  - apply Forall_app. split; [exact Hx|]. apply Forall_forall. intros y Hy. apply H; [left; reflexivity|exact Hy].
Qed.
Lemma StronglySorted_map_cons i l : StronglySorted doc_before l -> StronglySorted doc_before (map (cons i) l).
Proof.
  induction 1 as [|x l Hs IH Hx]; cbn; constructor; [exact IH|]. apply Forall_forall. intros y Hy. apply in_map_iff in Hy as (z & <- & Hz).
  apply before_below. eapply Forall_forall in Hx; eassumption.
Qed.
Lemma sorted_children (f : tree -> list path) cs : Forall (fun c => StronglySorted doc_before (f c)) cs ->
  forall i, StronglySorted doc_before (concat (imap (fun i c => map (cons i) (f c)) i cs)).
Proof.
  induction 1 as [|c cs Hc Hcs IH]; intros i; cbn [imap concat]; [constructor|]. apply StronglySorted_app.
  - apply StronglySorted_map_cons, Hc.
  - apply IH.
  - intros x y Hx Hy. apply in_map_iff in Hx as (q & <- & _). apply in_imap_concat in Hy as (j & d & r & _ & -> & _). apply before_here. lia.
Qed.
Lemma vars_below_sorted t : StronglySorted doc_before (vars_below t).
Proof.
  induction t as [k w|k cs IH] using tree_ind'; cbn [vars_below]; [constructor|]. apply StronglySorted_app.
  - destruct (kind_eqb k K_Var); [constructor; [constructor|constructor]|constructor].
  - apply sorted_children, IH.
  - intros x y Hx Hy. destruct (kind_eqb k K_Var); [|destruct Hx]. destruct Hx as [<-|[]]. apply in_imap_concat in Hy as (j & d & r & _ & -> & _). apply before_inner.
Qed.
Lemma StronglySorted_filter {A} (R : A -> A -> Prop) f l : StronglySorted R l -> StronglySorted R (filter f l).
Proof.
  induction 1 as [|x l Hs IH Hx]; cbn; [constructor|]. destruct (f x); [|exact IH]. constructor; [exact IH|].
  apply Forall_forall. intros y Hy. apply filter_In in Hy as [Hy _]. eapply Forall_forall in Hx; eassumption.
Qed.
Lemma sorted_NoDup l : StronglySorted doc_before l -> NoDup l.
Proof.
  induction 1 as [|x l Hs IH Hx]; constructor; [|exact IH]. intros Hin. eapply Forall_forall in Hx; [|exact Hin]. exact (doc_before_irrefl _ Hx).
Qed.

(** ** visible variables are variables below the node *)
Lemma tree_strong (P : tree -> Prop) : (forall t, (forall i q x, at_path t (i :: q) = Some x -> P x) -> P t) -> forall t, P t.
Proof.
  intros H. assert (forall t q x, at_path t q = Some x -> P x) as Ha.
  { induction t as [k w|k cs IH] using tree_ind'.
    - intros [|i q] x E; [|discriminate]. injection E as <-. apply H. intros i q x E. discriminate.
    - assert (forall i q x, at_path (Node k cs) (i :: q) = Some x -> P x) as Hb.
      { intros i q x E. cbn in E. destruct (nth_error cs i) as [c|] eqn:C; [|discriminate]. exact (nth_error_Forall _ _ _ _ IH C q x E). }
      intros [|i q] x E; [injection E as <-; apply H, Hb|exact (Hb _ _ _ E)]. }
  intros t. exact (Ha t [] t eq_refl).
Qed.
Lemma in_pick f P l p : forall i, In p (pick f P i l) -> exists j c q, nth_error l j = Some c /\ P c = true /\ p = (i + j) :: q /\ In q (f c).
Proof.
  induction l as [|x l IH]; intros i H; [destruct H|]. cbn [pick] in H. destruct (P x) eqn:E.
  - apply in_map_iff in H as (q & <- & H). exists 0, x, q. rewrite Nat.add_0_r. split; [reflexivity|]. split; [exact E|]. split; [reflexivity|exact H].
  - destruct (IH _ H) as (j & c & q & E' & Pc & -> & Hq). exists (S j), c, q. split; [exact E'|]. split; [exact Pc|]. split; [f_equal; lia|exact Hq].
Qed.
Lemma in_pick_last f P l p : forall i, In p (pick_last f P i l) -> exists j c q, nth_error l j = Some c /\ P c = true /\ p = (i + j) :: q /\ In q (f c).
Proof.
  induction l as [|x l IH]; intros i H; [destruct H|]. cbn [pick_last] in H. destruct (existsb P l).
  - destruct (IH _ H) as (j & c & q & E' & Pc & -> & Hq). exists (S j), c, q. split; [exact E'|]. split; [exact Pc|]. split; [f_equal; lia|exact Hq].
  - destruct (P x) eqn:E; [|destruct H]. apply in_map_iff in H as (q & <- & H). exists 0, x, q. rewrite Nat.add_0_r.
    split; [reflexivity|]. split; [exact E|]. split; [reflexivity|exact H].
Qed.
Lemma in_pick_all f P l p : forall i, In p (pick_all f P i l) <-> exists j c q, nth_error l j = Some c /\ P c = true /\ p = (i + j) :: q /\ In q (f c).
Proof.
  induction l as [|x l IH]; intros i; cbn [pick_all].
  - split; [intros []|]. intros (j & c & q & E & _). destruct j; discriminate.
  - rewrite in_app_iff, IH. split.
    + intros [H|(j & c & q & E' & Pc & -> & Hq)].
      * destruct (P x) eqn:E; [|destruct H]. apply in_map_iff in H as (q & <- & H). exists 0, x, q. rewrite Nat.add_0_r.
        split; [reflexivity|]. split; [exact E|]. split; [reflexivity|exact H].
      * exists (S j), c, q. split; [exact E'|]. split; [exact Pc|]. split; [f_equal; lia|exact Hq].
    + intros (j & c & q & E & Pc & -> & Hq). destruct j as [|j]; cbn in E.
      * injection E as ->. left. rewrite Pc, Nat.add_0_r. apply in_map, Hq.
      * right. exists j, c, q. split; [exact E|]. split; [exact Pc|]. split; [f_equal; lia|exact Hq].
Qed.
Lemma variable_child t i q x : at_path t [i] = Some x -> variable x q -> variable t (i :: q).
Proof. intros E [cs H]. exists cs. change (i :: q) with ([i] ++ q). rewrite at_path_app, E. exact H. Qed.
Lemma at_child k cs j c : nth_error cs j = Some c -> at_path (Node k cs) [j] = Some c.
Proof. intros E. cbn. rewrite E. reflexivity. Qed.
Lemma is_var_variable x : is_var x = true -> variable x [].
Proof. intros H. apply is_var_at_spec. unfold is_var_at. cbn. exact H. Qed.
Lemma cast_var_variable x q : In q (cast_var x) -> variable x q.
Proof. unfold cast_var. destruct (is_var x) eqn:E; intros H; [|destruct H]. destruct H as [<-|[]]. apply is_var_variable, E. Qed.
Lemma nth_error_take_while P cs : forall j c, nth_error (take_while P cs) j = Some c -> nth_error cs j = Some c.
Proof. induction cs as [|x cs IH]; intros j c H; [destruct j; discriminate|]. cbn in H. destruct (P x); [|destruct j; discriminate]. destruct j; [exact H|]. cbn in *. apply IH, H. Qed.
Lemma data_vars_variable x q : In q (data_vars x) -> variable x q.
Proof.
  destruct x as [k w|k cs]; [intros []|].
  assert (In q (pick cast_var is_node 0 cs) -> variable (Node k cs) q) as H1.
  { intros H. apply in_pick in H as (j & c & r & E & _ & -> & H). eapply variable_child; [apply at_child, E|]. apply cast_var_variable, H. }
  assert (In q (pick_all (fun _ => [[]]) is_var 0 (take_while (fun c => negb (is_kind K_RParen c)) cs)) -> variable (Node k cs) q) as H2.
  { intros H. apply in_pick_all in H as (j & c & r & E & V & -> & H). apply nth_error_take_while in E. destruct H as [<-|[]].
    eapply variable_child; [apply at_child, E|]. apply is_var_variable, V. }
  unfold data_vars. intros H. revert H H1 H2. destruct k; intros H H1 H2; solve [exact (H1 H)|exact (H2 H)|destruct H].
Qed.
Lemma inline_data_variable x q : In q (inline_data x) -> variable x q.
Proof.
  destruct x as [k w|k cs]; [intros []|]. cbn [inline_data]. intros H. apply in_pick_last in H as (j & c & r & E & _ & -> & H).
  eapply variable_child; [apply at_child, E|]. destruct c as [k' w|k' ds]; [destruct H|].
  apply in_pick in H as (j' & d & r' & E' & _ & -> & H). eapply variable_child; [apply at_child, E'|]. apply data_vars_variable, H.
Qed.
Lemma projected_variable x q : In q (projected x) -> variable x q.
Proof.
  destruct x as [k w|k cs]; [intros []|]. cbn [projected]. intros H. apply in_pick_all in H as (j & c & r & E & V & -> & H). destruct H as [<-|[]].
  eapply variable_child; [apply at_child, E|]. apply is_var_variable, V.
Qed.
Lemma visible_variable t : forall q, In q (visible t) -> variable t q.
Proof.
  induction t as [t IH] using tree_strong. destruct t as [k w|k cs]; [intros q []|].
  assert (forall j c q, nth_error cs j = Some c -> (In q (visible c) -> variable c q)) as IHc.
  { intros j c q E. apply (IH j [] c). cbn. rewrite E. reflexivity. }
  assert (forall j c i d q, nth_error cs j = Some c -> at_path c [i] = Some d -> (In q (visible d) -> variable d q)) as IHd.
  { intros j c i d q E E'. apply (IH j [i] d). cbn. rewrite E. exact E'. }
  assert (forall (f : tree -> list path) P q, (forall j c r, nth_error cs j = Some c -> In r (f c) -> variable c r) -> In q (pick f P 0 cs) -> variable (Node k cs) q) as Hp.
  { intros f P q Hf H. apply in_pick in H as (j & c & r & E & _ & -> & H). eapply variable_child; [apply at_child, E|]. eapply Hf; eassumption. }
  assert (forall (f : tree -> list path) P q, (forall j c r, nth_error cs j = Some c -> In r (f c) -> variable c r) -> In q (pick_last f P 0 cs) -> variable (Node k cs) q) as Hl.
  { intros f P q Hf H. apply in_pick_last in H as (j & c & r & E & _ & -> & H). eapply variable_child; [apply at_child, E|]. eapply Hf; eassumption. }
  assert (forall (f : tree -> list path) P q, (forall j c r, nth_error cs j = Some c -> In r (f c) -> variable c r) -> In q (pick_all f P 0 cs) -> variable (Node k cs) q) as Ha.
  { intros f P q Hf H. apply in_pick_all in H as (j & c & r & E & _ & -> & H). eapply variable_child; [apply at_child, E|]. eapply Hf; eassumption. }
  assert (forall (b : tree -> bool) j c r, nth_error cs j = Some c -> In r (if b c then visible c else []) -> variable c r) as Hif.
  { intros b j c r E H. destruct (b c); [eapply IHc; eassumption|destruct H]. }
  assert (forall q, In q match find (fun c => is_node c && is_kind K_SelectClause c) cs with
                         | Some sc => if is_star sc then pick visible (fun c => is_node c && is_kind K_WhereClause c) 0 cs
                                      else pick projected (fun c => is_node c && is_kind K_SelectClause c) 0 cs
                         | None => []
                         end -> variable (Node k cs) q) as Hsel.
  { intros q H. destruct (find _ cs) as [sc|]; [|destruct H]. destruct (is_star sc); revert H; apply Hp.
    - intros j c r E. apply (IHc _ _ _ E).
    - intros j c r _. apply projected_variable. }
  intros q H. revert H. destruct k; cbn [visible]; intros H; try (destruct H; fail); try (apply Hsel, H).
  all: try (revert H; apply Hl; intros j c r E; apply (Hif (is_kind K_GroupGraphPattern) _ _ _ E)).
  all: try (revert H; apply Ha; intros j c r E; apply (IHc _ _ _ E)).
  all: try (revert H; apply Hp; intros j c r E; apply (Hif (is_kind K_GroupGraphPattern) _ _ _ E)).
  - revert H. apply Hp. intros j c r E H. destruct (select_like (tkind c)); [eapply IHc; eassumption|].
    destruct c as [k w|k ds]; [destruct H|]. apply in_pick_all in H as (j' & d & r' & E' & _ & -> & H).
    eapply variable_child; [apply at_child, E'|].
    assert (In r' (vars_below d) \/ In r' (visible d)) as [H'|H'] by (destruct (tkind d); auto).
    + apply in_vars_below, H'.
    + eapply IHd; [exact E|apply at_child, E'|exact H'].
  - revert H. apply Hp. intros j c r E H.
    assert (In r (visible c) \/ In r (vars_below c) \/ In r (inline_data c) \/ In r (match c with Node _ ds => pick_last cast_var is_node 0 ds | Tok _ _ => [] end)) as H'.
    { destruct (tkind c); solve [auto|destruct H]. }
    destruct H' as [H'|[H'|[H'|H']]].
    + eapply IHc; eassumption.
    + apply in_vars_below, H'.
    + apply inline_data_variable, H'.
    + destruct c as [k w|k ds]; [destruct H'|]. apply in_pick_last in H' as (j' & d & r' & E' & _ & -> & H').
      eapply variable_child; [apply at_child, E'|]. apply cast_var_variable, H'.
Qed.
