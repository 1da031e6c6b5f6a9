(** Which variables [visible_variables] finds: the rules of SPARQL's variable scope, and what differs. *)
From Coq Require Import String List Arith NArith Bool Lia Sorted Permutation.
Import ListNotations.
From Verif Require Import ServerModel Kinds KindFacts ParserSyntax ParserModel GrammarData ParserTree ParserTerm ParserBuild ParserSpec ParserChecks ParserOutcome ParserProps
  TextModel TextSpec TextProofs TextProps Utf8Model LexerRegex LexerModel LexerSpec LexerProps FormatData FormatModel FormatTree FormatText FormatParse FormatWeave
  TreeModel TreePlace TreeShape TreeKids TreeItems VarModel VarSpec VarRegions VarOcc VarDoc LexRename VarProps DiagModel DiagSpec AstFacts DiagFacts DiagGroup.

(** ** picking children *)
Lemma in_pick f p l : forall i q, In q (pick f p i l) <-> exists j c r, nth_error l j = Some c /\ p c = true /\ (forall j' c', j' < j -> nth_error l j' = Some c' -> p c' = false) /\ q = (i + j) :: r /\ In r (f c).
Proof.
  induction l as [|c l IH]; intros i q; cbn [pick].
  - split; [intros []|]. intros (j & c & r & E & _). destruct j; discriminate.
  - destruct (p c) eqn:P.
    + rewrite in_map_iff. split.
      * intros (r & <- & Hr). exists 0, c, r. split; [reflexivity|]. split; [exact P|]. split; [intros; lia|]. split; [f_equal; lia|exact Hr].
      * intros (j & d & r & E & Pd & F & -> & Hr). destruct j as [|j]; [|rewrite (F 0 c) in P; [discriminate|lia|reflexivity]]. injection E as <-. exists r. split; [f_equal; lia|exact Hr].
    + rewrite IH. split.
      * intros (j & d & r & E & Pd & F & -> & Hr). exists (S j), d, r. split; [exact E|]. split; [exact Pd|]. split; [|split; [f_equal; lia|exact Hr]]. intros [|j'] c' L E'; [injection E' as <-; exact P|]. eapply F; [|exact E']. lia.
      * intros (j & d & r & E & Pd & F & -> & Hr). destruct j as [|j]; [injection E as <-; congruence|]. exists j, d, r. split; [exact E|]. split; [exact Pd|]. split; [|split; [f_equal; lia|exact Hr]]. intros j' c' L E'. apply (F (S j')); [lia|exact E'].
Qed.
Lemma in_pick_last f p l : forall i q, In q (pick_last f p i l) <-> exists j c r, nth_error l j = Some c /\ p c = true /\ (forall j' c', j < j' -> nth_error l j' = Some c' -> p c' = false) /\ q = (i + j) :: r /\ In r (f c).
Proof.
  induction l as [|c l IH]; intros i q; cbn [pick_last].
  - split; [intros []|]. intros (j & c & r & E & _). destruct j; discriminate.
  - destruct (existsb p l) eqn:X.
    + rewrite IH. split.
      * intros (j & d & r & E & Pd & F & -> & Hr). exists (S j), d, r. split; [exact E|]. split; [exact Pd|]. split; [|split; [f_equal; lia|exact Hr]]. intros [|j'] c' L E'; [lia|]. eapply F; [|exact E']. lia.
      * intros (j & d & r & E & Pd & F & -> & Hr). destruct j as [|j].
        { exfalso. apply existsb_exists in X as (e & He & Pe). apply In_nth_error in He as [m Em]. rewrite (F (S m) e) in Pe; [discriminate|lia|exact Em]. }
        exists j, d, r. split; [exact E|]. split; [exact Pd|]. split; [|split; [f_equal; lia|exact Hr]]. intros j' c' L E'. apply (F (S j')); [lia|exact E'].
    + assert (forall j' c', nth_error l j' = Some c' -> p c' = false) as F0.
      { intros j' c' E'. destruct (p c') eqn:P'; [|reflexivity]. exfalso. assert (existsb p l = true) by (apply existsb_exists; exists c'; split; [eapply nth_error_In, E'|exact P']). congruence. }
      destruct (p c) eqn:P.
      * rewrite in_map_iff. split.
        { intros (r & <- & Hr). exists 0, c, r. split; [reflexivity|]. split; [exact P|]. split; [|split; [f_equal; lia|exact Hr]]. intros [|j'] c' L E'; [lia|]. eapply F0, E'. }
        { intros (j & d & r & E & Pd & F & -> & Hr). destruct j as [|j]; [|rewrite (F0 _ _ E) in Pd; discriminate]. injection E as <-. exists r. split; [f_equal; lia|exact Hr]. }
      * split; [intros []|]. intros (j & d & r & E & Pd & F & -> & Hr). destruct j as [|j]; [injection E as <-; congruence|rewrite (F0 _ _ E) in Pd; discriminate].
Qed.
Lemma in_pick_all f p l : forall i q, In q (pick_all f p i l) <-> exists j c r, nth_error l j = Some c /\ p c = true /\ q = (i + j) :: r /\ In r (f c).
Proof.
  induction l as [|c l IH]; intros i q; cbn [pick_all].
  - split; [intros []|]. intros (j & c & r & E & _). destruct j; discriminate.
  - rewrite in_app_iff, IH. split.
    + intros [H|(j & d & r & E & Pd & -> & Hr)].
      * destruct (p c) eqn:P; [|destruct H]. apply in_map_iff in H as (r & <- & Hr). exists 0, c, r. split; [reflexivity|]. split; [exact P|]. split; [f_equal; lia|exact Hr].
      * exists (S j), d, r. split; [exact E|]. split; [exact Pd|]. split; [f_equal; lia|exact Hr].
    + intros (j & d & r & E & Pd & -> & Hr). destruct j as [|j].
      * left. injection E as <-. rewrite Pd. apply in_map_iff. exists r. split; [f_equal; lia|exact Hr].
      * right. exists j, d, r. split; [exact E|]. split; [exact Pd|]. split; [f_equal; lia|exact Hr].
Qed.
(** [f] of the node at [p], as paths of the document *)
Definition at_node (x : tree) (f : tree -> list path) (p u : path) : Prop := exists y r, at_path x p = Some y /\ In r (f y) /\ u = p ++ r.
Lemma child_app (p : path) j r : p ++ j :: r = (p ++ [j]) ++ r.
Proof. rewrite <- app_assoc. reflexivity. Qed.
Lemma node_is_node x p k cs j c : at_path x p = Some (Node k cs) -> nth_error cs j = Some c -> is_node c = true -> node_at x (p ++ [j]) (tkind c).
Proof. intros E Ej N. destruct c as [|k' ds]; [discriminate|]. exists ds. rewrite (at_child _ _ _ _ _ E). exact Ej. Qed.
Section steps.
Context (err : text -> nat) (t : text) (x : tree) (D : doc_tree err t x).
(** the first node child, if nodes of the kind come first *)
Lemma pick_first f p k cs (ks : kind -> bool) u : at_path x p = Some (Node k cs) -> (forall k', ks k' = true -> ordered k any_sub (item_eqb (Sub k')) = true) ->
  (forall j y, nth_error cs j = Some y -> is_node y = true -> ks (tkind y) = false -> f y = []) ->
  (exists r, In r (pick f is_node 0 cs) /\ u = p ++ r) <-> exists k' c, ks k' = true /\ part x p k' c /\ at_node x f c u.
Proof.
  intros E O Hf. split.
  - intros (r & Hr & ->). apply in_pick in Hr as (j & c & r' & Ej & N & _ & -> & Hr). pose proof (node_is_node _ _ _ _ _ _ E Ej N) as Hn. exists (tkind c), (p ++ [j]). destruct (ks (tkind c)) eqn:K; [|rewrite (Hf j c Ej N K) in Hr; destruct Hr].
    split; [reflexivity|]. split; [split; [eauto|exact Hn]|]. exists c, r'. split; [rewrite (at_child _ _ _ _ _ E); exact Ej|]. split; [exact Hr|]. cbn [Nat.add]. apply child_app.
  - intros (k' & c & K & [[j ->] Hc] & y & r & Ey & Hr & ->). exists (j :: r). split; [|symmetry; apply child_app]. apply in_pick. exists j, y, r. rewrite (at_child _ _ _ _ _ E) in Ey. split; [exact Ey|].
    assert (y = Node k' (match y with Node _ ds => ds | _ => [] end)) as Ky. { destruct Hc as [ds Hc]. rewrite (at_child _ _ _ _ _ E), Ey in Hc. injection Hc as ->. reflexivity. }
    split; [rewrite Ky; reflexivity|]. split; [|split; [reflexivity|exact Hr]]. intros j' c' L E'. destruct (is_node c') eqn:N; [|reflexivity]. exfalso. pose proof (node_is_node _ _ _ _ _ _ E E' N) as Hn.
    pose proof (nodes_order _ _ _ _ _ _ _ _ _ _ _ D (ex_intro _ cs E) (O _ K) Hn Hc eq_refl (proj2 (item_eqb_eq _ _) eq_refl)). lia.
Qed.
Lemma pick_final f p k cs (ks : kind -> bool) u : at_path x p = Some (Node k cs) -> (forall k', ks k' = true -> ordered k (item_eqb (Sub k')) any_sub = true) ->
  (forall j y, nth_error cs j = Some y -> is_node y = true -> ks (tkind y) = false -> f y = []) ->
  (exists r, In r (pick_last f is_node 0 cs) /\ u = p ++ r) <-> exists k' c, ks k' = true /\ part x p k' c /\ at_node x f c u.
Proof.
  intros E O Hf. split.
  - intros (r & Hr & ->). apply in_pick_last in Hr as (j & c & r' & Ej & N & _ & -> & Hr). pose proof (node_is_node _ _ _ _ _ _ E Ej N) as Hn. exists (tkind c), (p ++ [j]). destruct (ks (tkind c)) eqn:K; [|rewrite (Hf j c Ej N K) in Hr; destruct Hr].
    split; [reflexivity|]. split; [split; [eauto|exact Hn]|]. exists c, r'. split; [rewrite (at_child _ _ _ _ _ E); exact Ej|]. split; [exact Hr|]. cbn [Nat.add]. apply child_app.
  - intros (k' & c & K & [[j ->] Hc] & y & r & Ey & Hr & ->). exists (j :: r). split; [|symmetry; apply child_app]. apply in_pick_last. exists j, y, r. rewrite (at_child _ _ _ _ _ E) in Ey. split; [exact Ey|].
    assert (y = Node k' (match y with Node _ ds => ds | _ => [] end)) as Ky. { destruct Hc as [ds Hc]. rewrite (at_child _ _ _ _ _ E), Ey in Hc. injection Hc as ->. reflexivity. }
    split; [rewrite Ky; reflexivity|]. split; [|split; [reflexivity|exact Hr]]. intros j' c' L E'. destruct (is_node c') eqn:N; [|reflexivity]. exfalso. pose proof (node_is_node _ _ _ _ _ _ E E' N) as Hn.
    pose proof (nodes_order _ _ _ _ _ _ _ _ _ _ _ D (ex_intro _ cs E) (O _ K) Hc Hn (proj2 (item_eqb_eq _ _) eq_refl) eq_refl). lia.
Qed.
Lemma pick_every f p k cs (b : tree -> bool) u : at_path x p = Some (Node k cs) -> (forall y, b y = true -> is_node y = true) ->
  (exists r, In r (pick_all f b 0 cs) /\ u = p ++ r) <-> exists k' c y, part x p k' c /\ at_path x c = Some y /\ b y = true /\ at_node x f c u.
Proof.
  intros E Hb. split.
  - intros (r & Hr & ->). apply in_pick_all in Hr as (j & c & r' & Ej & B & -> & Hr). pose proof (node_is_node _ _ _ _ _ _ E Ej (Hb _ B)) as Hn. assert (at_path x (p ++ [j]) = Some c) as Ec by (rewrite (at_child _ _ _ _ _ E); exact Ej).
    exists (tkind c), (p ++ [j]), c. split; [split; [eauto|exact Hn]|]. split; [exact Ec|]. split; [exact B|]. exists c, r'. split; [exact Ec|]. split; [exact Hr|]. apply child_app.
  - intros (k' & c & y & [[j ->] Hc] & Ey & B & y' & r & Ey' & Hr & ->). rewrite Ey in Ey'. injection Ey' as <-. exists (j :: r). split; [|symmetry; apply child_app]. apply in_pick_all. exists j, y, r. rewrite (at_child _ _ _ _ _ E) in Ey. auto.
Qed.
Lemma at_node_part (f g : tree -> list path) k p u : (forall y, tkind y = k -> f y = g y) -> (exists k' c, kind_eqb k k' = true /\ part x p k' c /\ at_node x f c u) <-> exists c, part x p k c /\ at_node x g c u.
Proof.
  intros H. split.
  - intros (k' & c & K & P & y & r & E & Hr & ->). apply kind_eqb_eq in K. subst k'. exists c. split; [exact P|]. exists y, r. split; [exact E|]. split; [|reflexivity]. rewrite <- H; [exact Hr|]. destruct P as [_ [ds E']]. rewrite E in E'. injection E' as ->. reflexivity.
  - intros (c & P & y & r & E & Hr & ->). exists k, c. split; [apply kind_eqb_refl|]. split; [exact P|]. exists y, r. split; [exact E|]. split; [|reflexivity]. rewrite H; [exact Hr|]. destruct P as [_ [ds E']]. rewrite E in E'. injection E' as ->. reflexivity.
Qed.
Lemma at_node_unfold f p k cs u : at_path x p = Some (Node k cs) -> at_node x f p u <-> exists r, In r (f (Node k cs)) /\ u = p ++ r.
Proof. intros E. split; [intros (y & r & Ey & H)|intros (r & H)]; [rewrite E in Ey; injection Ey as <-; eauto|exists (Node k cs), r; auto]. Qed.
Lemma at_node_vars p k u : node_at x p k -> at_node x vars_below p u <-> inside p u /\ variable x u.
Proof.
  intros [cs E]. rewrite (at_node_unfold _ _ _ _ _ E). split.
  - intros (r & H & ->). apply in_vars_below in H as [ds H]. split; [exists r; reflexivity|]. exists ds. rewrite at_path_app, E. exact H.
  - intros [[r ->] [ds H]]. exists r. split; [|reflexivity]. apply in_vars_below. rewrite at_path_app, E in H. exists ds. exact H.
Qed.
Lemma at_node_cast p u : at_node x cast_var p u <-> node_at x p K_Var /\ u = p.
Proof.
  split.
  - intros (y & r & E & H & ->). unfold cast_var, is_var in H. destruct y as [|k ds]; [destruct H|]. cbn [is_node andb is_kind tkind] in H. unfold is_kind in H. cbn [tkind] in H. destruct (kind_eqb_spec k K_Var) as [->|]; [|destruct H]. destruct H as [<-|[]]. rewrite app_nil_r. split; [exists ds; exact E|reflexivity].
  - intros [[ds E] ->]. exists (Node K_Var ds), []. split; [exact E|]. split; [left; reflexivity|]. symmetry. apply app_nil_r.
Qed.
Lemma where_step wc u : node_at x wc K_WhereClause -> at_node x visible wc u <-> exists g, part x wc K_GroupGraphPattern g /\ at_node x visible g u.
Proof.
  intros [cs E]. rewrite (at_node_unfold _ _ _ _ _ E). cbn [visible]. etransitivity; [apply (pick_first _ _ _ _ (kind_eqb K_GroupGraphPattern) _ E)|].
  - intros k' K. apply kind_eqb_eq in K. subst k'. vm_compute. reflexivity.
  - intros _ y _ _ K. unfold is_kind. destruct (kind_eqb_spec (tkind y) K_GroupGraphPattern) as [Ey|]; [rewrite Ey, kind_eqb_refl in K; discriminate|reflexivity].
  - apply at_node_part. intros y Ey. unfold is_kind. rewrite Ey. reflexivity.
Qed.
Lemma group_step g u : node_at x g K_GroupGraphPattern -> at_node x visible g u <->
  (exists s, part x g K_SubSelect s /\ at_node x visible s u) \/
  (exists s b, part x g K_GroupGraphPatternSub s /\ part x s K_TriplesBlock b /\ inside b u /\ variable x u) \/
  (exists s n, part x g K_GroupGraphPatternSub s /\ part x s K_GraphPatternNotTriples n /\ at_node x visible n u).
Proof.
  intros Hg. pose proof Hg as [cs E]. rewrite (at_node_unfold _ _ _ _ _ E). cbn [visible]. etransitivity; [apply (pick_first _ _ _ _ (fun k => kind_eqb k K_SubSelect || kind_eqb k K_GroupGraphPatternSub) _ E)|].
  - intros k' K. destruct k'; try discriminate K; vm_compute; reflexivity.
  - intros j y Ej N K. destruct y as [|k ds]; [discriminate|]. cbn [tkind] in *. assert (node_at x (g ++ [j]) k) as Hk by (exists ds; rewrite (at_child _ _ _ _ _ E); exact Ej).
    destruct (kid_kinds _ _ _ _ _ _ _ D Hg Hk) as [->|(R & ER & Hin)]; [|injection ER as <-; destruct Hin as [<-|[<-|[]]]; discriminate K]. cbn [select_like].
    match goal with |- ?l = [] => destruct l as [|q l'] eqn:El; [reflexivity|exfalso] end. assert (In q (q :: l')) as Hq by (left; reflexivity). rewrite <- El in Hq. apply in_pick_all in Hq as (i & c & r & Ei & B & _).
    apply andb_prop in B as [B _]. destruct c as [|k' es]; [discriminate|]. assert (at_path x (g ++ [j]) = Some (Node K_Error ds)) as Ee by (rewrite (at_child _ _ _ _ _ E); exact Ej).
    refine (error_leaves _ (doc_node_at _ _ _ _ _ _ D _ Ee) k' es (nth_error_In _ _ Ei)). destruct g; discriminate.
  - split.
    + intros (k' & c & K & P & H). pose proof P as [[j ->] [ds Ec]]. rewrite (at_node_unfold _ _ _ _ _ Ec) in H. destruct (kind_eqb_spec k' K_SubSelect) as [Ek|Nk]; [subst k'|].
      * left. exists (g ++ [j]). split; [exact P|]. apply (at_node_unfold _ _ _ _ _ Ec). exact H.
      * cbn [orb] in K. apply kind_eqb_eq in K. subst k'. right. cbn [select_like tkind] in H. apply (pick_every _ _ _ _ _ _ Ec) in H as (k2 & c & y & P2 & Ey & B & H); [|intros y B; apply andb_prop in B as [B _]; exact B].
        apply andb_prop in B as [_ B]. unfold is_kind in B. pose proof P2 as [_ [es E2]]. rewrite Ey in E2. injection E2 as ->. cbn [tkind] in B. rewrite (at_node_unfold _ _ _ _ _ Ey) in H. cbn [tkind] in H.
        destruct (kind_eqb_spec k2 K_TriplesBlock) as [Ek2|Nk2]; [subst k2|].
        { left. exists (g ++ [j]), c. split; [exact P|]. split; [exact P2|]. destruct P2 as [_ Hn]. apply (at_node_vars _ _ _ Hn). apply (at_node_unfold _ _ _ _ _ Ey). exact H. }
        { cbn [orb] in B. apply kind_eqb_eq in B. subst k2. right. exists (g ++ [j]), c. split; [exact P|]. split; [exact P2|]. apply (at_node_unfold _ _ _ _ _ Ey). exact H. }
    + intros [(s & P & H)|[(s & b & P & P2 & H)|(s & n & P & P2 & H)]]; pose proof P as [[j ->] [ds Ec]].
      * exists K_SubSelect, (g ++ [j]). split; [reflexivity|]. split; [exact P|]. apply (at_node_unfold _ _ _ _ _ Ec) in H. apply (at_node_unfold _ _ _ _ _ Ec). exact H.
      * exists K_GroupGraphPatternSub, (g ++ [j]). split; [reflexivity|]. split; [exact P|]. rewrite (at_node_unfold _ _ _ _ _ Ec). cbn [select_like tkind]. apply (pick_every _ _ _ _ _ _ Ec); [intros y B; apply andb_prop in B as [B _]; exact B|].
        pose proof P2 as [_ Hn]. pose proof Hn as [es En]. exists K_TriplesBlock, b, (Node K_TriplesBlock es). split; [exact P2|]. split; [exact En|]. split; [reflexivity|]. apply (at_node_vars _ _ _ Hn) in H. apply (at_node_unfold _ _ _ _ _ En) in H. apply (at_node_unfold _ _ _ _ _ En). exact H.
      * exists K_GroupGraphPatternSub, (g ++ [j]). split; [reflexivity|]. split; [exact P|]. rewrite (at_node_unfold _ _ _ _ _ Ec). cbn [select_like tkind]. apply (pick_every _ _ _ _ _ _ Ec); [intros y B; apply andb_prop in B as [B _]; exact B|].
        pose proof P2 as [_ Hn]. pose proof Hn as [es En]. exists K_GraphPatternNotTriples, n, (Node K_GraphPatternNotTriples es). split; [exact P2|]. split; [exact En|]. split; [reflexivity|]. apply (at_node_unfold _ _ _ _ _ En) in H. apply (at_node_unfold _ _ _ _ _ En). exact H.
Qed.
(** OPTIONAL, MINUS, GRAPH and SERVICE *)
Definition braced (k : kind) : bool := match k with K_OptionalGraphPattern | K_MinusGraphPattern | K_GraphGraphPattern | K_ServiceGraphPattern => true | _ => false end.
Lemma braced_step k m u : node_at x m k -> braced k = true -> at_node x visible m u <-> exists g, part x m K_GroupGraphPattern g /\ at_node x visible g u.
Proof.
  intros [cs E] B. rewrite (at_node_unfold _ _ _ _ _ E).
  assert (visible (Node k cs) = pick_last (fun c => if is_kind K_GroupGraphPattern c then visible c else []) is_node 0 cs) as -> by (destruct k; try discriminate B; reflexivity).
  etransitivity; [apply (pick_final _ _ _ _ (kind_eqb K_GroupGraphPattern) _ E)|].
  - intros k' K. apply kind_eqb_eq in K. subst k'. destruct k; try discriminate B; vm_compute; reflexivity.
  - intros _ y _ _ K. unfold is_kind. destruct (kind_eqb_spec (tkind y) K_GroupGraphPattern) as [Ey|]; [rewrite Ey, kind_eqb_refl in K; discriminate|reflexivity].
  - apply at_node_part. intros y Ey. unfold is_kind. rewrite Ey. reflexivity.
Qed.
Lemma union_step m u : node_at x m K_GroupOrUnionGraphPattern -> at_node x visible m u <-> exists g, part x m K_GroupGraphPattern g /\ at_node x visible g u.
Proof.
  intros [cs E]. rewrite (at_node_unfold _ _ _ _ _ E). cbn [visible]. etransitivity; [apply (pick_every _ _ _ _ _ _ E); intros y B; apply andb_prop in B as [B _]; exact B|]. split.
  - intros (k' & c & y & P & Ey & B & H). apply andb_prop in B as [_ B]. unfold is_kind in B. apply kind_eqb_eq in B. pose proof P as [_ [ds E']]. rewrite Ey in E'. injection E' as ->. cbn [tkind] in B. subst k'. eauto.
  - intros (g & P & H). pose proof P as [_ [ds E']]. exists K_GroupGraphPattern, g, (Node K_GroupGraphPattern ds). auto.
Qed.
Lemma error_pick f p k cs j ds (b : tree -> bool) i : at_path x p = Some (Node k cs) -> nth_error cs j = Some (Node K_Error ds) -> (forall y, b y = true -> is_node y = true) -> pick f b i ds = [].
Proof.
  intros E Ej Hb. assert (at_path x (p ++ [j]) = Some (Node K_Error ds)) as Ee by (rewrite (at_child _ _ _ _ _ E); exact Ej).
  destruct (pick f b i ds) as [|q l] eqn:El; [reflexivity|exfalso]. assert (In q (pick f b i ds)) as Hq by (rewrite El; left; reflexivity). apply in_pick in Hq as (n & c & r & En & B & _).
  destruct c as [|k' es]; [apply Hb in B; discriminate|]. refine (error_leaves _ (doc_node_at _ _ _ _ _ _ D _ Ee) k' es (nth_error_In _ _ En)). destruct p; discriminate.
Qed.
Lemma one_step o u : node_at x o K_InlineDataOneVar -> at_node x data_vars o u <-> part x o K_Var u.
Proof.
  intros [cs E]. rewrite (at_node_unfold _ _ _ _ _ E). cbn [data_vars]. etransitivity; [apply (pick_first _ _ _ _ (kind_eqb K_Var) _ E)|].
  - intros k' K. apply kind_eqb_eq in K. subst k'. vm_compute. reflexivity.
  - intros _ y _ N K. unfold cast_var, is_var, is_kind. destruct (kind_eqb_spec (tkind y) K_Var) as [Ey|]; [rewrite Ey, kind_eqb_refl in K; discriminate|rewrite andb_false_r; reflexivity].
  - split.
    + intros (k' & c & K & P & H). apply kind_eqb_eq in K. subst k'. apply at_node_cast in H as [_ ->]. exact P.
    + intros P. exists K_Var, u. split; [reflexivity|]. split; [exact P|]. apply at_node_cast. split; [exact (proj2 P)|reflexivity].
Qed.
Lemma in_take_while p (l : list tree) : forall j c, nth_error (take_while p l) j = Some c <-> nth_error l j = Some c /\ forall j' c', j' <= j -> nth_error l j' = Some c' -> p c' = true.
Proof.
  induction l as [|a l IH]; intros j c; cbn [take_while].
  - split; [destruct j; discriminate|]. intros [H _]. destruct j; discriminate.
  - destruct (p a) eqn:P.
    + destruct j as [|j]; cbn [nth_error].
      * split; [intros H; split; [exact H|]; intros [|j'] c' L E; [|lia]|intros [H _]; exact H]. injection E as <-. exact P.
      * rewrite IH. split; intros [H F]; (split; [exact H|]).
        { intros [|j'] c' L E; [injection E as <-; exact P|]. eapply F; [|exact E]. lia. }
        { intros j' c' L E. apply (F (S j')); [lia|exact E]. }
    + split; [destruct j; discriminate|]. intros [_ F]. rewrite (F 0 a) in P; [discriminate|lia|reflexivity].
Qed.
Lemma full_step o u : node_at x o K_InlineDataFull -> at_node x data_vars o u <-> part x o K_Var u.
Proof.
  intros Ho. pose proof Ho as [cs E]. rewrite (at_node_unfold _ _ _ _ _ E). cbn [data_vars]. split.
  - intros (r & Hr & ->). apply in_pick_all in Hr as (j & c & r' & Ej & V & -> & [<-|[]]). apply in_take_while in Ej as [Ej _]. unfold is_var in V. apply andb_prop in V as [N K]. pose proof (node_is_node _ _ _ _ _ _ E Ej N) as Hn.
    unfold is_kind in K. apply kind_eqb_eq in K. rewrite K in Hn. split; [exists j; reflexivity|exact Hn].
  - intros [[j ->] Hv]. exists [j]. split; [|reflexivity]. apply in_pick_all. pose proof Hv as [ds Ev]. rewrite (at_child _ _ _ _ _ E) in Ev. exists j, (Node K_Var ds), []. split; [|split; [reflexivity|split; [reflexivity|left; reflexivity]]].
    apply in_take_while. split; [exact Ev|]. intros j' c' L E'. apply negb_true_iff. unfold is_kind. destruct (kind_eqb_spec (tkind c') K_RParen) as [K|]; [|reflexivity]. exfalso. destruct (Nat.eq_dec j' j) as [->|Nj]; [rewrite Ev in E'; injection E' as <-; discriminate K|].
    destruct c' as [k' w|k' es]; cbn [tkind] in K; subst k'.
    + assert (j' < j) as Lt by lia. refine (doc_order _ _ _ _ _ _ (item_eqb (Leaf K_RParen)) (item_eqb (Sub K_Var)) _ _ _ _ (Leaf K_RParen) (Sub K_Var) D E _ Lt E' Ev _ _ _ _); [vm_compute; reflexivity|left; reflexivity|left; reflexivity|reflexivity|reflexivity].
    + assert (node_at x (o ++ [j']) K_RParen) as Hk by (exists es; rewrite (at_child _ _ _ _ _ E); exact E'). destruct (kid_kinds _ _ _ _ _ _ _ D Ho Hk) as [K|(R & ER & Hin)]; [discriminate|]. injection ER as <-. apply kind_in_In in Hin. vm_compute in Hin. discriminate.
Qed.
Definition data_kind (k : kind) : bool := kind_eqb k K_InlineDataOneVar || kind_eqb k K_InlineDataFull.
Lemma block_step b u : node_at x b K_DataBlock -> at_node x (fun b => match b with Node _ ds => pick data_vars is_node 0 ds | Tok _ _ => [] end) b u <-> exists k o, data_kind k = true /\ part x b k o /\ part x o K_Var u.
Proof.
  intros [cs E]. rewrite (at_node_unfold _ _ _ _ _ E). etransitivity; [apply (pick_first _ _ _ _ data_kind _ E)|].
  - intros k' K. destruct k'; try discriminate K; vm_compute; reflexivity.
  - intros _ y _ N K. destruct y as [|k ds]; [discriminate|]. cbn [tkind] in K. destruct k; try reflexivity; discriminate K.
  - split; intros (k & o & K & P & H); exists k, o; (split; [exact K|]; split; [exact P|]); pose proof P as [_ Ho]; unfold data_kind in K; destruct (kind_eqb_spec k K_InlineDataOneVar) as [Ek|Nk]; [subst k|apply kind_eqb_eq in K; subst k|subst k|apply kind_eqb_eq in K; subst k];
      first [apply (one_step _ _ Ho), H|apply (full_step _ _ Ho), H].
Qed.
Lemma data_step d u : node_at x d K_InlineData -> at_node x inline_data d u <-> exists b k o, part x d K_DataBlock b /\ data_kind k = true /\ part x b k o /\ part x o K_Var u.
Proof.
  intros Hd. pose proof Hd as [cs E]. rewrite (at_node_unfold _ _ _ _ _ E). cbn [inline_data]. etransitivity; [apply (pick_final _ _ _ _ (kind_eqb K_DataBlock) _ E)|].
  - intros k' K. apply kind_eqb_eq in K. subst k'. vm_compute. reflexivity.
  - intros j y Ej N K. destruct y as [|k ds]; [discriminate|]. cbn [tkind] in K. assert (node_at x (d ++ [j]) k) as Hk by (exists ds; rewrite (at_child _ _ _ _ _ E); exact Ej).
    destruct (kid_kinds _ _ _ _ _ _ _ D Hd Hk) as [->|(R & ER & Hin)]; [|injection ER as <-; destruct Hin as [<-|[]]; discriminate K]. eapply error_pick; [exact E|exact Ej|auto].
  - split.
    + intros (k' & b & K & P & H). apply kind_eqb_eq in K. subst k'. pose proof P as [_ Hb]. apply (block_step _ _ Hb) in H as (k & o & H). exists b, k, o. tauto.
    + intros (b & k & o & P & H). exists K_DataBlock, b. split; [reflexivity|]. split; [exact P|]. pose proof P as [_ Hb]. apply (block_step _ _ Hb). eauto.
Qed.
Lemma bind_step b u : node_at x b K_Bind -> at_node x (fun c => match c with Node _ ds => pick_last cast_var is_node 0 ds | Tok _ _ => [] end) b u <-> part x b K_Var u.
Proof.
  intros [cs E]. rewrite (at_node_unfold _ _ _ _ _ E). etransitivity; [apply (pick_final _ _ _ _ (kind_eqb K_Var) _ E)|].
  - intros k' K. apply kind_eqb_eq in K. subst k'. vm_compute. reflexivity.
  - intros _ y _ N K. unfold cast_var, is_var, is_kind. destruct (kind_eqb_spec (tkind y) K_Var) as [Ey|]; [rewrite Ey, kind_eqb_refl in K; discriminate|rewrite andb_false_r; reflexivity].
  - split.
    + intros (k' & c & K & P & H). apply kind_eqb_eq in K. subst k'. apply at_node_cast in H as [_ ->]. exact P.
    + intros P. exists K_Var, u. split; [reflexivity|]. split; [exact P|]. apply at_node_cast. split; [exact (proj2 P)|reflexivity].
Qed.
Definition pattern_kind (k : kind) : bool := braced k || kind_in k [K_GroupOrUnionGraphPattern; K_Filter; K_Bind; K_InlineData].
Definition pattern_shows (k : kind) (m u : path) : Prop :=
  (kind_eqb k K_GroupOrUnionGraphPattern || braced k = true /\ exists g, part x m K_GroupGraphPattern g /\ at_node x visible g u) \/
  (k = K_Filter /\ inside m u /\ variable x u) \/ (k = K_Bind /\ part x m K_Var u) \/
  (k = K_InlineData /\ exists b k' o, part x m K_DataBlock b /\ data_kind k' = true /\ part x b k' o /\ part x o K_Var u).
Lemma pattern_step n u : node_at x n K_GraphPatternNotTriples -> at_node x visible n u <-> exists k m, part x n k m /\ pattern_shows k m u.
Proof.
  intros [cs E]. rewrite (at_node_unfold _ _ _ _ _ E). cbn [visible]. etransitivity; [apply (pick_first _ _ _ _ pattern_kind _ E)|].
  - intros k' K. destruct k'; try discriminate K; vm_compute; reflexivity.
  - intros _ y _ N K. destruct y as [|k ds]; [discriminate|]. cbn [tkind] in *. destruct k; try reflexivity; discriminate K.
  - split.
    + intros (k & m & K & P & H). exists k, m. split; [exact P|]. pose proof P as [_ Hm]. pose proof Hm as [ds Em]. rewrite (at_node_unfold _ _ _ _ _ Em) in H. unfold pattern_shows.
      destruct k; try discriminate K; cbn [tkind] in H;
        try (left; split; [reflexivity|]; first [apply (union_step _ _ Hm)|apply (braced_step _ _ _ Hm eq_refl)]; apply (at_node_unfold _ _ _ _ _ Em); exact H);
        try (right; left; split; [reflexivity|]; apply (at_node_vars _ _ _ Hm); apply (at_node_unfold _ _ _ _ _ Em); exact H);
        try (right; right; left; split; [reflexivity|]; apply (bind_step _ _ Hm); apply (at_node_unfold _ _ _ _ _ Em); exact H);
        try (right; right; right; split; [reflexivity|]; apply (data_step _ _ Hm); apply (at_node_unfold _ _ _ _ _ Em); exact H).
    + intros (k & m & P & H). exists k, m. pose proof P as [_ Hm]. pose proof Hm as [ds Em]. destruct H as [[K H]|[[-> H]|[[-> H]|[-> H]]]].
      * assert (pattern_kind k = true) as Kp by (destruct k; try discriminate K; reflexivity). split; [exact Kp|]. split; [exact P|]. apply (at_node_unfold _ _ _ _ _ Em).
        assert (at_node x visible m u) as H' by (destruct k; try discriminate K; first [apply (union_step _ _ Hm), H|apply (braced_step _ _ _ Hm eq_refl), H]). apply (at_node_unfold _ _ _ _ _ Em) in H'. destruct k; try discriminate K; exact H'.
      * split; [reflexivity|]. split; [exact P|]. apply (at_node_unfold _ _ _ _ _ Em). apply (at_node_vars _ _ _ Hm) in H. apply (at_node_unfold _ _ _ _ _ Em) in H. exact H.
      * split; [reflexivity|]. split; [exact P|]. apply (at_node_unfold _ _ _ _ _ Em). apply (bind_step _ _ Hm) in H. apply (at_node_unfold _ _ _ _ _ Em) in H. exact H.
      * split; [reflexivity|]. split; [exact P|]. apply (at_node_unfold _ _ _ _ _ Em). apply (data_step _ _ Hm) in H. apply (at_node_unfold _ _ _ _ _ Em) in H. exact H.
Qed.
(** no trivia at the end of a node *)
Definition ends_well (cs : list tree) : Prop := match last_of cs with Some (Tok k _) => is_trivia k = false | _ => True end.
Lemma last_of_app {A} (l : list A) a : last_of (l ++ [a]) = Some a.
Proof. unfold last_of. rewrite rev_app_distr. reflexivity. Qed.
Lemma tplace_end c l rest : seen l = pleaves c ++ rest -> ends_well (fst (tplace c l)).
Proof.
  destruct c as [k|k ts|e]; intros Hs.
  - unfold tplace, place. destruct (split_trivia_spec lkind l) as (v & n & -> & -> & F & Hn). unfold seen in Hs. rewrite sig_app, (sig_trivia _ v F) in Hs. cbn [app pleaves] in Hs. destruct n as [|y n]; [discriminate|].
    cbn [fst]. unfold ends_well. rewrite last_of_app. unfold tok. exact Hn.
  - unfold tplace. rewrite place_node. fold tplaces. destruct (is_unit k).
    + destruct (tplaces ts l). cbn [fst]. exact I.
    + destruct (split_trivia lkind l) as [v n]. destruct (tplaces ts n). cbn [fst]. unfold ends_well. rewrite last_of_app. exact I.
  - exact I.
Qed.
Lemma last_of_app2 {A} (l m : list A) : last_of (l ++ m) = match last_of m with Some a => Some a | None => last_of l end.
Proof. unfold last_of. rewrite rev_app_distr. destruct (rev m); reflexivity. Qed.
Lemma tplaces_end ts : forall l rest, seen l = pleavess ts ++ rest -> ends_well (fst (tplaces ts l)).
Proof.
  induction ts as [|c ts IH]; intros l rest Hs; [exact I|]. unfold tplaces. cbn [places]. fold tplace tplaces. change (pleavess (c :: ts)) with (pleaves c ++ pleavess ts) in Hs. rewrite <- app_assoc in Hs.
  pose proof (tplace_seen _ _ _ Hs) as Hs2. apply tplace_end in Hs. destruct (tplace c l) as [a m]. cbn [fst snd] in *. pose proof (IH _ _ Hs2) as H2. destruct (tplaces ts m) as [b m']. cbn [fst] in *.
  unfold ends_well in *. rewrite last_of_app2. destruct (last_of b); assumption.
Qed.
Lemma node_ends p k cs : p <> [] -> at_path x p = Some (Node k cs) -> ends_well cs.
Proof. intros Hp E. destruct (doc_node_at _ _ _ _ _ _ D Hp E) as (us & l & rest & _ & _ & _ & _ & Hs & ->). rewrite <- pleavess_prunes in Hs. eapply tplaces_end, Hs. Qed.
Lemma star_iff sc cs : at_path x sc = Some (Node K_SelectClause cs) -> is_star (Node K_SelectClause cs) = true <-> star x sc.
Proof.
  intros E. assert (sc <> []) as Hp. { intros ->. destruct (doc_root _ _ _ D) as (k & Hk & Ek). pose proof (node_at_fun _ _ _ _ Hk (ex_intro _ cs E)). destruct Ek; congruence. }
  cbn [is_star]. split.
  - intros H. destruct (rev cs) as [|c l] eqn:R; [discriminate|]. assert (nth_error cs (length l) = Some c) as Ec.
    { apply (f_equal (@rev _)) in R. rewrite rev_involutive in R. cbn in R. rewrite R, nth_error_app2, rev_length, Nat.sub_diag by (rewrite rev_length; lia). reflexivity. }
    unfold is_kind in H. apply kind_eqb_eq in H. exists (length l). destruct c as [k w|k ds]; cbn [tkind] in H; subst k; [exists w; rewrite (at_child _ _ _ _ _ E); exact Ec|exfalso].
    assert (node_at x (sc ++ [length l]) K_Star) as Hk by (exists ds; rewrite (at_child _ _ _ _ _ E); exact Ec). destruct (kid_kinds _ _ _ _ _ _ _ D (ex_intro _ cs E) Hk) as [K|(R' & ER & Hin)]; [discriminate|]. injection ER as <-. apply kind_in_In in Hin. vm_compute in Hin. discriminate.
  - intros (i & w & H). rewrite (at_child _ _ _ _ _ E) in H. pose proof (node_ends _ _ _ Hp E) as W. unfold ends_well, last_of in W. destruct (rev cs) as [|c l] eqn:R.
    { apply (f_equal (@rev _)) in R. rewrite rev_involutive in R. subst cs. destruct i; discriminate. }
    assert (nth_error cs (length l) = Some c) as Ec.
    { apply (f_equal (@rev _)) in R. rewrite rev_involutive in R. cbn in R. rewrite R, nth_error_app2, rev_length, Nat.sub_diag by (rewrite rev_length; lia). reflexivity. }
    assert (i < length cs) as Li by (apply nth_error_Some; congruence). assert (length cs = S (length l)) as Ll by (rewrite <- rev_length, R; reflexivity).
    destruct (Nat.eq_dec i (length l)) as [->|Ni]; [rewrite Ec in H; injection H as ->; reflexivity|exfalso]. assert (i < length l) as Lt by lia. cbn [hd_error] in W.
    assert (exists a, In a (item_of c)) as [a Ha] by (destruct c as [k' w'|k' ds]; cbn [item_of]; [rewrite W|]; eexists; left; reflexivity).
    refine (doc_order _ _ _ _ _ _ (item_eqb (Leaf K_Star)) any _ _ _ _ (Leaf K_Star) a D E _ Lt H Ec _ Ha _ _); [vm_compute; reflexivity|left; reflexivity|reflexivity|reflexivity].
Qed.
Lemma pick_only f p k cs K u : at_path x p = Some (Node k cs) -> ordered k (item_eqb (Sub K)) (item_eqb (Sub K)) = true ->
  (exists r, In r (pick f (fun c => is_node c && is_kind K c) 0 cs) /\ u = p ++ r) <-> exists c, part x p K c /\ at_node x f c u.
Proof.
  intros E O. split.
  - intros (r & Hr & ->). apply in_pick in Hr as (j & c & r' & Ej & N & _ & -> & Hr). apply andb_prop in N as [N Kc]. pose proof (node_is_node _ _ _ _ _ _ E Ej N) as Hn. unfold is_kind in Kc. apply kind_eqb_eq in Kc. rewrite Kc in Hn.
    exists (p ++ [j]). split; [split; [eauto|exact Hn]|]. exists c, r'. split; [rewrite (at_child _ _ _ _ _ E); exact Ej|]. split; [exact Hr|apply child_app].
  - intros (c & [[j ->] Hc] & y & r & Ey & Hr & ->). exists (j :: r). split; [|symmetry; apply child_app]. apply in_pick. rewrite (at_child _ _ _ _ _ E) in Ey. exists j, y, r. split; [exact Ey|].
    pose proof Hc as [ds Hc']. rewrite (at_child _ _ _ _ _ E), Ey in Hc'. injection Hc' as ->. split; [cbn [is_node andb]; unfold is_kind; apply kind_eqb_refl|]. split; [|split; [reflexivity|exact Hr]].
    intros j' c' L E'. apply andb_false_iff. destruct (is_node c') eqn:N; [right|left; reflexivity]. unfold is_kind. destruct (kind_eqb_spec (tkind c') K) as [Kc|]; [|reflexivity]. exfalso. pose proof (node_is_node _ _ _ _ _ _ E E' N) as Hn. rewrite Kc in Hn.
    pose proof (node_unique _ _ _ _ _ _ _ _ _ _ D (ex_intro _ cs E) O Hn Hc (proj2 (item_eqb_eq _ _) eq_refl) (proj2 (item_eqb_eq _ _) eq_refl)). lia.
Qed.
Lemma projected_step sc u : node_at x sc K_SelectClause -> at_node x projected sc u <-> part x sc K_Var u.
Proof.
  intros [cs E]. rewrite (at_node_unfold _ _ _ _ _ E). cbn [projected]. etransitivity; [apply (pick_every _ _ _ _ _ _ E); intros y B; apply andb_prop in B as [B _]; exact B|]. split.
  - intros (k' & c & y & P & Ey & B & (y' & r & Ey' & [<-|[]] & ->)). rewrite app_nil_r. unfold is_var in B. apply andb_prop in B as [_ B]. unfold is_kind in B. apply kind_eqb_eq in B. pose proof P as [_ [ds E']]. rewrite Ey in E'. injection E' as ->. cbn [tkind] in B. subst k'. exact P.
  - intros P. pose proof P as [_ [ds E']]. exists K_Var, u, (Node K_Var ds). split; [exact P|]. split; [exact E'|]. split; [reflexivity|]. exists (Node K_Var ds), []. split; [exact E'|]. split; [left; reflexivity|]. symmetry. apply app_nil_r.
Qed.
Lemma star_no_var sc u : node_at x sc K_SelectClause -> star x sc -> ~ part x sc K_Var u.
Proof.
  intros [cs E] (i & w & H) [[j ->] [ds Hv]]. rewrite (at_child _ _ _ _ _ E) in H. rewrite (at_child _ _ _ _ _ E) in Hv. destruct (Nat.lt_trichotomy i j) as [L|[L|L]].
  - refine (doc_order _ _ _ _ _ _ (item_eqb (Leaf K_Star)) any _ _ _ _ (Leaf K_Star) (Sub K_Var) D E _ L H Hv _ _ _ _); [vm_compute; reflexivity|left; reflexivity|left; reflexivity|reflexivity|reflexivity].
  - subst j. congruence.
  - refine (doc_order _ _ _ _ _ _ (item_eqb (Sub K_Var)) (item_eqb (Leaf K_Star)) _ _ _ _ (Sub K_Var) (Leaf K_Star) D E _ L Hv H _ _ _ _); [vm_compute; reflexivity|left; reflexivity|left; reflexivity|reflexivity|reflexivity].
Qed.
Lemma select_step k s u : node_at x s k -> select_like k = true -> at_node x visible s u <-> exists sc, part x s K_SelectClause sc /\ (part x sc K_Var u \/ (star x sc /\ exists wc, part x s K_WhereClause wc /\ at_node x visible wc u)).
Proof.
  intros Hs S. pose proof Hs as [cs E]. rewrite (at_node_unfold _ _ _ _ _ E).
  assert (ordered k (item_eqb (Sub K_SelectClause)) (item_eqb (Sub K_SelectClause)) = true) as O1 by (destruct k; try discriminate S; vm_compute; reflexivity).
  assert (ordered k (item_eqb (Sub K_WhereClause)) (item_eqb (Sub K_WhereClause)) = true) as O2 by (destruct k; try discriminate S; vm_compute; reflexivity).
  assert (visible (Node k cs) = match find (fun c => is_node c && is_kind K_SelectClause c) cs with
      | Some sc => if is_star sc then pick visible (fun c => is_node c && is_kind K_WhereClause c) 0 cs else pick projected (fun c => is_node c && is_kind K_SelectClause c) 0 cs
      | None => [] end) as -> by (destruct k; try discriminate S; reflexivity).
  destruct (find _ cs) as [c|] eqn:F.
  - apply find_some in F as [Hin B]. apply andb_prop in B as [N B]. unfold is_kind in B. apply kind_eqb_eq in B. destruct c as [|k' ds]; [discriminate|]. cbn [tkind] in B. subst k'. apply In_nth_error in Hin as [j Ej].
    assert (at_path x (s ++ [j]) = Some (Node K_SelectClause ds)) as Ec by (rewrite (at_child _ _ _ _ _ E); exact Ej). assert (part x s K_SelectClause (s ++ [j])) as P by (split; [eauto|exists ds; exact Ec]).
    assert (forall c, part x s K_SelectClause c -> c = s ++ [j]) as U.
    { intros c [[i ->] Hc]. f_equal. f_equal. exact (node_unique _ _ _ _ _ _ _ _ _ _ D Hs O1 Hc (proj2 P) eq_refl eq_refl). }
    destruct (is_star (Node K_SelectClause ds)) eqn:St.
    + pose proof (proj1 (star_iff _ _ Ec) St) as St'. etransitivity; [apply (pick_only _ _ _ _ _ _ E O2)|]. split.
      * intros H. exists (s ++ [j]). split; [exact P|right]. split; assumption.
      * intros (sc & Psc & H). rewrite (U _ Psc) in H. destruct H as [H|[_ H]]; [exfalso; exact (star_no_var _ _ (proj2 P) St' H)|exact H].
    + etransitivity; [apply (pick_only _ _ _ _ _ _ E O1)|]. split.
      * intros (c & Pc & H). exists c. split; [exact Pc|left]. apply (projected_step _ _ (proj2 Pc)), H.
      * intros (sc & Psc & [H|[St' _]]); [exists sc; split; [exact Psc|apply (projected_step _ _ (proj2 Psc)), H]|]. rewrite (U _ Psc) in St'. apply (star_iff _ _ Ec) in St'. congruence.
  - split; [intros (r & [] & _)|]. intros (sc & [[j ->] [ds Hc]] & _). rewrite (at_child _ _ _ _ _ E) in Hc. exfalso. pose proof (find_none _ _ F _ (nth_error_In _ _ Hc)) as K. discriminate K.
Qed.
(** ** [visible_variables] is [scope false] *)
Definition scoped (k : kind) : bool := kind_in k [K_WhereClause; K_GroupGraphPattern; K_GraphPatternNotTriples; K_SubSelect].
Fixpoint size (y : tree) : nat := match y with Tok _ _ => 1 | Node _ cs => S (list_sum (map size cs)) end.
Lemma size_child cs j c : nth_error cs j = Some c -> size c <= list_sum (map size cs).
Proof. revert j. induction cs as [|a cs IH]; intros [|j] H; try discriminate; cbn in *; [injection H as <-; lia|]. specialize (IH _ H). unfold list_sum in IH. lia. Qed.
Lemma part_size p k k' c cs : at_path x p = Some (Node k cs) -> part x p k' c -> exists ds, at_path x c = Some (Node k' ds) /\ size (Node k' ds) < size (Node k cs).
Proof. intros E [[j ->] [ds Ec]]. exists ds. split; [exact Ec|]. rewrite (at_child _ _ _ _ _ E) in Ec. apply size_child in Ec. cbn [size] in *. lia. Qed.
Lemma visible_scope n : forall p k cs u, at_path x p = Some (Node k cs) -> size (Node k cs) < n -> scoped k = true -> at_node x visible p u -> scope false x p u.
Proof.
  induction n as [|n IH]; intros p k cs u E L K H; [lia|]. pose proof (ex_intro _ cs E : node_at x p k) as Hp. unfold scoped in K. apply kind_in_In in K. destruct K as [<-|[<-|[<-|[<-|[]]]]].
  - apply (where_step _ _ Hp) in H as (g & P & H). destruct (part_size _ _ _ _ _ E P) as (ds & Eg & Lg). eapply in_where; [exact Hp|exact P|]. eapply IH; [exact Eg|lia|reflexivity|exact H].
  - apply (group_step _ _ Hp) in H as [(s & P & H)|[(s & b & P & P2 & Hi & V)|(s & m & P & P2 & H)]]; destruct (part_size _ _ _ _ _ E P) as (ds & Es & Ls).
    + eapply in_sub_select; [exact Hp|exact P|]. eapply IH; [exact Es|lia|reflexivity|exact H].
    + eapply in_triples; eassumption.
    + destruct (part_size _ _ _ _ _ Es P2) as (es & Em & Lm). eapply in_pattern; [exact Hp|exact P|exact P2|]. eapply IH; [exact Em|lia|reflexivity|exact H].
  - apply (pattern_step _ _ Hp) in H as (k & m & P & H). destruct H as [(K & g & Pg & H)|[(-> & Hi & V)|[(-> & H)|(-> & b & k' & o & P1 & K' & P2 & P3)]]].
    + destruct (part_size _ _ _ _ _ E P) as (ds & Em & Lm). destruct (part_size _ _ _ _ _ Em Pg) as (es & Eg & Lg). assert (scope false x g u) as Sg by (eapply IH; [exact Eg|lia|reflexivity|exact H]).
      destruct (kind_eqb_spec k K_MinusGraphPattern) as [Ek|Nk]; [subst k; eapply in_minus; [reflexivity|exact Hp|exact P|exact Pg|exact Sg]|].
      eapply (in_group _ _ k); [|exact Hp|exact P|exact Pg|exact Sg]. destruct k; try discriminate K; try congruence; cbn; auto.
    + eapply in_filter; [reflexivity|exact Hp|exact P|exact Hi|exact V].
    + eapply in_bind; eassumption.
    + eapply (in_values _ _ k'); [|exact Hp|exact P|exact P1|exact P2|exact P3]. destruct k'; try discriminate K'; cbn; auto.
  - apply (select_step _ _ _ Hp eq_refl) in H as (sc & P & [H|(St & wc & P2 & H)]).
    + eapply in_projection; eassumption.
    + destruct (part_size _ _ _ _ _ E P2) as (ds & Ew & Lw). eapply in_star; [exact Hp|exact P|exact St|exact P2|]. eapply IH; [exact Ew|lia|reflexivity|exact H].
Qed.
Lemma scope_visible p u : scope false x p u -> at_node x visible p u.
Proof.
  induction 1 as [wc g u H P _ IH|g s u H P _ IH|g s b u H P P2 Hi V|g s n u H P P2 _ IH|k n m g u K H P P2 _ IH|n b u H P P2|k n d b o u K H P P2 P3 P4|s sc wc u H P St P2 _ IH|s sc u H P P2|k n m v u St|n m g u _ H P P2 _ IH|n f u _ H P Hi V].
  - apply (where_step _ _ H). eauto.
  - apply (group_step _ _ H). left. eauto.
  - apply (group_step _ _ H). right. left. eauto 10.
  - apply (group_step _ _ H). right. right. eauto.
  - apply (pattern_step _ _ H). exists k, m. split; [exact P|]. left. split; [|eauto]. destruct K as [<-|[<-|[<-|[<-|[]]]]]; reflexivity.
  - apply (pattern_step _ _ H). exists K_Bind, b. split; [exact P|]. right. right. left. auto.
  - apply (pattern_step _ _ H). exists K_InlineData, d. split; [exact P|]. right. right. right. split; [reflexivity|]. exists b, k, o. split; [exact P2|]. split; [destruct K as [<-|[<-|[]]]; reflexivity|]. auto.
  - apply (select_step _ _ _ H eq_refl). exists sc. split; [exact P|]. right. eauto.
  - apply (select_step _ _ _ H eq_refl). exists sc. auto.
  - discriminate.
  - apply (pattern_step _ _ H). exists K_MinusGraphPattern, m. split; [exact P|]. left. split; [reflexivity|]. eauto.
  - apply (pattern_step _ _ H). exists K_Filter, f. split; [exact P|]. right. left. auto.
Qed.
Theorem in_visible_at p k u : node_at x p k -> scoped k = true -> In u (visible_at x p) <-> scope false x p u.
Proof.
  intros [cs E] K. unfold visible_at. rewrite E, in_map_iff. split.
  - intros (r & <- & Hr). eapply visible_scope; [exact E|apply Nat.lt_succ_diag_r|exact K|]. apply (at_node_unfold _ _ _ _ _ E). eauto.
  - intros H. apply scope_visible in H. apply (at_node_unfold _ _ _ _ _ E) in H as (r & H & ->). eauto.
Qed.
End steps.
(** the standard's scope and the server's, where there is neither FILTER nor MINUS, and no variable for a graph or service *)
Lemma scope_agree x : (forall p, ~ node_at x p K_Filter) -> (forall p, ~ node_at x p K_MinusGraphPattern) -> (forall k m v u, In k [K_GraphGraphPattern; K_ServiceGraphPattern] -> node_at x m k -> part x m K_VarOrIri v -> ~ part x v K_Var u) ->
  forall p u, scope false x p u <-> scope true x p u.
Proof.
  intros F M T p u. split; induction 1; try (exfalso; match goal with P : part x _ K_Filter ?f |- _ => exact (F f (proj2 P)) | P : part x _ K_MinusGraphPattern ?m |- _ => exact (M m (proj2 P)) | K : In _ [K_GraphGraphPattern; K_ServiceGraphPattern] |- _ => eapply T; [exact K| | |]; [|eassumption..]; match goal with P : part _ _ _ _ |- _ => exact (proj2 P) end end);
    try discriminate; [eapply in_where|eapply in_sub_select|eapply in_triples|eapply in_pattern|eapply in_group|eapply in_bind|eapply in_values|eapply in_star|eapply in_projection|eapply in_where|eapply in_sub_select|eapply in_triples|eapply in_pattern|eapply in_group|eapply in_bind|eapply in_values|eapply in_star|eapply in_projection]; eassumption.
Qed.
