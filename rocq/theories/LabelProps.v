(** C69, C70: the code actions that add a label and that contract triples with the same subject. *)
From Coq Require Import String List Arith NArith Bool Lia Sorted Permutation.
Import ListNotations.
From Verif Require Import ServerModel Kinds KindFacts ParserSyntax ParserModel GrammarData ParserTree ParserTerm ParserBuild ParserSpec ParserChecks ParserOutcome ParserProps
  TextModel TextSpec TextProofs Utf8Model LexerRegex LexerData LexerModel LexerProofs LexerSpec LexerProps FormatData FormatModel FormatTree FormatText FormatChain FormatParse FormatWeave
  TreeModel TreePlace TreeItems TreeKids TreeShape TreeRename VarModel VarSpec VarRegions VarDoc LexRename VarProps DiagModel DiagSpec AstFacts DiagFacts DiagGroup DiagRest ParseTreeProps LexLayout DiagProps OnTypeModel OnTypeProofs OnTypeProps FoldProps LayoutProps LexInsert PrologueRun PrologueSwap QuickFixModel QuickFixFacts CoverFacts RemoveFacts UngramData Replant LexMiddle QuickFixProps RemoveProps ShortenFacts GrammarCheck DiagScope ShortenProps SelectModel SelectFacts SelectProps ResultModel ResultFacts ResultProps AggregateProps FilterModel FilterProps LabelModel.

(** ** no triple is in another *)
(** the kinds above a triple *)
Definition above_step (ks : list kind) : list kind :=
  filter (fun r => kind_in r ks || match rule_of r with Some R => existsb (fun k => kind_in k ks) (callees (r_body R)) | None => false end) all_kinds.
Definition above_triples : list kind := Eval vm_compute in Nat.iter 40 above_step [K_TriplesBlock].
Lemma above_closed : forallb (fun k => called_from k above_triples && negb (kind_eqb k K_Error) && negb (kind_eqb k K_TriplesSameSubjectPath)) above_triples = true.
Proof. vm_compute. reflexivity. Qed.
Lemma triples_above : In K_TriplesBlock above_triples.
Proof. assert (kind_in K_TriplesBlock above_triples = true) as H by (vm_compute; reflexivity). revert H. generalize above_triples. intros l H. apply kind_in_In, H. Qed.
Global Opaque above_triples.
Lemma above_up err t x : doc_tree err t x -> forall r p k, node_at x (p ++ r) k -> In k above_triples -> exists k', node_at x p k' /\ In k' above_triples.
Proof.
  intros D r. induction r as [|i r IH] using rev_ind; intros p k H Hk; [rewrite app_nil_r in H; eauto|]. rewrite app_assoc in H.
  pose proof (proj1 (forallb_forall _ _) above_closed _ Hk) as C. cbv beta in C. apply andb_true_iff in C as [C _]. apply andb_true_iff in C as [C Ne]. apply negb_true_iff in Ne.
  destruct (doc_parent_in _ _ _ _ _ _ _ D H ltac:(intros ->; discriminate) C) as (k' & H' & Hk'). exact (IH p k' H' Hk').
Qed.
Lemma no_triple_inside err t x p r : doc_tree err t x -> node_at x p K_TriplesSameSubjectPath -> node_at x (p ++ r) K_TriplesSameSubjectPath -> r = [].
Proof.
  intros D H K. destruct r as [|i r _] using rev_ind; [reflexivity|exfalso]. rewrite app_assoc in K.
  destruct (doc_parent_in _ _ _ _ _ _ [K_TriplesBlock] D K ltac:(discriminate) ltac:(vm_compute; reflexivity)) as (k & Hk & [<-|[]]).
  destruct (above_up _ _ _ D r p K_TriplesBlock Hk triples_above) as (k' & H' & Hk'). pose proof (node_at_fun _ _ _ _ H H') as <-.
  pose proof (proj1 (forallb_forall _ _) above_closed _ Hk') as C. cbv beta in C. rewrite kind_eqb_refl, andb_false_r in C. discriminate.
Qed.

(** ** the property list of a triple *)
Definition property_list (x : tree) (p c : path) : Prop := part x p K_PropertyListPath c \/ part x p K_PropertyListPathNotEmpty c.
Lemma triple_kids err t x p i k : doc_tree err t x -> node_at x p K_TriplesSameSubjectPath -> ~ flawed x p -> node_at x (p ++ [i]) k ->
  In k [K_VarOrTerm; K_PropertyListPathNotEmpty; K_TriplesNodePath; K_PropertyListPath; K_ReifiedTripleBlockPath].
Proof.
  intros D [cs E] F [ds Ei]. assert (In (Node k ds) cs) as Hin. { rewrite (AstFacts.at_child _ _ _ _ _ E) in Ei. eapply nth_error_In, Ei. }
  destruct (doc_kids _ _ _ _ _ _ _ _ D E Hin) as [->|(R & ER & Hk)].
  - exfalso. apply F. exists (p ++ [i]). split; [eexists; reflexivity|exists ds; exact Ei].
  - vm_compute in ER. injection ER as <-. vm_compute in Hk. exact Hk.
Qed.
Lemma subject_first err t x p s : doc_tree err t x -> node_at x p K_TriplesSameSubjectPath -> subject x p s -> first_child x p = Some s.
Proof. intros D H S. apply (triple_subject_iff _ _ _ _ _ D H) in S. unfold triple_subject in S. destruct (first_child x p) as [q|]; [|discriminate]. destruct (_ || _); [exact S|discriminate]. Qed.
Lemma property_list_iff err t x p s l : doc_tree err t x -> node_at x p K_TriplesSameSubjectPath -> ~ flawed x p -> subject x p s -> properties_list_path x p = Some l -> property_list x p l.
Proof.
  intros D H F S E. unfold properties_list_path in E. destruct (nth_error (child_nodes x p) 1) as [q|] eqn:Eq; [|discriminate]. destruct (_ || _) eqn:K; [|discriminate]. injection E as ->.
  apply nth_error_In, in_child_nodes in Eq as (i & k & -> & Hk). apply orb_true_iff in K as [K|K]; apply (kind_is_iff _ _ _ _ Hk) in K; subst k; [left|right]; (split; [eauto|exact Hk]).
Qed.
Lemma property_list_none err t x p s : doc_tree err t x -> node_at x p K_TriplesSameSubjectPath -> ~ flawed x p -> subject x p s -> properties_list_path x p = None <-> forall c, ~ property_list x p c.
Proof.
  intros D H F S. pose proof (subject_first _ _ _ _ _ D H S) as Fs. unfold properties_list_path. pose proof (child_nodes_sorted x p) as So. pose proof (in_child_nodes x p) as Hin. unfold first_child in Fs.
  destruct (child_nodes x p) as [|s0 l]; [discriminate|]. injection Fs as ->. destruct l as [|q l]; cbn [nth_error].
  - split; [intros _|reflexivity]. intros c [[[i ->] Hc]|[[i ->] Hc]]; (assert (In (p ++ [i]) [s]) as [E|[]] by (apply Hin; eauto)); rewrite <- E in Hc; destruct S as [[_ S]|[_ S]]; pose proof (node_at_fun _ _ _ _ S Hc); discriminate.
  - destruct (proj1 (Hin q) ltac:(right; left; reflexivity)) as (i & k & -> & Hk). destruct (proj1 (Hin s) ltac:(left; reflexivity)) as (j & k' & -> & Hk').
    apply StronglySorted_inv in So as [_ So]. inversion So as [|? ? B _]; subst. apply before_child in B.
    assert (In k [K_PropertyListPathNotEmpty; K_PropertyListPath]) as Kk.
    { pose proof (triple_kids _ _ _ _ _ _ D H F Hk) as T. assert (Hs : forall K, In K [K_VarOrTerm; K_TriplesNodePath] -> k <> K).
      { intros K HK ->. assert (subject x p (p ++ [i])) as S2 by (destruct HK as [<-|[<-|[]]]; [left|right]; (split; [eauto|exact Hk])). pose proof (subject_fun _ _ _ _ _ _ D H S S2) as E. apply app_inj_tail in E as [_ ->]. lia. }
      destruct T as [<-|[<-|[<-|[<-|[<-|[]]]]]]; [exfalso; apply (Hs K_VarOrTerm); [left; reflexivity|reflexivity]|left; reflexivity|exfalso; apply (Hs K_TriplesNodePath); [right; left; reflexivity|reflexivity]|right; left; reflexivity|exfalso].
      pose proof (subject_first _ _ _ _ _ D H S) as F1. assert (ordered K_TriplesSameSubjectPath any_sub (item_eqb (Sub K_ReifiedTripleBlockPath)) = true) as O by (vm_compute; reflexivity).
      apply (first_child_iff _ _ _ _ _ _ _ D H O) in Hk. unfold of_kind in Hk. rewrite F1 in Hk. destruct (kind_is x (p ++ [j]) K_ReifiedTripleBlockPath); [|discriminate]. injection Hk as E. apply app_inj_tail in E as [_ E]. lia. }
    assert (kind_is x (p ++ [i]) K_PropertyListPath || kind_is x (p ++ [i]) K_PropertyListPathNotEmpty = true) as ->.
    { rewrite !(kind_is_node _ _ _ _ Hk). destruct Kk as [<-|[<-|[]]]; reflexivity. }
    split; [discriminate|]. intros N. exfalso. apply (N (p ++ [i])). destruct Kk as [<-|[<-|[]]]; [right|left]; (split; [eauto|exact Hk]).
Qed.
Lemma enclosing_is err t x p i r : doc_tree err t x -> node_at x p K_TriplesSameSubjectPath -> (exists k w, at_path x (p ++ i :: r) = Some (Tok k w)) -> enclosing_triple x (p ++ i :: r) = Some p.
Proof.
  intros D H (k & w & E). unfold enclosing_triple, parent_ancestors, parent. destruct (p ++ i :: r) as [|z0 z] eqn:Ez; [destruct p; discriminate|]. rewrite <- Ez in *. clear z0 z Ez.
  assert (exists s, removelast (p ++ i :: r) = p ++ s /\ exists j, i :: r = s ++ [j]) as (s & -> & j & Es).
  { destruct (path_split (i :: r)) as [N|(s & j & ->)]; [discriminate|]. exists s. rewrite app_assoc, removelast_last. eauto. }
  apply find_ancestors. split; [apply (kind_is_iff _ _ _ _ H); reflexivity|]. split; [eauto|]. intros q s' Eq Kq.
  destruct (app_cut _ _ _ _ Eq) as [(u & -> & Eu)|(u & _ & -> & _)]; [|rewrite app_length; lia].
  assert (node_at x (p ++ u) K_TriplesSameSubjectPath) as Hn.
  { unfold DiagModel.kind_is, kind_at in Kq. destruct (at_path x (p ++ u)) as [[k' w'|k' cs]|] eqn:A; cbn [option_map] in Kq; try discriminate.
    - exfalso. rewrite Es, Eu, <- app_assoc, app_assoc, at_path_app, A in E. destruct s'; discriminate.
    - apply kind_eqb_eq in Kq. cbn [tkind] in Kq. subst k'. exists cs. exact A. }
  rewrite (no_triple_inside _ _ _ _ _ D H Hn), app_nil_r. lia.
Qed.

(** ** C70: contracting triples with the same subject *)
(** the first of at least two triples of a group graph pattern whose subjects are written alike *)
Definition leads_group (x : tree) (p : path) : Prop := (exists q, q <> p /\ alike x p q) /\ forall q, alike x p q -> ~ doc_before q p.
Lemma kind_is_some x p k : kind_is x p k = true -> exists y, at_path x p = Some y.
Proof. unfold DiagModel.kind_is, kind_at. destruct (at_path x p); [eauto|discriminate]. Qed.
Lemma start_some err t x p y : doc_tree err t x -> at_path x p = Some y -> exists q, from_byte_index (start_at x p) t = Some q.
Proof. intros D E. destruct (start_line _ _ _ _ _ D E) as (q & Q & _). eauto. Qed.
Lemma end_some err t x p y : doc_tree err t x -> at_path x p = Some y -> exists q, from_byte_index (end_at x p) t = Some q.
Proof. intros D E. destruct (doc_place _ _ _ _ _ D E) as (u & v & T & _ & B & _). exists (position_after (u ++ tree_text y)). rewrite <- B, T, app_assoc. apply from_byte_index_boundary. Qed.
Lemma removed_done err t x p k : doc_tree err t x -> node_at x p k -> exists e, removed_triple x t p = VDone e /\ new_text e = [].
Proof.
  intros D [cs E]. unfold removed_triple. set (a := match prev_element x (removelast p) with Some _ => _ | None => _ end). set (b := match find _ _ with Some _ => _ | None => _ end).
  assert (exists q, from_byte_index a t = Some q) as [qa ->].
  { subst a. destruct (prev_element x (removelast p)) as [w|]; [|exact (start_some _ _ _ _ _ D E)]. destruct (kind_is x w K_WHITESPACE) eqn:K; [|exact (start_some _ _ _ _ _ D E)]. apply kind_is_some in K as [y Y]. exact (start_some _ _ _ _ _ D Y). }
  assert (exists q, from_byte_index b t = Some q) as [qb ->]; [|eauto].
  subst b. destruct (find _ _) as [n|] eqn:F; [|exact (end_some _ _ _ _ _ D E)]. apply find_some in F as [_ F]. assert (exists y, at_path x n = Some y) as [y Y] by (apply orb_true_iff in F as [F|F]; exact (kind_is_some _ _ _ F)).
  destruct (next_element x n) as [m|]; [|exact (end_some _ _ _ _ _ D Y)]. destruct (kind_is x m K_Dot) eqn:K; [|exact (end_some _ _ _ _ _ D Y)]. apply kind_is_some in K as [z Z]. exact (end_some _ _ _ _ _ D Z).
Qed.
Lemma first_token_of err t x p k cs : doc_tree err t x -> p <> [] -> at_path x p = Some (Node k cs) -> exists i r, hd_error (leaf_paths (Node k cs)) = Some (i :: r) /\ exists kw w, at_path x (p ++ i :: r) = Some (Tok kw w).
Proof.
  intros D N E. pose proof (doc_node_at _ _ _ _ _ _ D N E) as P. apply placed_sig in P. destruct (leaf_paths (Node k cs)) as [|r l] eqn:El.
  - exfalso. apply P. pose proof (leaf_count (Node k cs)) as L. rewrite El in L. unfold sig. destruct (FormatWeave.leaves (Node k cs)); [reflexivity|discriminate].
  - assert (In r (leaf_paths (Node k cs))) as Hr by (rewrite El; left; reflexivity). apply in_leaf_paths in Hr as (kw & w & Hr). destruct r as [|i r]; [discriminate|]. exists i, r. split; [reflexivity|]. exists kw, w. rewrite at_path_app, E. exact Hr.
Qed.
Section Crash.
Context (width : char -> nat) (align : bool) (tab : option nat).
Lemma indent_outcome err t x p s : doc_tree err t x -> node_at x p K_TriplesSameSubjectPath -> ~ flawed x p -> subject x p s ->
  (contract_indent width align tab x t p = VPanic /\ align = true /\ forall c, ~ property_list x p c) \/
  ((exists n, contract_indent width align tab x t p = VDone n) /\ (align = true -> exists c, property_list x p c)).
Proof.
  intros D H F S. unfold contract_indent. pose proof H as [cs E]. destruct align.
  - assert (p <> []) as Np. { intros ->. destruct (doc_root _ _ _ D) as (r & R & Hr). pose proof (node_at_fun _ _ _ _ H R). destruct Hr; congruence. }
    rewrite E. destruct (first_token_of _ _ _ _ _ _ D Np E) as (i & r & -> & Hk). unfold predicate_alignment_column. rewrite (enclosing_is _ _ _ _ _ _ D H Hk).
    destruct (properties_list_path x p) as [l|] eqn:El.
    + right. pose proof (property_list_iff _ _ _ _ _ _ D H F S El) as PL. assert (exists y, at_path x l = Some y) as [y Y] by (destruct PL as [[_ [? PL]]|[_ [? PL]]]; eauto).
      destruct (OnTypeProps.column_done width _ _ _ _ _ D Y) as [n ->]. cbn [vbind expect_some]. split; eauto.
    + left. cbn [vbind expect_some]. split; [reflexivity|]. split; [reflexivity|]. apply (property_list_none _ _ _ _ _ D H F S), El.
  - right. split; [|discriminate]. pose proof S as S'. apply (triple_subject_iff _ _ _ _ _ D H) in S. rewrite S. assert (exists y, at_path x s = Some y) as [y Y] by (destruct S' as [[_ [? S']]|[_ [? S']]]; eauto).
    destruct (OnTypeProps.column_done width _ _ _ _ _ D Y) as [n ->]. cbn [vbind]. eauto.
Qed.
Lemma vmap_outcome {A B} (f : A -> vout B) l : (forall a, In a l -> f a = VPanic \/ exists b, f a = VDone b) ->
  (vmap f l = VPanic /\ exists a, In a l /\ f a = VPanic) \/ ((exists bs, vmap f l = VDone bs) /\ forall a, In a l -> exists b, f a = VDone b).
Proof.
  induction l as [|a l IH]; intros H; [right; split; [eexists; reflexivity|intros a []]|]. cbn [vmap]. destruct (H a ltac:(left; reflexivity)) as [E|[b E]]; rewrite E; cbn [vbind].
  - left. split; [reflexivity|]. exists a. split; [left; reflexivity|exact E].
  - destruct (IH ltac:(intros; apply H; right; assumption)) as [[E' (c & Hc & Ec)]|[[bs E'] G]]; rewrite E'; cbn [vbind].
    + left. split; [reflexivity|]. exists c. split; [right; exact Hc|exact Ec].
    + right. split; [eauto|]. intros c [<-|Hc]; [eauto|exact (G _ Hc)].
Qed.
Lemma contract_outcome err t x p ps s : doc_tree err t x -> node_at x p K_TriplesSameSubjectPath -> ~ flawed x p -> subject x p s -> (forall q, In q ps -> node_at x q K_TriplesSameSubjectPath) ->
  (contract_triples width align tab x t (p :: ps) = VPanic /\ align = true /\ forall c, ~ property_list x p c) \/
  ((exists es, contract_triples width align tab x t (p :: ps) = VDone es) /\ (align = true -> exists c, property_list x p c)).
Proof.
  intros D H F S Hps. unfold contract_triples. destruct (vmap_outcome (removed_triple x t) ps) as [[_ (q & Hq & Eq)]|[[es ->] _]].
  - intros q Hq. destruct (removed_done _ _ _ _ _ D (Hps _ Hq)) as (e & E & _). eauto.
  - destruct (removed_done _ _ _ _ _ D (Hps _ Hq)) as (e & E & _). congruence.
  - cbn [vbind]. destruct (indent_outcome _ _ _ _ _ D H F S) as [[-> K]|[[n ->] K]]; cbn [vbind]; [left; split; [reflexivity|exact K]|right; split; [|exact K]].
    destruct H as [cs E]. destruct (end_some _ _ _ _ _ D E) as [q ->]. cbn [expect_some vbind]. eauto.
Qed.
Lemma group_leader err t x g w p ps : doc_tree err t x -> node_at x g K_GroupGraphPattern -> In (w, p :: ps) (groups_of x g) -> (2 <=? length (p :: ps)) = true -> leads_group x p /\ exists s, subject x p s.
Proof.
  intros D Hg Hm L. pose proof (group_sorted _ _ _ _ Hm) as So. pose proof (group_alike _ _ _ _ _ _ _ D Hg Hm (or_introl eq_refl)) as A. split; [split|].
  - apply (two_members _ p (sorted_NoDup _ So) (or_introl eq_refl)) in L as (q & Nq & Hq). exists q. split; [exact Nq|apply A, Hq].
  - intros q Hq B. apply A in Hq as [<-|Hq]; [exact (doc_before_irrefl _ B)|]. apply StronglySorted_inv in So as [_ So]. pose proof (proj1 (Forall_forall _ _) So _ Hq) as B'. exact (doc_before_irrefl _ (doc_before_trans _ _ _ B B')).
  - pose proof (proj1 (A p) (or_introl eq_refl)) as (? & s & _ & _ & _ & _ & _ & S & _). eauto.
Qed.
End Crash.
Lemma big_groups x order w m : any_order order -> In (w, m) (find_all_triple_groups order x) <-> exists g, node_at x g K_GroupGraphPattern /\ In (w, m) (groups_of x g) /\ (2 <=? length m) = true.
Proof.
  intros Perm. unfold find_all_triple_groups. rewrite in_flat_map. split.
  - intros (g & Hg & Hm). apply filter_In in Hm as [Hm L]. apply in_nodes_of_kind in Hg as (r & -> & Hg). exists r. split; [exact Hg|]. split; [eapply Permutation_in; [apply Perm|exact Hm]|exact L].
  - intros (g & Hg & Hm & L). exists g. split; [apply in_nodes_of_kind; exists g; auto|]. apply filter_In. split; [|exact L]. eapply Permutation_in; [apply Permutation_sym, Perm|exact Hm].
Qed.
Lemma big_group err t x order w m : doc_tree err t x -> any_order order -> In (w, m) (find_all_triple_groups order x) ->
  exists p ps s, m = p :: ps /\ ps <> [] /\ leads_group x p /\ node_at x p K_TriplesSameSubjectPath /\ ~ flawed x p /\ subject x p s /\ StronglySorted doc_before (p :: ps) /\ (forall q, In q (p :: ps) <-> alike x p q).
Proof.
  intros D Perm Hm. apply (big_groups _ _ _ _ Perm) in Hm as (g & Hg & Hm & L). destruct m as [|p ps]; [discriminate|]. destruct (group_leader _ _ _ _ _ _ _ D Hg Hm L) as [Lp _].
  pose proof (group_alike _ _ _ _ _ _ _ D Hg Hm (or_introl eq_refl)) as A. destruct (proj1 (A p) (or_introl eq_refl)) as (? & s & ? & (_ & N & _) & _ & F & _ & S & _).
  exists p, ps, s. split; [reflexivity|]. split; [intros ->; discriminate|]. split; [exact Lp|]. split; [exact N|]. split; [exact F|]. split; [exact S|]. split; [exact (group_sorted _ _ _ _ Hm)|exact A].
Qed.
Lemma leader_group err t x order p : doc_tree err t x -> any_order order -> leads_group x p -> exists w ps, In (w, p :: ps) (find_all_triple_groups order x).
Proof.
  intros D Perm [(q & Nq & Aq) Min]. destruct (alike_grouped _ _ _ _ _ D Aq) as (g & w & m & Hg & Hm & Hp). pose proof (group_alike _ _ _ _ _ _ _ D Hg Hm Hp) as A. pose proof (group_sorted _ _ _ _ Hm) as So.
  destruct m as [|p0 ps]; [destruct Hp|]. assert (p0 = p) as ->. { destruct Hp as [E|Hp]; [exact E|]. apply StronglySorted_inv in So as [_ So]. pose proof (proj1 (Forall_forall _ _) So _ Hp) as B. exfalso. apply (Min p0); [apply A; left; reflexivity|exact B]. }
  exists w, ps. apply (big_groups _ _ _ _ Perm). exists g. split; [exact Hg|]. split; [exact Hm|]. apply (two_members _ p (sorted_NoDup _ So) Hp). exists q. split; [exact Nq|apply A, Aq].
Qed.
Section Contracted.
Context (width : char -> nat) (order : path -> list (text * list path) -> list (text * list path)) (align : bool) (tab : option nat) (err : text -> nat) (t : text) (x : tree) (errs : list parse_error).
Hypotheses (HP : doc_parse err t x errs) (HO : any_order order) (HQ : query_doc x).
Lemma contract_groups :
  (contract_all width order align tab x t = VPanic /\ align = true /\ exists p, leads_group x p /\ forall c, ~ property_list x p c) \/
  ((exists ess, vmap (fun g => contract_triples width align tab x t (snd g)) (find_all_triple_groups order x) = VDone ess /\ contract_all width order align tab x t = VDone (match keep_ranges [] (concat ess) with [] => None | es => Some es end)) /\
   (align = true -> forall p, leads_group x p -> exists c, property_list x p c)).
Proof.
  pose proof (doc_parse_tree _ _ _ _ HP) as D. destruct HQ as [cs Ex]. unfold contract_all. destruct x as [k0 w0|k0 cs0]; [discriminate|]. injection Ex as -> ->. set (y := Node K_QueryUnit cs) in *.
  assert (G : forall z, In z (find_all_triple_groups order y) ->
    (contract_triples width align tab y t (snd z) = VPanic /\ align = true /\ exists p, leads_group y p /\ forall c, ~ property_list y p c) \/
    ((exists es, contract_triples width align tab y t (snd z) = VDone es) /\ (align = true -> forall p, hd_error (snd z) = Some p -> exists c, property_list y p c))).
  { intros [w m] Hm. destruct (big_group _ _ _ _ _ _ D HO Hm) as (p & ps & s & -> & _ & Lp & N & F & S & _ & A). cbn [snd hd_error].
    destruct (contract_outcome width align tab _ _ _ p ps s D N F S) as [(E & -> & K)|[E K]]; [|left; split; [exact E|]; split; [reflexivity|exists p; auto]|right; split; [exact E|]; intros Al q [= <-]; exact (K Al)].
    intros q Hq. destruct (proj1 (A q) (or_intror Hq)) as (? & ? & ? & _ & (_ & N' & _) & _). exact N'. }
  destruct (vmap_outcome (fun g => contract_triples width align tab y t (snd g)) (find_all_triple_groups order y)) as [[-> (z & Hz & Ez)]|[[ess ->] K]].
  - intros z Hz. destruct (G z Hz) as [[E _]|[E _]]; auto.
  - left. split; [reflexivity|]. destruct (G z Hz) as [[_ E]|[[es E] _]]; [exact E|congruence].
  - right. split; [exists ess; auto|]. intros Al p Lp. destruct (leader_group _ _ _ order _ D HO Lp) as (w & ps & Hp). destruct (G _ Hp) as [[E _]|[_ E]]; [destruct (K _ Hp) as [es E']; congruence|]. exact (E Al _ eq_refl).
Qed.
(** the request for code actions crashes exactly if predicates are to be aligned and the first triple of a group has no predicate *)
Theorem C70_crash : contract_all width order align tab x t = VPanic <-> align = true /\ exists p, leads_group x p /\ forall c, ~ property_list x p c.
Proof.
  destruct contract_groups as [[E K]|[(ess & _ & E) K]]; [tauto|]. rewrite E. split; [discriminate|]. intros [Al (p & Lp & N)]. destruct (K Al p Lp) as [c Hc]. destruct (N c Hc).
Qed.
Theorem C70_answers : ~ (align = true /\ exists p, leads_group x p /\ forall c, ~ property_list x p c) -> exists a, contract_all width order align tab x t = VDone a.
Proof. intros N. destruct contract_groups as [[_ K]|[(ess & _ & E) _]]; [destruct (N K)|eauto]. Qed.
End Contracted.

Lemma element_at x p q : In q (elements x p) -> exists i y, q = p ++ [i] /\ at_path x q = Some y.
Proof.
  unfold elements. destruct (at_path x p) as [[k w|k cs]|] eqn:E; [intros []| |intros []]. intros H. apply in_map_iff in H as (i & <- & H). apply in_seq in H. destruct (nth_error cs i) as [y|] eqn:N; [|apply nth_error_None in N; lia].
  exists i, y. split; [reflexivity|]. rewrite (AstFacts.at_child _ _ _ _ _ E). exact N.
Qed.
Lemma next_is x p n : next_element x p = Some n -> n = removelast p ++ [S (last p 0)] /\ exists y, at_path x n = Some y.
Proof.
  unfold next_element. intros H. assert (exists y, at_path x n = Some y) as Y by (apply nth_error_In, element_at in H as (i & y & _ & Y); eauto). split; [|exact Y].
  unfold elements in H. destruct (at_path x (removelast p)) as [[k w|k cs]|]; [discriminate| |discriminate].
  rewrite nth_error_map in H. destruct (nth_error (List.seq 0 (length cs)) (S (last p 0))) as [i|] eqn:K; [|discriminate]. cbn [option_map] in H. injection H as <-.
  pose proof (proj1 (nth_error_Some (List.seq 0 (length cs)) (S (last p 0)))) as L. rewrite K, seq_length in L. specialize (L ltac:(discriminate)). apply (nth_error_nth _ _ 0) in K. rewrite seq_nth in K by exact L. cbn in K. congruence.
Qed.
(** ** what the edits are *)
Lemma apart_bytes err t x p q y z : doc_tree err t x -> at_path x p = Some y -> at_path x q = Some z -> doc_before p q -> (forall r, q <> p ++ r) -> end_at x p <= start_at x q.
Proof.
  intros D Ep Eq B N. destruct (doc_place _ _ _ _ _ D Ep) as (a & c & Ta & Ba & Ba' & Ea & _), (doc_place _ _ _ _ _ D Eq) as (b & d & Tb & Bb & _ & Eb & _). rewrite <- Ba', <- Bb. pose proof (nodes_apart _ _ _ _ _ B N Ep Eq) as L.
  assert (length a = chars_before x p) as La. { rewrite Ea, firstn_length. destruct (node_slice _ _ _ Ep) as (a1 & b1 & T1 & _ & N1). rewrite (doc_text _ _ _ D) in T1. rewrite T1, !app_length. lia. }
  assert (exists m, b = (a ++ tree_text y) ++ m) as [m ->]; [|rewrite (byte_len_app (a ++ tree_text y) m); lia]. exists (firstn (chars_before x q - length (a ++ tree_text y)) c). rewrite Eb. rewrite app_length, La in *.
  replace (chars_before x q) with (length (a ++ tree_text y) + (chars_before x q - (chars_before x p + length (tree_text y)))) at 1 by (rewrite app_length; lia). rewrite Ta, app_assoc, firstn_app_2. reflexivity.
Qed.
Lemma siblings_bytes err t x q i j r y z : doc_tree err t x -> at_path x (q ++ [i]) = Some y -> at_path x ((q ++ [j]) ++ r) = Some z -> i < j -> end_at x (q ++ [i]) <= start_at x ((q ++ [j]) ++ r).
Proof.
  intros D E F L. apply (apart_bytes _ _ _ _ _ _ _ D E F).
  - rewrite <- (app_nil_r (q ++ [i])). apply siblings_before, L.
  - intros s K. rewrite <- !app_assoc in K. apply app_inv_head in K. injection K as K. lia.
Qed.
Lemma start_end x p : start_at x p <= end_at x p.
Proof. unfold end_at. lia. Qed.
Lemma later_element x q i n : In n (skipn (S i) (elements x q)) -> exists j, n = q ++ [j] /\ i < j.
Proof.
  unfold elements. destruct (at_path x q) as [[k w|k cs]|]; [intros []| |intros []]. rewrite skipn_map. intros H. apply in_map_iff in H as (j & <- & H). exists j. split; [reflexivity|].
  assert (G : forall m a l, In j (skipn m (List.seq a l)) -> a + m <= j). { induction m as [|m IH]; intros a [|l] K; cbn in K; [destruct K| |destruct K|]; [destruct K as [->|K]; [lia|]; apply in_seq in K; lia|]. apply IH in K. lia. }
  apply G in H. lia.
Qed.
Lemma edit_between err t x p q y z e : doc_tree err t x -> start_at x p <= end_at x q -> at_path x p = Some y -> at_path x q = Some z ->
  (exists a b, from_byte_index (start_at x p) t = Some a /\ from_byte_index (end_at x q) t = Some b /\ e = mkedit (mkrange a b) []) ->
  exists a b c, t = a ++ b ++ c /\ byte_len a = start_at x p /\ byte_len (a ++ b) = end_at x q /\ e = mkedit (mkrange (position_after a) (position_after (a ++ b))) [].
Proof.
  intros D L Ep Eq (pa & pb & Ea & Eb & ->). destruct (doc_place _ _ _ _ _ D Ep) as (a & c & Ta & Ba & _), (doc_place _ _ _ _ _ D Eq) as (b & d & Tb & _ & Bb & _).
  rewrite app_assoc in Tb. rewrite <- Ba, <- Bb in L. destruct (byte_len_app_le _ _ _ _ (eq_trans (eq_sym Ta) Tb) L) as [m Em]. exists a, m, d. rewrite Em in Tb, Bb. rewrite <- app_assoc in Tb. split; [exact Tb|]. split; [exact Ba|]. split; [exact Bb|].
  rewrite <- Ba, Ta, from_byte_index_boundary in Ea. rewrite <- Bb, Tb, app_assoc, from_byte_index_boundary in Eb. congruence.
Qed.
Lemma removed_covers err t x p k e : doc_tree err t x -> p <> [] -> node_at x p k -> removed_triple x t p = VDone e ->
  exists a b c, t = a ++ b ++ c /\ byte_len a <= start_at x p /\ end_at x p <= byte_len (a ++ b) /\ e = mkedit (mkrange (position_after a) (position_after (a ++ b))) [].
Proof.
  intros D Np [cs E] R. destruct (path_split p) as [->|(q & i & ->)]; [congruence|]. unfold removed_triple in R. rewrite removelast_last, last_last in R.
  assert (exists u y, at_path x u = Some y /\ start_at x u <= start_at x (q ++ [i]) /\ match prev_element x q with Some w => if kind_is x w K_WHITESPACE then start_at x w else start_at x (q ++ [i]) | None => start_at x (q ++ [i]) end = start_at x u) as (u & yu & Yu & Lu & Eu).
  { destruct (prev_element x q) as [w|] eqn:Ew; [|eauto 6]. destruct (kind_is x w K_WHITESPACE) eqn:K; [|eauto 6]. destruct (kind_is_some _ _ _ K) as [y Y]. exists w, y. split; [exact Y|]. split; [|reflexivity].
    unfold prev_element in Ew. destruct (path_split q) as [->|(r & m & ->)]; [discriminate|]. destruct (r ++ [m]) as [|z0 z] eqn:Ez; [discriminate|]. rewrite <- Ez in *. rewrite last_last, removelast_last in Ew. destruct m as [|m]; [discriminate|].
    assert (w = r ++ [m]) as ->. { pose proof (nth_error_In _ _ Ew) as Hin. unfold elements in Ew. destruct (at_path x r) as [[k0 w0|k0 ds]|]; try (destruct m; discriminate). rewrite nth_error_map in Ew. destruct (nth_error (List.seq 0 (length ds)) m) as [j|] eqn:K'; [|discriminate]. cbn [option_map] in Ew. injection Ew as <-.
      pose proof (proj1 (nth_error_Some (List.seq 0 (length ds)) m)) as L. rewrite K', seq_length in L. specialize (L ltac:(discriminate)). apply (nth_error_nth _ _ 0) in K'. rewrite seq_nth in K' by exact L. cbn in K'. congruence. }
    pose proof (siblings_bytes _ _ _ r m (S m) [i] _ _ D Y E ltac:(lia)) as L. pose proof (start_end x (r ++ [m])). lia. }
  assert (exists v z, at_path x v = Some z /\ end_at x (q ++ [i]) <= end_at x v /\ match find (fun c => kind_is x c K_WHITESPACE || kind_is x c K_Dot) (skipn (S i) (elements x q)) with
     | Some n => end_at x (match next_element x n with Some m => if kind_is x m K_Dot then m else n | None => n end) | None => end_at x (q ++ [i]) end = end_at x v) as (v & z & Yv & Lv & Ev).
  { destruct (find _ _) as [n|] eqn:F; [|eauto 6]. apply find_some in F as [Hn K]. apply later_element in Hn as (j & -> & Lt). assert (exists y, at_path x (q ++ [j]) = Some y) as [y Y] by (apply orb_true_iff in K as [K|K]; exact (kind_is_some _ _ _ K)).
    assert (G : forall j y, i < j -> at_path x (q ++ [j]) = Some y -> end_at x (q ++ [i]) <= end_at x (q ++ [j])).
    { intros j' y' Lj Yj. pose proof (siblings_bytes _ _ _ q i j' [] _ _ D E ltac:(rewrite app_nil_r; exact Yj) Lj) as L. rewrite app_nil_r in L. pose proof (start_end x (q ++ [j'])). lia. }
    destruct (next_element x (q ++ [j])) as [m|] eqn:En; [|exists (q ++ [j]), y; eauto]. destruct (kind_is x m K_Dot) eqn:Km; [|exists (q ++ [j]), y; eauto].
    apply next_is in En as [-> [y' Y']]. rewrite removelast_last, last_last in *. exists (q ++ [S j]), y'. split; [exact Y'|]. split; [|reflexivity]. eapply G; [|exact Y']. lia. }
  rewrite Eu, Ev in R. destruct (from_byte_index (start_at x u) t) as [pa|] eqn:Ea; [|discriminate]. destruct (from_byte_index (end_at x v) t) as [pb|] eqn:Eb; [|discriminate]. injection R as <-.
  pose proof (start_end x (q ++ [i])). destruct (edit_between err t x u v yu z (mkedit (mkrange pa pb) []) D ltac:(lia) Yu Yv ltac:(eauto 6)) as (a & b & c & T & Ba & Bb & Ee). exists a, b, c. split; [exact T|]. split; [lia|]. split; [lia|exact Ee].
Qed.
Lemma vmap_in {A B} (f : A -> vout B) l bs : vmap f l = VDone bs -> forall b, In b bs -> exists a, In a l /\ f a = VDone b.
Proof.
  revert bs. induction l as [|a l IH]; intros bs E b Hb; cbn [vmap] in E; [injection E as <-; destruct Hb|]. destruct (f a) as [b0| |] eqn:Ef; [|discriminate|discriminate]. cbn [vbind] in E. destruct (vmap f l) as [bs0| |]; [|discriminate|discriminate]. cbn [vbind] in E. injection E as <-.
  destruct Hb as [<-|Hb]; [exists a; split; [left; reflexivity|exact Ef]|]. destruct (IH _ eq_refl _ Hb) as (c & Hc & Ec). exists c. split; [right; exact Hc|exact Ec].
Qed.
Lemma keep_in es : forall seen e, In e (keep_ranges seen es) -> In e es.
Proof. induction es as [|e0 es IH]; intros seen e H; [destruct H|]. cbn [keep_ranges] in H. destruct (existsb _ seen); [right; exact (IH _ _ H)|]. destruct H as [<-|H]; [left; reflexivity|right; exact (IH _ _ H)]. Qed.
Lemma range_eqb_eq r s : range_eqb r s = true -> r = s.
Proof.
  destruct r as [[a b] [c d]], s as [[a' b'] [c' d']]. unfold range_eqb, pos_eqb. cbn. rewrite !andb_true_iff, !Nat.eqb_eq. intros [[-> ->] [-> ->]]. reflexivity.
Qed.
Lemma keep_has es : forall seen e, In e es -> (exists r, In r seen /\ r = erange e) \/ exists e', In e' (keep_ranges seen es) /\ erange e' = erange e.
Proof.
  induction es as [|e0 es IH]; intros seen e H; [destruct H|]. cbn [keep_ranges]. destruct (existsb (range_eqb (erange e0)) seen) eqn:K.
  - destruct H as [<-|H]; [left|exact (IH seen e H)]. apply existsb_exists in K as (r & Hr & K). apply range_eqb_eq in K. eauto.
  - destruct H as [<-|H]; [right; exists e0; split; [left; reflexivity|reflexivity]|]. destruct (IH (erange e0 :: seen) e H) as [(r & [<-|Hr] & Er)|(e' & He' & E')]; [right; exists e0; split; [left; reflexivity|exact Er]|left; eauto|right; exists e'; split; [right; exact He'|exact E']].
Qed.
(** every edit removes a triple that has a triple with the same subject before it, or adds to the first of such triples what the others say *)
Definition removal (x : tree) (t : text) (q : path) (e : text_edit) : Prop :=
  exists a b c, t = a ++ b ++ c /\ byte_len a <= start_at x q /\ end_at x q <= byte_len (a ++ b) /\ e = mkedit (mkrange (position_after a) (position_after (a ++ b))) [].
Definition addition (x : tree) (t : text) (p : path) (ps : list path) (e : text_edit) : Prop :=
  exists a c, t = a ++ c /\ byte_len a = end_at x p /\ erange e = mkrange (position_after a) (position_after a) /\
    forall cs, Forall2 (property_list x) ps cs -> exists n, new_text e = flat_map (fun c => chars " ;" ++ NL :: spaces n ++ text_at x c) cs.
Definition later_triples (x : tree) (p : path) (ps : list path) : Prop := StronglySorted doc_before (p :: ps) /\ forall q, In q (p :: ps) <-> alike x p q.
Lemma join_all sep l : l <> [] -> sep ++ join sep l = flat_map (fun w => sep ++ w) l.
Proof. induction l as [|w l IH]; intros N; [congruence|]. cbn [flat_map join]. destruct l as [|v l]; [cbn [flat_map]; rewrite app_nil_r; reflexivity|]. rewrite IH by discriminate. rewrite <- app_assoc. reflexivity. Qed.
Lemma property_list_fun err t x p c c' : doc_tree err t x -> node_at x p K_TriplesSameSubjectPath -> property_list x p c -> property_list x p c' -> c = c'.
Proof.
  intros D H. set (f := fun i : item => match i with Sub K_PropertyListPath | Sub K_PropertyListPathNotEmpty => true | _ => false end). assert (ordered K_TriplesSameSubjectPath f f = true) as O by (vm_compute; reflexivity).
  intros [[[i ->] Hc]|[[i ->] Hc]] [[[j ->] Hc']|[[j ->] Hc']]; (rewrite (node_unique _ _ _ _ _ _ _ _ _ _ D H O Hc Hc' eq_refl eq_refl); reflexivity).
Qed.
Lemma property_lists err t x ps cs : doc_tree err t x -> (forall q, In q ps -> node_at x q K_TriplesSameSubjectPath /\ ~ flawed x q /\ exists s, subject x q s) -> Forall2 (property_list x) ps cs ->
  flatten (map (properties_list_path x) ps) = cs.
Proof.
  intros D H F. induction F as [|q c ps cs Hc F IH]; [reflexivity|]. unfold flatten. cbn [map flat_map]. destruct (H q ltac:(left; reflexivity)) as (N & Fq & s & S). destruct (properties_list_path x q) as [c'|] eqn:E.
  - pose proof (property_list_iff _ _ _ _ _ _ D N Fq S E) as Hc'. rewrite (property_list_fun _ _ _ _ _ _ D N Hc Hc'). cbn [app]. f_equal. apply IH. intros r Hr. apply H. right. exact Hr.
  - exfalso. exact (proj1 (property_list_none _ _ _ _ _ D N Fq S) E c Hc).
Qed.
Lemma contract_edits width align tab err t x p ps es : doc_tree err t x -> (forall q, In q (p :: ps) -> node_at x q K_TriplesSameSubjectPath /\ ~ flawed x q /\ exists s, subject x q s) -> ps <> [] ->
  contract_triples width align tab x t (p :: ps) = VDone es ->
  (forall e, In e es -> (exists q, In q ps /\ removal x t q e) \/ addition x t p ps e) /\ (forall q, In q ps -> exists e, In e es /\ removal x t q e) /\ exists e, In e es /\ addition x t p ps e.
Proof.
  intros D H Ne E. unfold contract_triples in E. destruct (vmap (removed_triple x t) ps) as [rs| |] eqn:Er; cbn [vbind] in E; [|discriminate|discriminate]. destruct (contract_indent width align tab x t p) as [n| |]; cbn [vbind] in E; [|discriminate|discriminate].
  destruct (H p ltac:(left; reflexivity)) as ([cs Hp] & _). destruct (doc_place _ _ _ _ _ D Hp) as (a & c & T & _ & Ba & _). set (w := a ++ tree_text (Node K_TriplesSameSubjectPath cs)) in *. rewrite app_assoc in T. fold w in T.
  assert (from_byte_index (end_at x p) t = Some (position_after w)) as Ew by (rewrite T, <- Ba; apply from_byte_index_boundary). rewrite Ew in E. cbn [expect_some vbind] in E. injection E as <-.
  assert (R : forall q e, In q ps -> removed_triple x t q = VDone e -> removal x t q e).
  { intros q e Hq Eq. destruct (H q ltac:(right; exact Hq)) as (N & _). eapply removed_covers; [exact D| |exact N|exact Eq]. intros ->. destruct (doc_root _ _ _ D) as (r & Hr & Kr). pose proof (node_at_fun _ _ _ _ N Hr). destruct Kr; congruence. }
  assert (A : addition x t p ps (mkedit (mkrange (position_after w) (position_after w)) ((chars " ;" ++ NL :: spaces n) ++ join (chars " ;" ++ NL :: spaces n) (property_texts x ps)))).
  { exists w, c. split; [exact T|]. split; [exact Ba|]. split; [reflexivity|]. intros ls Hls. exists n. cbn [new_text]. unfold property_texts. rewrite (property_lists _ _ _ _ _ D (fun q Hq => H q (or_intror Hq)) Hls).
    rewrite join_all by (inversion Hls; subst; [congruence|discriminate]). clear. induction ls as [|l ls IH]; [reflexivity|]. cbn [map flat_map]. rewrite IH, <- !app_assoc. cbn [app]. rewrite <- !app_assoc. reflexivity. }
  split; [|split].
  - intros e He. apply in_app_iff in He as [He|[<-|[]]]; [left|right; exact A]. destruct (vmap_in _ _ _ Er _ He) as (q & Hq & Eq). exists q. split; [exact Hq|exact (R _ _ Hq Eq)].
  - intros q Hq. assert (exists e, In e rs /\ removed_triple x t q = VDone e) as (e & He & Eq).
    { clear - Er Hq. revert rs Er. induction ps as [|q0 ps IH]; intros rs Er; [destruct Hq|]. cbn [vmap] in Er. destruct (removed_triple x t q0) as [e0| |] eqn:E0; cbn [vbind] in Er; [|discriminate|discriminate]. destruct (vmap (removed_triple x t) ps) as [rs0| |] eqn:E1; cbn [vbind] in Er; [|discriminate|discriminate]. injection Er as <-.
      destruct Hq as [->|Hq]; [exists e0; split; [left; reflexivity|exact E0]|]. destruct (IH Hq _ eq_refl) as (e & He & Ee). exists e. split; [right; exact He|exact Ee]. }
    exists e. split; [apply in_app_iff; left; exact He|exact (R _ _ Hq Eq)].
  - eexists. split; [apply in_app_iff; right; left; reflexivity|exact A].
Qed.
Section Edits.
Context (width : char -> nat) (order : path -> list (text * list path) -> list (text * list path)) (align : bool) (tab : option nat) (err : text -> nat) (t : text) (x : tree) (errs : list parse_error).
Hypotheses (HP : doc_parse err t x errs) (HO : any_order order) (HQ : query_doc x).
Theorem C70_edits_partial : forall es, contract_all width order align tab x t = VDone (Some es) ->
  (forall e, In e es -> exists p ps, leads_group x p /\ later_triples x p ps /\ ((exists q, In q ps /\ removal x t q e) \/ addition x t p ps e)) /\
  (forall p ps, leads_group x p -> later_triples x p ps ->
    (exists e e', In e' es /\ erange e' = erange e /\ addition x t p ps e) /\ forall q, In q ps -> exists e e', In e' es /\ erange e' = erange e /\ removal x t q e).
Proof.
  intros es E. pose proof (doc_parse_tree _ _ _ _ HP) as D. destruct (contract_groups width order align tab err t x errs HP HO HQ) as [[E' _]|[(ess & Ev & E') _]]; [congruence|]. rewrite E in E'.
  assert (es = keep_ranges [] (concat ess)) as -> by (destruct (keep_ranges [] (concat ess)); congruence). clear E E'.
  assert (G : forall w m, In (w, m) (find_all_triple_groups order x) -> exists p ps, m = p :: ps /\ ps <> [] /\ leads_group x p /\ later_triples x p ps /\ forall q, In q (p :: ps) -> node_at x q K_TriplesSameSubjectPath /\ ~ flawed x q /\ exists s, subject x q s).
  { intros w m Hm. destruct (big_group _ _ _ _ _ _ D HO Hm) as (p & ps & s & -> & Ne & Lp & _ & _ & _ & So & A). exists p, ps. split; [reflexivity|]. split; [exact Ne|]. split; [exact Lp|]. split; [split; assumption|].
    intros q Hq. apply A in Hq as (? & ? & s' & _ & (_ & N & _) & _ & F & _ & S & _). split; [exact N|]. split; [exact F|]. eauto. }
  split.
  - intros e He. apply keep_in in He. apply in_concat in He as (es & Hes & He). destruct (vmap_in _ _ _ Ev _ Hes) as ([w m] & Hm & Em). cbn [snd] in Em. destruct (G _ _ Hm) as (p & ps & -> & Ne & Lp & Lt & H). exists p, ps. split; [exact Lp|]. split; [exact Lt|].
    exact (proj1 (contract_edits _ _ _ _ _ _ _ _ _ D H Ne Em) _ He).
  - intros p ps Lp Lt. destruct (leader_group _ _ _ order _ D HO Lp) as (w & ps' & Hm). destruct (G _ _ Hm) as (p0 & ps0 & E0 & Ne & _ & Lt' & H). injection E0 as <- <-.
    assert (ps' = ps) as ->. { destruct Lt as [S1 A1], Lt' as [S2 A2]. assert (p :: ps' = p :: ps) as K; [|congruence]. apply sorted_unique; [exact S2|exact S1|]. intros q. rewrite A1. apply A2. }
    assert (exists es, In es ess /\ contract_triples width align tab x t (p :: ps) = VDone es) as (es & Hes & Em).
    { clear - Ev Hm. revert ess Ev. induction (find_all_triple_groups order x) as [|g l IH]; intros ess Ev; [destruct Hm|]. cbn [vmap] in Ev. destruct (contract_triples width align tab x t (snd g)) as [e0| |] eqn:E0; cbn [vbind] in Ev; [|discriminate|discriminate].
      destruct (vmap _ l) as [rs0| |]; cbn [vbind] in Ev; [|discriminate|discriminate]. injection Ev as <-. destruct Hm as [->|Hm]; [exists e0; split; [left; reflexivity|exact E0]|]. destruct (IH Hm _ eq_refl) as (e & He & Ee). exists e. split; [right; exact He|exact Ee]. }
    destruct (contract_edits _ _ _ _ _ _ _ _ _ D H Ne Em) as (_ & R & (e & He & A)).
    assert (K : forall e, In e es -> exists e', In e' (keep_ranges [] (concat ess)) /\ erange e' = erange e). { intros e1 H1. destruct (keep_has (concat ess) [] e1) as [(r & [] & _)|K]; [apply in_concat; eauto|exact K]. }
    split; [destruct (K _ He) as (e' & H1 & H2); exists e, e'; auto|]. intros q Hq. destruct (R q Hq) as (e1 & H1 & H2). destruct (K _ H1) as (e' & H3 & H4). exists e1, e'. auto.
Qed.
End Edits.

(** ** the requests on some documents *)
Definition narrow (_ : char) : nat := 1.
(** the document when the triples are contracted, with the default indentation of two *)
Definition contracted (align : bool) (t : text) : option text :=
  match contract_all narrow same_order align (Some 2) (tree_of t) t with
  | VDone (Some es) => match apply_text_edits t es with Done u => Some u | _ => None end
  | _ => None
  end.
Definition line_ (s : string) : text := chars s ++ [NL].
Definition C70_query : text := line_ "SELECT * { ?a ?b ?c . ?a ?d ?e . ?x ?y ?z . ?a ?f ?g }".
Example C70_witness : doc_parse (fun _ => 0) C70_query (tree_of C70_query) (errors_of C70_query) /\ grammatical (fun _ => 0) C70_query /\ any_order same_order /\ query_doc (tree_of C70_query) /\
  contracted true C70_query = Some (line_ "SELECT * { ?a ?b ?c ;" ++ line_ "              ?d ?e ;" ++ line_ "              ?f ?g . ?x ?y ?z . }") /\
  contracted false C70_query = Some (line_ "SELECT * { ?a ?b ?c ;" ++ line_ "             ?d ?e ;" ++ line_ "             ?f ?g . ?x ?y ?z . }").
Proof.
  split; [apply parses_doc; vm_compute; reflexivity|]. split; [apply grammatical_text; vm_compute; reflexivity|]. split; [intros g l; apply Permutation_refl|]. split; [eexists; vm_compute; reflexivity|]. split; vm_compute; reflexivity.
Qed.
Lemma no_list_seen x p : forallb (fun q => negb (kind_is x q K_PropertyListPath || kind_is x q K_PropertyListPathNotEmpty)) (child_nodes x p) = true -> forall c, ~ property_list x p c.
Proof.
  intros Hk c [[[i ->] Hc]|[[i ->] Hc]]; pose proof (proj1 (forallb_forall _ _) Hk (p ++ [i]) (proj2 (in_child_nodes _ _ _) ltac:(eauto))) as K; cbv beta in K; rewrite !(kind_is_node _ _ _ _ Hc) in K; discriminate.
Qed.
Definition no_predicate : text := line_ "SELECT * { [ ?b ?c ] . [ ?b ?c ] }".
(** with the default settings every request for code actions on this query crashes; with other settings the result is no query *)
Theorem C70_no_predicate_refuted : doc_parse (fun _ => 0) no_predicate (tree_of no_predicate) (errors_of no_predicate) /\ grammatical (fun _ => 0) no_predicate /\
  (forall width order tab, any_order order -> contract_all width order true tab (tree_of no_predicate) no_predicate = VPanic) /\
  exists t', contracted false no_predicate = Some t' /\ doc_parse (fun _ => 0) t' (tree_of t') (errors_of t') /\ errors_of t' <> [].
Proof.
  assert (P : doc_parse (fun _ => 0) no_predicate (tree_of no_predicate) (errors_of no_predicate)) by (apply parses_doc; vm_compute; reflexivity).
  split; [exact P|]. split; [apply grammatical_text; vm_compute; reflexivity|]. split.
  - intros width order tab O. pose proof (doc_parse_tree _ _ _ _ P) as D. apply (C70_crash width order true tab _ _ _ _ P O ltac:(eexists; vm_compute; reflexivity)). split; [reflexivity|].
    assert (existsb (fun g => match snd g with
      | p :: _ => forallb (fun q => negb (kind_is (tree_of no_predicate) q K_PropertyListPath || kind_is (tree_of no_predicate) q K_PropertyListPathNotEmpty)) (child_nodes (tree_of no_predicate) p)
      | [] => false end) (find_all_triple_groups same_order (tree_of no_predicate)) = true) as G by (vm_compute; reflexivity).
    apply existsb_exists in G as ([w m] & Hg & Hk). destruct (big_group _ _ _ _ _ _ D (fun g l => Permutation_refl _) Hg) as (p & ps & s & -> & _ & Lp & _). exists p. split; [exact Lp|]. cbn [snd] in Hk.
    exact (no_list_seen _ _ Hk).
  - eexists; split; [vm_compute; reflexivity|]; split; [apply parses_doc; vm_compute; reflexivity|vm_compute; discriminate].
Qed.
(** a comment between a triple and its dot: the dot stays and there are two *)
Definition comment_before_dot : text := line_ "SELECT * { ?x ?y ?z . ?a ?b ?c . ?a ?d ?e # d" ++ line_ " . }".
Theorem C70_comment_refuted : (doc_parse (fun _ => 0) comment_before_dot (tree_of comment_before_dot) (errors_of comment_before_dot) /\ grammatical (fun _ => 0) comment_before_dot) /\
  exists t', contracted true comment_before_dot = Some t' /\ doc_parse (fun _ => 0) t' (tree_of t') (errors_of t') /\ errors_of t' <> [].
Proof. split; [apply grammatical_text; vm_compute; reflexivity|]. eexists; split; [vm_compute; reflexivity|]; split; [apply parses_doc; vm_compute; reflexivity|vm_compute; discriminate]. Qed.
(** each [] is a blank node of its own, afterwards there is one *)
Definition two_blank_nodes : text := line_ "SELECT * { [] ?b ?c . [] ?d ?e }".
Theorem C70_blank_nodes_refuted : (doc_parse (fun _ => 0) two_blank_nodes (tree_of two_blank_nodes) (errors_of two_blank_nodes) /\ grammatical (fun _ => 0) two_blank_nodes) /\
  contracted true two_blank_nodes = Some (line_ "SELECT * { [] ?b ?c ;" ++ line_ "              ?d ?e . }").
Proof. split; [apply grammatical_text; vm_compute; reflexivity|vm_compute; reflexivity]. Qed.

(** ** C69: adding a label *)
Definition labelled (t : text) (l c : nat) : option text :=
  match offer_label (tree_of t) t (mkrange (mkpos l c) (mkpos l c)) with
  | Reply (VDone (Some es)) => match apply_text_edits t es with Done u => Some u | _ => None end
  | _ => None
  end.
Definition C69_query : text := line_ "SELECT * WHERE {" ++ line_ " ?person a ?type ; ?p ?o . ?a ?b $c" ++ line_ "}".
Example C69_witness : doc_parse (fun _ => 0) C69_query (tree_of C69_query) (errors_of C69_query) /\ grammatical (fun _ => 0) C69_query /\ query_doc (tree_of C69_query) /\
  labelled C69_query 1 3 = Some (line_ "PREFIX rdfs: <http://www.w3.org/2000/01/rdf-schema#>" ++ line_ "SELECT * WHERE {" ++ line_ " ?person a ?type ; ?p ?o ." ++
    line_ " ?person rdfs:label ?person_label . FILTER (LANG(?person_label) = ""en"") ?a ?b $c" ++ line_ "}").
Proof.
  split; [apply parses_doc; vm_compute; reflexivity|]. split; [apply grammatical_text; vm_compute; reflexivity|]. split; [eexists; vm_compute; reflexivity|vm_compute; reflexivity].
Qed.
(** what stands in front of the triple in its line is copied as if it were indentation; behind a semicolon no triple may start *)
Definition one_line : text := line_ "SELECT * WHERE { ?person a ?type . }".
Definition semicolon_last : text := line_ "SELECT * WHERE {" ++ line_ " ?person a ?type ; }".
Theorem C69_one_line_refuted : (doc_parse (fun _ => 0) one_line (tree_of one_line) (errors_of one_line) /\ grammatical (fun _ => 0) one_line) /\
  exists t', labelled one_line 0 18 = Some t' /\ doc_parse (fun _ => 0) t' (tree_of t') (errors_of t') /\ errors_of t' <> [].
Proof. split; [apply grammatical_text; vm_compute; reflexivity|]. eexists; split; [vm_compute; reflexivity|]; split; [apply parses_doc; vm_compute; reflexivity|vm_compute; discriminate]. Qed.
Theorem C69_semicolon_refuted : (doc_parse (fun _ => 0) semicolon_last (tree_of semicolon_last) (errors_of semicolon_last) /\ grammatical (fun _ => 0) semicolon_last) /\
  exists t', labelled semicolon_last 1 3 = Some t' /\ doc_parse (fun _ => 0) t' (tree_of t') (errors_of t') /\ errors_of t' <> [].
Proof. split; [apply grammatical_text; vm_compute; reflexivity|]. eexists; split; [vm_compute; reflexivity|]; split; [apply parses_doc; vm_compute; reflexivity|vm_compute; discriminate]. Qed.


(** [ind] is what follows the last line feed of [u] *)
Definition in_last_line (u ind : text) : Prop := exists w, u = w ++ ind /\ ~ In NL ind /\ (w = [] \/ exists w', w = w' ++ [NL]).
Lemma since_feed_spec w : exists r, w = since_feed w ++ r /\ ~ In NL (since_feed w) /\ (r = [] \/ exists r', r = NL :: r').
Proof.
  induction w as [|c w (r & E & N & H)]; [exists []; cbn; auto|]. cbn [since_feed]. destruct (N.eqb c NL) eqn:K.
  - apply N.eqb_eq in K. subst c. exists (NL :: w). split; [reflexivity|]. split; [intros []|eauto].
  - apply N.eqb_neq in K. exists r. split; [cbn [app]; congruence|]. split; [intros [->|I]; [congruence|exact (N I)]|exact H].
Qed.
Lemma line_before_spec u : in_last_line u (line_before u).
Proof.
  unfold in_last_line, line_before. destruct (since_feed_spec (rev u)) as (r & E & N & H). exists (rev r). split; [rewrite <- rev_app_distr, <- E; symmetry; apply rev_involutive|]. split; [rewrite <- in_rev; exact N|].
  destruct H as [->|(r' & ->)]; [left; reflexivity|right]. exists (rev r'). reflexivity.
Qed.
Lemma edits_far t e c w : edit_denotes t e c -> 0 < cj c -> all_edited t [e; mkedit origin w] (w ++ splice 0 t [c]).
Proof.
  intros H L. exists [mkedit origin w; e], [mkcedit 0 0 w; c]. split; [apply perm_swap|]. split; [constructor; [split; [cbn; lia|]; auto|constructor; [exact H|constructor]]|].
  split; [constructor; [constructor; [constructor|constructor]|constructor; [|constructor]]|].
  - unfold before. cbn [ci cj]. lia.
  - cbn [splice ci cj cnew firstn skipn Nat.sub app]. reflexivity.
Qed.
(** a variable written with a dollar sign *)
Definition dollar_label : text := line_ "SELECT * WHERE {" ++ line_ " $person a ?type }".
Theorem C69_dollar_refuted : (doc_parse (fun _ => 0) dollar_label (tree_of dollar_label) (errors_of dollar_label) /\ grammatical (fun _ => 0) dollar_label) /\
  exists t', labelled dollar_label 1 3 = Some t' /\ doc_parse (fun _ => 0) t' (tree_of t') (errors_of t') /\ errors_of t' <> [].
Proof. split; [apply grammatical_text; vm_compute; reflexivity|]. eexists; split; [vm_compute; reflexivity|]; split; [apply parses_doc; vm_compute; reflexivity|vm_compute; discriminate]. Qed.

(** the dot behind the triple, with at most one piece of white space or one comment in between *)
Definition dot_next (x : tree) (p d : path) : Prop := exists q i, p = q ++ [i] /\ kind_is x d K_Dot = true /\
  (d = q ++ [S i] \/ d = q ++ [S (S i)] /\ exists k, kind_at x (q ++ [S i]) = Some k /\ is_trivia k = true).
Lemma next_some x q i j y : at_path x (q ++ [i]) = Some y -> at_path x (q ++ [S j]) <> None -> next_element x (q ++ [j]) = Some (q ++ [S j]).
Proof.
  intros E N. unfold next_element. rewrite removelast_last, last_last. apply child_inv in E as (k & cs & E & _). unfold elements. rewrite E. rewrite (AstFacts.at_child _ _ _ _ _ E) in N. apply nth_error_Some in N. rewrite nth_error_map, (nth_error_nth' _ 0) by (rewrite seq_length; exact N). rewrite seq_nth by exact N. reflexivity.
Qed.
Lemma dot_behind_is x p d y : at_path x p = Some y -> p <> [] -> dot_behind x p = Some d <-> dot_next x p d.
Proof.
  intros Y Np. destruct (path_split p) as [->|(q & i & ->)]; [congruence|]. unfold dot_behind. split.
  - intros E. destruct (next_element x (q ++ [i])) as [n|] eqn:E1; [|discriminate]. apply next_is in E1 as [En _]. rewrite removelast_last, last_last in En. subst n.
    destruct (kind_at x (q ++ [S i])) as [k|] eqn:K0; [destruct (is_trivia k) eqn:T|].
    + destruct (next_element x (q ++ [S i])) as [m|] eqn:E2; [|discriminate]. apply next_is in E2 as [Em _]. rewrite removelast_last, last_last in Em. subst m. destruct (kind_is x (q ++ [S (S i)]) K_Dot) eqn:K; [|discriminate]. injection E as <-. exists q, i. eauto 7.
    + destruct (kind_is x (q ++ [S i]) K_Dot) eqn:K; [|discriminate]. injection E as <-. exists q, i. auto.
    + destruct (kind_is x (q ++ [S i]) K_Dot) eqn:K; [|discriminate]. injection E as <-. exists q, i. auto.
  - intros (q' & i' & Eq & K & [->|[-> (k & Hk & T)]]); apply app_inj_tail in Eq as [<- <-].
    + rewrite (next_some _ _ _ _ _ Y) by (apply kind_is_some in K as [z Z]; congruence). assert (kind_at x (q ++ [S i]) = Some K_Dot) as -> by (unfold DiagModel.kind_is in K; destruct (kind_at x (q ++ [S i])) as [k|]; [|discriminate]; apply kind_eqb_eq in K; subst k; reflexivity). cbn [is_trivia]. rewrite K. reflexivity.
    + rewrite (next_some _ _ _ _ _ Y) by (unfold kind_at in Hk; destruct (at_path x (q ++ [S i])); discriminate). rewrite Hk, T. rewrite (next_some _ _ _ _ _ Y) by (apply kind_is_some in K as [z Z]; congruence). rewrite K. reflexivity.
Qed.
Lemma property_objects_in x l : forall o, In (Some o) (property_objects x l) -> In o l /\ objects_at x o = true.
Proof.
  assert (G : forall n l, length l <= n -> forall o, In (Some o) (property_objects x l) -> In o l /\ objects_at x o = true).
  { induction n as [|n IH]; intros m L o H; [destruct m; [destruct H|cbn in L; lia]|]. destruct m as [|c [|o' m]]; cbn [property_objects] in H.
    - destruct H.
    - destruct (verb_at x c); [destruct H as [H|[]]; discriminate|destruct H].
    - apply in_app_iff in H as [H|H].
      + destruct (verb_at x c); [|destruct H]. destruct (objects_at x o') eqn:K; destruct H as [H|[]]; [|discriminate]. injection H as <-. split; [right; left; reflexivity|exact K].
      + apply IH in H; [|cbn in L; lia]. split; [right; right; apply H|apply H]. }
  intros o H. exact (G (length l) l (Nat.le_refl _) o H).
Qed.
Lemma objects_end_is err t x p e : doc_tree err t x -> node_at x p K_TriplesSameSubjectPath -> objects_end x p = Some e ->
  exists l o i k, property_list x p l /\ o = l ++ [i] /\ node_at x o k /\ objects_at x o = true /\ e = end_at x o.
Proof.
  intros D H E. unfold objects_end in E. destruct (properties_list_path x p) as [l|] eqn:El; [|discriminate]. destruct (last_of (property_objects x (child_nodes x l))) as [[o|]|] eqn:Eo; [|discriminate|discriminate]. injection E as <-.
  assert (In (Some o) (property_objects x (child_nodes x l))) as Ho. { unfold last_of in Eo. apply in_rev. destruct (rev (property_objects x (child_nodes x l))); [discriminate|]. injection Eo as ->. left. reflexivity. }
  apply property_objects_in in Ho as [Ho K]. apply in_child_nodes in Ho as (i & k & -> & Hk). exists l, (l ++ [i]), i, k. split; [|auto].
  unfold properties_list_path in El. destruct (nth_error (child_nodes x p) 1) as [q|] eqn:Eq; [|discriminate]. destruct (_ || _) eqn:K'; [|discriminate]. injection El as ->.
  apply nth_error_In, in_child_nodes in Eq as (j & k' & -> & Hk'). apply orb_true_iff in K' as [K'|K']; apply (kind_is_iff _ _ _ _ Hk') in K'; subst k'; [left|right]; (split; [eauto|exact Hk']).
Qed.
Definition label_added (ind name : text) : text :=
  let l := chars "?" ++ name ++ chars "_label" in chars " ." ++ [NL] ++ ind ++ chars "?" ++ name ++ chars " rdfs:label " ++ l ++ chars " . FILTER (LANG(" ++ l ++ chars ") = ""en"")".
(** what the client shows: everything up to the end of the objects of the last property (and nothing of a dot behind the triple), the label, everything behind *)
Theorem C69_label_partial : forall err t x errs v name es, doc_parse err t x errs -> query_doc x -> text_at x v = chars "?" ++ name -> add_label x t v = VDone (Some es) ->
  exists p s l o i a b c u ind declared, triple_around x v p /\ subject x p s /\ property_list x p l /\ o = l ++ [i] /\ objects_at x o = true /\
    t = a ++ b ++ c /\ byte_len a = end_at x o /\
    ((exists d, dot_next x p d /\ byte_len (a ++ b) = end_at x d) \/ b = [] /\ forall d, ~ dot_next x p d) /\
    (exists r, t = u ++ r) /\ byte_len u = start_at x s /\ in_last_line u ind /\ (declared = true <-> exists d, declares x d rdfs) /\
    all_edited t es ((if declared then [] else declaration_text rdfs rdfs_namespace) ++ a ++ label_added ind name ++ c).
Proof.
  intros err t x errs v name es HP Q Ew E. pose proof (doc_parse_tree _ _ _ _ HP) as D. unfold add_label in E.
  destruct (triple_above x v) as [p|] eqn:Ep; [|discriminate]. apply triple_above_iff in Ep. pose proof Ep as (Hp & _). destruct (triple_subject x p) as [s|] eqn:Es; [|discriminate]. apply (triple_subject_iff _ _ _ _ _ D Hp) in Es.
  assert (exists y, at_path x s = Some y) as [ys Ys] by (destruct Es as [[_ [? S']]|[_ [? S']]]; eauto). destruct (doc_place _ _ _ _ _ D Ys) as (u & r & Tu & Bu & _).
  rewrite Tu in E at 1. rewrite <- Bu, split_at_app in E. destruct (objects_end x p) as [e|] eqn:Eo; [|discriminate]. apply (objects_end_is _ _ _ _ _ D Hp) in Eo as (l & o & i & k & Hl & Eo & [co Ho] & Ko & ->).
  destruct (doc_place _ _ _ _ _ D Ho) as (a0 & c0 & To & Bo0 & Bo & Eu & _). rewrite <- Bo in E. rewrite To in E at 1. rewrite app_assoc, from_byte_index_boundary in E. set (a := a0 ++ tree_text (Node k co)) in *.
  destruct (declared_iff _ _ _ rdfs D Q) as (declared & Ed & Hd). rewrite Ed in E. cbn [vbind] in E.
  assert (Np : p <> []). { intros ->. destruct (doc_root _ _ _ D) as (r0 & R & Hr). pose proof (node_at_fun _ _ _ _ Hp R). destruct Hr; congruence. }
  destruct Hp as [cp Yp].
  assert (B : exists b c, t = a ++ b ++ c /\ ((exists d, dot_next x p d /\ byte_len (a ++ b) = end_at x d) \/ b = [] /\ forall d, ~ dot_next x p d) /\
    match dot_behind x p with Some d => match from_byte_index (end_at x d) t with Some q => q | None => position_after a end | None => position_after a end = position_after (a ++ b)).
  { destruct (dot_behind x p) as [d|] eqn:Edot.
    - pose proof Edot as Dn. apply (dot_behind_is _ _ _ _ Yp Np) in Dn. assert (kind_is x d K_Dot = true /\ exists q j n, p = q ++ [j] /\ d = q ++ [n] /\ j < n) as (Kd & q & j & n & Epq & Edq & Lt) by (destruct Dn as (q & i0 & E1 & K & [E2|[E2 _]]); (split; [exact K|]); [exists q, i0, (S i0)|exists q, i0, (S (S i0))]; (split; [exact E1|]); (split; [exact E2|]); lia). destruct (kind_is_some _ _ _ Kd) as [yd Yd]. destruct (doc_place _ _ _ _ _ D Yd) as (ud & cd & Td & Bd0 & Bd & Eud & _).
      assert (doc_before o d) as Bf. { subst o d p. rewrite <- (app_nil_r (q ++ [n])). destruct Hl as [[[m ->] _]|[[m ->] _]]; rewrite <- (app_assoc (q ++ [j]) [m] [i]); apply siblings_before, Lt. }
      assert (forall r, d <> o ++ r) as Nd. { intros r0 K. subst o d p. destruct Hl as [[[m ->] _]|[[m ->] _]]; rewrite <- !app_assoc in K; apply app_inv_head in K; discriminate. }
      pose proof (nodes_apart _ _ _ _ _ Bf Nd Ho Yd) as Ap.
      assert (exists z, ud = a ++ z) as [z Ez].
      { exists (firstn (chars_before x d - length a) (skipn (length a) t)). rewrite Eud. assert (length a0 = chars_before x o) as La0. { rewrite Eu, firstn_length. destruct (node_slice _ _ _ Ho) as (a1 & b1 & T1 & _ & N1). rewrite (doc_text _ _ _ D) in T1. rewrite T1, !app_length. lia. }
        assert (length a <= chars_before x d) as Lad by (unfold a; rewrite app_length; lia). replace (chars_before x d) with (length a + (chars_before x d - length a)) at 1 by lia.
        assert (t = a ++ c0) as Ta by (unfold a; rewrite <- app_assoc; exact To). rewrite Ta. rewrite firstn_app_2. rewrite skipn_app, skipn_all, Nat.sub_diag. reflexivity. }
      exists (z ++ tree_text yd), cd. assert (a ++ z ++ tree_text yd = ud ++ tree_text yd) as Ea by (rewrite Ez, app_assoc; reflexivity). split; [rewrite <- app_assoc, 2!app_assoc, <- Ez, <- app_assoc; exact Td|]. split.
      + left. exists d. split; [exact Dn|]. rewrite Ea. exact Bd.
      + rewrite Ea, <- Bd. rewrite Td at 1. rewrite app_assoc, from_byte_index_boundary. reflexivity.
    - exists [], c0. split; [cbn [app]; unfold a; rewrite <- app_assoc; exact To|]. split; [right; split; [reflexivity|intros d K; apply (dot_behind_is _ _ _ _ Yp Np) in K; congruence]|rewrite app_nil_r; reflexivity]. }
  destruct B as (b & c & Tab & Bb & Eb). rewrite Eb in E. injection E as <-. exists p, s, l, o, i, a, b, c, u, (line_before u), declared.
  split; [exact Ep|]. split; [exact Es|]. split; [exact Hl|]. split; [exact Eo|]. split; [exact Ko|]. split; [exact Tab|]. split; [exact Bo|]. split; [exact Bb|]. split; [eauto|]. split; [exact Bu|]. split; [apply line_before_spec|]. split; [exact Hd|].
  set (w := label_text (line_before u) (text_at x v)). assert (label_added (line_before u) name = w) as ->. { unfold w, label_text, label_added, lang_text. replace (label_var (text_at x v)) with (chars "?" ++ name ++ chars "_label") by (rewrite Ew; reflexivity). rewrite Ew. cbn [app]. rewrite <- ?app_assoc. cbn [app]. rewrite <- ?app_assoc. reflexivity. } set (ed := mkedit (mkrange (position_after a) (position_after (a ++ b))) w).
  assert (De : edit_denotes t ed (mkcedit (length a) (length (a ++ b)) w)).
  { unfold edit_denotes, ed. cbn [ci cj cnew erange rstart rend new_text]. rewrite Tab, !app_length. split; [lia|]. split; [rewrite firstn_exact; reflexivity|]. split; [|reflexivity]. rewrite app_assoc, <- app_length, firstn_exact. reflexivity. }
  assert (Sp : splice 0 t [mkcedit (length a) (length (a ++ b)) w] = a ++ w ++ c).
  { cbn [splice ci cj cnew]. rewrite !Nat.sub_0_r. rewrite Tab. rewrite firstn_exact. rewrite (app_assoc a b c), skipn_exact. reflexivity. }
  assert (La : 0 < length (a ++ b)).
  { destruct (first_token_of _ _ _ o k co D ltac:(subst o; intros K; apply app_eq_nil in K as [_ K]; discriminate) Ho) as (i1 & r1 & _ & kw & w1 & Hw). pose proof (proj2 (doc_token _ _ _ _ _ _ D Hw)) as Nw. rewrite at_path_app, Ho in Hw.
    destruct (node_slice _ _ _ Hw) as (a1 & b1 & T1 & _). change (tree_text (Tok kw w1)) with w1 in T1. unfold a. rewrite T1, !app_length. destruct w1; [congruence|cbn [length]; lia]. }
  rewrite <- Sp. destruct declared; [cbn [app]; apply edits_one, De|]. apply edits_far; [exact De|exact La].
Qed.
(** the action never fails *)
Theorem C69_answers : forall err t x errs v, doc_parse err t x errs -> query_doc x -> exists a, add_label x t v = VDone a.
Proof.
  intros err t x errs v HP Q. pose proof (doc_parse_tree _ _ _ _ HP) as D. unfold add_label. destruct (triple_above x v) as [p|] eqn:Ep; [|eauto]. apply triple_above_iff in Ep. pose proof Ep as (Hp & _).
  destruct (triple_subject x p) as [s|] eqn:Es; [|eauto]. apply (triple_subject_iff _ _ _ _ _ D Hp) in Es. assert (exists y, at_path x s = Some y) as [ys Ys] by (destruct Es as [[_ [? S']]|[_ [? S']]]; eauto).
  destruct (doc_place _ _ _ _ _ D Ys) as (u & r & Tu & Bu & _). assert (split_at (start_at x s) t = Some (u, tree_text ys ++ r)) as -> by (rewrite Tu, <- Bu; apply split_at_app). destruct (objects_end x p) as [e|]; [|eauto]. destruct (from_byte_index e t); [|eauto].
  destruct (declared_iff _ _ _ rdfs D Q) as (declared & -> & _). cbn [vbind]. eauto.
Qed.
