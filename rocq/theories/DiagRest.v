(** The remaining diagnostics on the trees of documents. *)
From Coq Require Import String List Arith NArith Bool Lia Sorted Permutation.
Import ListNotations.
From Verif Require Import ServerModel Kinds KindFacts ParserSyntax ParserModel GrammarData ParserTree ParserTerm ParserBuild ParserSpec ParserChecks ParserOutcome ParserProps
  TextModel TextSpec TextProofs TextProps Utf8Model LexerRegex LexerModel LexerSpec LexerProps FormatData FormatModel FormatTree FormatText FormatParse FormatWeave
  TreeModel TreePlace TreeShape TreeKids TreeItems VarModel VarSpec VarRegions VarOcc VarDoc LexRename VarProps DiagModel DiagSpec AstFacts DiagFacts DiagGroup DiagScope.

(** ** invalid projections *)
Lemma texts_mem x w l : mem w (texts x l) = true <-> exists u, In u l /\ text_at x u = w.
Proof. rewrite mem_iff. unfold texts. rewrite in_map_iff. split; intros (u & H1 & H2); eauto. Qed.
Lemma filter_map_snd_sorted x sc f : StronglySorted doc_before (filter f (map snd (assignments x sc))).
Proof. apply StronglySorted_filter, assignments_snd_sorted. Qed.
Lemma invalid_projection_ok err t x : doc_tree err t x -> query_doc x -> exists ds, invalid_projection_variable x t = VDone ds /\ coded InvalidProjectionVar ds /\
  reports_in_order x t (fun v dat => dat = NoData /\ shadows false x v) ds.
Proof.
  intros D Q. unfold invalid_projection_variable.
  assert ((forall v, ~ shadows false x v) -> exists ds : list diag, VDone [] = VDone ds /\ coded InvalidProjectionVar ds /\ reports_in_order x t (fun v dat => dat = NoData /\ shadows false x v) ds) as None_case.
  { intros H. exists []. split; [reflexivity|]. split; [constructor|]. apply no_reports. intros p dat [_ K]. exact (H _ K). }
  destruct (select_query x) as [sq|] eqn:Es.
  2:{ apply None_case. intros v (sq & sc & wc & e & u & H & _). apply (select_query_iff _ _ _ _ D Q) in H. congruence. }
  pose proof (proj1 (select_query_iff _ _ _ _ D Q) Es) as Hsq.
  destruct (select_clause x sq) as [sc|] eqn:Ec.
  2:{ apply None_case. intros v (sq' & sc & wc & e & u & H & P & _). pose proof (select_unique _ _ _ _ _ D Q Hsq H). subst sq'. apply (select_clause_iff _ _ _ _ _ _ D Hsq eq_refl) in P. congruence. }
  pose proof (proj1 (select_clause_iff _ _ _ _ _ _ D Hsq eq_refl) Ec) as Psc.
  assert (forall v, shadows false x v -> exists wc e u, part x sq K_WhereClause wc /\ assigned x sc e v /\ scope false x wc u /\ text_at x u = text_at x v) as Sh.
  { intros v (sq' & sc' & wc & e & u & H1 & H2 & H3 & H4 & H5 & H6). pose proof (select_unique _ _ _ _ _ D Q Hsq H1). subst sq'.
    assert (sc' = sc) as -> by (apply (select_clause_iff _ _ _ _ _ _ D Hsq eq_refl) in H2; congruence). eauto 10. }
  set (l := assignments x sc) in *.
  assert (l = [] \/ l <> []) as [El|Nl] by (destruct l; [left|right]; congruence).
  { rewrite El. apply None_case. intros v K. apply Sh in K as (wc & e & u & _ & K & _). apply in_assignments in K. fold l in K. rewrite El in K. destruct K. }
  destruct (where_clause x sq) as [wc|] eqn:Ew.
  2:{ assert (forall A (a b : A), match l with [] => b | _ => b end = b) as M by (intros; destruct l; reflexivity).
      destruct l; apply None_case; intros v K; apply Sh in K as (wc & e & u & K & _); apply (where_clause_iff _ _ _ _ _ _ D Hsq eq_refl) in K; congruence. }
  pose proof (proj1 (where_clause_iff _ _ _ _ _ _ D Hsq eq_refl) Ew) as Pw.
  set (m := filter (fun v => mem (text_at x v) (texts x (visible_at x wc))) (map snd l)).
  assert (forall v, In v m <-> shadows false x v) as Hm.
  { intros v. unfold m. rewrite filter_In, texts_mem, in_map_iff. split.
    - intros [([e v'] & <- & Hin) (u & Hu & E)]. cbn [snd] in *. apply in_assignments in Hin. apply (in_visible_at _ _ _ D _ _ _ (proj2 Pw) eq_refl) in Hu. exists sq, sc, wc, e, u. auto 10.
    - intros K. apply Sh in K as (wc' & e & u & K1 & K2 & K3 & K4). assert (wc' = wc) as -> by (apply (where_clause_iff _ _ _ _ _ _ D Hsq eq_refl) in K1; congruence).
      split; [exists (e, v); split; [reflexivity|apply in_assignments, K2]|]. exists u. split; [apply (in_visible_at _ _ _ D _ _ _ (proj2 Pw) eq_refl), K3|exact K4]. }
  assert (exists ds, vmap (diag_at x t InvalidProjectionVar NoData) m = VDone ds /\ coded InvalidProjectionVar ds /\ reports_in_order x t (fun v dat => dat = NoData /\ shadows false x v) ds) as R.
  { destruct (vmap_all err t x InvalidProjectionVar NoData m D) as (ds & E & F & C).
    { intros v Hv. apply Hm in Hv as (sq' & sc' & wc' & e & u & _ & _ & _ & (i & j & _ & _ & _ & H & _) & _). eapply node_some, H. }
    exists ds. split; [exact E|]. split; [exact C|]. eexists. split; [|split; [|exact F]].
    - rewrite map_map. cbn [fst]. rewrite map_id. apply filter_map_snd_sorted.
    - intros v dat. rewrite in_map_iff. split; [intros (p & [= <- <-] & Hp); split; [reflexivity|apply Hm, Hp]|]. intros [-> K]. exists v. split; [reflexivity|apply Hm, K]. }
  unfold m, l in *. clear m Hm l. destruct (assignments x sc); [congruence|exact R].
Qed.

(** ** star selections that are grouped *)
Lemma leaf_paths_sorted y : StronglySorted doc_before (leaf_paths y).
Proof.
  induction y as [k w|k cs IH] using tree_ind'; cbn [leaf_paths]; [constructor; constructor|]. generalize 0. induction IH as [|c cs Hc _ IHl]; intros n; [constructor|]. cbn [imap concat].
  assert (forall l, StronglySorted doc_before l -> StronglySorted doc_before (map (cons n) l)) as Sm.
  { induction 1 as [|a l _ IHs F]; cbn [map]; constructor; [exact IHs|]. rewrite Forall_forall in *. intros b Hb. apply in_map_iff in Hb as (c' & <- & Hc'). apply before_below, F, Hc'. }
  assert (forall l m : list path, StronglySorted doc_before l -> StronglySorted doc_before m -> (forall a b, In a l -> In b m -> doc_before a b) -> StronglySorted doc_before (l ++ m)) as Sa.
  { intros l m Hl Hm H. induction Hl as [|a l Hl IHs F]; [exact Hm|]. cbn [app]. constructor; [apply IHs; intros b b' Hb; apply H; right; exact Hb|]. apply Forall_forall. intros b Hb. apply in_app_or in Hb as [Hb|Hb]; [rewrite Forall_forall in F; apply F, Hb|apply H; [left; reflexivity|exact Hb]]. }
  apply Sa; [apply Sm, Hc|apply IHl|]. intros a b Ha Hb. apply in_map_iff in Ha as (p & <- & _). apply in_concat in Hb as (l & Hl & Hb). apply in_imap in Hl as (j & c' & _ & ->). apply in_map_iff in Hb as (q & <- & _). apply before_here. lia.
Qed.
Lemma in_leaves_at x p y r : at_path x p = Some y -> In r (map (app p) (leaf_paths y)) <-> inside p r /\ exists k w, at_path x r = Some (Tok k w).
Proof.
  intros E. rewrite in_map_iff. split.
  - intros (q & <- & H). apply in_leaf_paths in H as (k & w & H). split; [exists q; reflexivity|]. exists k, w. rewrite at_path_app, E. exact H.
  - intros [[q ->] (k & w & H)]. exists q. split; [reflexivity|]. rewrite at_path_app, E in H. apply in_leaf_paths. eauto.
Qed.
Lemma last_of_map {A B} (f : A -> B) l : last_of (map f l) = option_map f (last_of l).
Proof. unfold last_of. rewrite <- map_rev. destruct (rev l); reflexivity. Qed.
Lemma last_token_iff x p k s : node_at x p k -> last_token x p = Some s <->
  inside p s /\ (exists k w, at_path x s = Some (Tok k w)) /\ forall r k w, inside p r -> at_path x r = Some (Tok k w) -> r = s \/ doc_before r s.
Proof.
  intros [cs E]. unfold last_token. rewrite E, <- last_of_map. set (l := map (app p) (leaf_paths (Node k cs))).
  assert (StronglySorted doc_before l) as So by (apply sorted_map_app, leaf_paths_sorted).
  assert (forall r, In r l <-> inside p r /\ exists k w, at_path x r = Some (Tok k w)) as Hin by (intros r; apply (in_leaves_at _ _ _ _ E)). clearbody l. split.
  - intros L. destruct (sorted_last _ So _ L) as [H1 H2]. apply Hin in H1 as [H1 H3]. split; [exact H1|]. split; [exact H3|]. intros r k' w Hr Er. apply H2, Hin. eauto.
  - intros (H1 & H2 & H3). assert (In s l) as Hs by (apply Hin; auto). destruct (last_of l) as [z|] eqn:L; [|apply last_of_none in L; subst l; destruct Hs].
    destruct (sorted_last _ So _ L) as [Hz H4]. apply Hin in Hz as [Hz (k' & w & Ez)]. destruct (H3 _ _ _ Hz Ez) as [->|B]; [reflexivity|]. destruct (H4 _ Hs) as [->|B']; [reflexivity|]. exfalso. exact (doc_before_irrefl _ (doc_before_trans _ _ _ B B')).
Qed.
Lemma star_token_iff x sc s : node_at x sc K_SelectClause -> (if is_star_selection x sc then last_token x sc else None) = Some s <-> ends_in_star x sc s.
Proof.
  intros H. unfold is_star_selection. destruct (last_token x sc) as [z|] eqn:L.
  - pose proof (proj1 (last_token_iff _ _ _ z H) L) as (H1 & (k & w & H2) & H3). unfold kind_is, kind_at. rewrite H2. cbn [option_map tkind]. destruct (kind_eqb_spec k K_Star) as [Ek|Nk]; [subst k|].
    + split; [intros [= <-]; split; [exact H1|]; split; [eauto|exact H3]|]. intros (K1 & (w' & K2) & K3). f_equal. destruct (K3 _ _ _ H1 H2) as [->|B]; [reflexivity|]. destruct (H3 _ _ _ K1 K2) as [->|B']; [reflexivity|]. exfalso. exact (doc_before_irrefl _ (doc_before_trans _ _ _ B B')).
    + split; [discriminate|]. intros (K1 & (w' & K2) & K3). exfalso. assert (z = s) as ->; [|congruence]. destruct (K3 _ _ _ H1 H2) as [->|B]; [reflexivity|]. destruct (H3 _ _ _ K1 K2) as [->|B']; [reflexivity|]. exfalso. exact (doc_before_irrefl _ (doc_before_trans _ _ _ B B')).
  - split; [discriminate|]. intros (K1 & (w & K2) & K3). rewrite (proj2 (last_token_iff _ _ _ s H)) in L; [discriminate|]. split; [exact K1|]. split; [eauto|exact K3].
Qed.
(** a leaf in a node *)
Lemma node_leaf err t x p k : doc_tree err t x -> p <> [] -> node_at x p k -> exists r k' w, inside p r /\ at_path x r = Some (Tok k' w).
Proof.
  intros D Hp [cs E]. destruct (doc_solid _ _ _ _ _ D Hp E [] k cs eq_refl) as [Hs _].
  assert (exists q, In q (leaf_paths (Node k cs))) as [q Hq].
  { clear -Hs. revert Hs. generalize (Node k cs) as y. induction y as [k' w|k' ds IH] using tree_ind'; intros H; [exists []; left; reflexivity|]. rewrite sig_node in H.
    assert (exists i c, nth_error ds i = Some c /\ sig c <> []) as (i & c & Ec & Hc).
    { clear IH. induction ds as [|d ds IHd]; [destruct (H eq_refl)|]. destruct (sig d) as [|a l] eqn:Ed; [|exists 0, d; split; [reflexivity|congruence]]. cbn [flat_map] in H. rewrite Ed in H. destruct (IHd H) as (i & c & H1 & H2). exists (S i), c. auto. }
    destruct (nth_error_Forall _ _ _ _ IH Ec Hc) as [q Hq]. exists (i :: q). cbn [leaf_paths]. apply in_concat. exists (map (cons i) (leaf_paths c)). split; [apply in_imap; exists i, c; auto|apply in_map, Hq]. }
  apply in_leaf_paths in Hq as (k' & w & Hq). exists (p ++ q), k', w. split; [exists q; reflexivity|]. rewrite at_path_app, E. exact Hq.
Qed.
Lemma inside_trans a b c : inside a b -> inside b c -> inside a c.
Proof. intros [r ->] [s ->]. exists (r ++ s). rewrite app_assoc. reflexivity. Qed.
Lemma inside_comparable a b c : inside a c -> inside b c -> inside a b \/ inside b a.
Proof.
  intros [r ->] [s E]. revert b E. induction a as [|i a IH]; intros b E; [left; exists b; reflexivity|]. destruct b as [|j b]; [right; exists (i :: a); reflexivity|]. cbn in E. injection E as <- E.
  destruct (IH _ E) as [[z ->]|[z ->]]; [left; exists z; reflexivity|right; exists z; reflexivity].
Qed.
Lemma siblings_before p i j a b : i < j -> doc_before ((p ++ [i]) ++ a) ((p ++ [j]) ++ b).
Proof. intros H. rewrite <- !app_assoc. apply before_app. apply before_here. exact H. Qed.
Lemma part_inside x q k c : part x q k c -> inside q c.
Proof. intros [[i ->] _]. exists [i]. reflexivity. Qed.
Lemma part_nonempty x q k c : part x q k c -> c <> [].
Proof. intros [[i ->] _]. destruct q; discriminate. Qed.
Lemma flatten_NoDup {A B} (f : A -> option B) l : NoDup l -> (forall a b z, In a l -> In b l -> f a = Some z -> f b = Some z -> a = b) -> NoDup (flatten (map f l)).
Proof.
  induction 1 as [|a l H _ IH]; intros I; [constructor|]. unfold flatten in *. cbn [map flat_map]. assert (NoDup (flat_map (fun o => match o with Some x => [x] | None => [] end) (map f l))) as N by (apply IH; intros; eapply I; try eassumption; right; assumption).
  destruct (f a) as [z|] eqn:Ea; [|exact N]. cbn [app]. constructor; [|exact N]. intros K. apply (in_flatten f l z) in K as (b & Hb & Eb). rewrite (I a b z) in H; auto; [left; reflexivity|right; exact Hb].
Qed.
Lemma groupby_star_ok err t x : doc_tree err t x -> exists ds, groupby_star_selection x t = VDone ds /\ coded GroupByStar ds /\
  reports x t (fun s dat => dat = NoData /\ starred_group x s) ds.
Proof.
  intros D. unfold groupby_star_selection. set (f := fun sq => match group_clause x sq with Some _ => _ | None => None end). set (l := filter _ _).
  assert (forall q, In q l <-> exists k, node_at x q k /\ select_like k = true) as Hl.
  { intros q. unfold l. rewrite filter_In, in_descendants. split.
    - intros [(r & k & -> & H) K]. exists k. split; [exact H|]. destruct H as [cs E]. unfold kind_at in K. rewrite E in K. exact K.
    - intros (k & H & K). split; [exists q, k; auto|]. destruct H as [cs E]. unfold kind_at. rewrite E. exact K. }
  assert (forall q k s, node_at x q k -> select_like k = true -> f q = Some s <-> exists sc gc, part x q K_SelectClause sc /\ grouped x q gc /\ ~ hidden x q /\ ends_in_star x sc s) as Hf.
  { intros q k s Hq Hk. unfold f. split.
    - intros E. destruct (group_clause x q) as [gc|] eqn:Eg; [|discriminate]. destruct (select_clause x q) as [sc|] eqn:Ec; [|discriminate]. apply (group_clause_iff _ _ _ _ _ _ D Hq Hk) in Eg as [G Hh].
      apply (select_clause_iff _ _ _ _ _ _ D Hq Hk) in Ec. apply (star_token_iff _ _ _ (proj2 Ec)) in E. exists sc, gc. auto.
    - intros (sc & gc & P & G & Hh & E). rewrite (proj2 (group_clause_iff _ _ _ _ _ gc D Hq Hk) (conj G Hh)), (proj2 (select_clause_iff _ _ _ _ _ sc D Hq Hk) P). apply (star_token_iff _ _ _ (proj2 P)), E. }
  assert (forall s, In s (flatten (map f l)) <-> starred_group x s) as Hs.
  { intros s. rewrite in_flatten. split.
    - intros (q & Hq & E). apply Hl in Hq as (k & Hq & Hk). apply (Hf _ _ _ Hq Hk) in E as (sc & gc & E). exists q, k, sc, gc. split; [exact Hq|]. split; [destruct k; try discriminate Hk; cbn; auto|exact E].
    - intros (q & k & sc & gc & Hq & Hk' & E). assert (select_like k = true) as Hk by (destruct Hk' as [<-|[<-|[]]]; reflexivity). exists q. split; [apply Hl; eauto|]. apply (Hf _ _ _ Hq Hk). eauto. }
  destruct (vmap_all err t x GroupByStar NoData (flatten (map f l)) D) as (ds & E & F & C).
  { intros s H. apply Hs in H as (q & k & sc & gc & _ & _ & _ & _ & _ & _ & [w H] & _). eauto. }
  exists ds. split; [exact E|]. split; [exact C|]. eexists. split; [|split; [|exact F]].
  - rewrite map_map. cbn [fst]. rewrite map_id. apply flatten_NoDup.
    + apply sorted_NoDup. unfold l. apply StronglySorted_filter, descendants_sorted.
    + (* two queries do not end their select clauses with the same token *)
      assert (forall q k q' k' sc sc' gc gc' s, node_at x q k -> select_like k = true -> node_at x q' k' -> select_like k' = true -> part x q K_SelectClause sc -> part x q' K_SelectClause sc' -> grouped x q gc -> grouped x q' gc' ->
        ends_in_star x sc s -> ends_in_star x sc' s -> inside q q' -> q = q') as U.
      { intros q k q' k' sc sc' gc gc' s Hq Hk Hq' Hk' P P' G G' S1 S2 I. destruct (inside_comparable sc q' s) as [I1|I1]; [apply S1|exact (inside_trans _ _ _ (part_inside _ _ _ _ P') (proj1 S2))| |].
        - exfalso. destruct G' as (sm & Psm & _). destruct (node_leaf _ _ _ _ _ D (part_nonempty _ _ _ _ Psm) (proj2 Psm)) as (r & k2 & w & Ir & Er).
          assert (inside sc r) as Isr by (eapply inside_trans; [exact I1|]; exact (inside_trans _ _ _ (part_inside _ _ _ _ Psm) Ir)).
          destruct P' as [[i ->] Hi], Psm as [[j ->] Hj].
          assert (i < j) as L. { assert (ordered k' (item_eqb (Sub K_SolutionModifier)) (item_eqb (Sub K_SelectClause)) = true) as O by (destruct k'; try discriminate Hk'; vm_compute; reflexivity).
            pose proof (nodes_order _ _ _ _ _ _ _ _ _ _ _ D Hq' O Hj Hi eq_refl eq_refl). assert (i <> j); [|lia]. intros ->. pose proof (node_at_fun _ _ _ _ Hi Hj). discriminate. }
          destruct S2 as ([a Ea] & _). destruct Ir as [b Eb]. pose proof (siblings_before q' i j a b L) as B. rewrite <- Ea, <- Eb in B.
          destruct S1 as (_ & _ & S1). destruct (S1 _ _ _ Isr Er) as [->|B']; [exact (doc_before_irrefl _ B)|exact (doc_before_irrefl _ (doc_before_trans _ _ _ B B'))].
        - destruct P as [[i ->] Hi]. destruct I as [r ->]. destruct I1 as [r' E1]. rewrite <- app_assoc in E1. apply app_inv_head in E1. destruct r as [|a r]; [rewrite app_nil_r; reflexivity|].
          exfalso. destruct r as [|b r]; [|discriminate]. cbn in E1. injection E1 as -> _. pose proof (node_at_fun _ _ _ _ Hi Hq'). subst k'. discriminate. }
      intros a b s Ha Hb Ea Eb. apply Hl in Ha as (k & Ha & Hk), Hb as (k' & Hb & Hk'). apply (Hf _ _ _ Ha Hk) in Ea as (sc & gc & P & G & _ & S1). apply (Hf _ _ _ Hb Hk') in Eb as (sc' & gc' & P' & G' & _ & S2).
      destruct (inside_comparable a b s) as [I|I].
      * exact (inside_trans _ _ _ (part_inside _ _ _ _ P) (proj1 S1)).
      * exact (inside_trans _ _ _ (part_inside _ _ _ _ P') (proj1 S2)).
      * exact (U a k b k' sc sc' gc gc' s Ha Hk Hb Hk' P P' G G' S1 S2 I).
      * symmetry. exact (U b k' a k sc' sc gc' gc s Hb Hk' Ha Hk P' P G' G S2 S1 I).
  - intros s dat. rewrite in_map_iff. split; [intros (p & [= <- <-] & Hp); split; [reflexivity|apply Hs, Hp]|]. intros [-> K]. exists s. split; [reflexivity|apply Hs, K].
Qed.

(** ** triples with the same subject *)

Lemma in_block_triples y : forall r, In r (block_triples y) <-> (exists k cs, y = Node k cs) /\ r <> [] /\ node_at y r K_TriplesSameSubjectPath /\ forall a b, r = a ++ b -> a <> [] -> b <> [] -> node_at y a K_TriplesBlock.
Proof.
  induction y as [k w|k cs IH] using tree_ind'; intros r.
  - cbn. split; [intros []|]. intros [(k' & cs & E) _]. discriminate.
  - cbn [block_triples]. rewrite in_concat. split.
    + intros (l & Hl & Hr). apply in_imap in Hl as (i & c & Ec & ->). cbn [Nat.add] in Hr. split; [eauto|].
      assert (r = [i] /\ (exists ds, c = Node K_TriplesSameSubjectPath ds) \/ exists ds q, c = Node K_TriplesBlock ds /\ r = i :: q /\ In q (block_triples c)) as [[-> [ds ->]]|(ds & q & -> & -> & Hq)].
      { destruct c as [k' w|k' ds]; [destruct Hr|]. destruct k'; try (destruct Hr; fail).
        - right. apply in_map_iff in Hr as (q & <- & Hq). exists ds, q. auto.
        - left. destruct Hr as [<-|[]]. eauto. }
      * split; [discriminate|]. split; [exists ds; cbn; rewrite Ec; reflexivity|]. intros a b E Ha Hb. destruct a as [|j a]; [congruence|]. injection E as <- E. symmetry in E. apply app_eq_nil in E as [_ ->]. congruence.
      * apply (nth_error_Forall _ _ _ _ IH Ec) in Hq as (_ & Hne & [es Hn] & Hp). split; [discriminate|]. split; [exists es; cbn; rewrite Ec; exact Hn|].
        intros a b E Ha Hb. destruct a as [|j a]; [congruence|]. injection E as <- E. destruct a as [|j a]; [exists ds; cbn; rewrite Ec; reflexivity|]. destruct (Hp (j :: a) b E ltac:(discriminate) Hb) as [fs Hf]. exists fs. cbn. rewrite Ec. exact Hf.
    + intros (_ & Hne & [es Hn] & Hp). destruct r as [|i q]; [congruence|]. cbn in Hn. destruct (nth_error cs i) as [c|] eqn:Ec; [|discriminate]. eexists. split; [apply in_imap; exists i, c; split; [exact Ec|reflexivity]|]. cbn [Nat.add].
      destruct q as [|j q]; [cbn in Hn; injection Hn as ->; left; reflexivity|].
      destruct (Hp [i] (j :: q) eq_refl ltac:(discriminate) ltac:(discriminate)) as [ds Hd]. cbn in Hd. rewrite Ec in Hd. injection Hd as ->. cbv iota. apply (in_map (cons i)). apply (nth_error_Forall _ _ _ _ IH Ec). split; [eauto|]. split; [discriminate|]. split; [exists es; exact Hn|].
      intros a b E Ha Hb. destruct (Hp (i :: a) b (f_equal (cons i) E) ltac:(discriminate) Hb) as [fs Hf]. exists fs. cbn in Hf. rewrite Ec in Hf. exact Hf.
Qed.
Lemma sorted_app (l m : list path) : StronglySorted doc_before l -> StronglySorted doc_before m -> (forall a b, In a l -> In b m -> doc_before a b) -> StronglySorted doc_before (l ++ m).
Proof.
  intros Hl Hm H. induction Hl as [|a l Hl IHs F]; [exact Hm|]. cbn [app]. constructor; [apply IHs; intros b b' Hb; apply H; right; exact Hb|].
  apply Forall_forall. intros b Hb. apply in_app_or in Hb as [Hb|Hb]; [rewrite Forall_forall in F; apply F, Hb|apply H; [left; reflexivity|exact Hb]].
Qed.
Lemma sorted_cons i l : StronglySorted doc_before l -> StronglySorted doc_before (map (cons i) l).
Proof. induction 1 as [|a l _ IHs F]; cbn [map]; constructor; [exact IHs|]. rewrite Forall_forall in *. intros b Hb. apply in_map_iff in Hb as (c' & <- & Hc'). apply before_below, F, Hc'. Qed.
Lemma block_sorted y : StronglySorted doc_before (block_triples y).
Proof.
  induction y as [k w|k cs IH] using tree_ind'; [constructor|]. cbn [block_triples]. generalize 0. induction IH as [|c cs Hc _ IHl]; intros n; [constructor|]. cbn [imap concat].
  set (f := fun (i : nat) (c : tree) => match c with Node K_TriplesSameSubjectPath _ => [[i]] | Node K_TriplesBlock _ => map (cons i) (block_triples c) | _ => [] end) in *.
  assert (forall i c p, In p (f i c) -> exists q, p = i :: q) as Hf.
  { intros i d p H. unfold f in H. destruct d as [|k' ds]; [destruct H|]. destruct k'; try (destruct H; fail); [apply in_map_iff in H as (q & <- & _); eauto|destruct H as [<-|[]]; eauto]. }
  apply sorted_app; [|apply IHl|].
  - unfold f. destruct c as [|k' ds]; [constructor|]. destruct k'; try constructor; try constructor. apply sorted_cons, Hc.
  - intros a b Ha Hb. apply Hf in Ha as [q ->]. apply in_concat in Hb as (l & Hl & Hb). apply in_imap in Hl as (j & d & _ & ->). apply Hf in Hb as [q' ->]. apply before_here. lia.
Qed.
Lemma in_triples x b k p : node_at x b k -> In p (triples x b) <-> exists r, p = b ++ r /\ r <> [] /\ node_at x p K_TriplesSameSubjectPath /\ forall a c, r = a ++ c -> a <> [] -> c <> [] -> node_at x (b ++ a) K_TriplesBlock.
Proof.
  intros [cs E]. unfold triples. rewrite E, in_map_iff. split.
  - intros (r & <- & H). apply in_block_triples in H as (_ & H1 & [ds H2] & H3). exists r. split; [reflexivity|]. split; [exact H1|]. split; [exists ds; rewrite at_path_app, E; exact H2|].
    intros a c Er Ha Hc. destruct (H3 a c Er Ha Hc) as [es H]. exists es. rewrite at_path_app, E. exact H.
  - intros (r & -> & H1 & [ds H2] & H3). exists r. split; [reflexivity|]. rewrite at_path_app, E in H2. apply in_block_triples. split; [eauto|]. split; [exact H1|]. split; [exists ds; exact H2|].
    intros a c Er Ha Hc. destruct (H3 a c Er Ha Hc) as [es H]. exists es. rewrite at_path_app, E in H. exact H.
Qed.
Lemma in_triple_blocks err t x g b : doc_tree err t x -> node_at x g K_GroupGraphPattern -> In b (triple_blocks x g) <-> exists s, part x g K_GroupGraphPatternSub s /\ part x s K_TriplesBlock b.
Proof.
  intros D H. unfold triple_blocks. assert (ordered K_GroupGraphPattern (item_eqb (Sub K_GroupGraphPatternSub)) (item_eqb (Sub K_GroupGraphPatternSub)) = true) as O by (vm_compute; reflexivity).
  destruct (first_child_by_kind x g (is K_GroupGraphPatternSub)) as [s|] eqn:E.
  - pose proof E as E'. apply first_child_by_kind_some in E' as (i & k & -> & _). pose proof (proj1 (first_child_by_kind_iff _ _ _ _ _ _ _ D H O) E) as Hs. rewrite filter_In, in_child_nodes. split.
    + intros [(j & k' & -> & Hj) K]. apply (kind_is_iff _ _ _ _ Hj) in K. subst k'. exists (g ++ [i]). split; [split; [eauto|exact Hs]|]. split; [eauto|exact Hj].
    + intros (s & [[i' ->] Hs'] & [[j ->] Hj]). pose proof (node_unique _ _ _ _ _ _ _ _ _ _ D H O Hs Hs' eq_refl eq_refl). subst i'. split; [exists j, K_TriplesBlock; auto|]. apply (kind_is_iff _ _ _ _ Hj). reflexivity.
  - split; [intros []|]. intros (s & [[i ->] Hs] & _). apply (first_child_by_kind_iff _ _ _ _ _ _ _ D H O) in Hs. congruence.
Qed.
Lemma app_cut {A} (p q a b : list A) : p ++ a = q ++ b -> (exists r, q = p ++ r /\ a = r ++ b) \/ (exists r, r <> [] /\ p = q ++ r /\ b = r ++ a).
Proof.
  revert q. induction p as [|x p IH]; intros q E; [left; exists q; split; [reflexivity|exact E]|]. destruct q as [|y q].
  - right. exists (x :: p). split; [discriminate|]. split; [reflexivity|]. symmetry. exact E.
  - cbn in E. injection E as -> E. destruct (IH _ E) as [(r & -> & ->)|(r & Hr & -> & ->)]; [left; exists r; auto|right; exists r; auto].
Qed.
Lemma block_up err t x : doc_tree err t x -> forall n b, length b = n -> node_at x b K_TriplesBlock ->
  exists g j i r, b = g ++ j :: i :: r /\ node_at x g K_GroupGraphPattern /\ node_at x (g ++ [j]) K_GroupGraphPatternSub /\ forall a c, r = a ++ c -> node_at x (g ++ j :: i :: a) K_TriplesBlock.
Proof.
  intros D. induction n as [|n IH]; intros b L H.
  - destruct b; [|discriminate]. destruct (doc_root _ _ _ D) as (k & Hk & [-> | ->]); pose proof (node_at_fun _ _ _ _ H Hk); discriminate.
  - destruct (path_split b) as [->|(q & i & ->)]; [discriminate|]. rewrite app_length in L. cbn in L.
    destruct (doc_parent_in _ _ _ _ _ _ [K_TriplesBlock; K_GroupGraphPatternSub] D H ltac:(discriminate) ltac:(vm_compute; reflexivity)) as (k & Hk & [<-|[<-|[]]]).
    + destruct (IH q ltac:(lia) Hk) as (g & j & i' & r & -> & Hg & Hs & Hr). exists g, j, i', (r ++ [i]). split; [rewrite <- app_assoc; reflexivity|]. split; [exact Hg|]. split; [exact Hs|].
      intros a c E. destruct (path_split c) as [->|(c' & z & ->)]; [rewrite app_nil_r in E; subst a; rewrite <- app_assoc in H; exact H|]. rewrite app_assoc in E. apply app_one_inv in E as [E _]. exact (Hr _ _ E).
    + destruct (path_split q) as [->|(g & j & ->)].
      { destruct (doc_root _ _ _ D) as (k & Hk' & [-> | ->]); pose proof (node_at_fun _ _ _ _ Hk Hk'); discriminate. }
      destruct (doc_parent_in _ _ _ _ _ _ [K_GroupGraphPattern] D Hk ltac:(discriminate) ltac:(vm_compute; reflexivity)) as (k & Hg & [<-|[]]).
      exists g, j, i, []. split; [rewrite <- app_assoc; reflexivity|]. split; [exact Hg|]. split; [exact Hk|]. intros a c E. symmetry in E. apply app_eq_nil in E as [-> _]. rewrite <- app_assoc in H. exact H.
Qed.
Lemma in_group_triples err t x g p : doc_tree err t x -> node_at x g K_GroupGraphPattern -> In p (flat_map (triples x) (triple_blocks x g)) <-> triple_in x g p.
Proof.
  intros D H. assert (forall g, node_at x g K_GroupGraphPattern -> forall p, In p (flat_map (triples x) (triple_blocks x g)) -> triple_in x g p) as Fwd.
  { clear g p H. intros g H p Hp. apply in_flat_map in Hp as (b & Hb & Hp). apply (in_triple_blocks _ _ _ _ _ D H) in Hb as (s & [[j ->] Hs] & [[i ->] Hb]). apply (in_triples _ _ _ _ Hb) in Hp as (r & -> & Hne & Hn & Hr).
    split; [exact H|]. split; [exact Hn|]. split; [exists (j :: i :: r); rewrite <- !app_assoc; reflexivity|]. intros g' Hg' [z E]. rewrite <- !app_assoc in E. cbn [app] in E.
    destruct (app_cut _ _ _ _ E) as [(u & -> & Eu)|(u & _ & -> & _)]; [|exists u; reflexivity]. destruct u as [|j' u]; [exists []; rewrite !app_nil_r; reflexivity|]. exfalso. cbn in Eu. injection Eu as <- Eu.
    destruct u as [|i' u]; [pose proof (node_at_fun _ _ _ _ Hs Hg'); discriminate|]. injection Eu as <- Eu. assert (node_at x (((g ++ [j]) ++ [i]) ++ u) K_GroupGraphPattern) as K by (rewrite <- !app_assoc; exact Hg').
    destruct u as [|y u]; [rewrite app_nil_r in K; pose proof (node_at_fun _ _ _ _ Hb K); discriminate|]. destruct z as [|z1 z].
    - rewrite app_nil_r in Eu. subst r. pose proof (node_at_fun _ _ _ _ Hn K). discriminate.
    - pose proof (node_at_fun _ _ _ _ K (Hr _ _ Eu ltac:(discriminate) ltac:(discriminate))). discriminate. }
  split; [apply Fwd, H|]. intros (_ & Hp & Ip & Hin).
  destruct (path_split p) as [->|(q & z & ->)]. { destruct (doc_root _ _ _ D) as (k & Hk' & [-> | ->]); pose proof (node_at_fun _ _ _ _ Hp Hk'); discriminate. }
  destruct (doc_parent_in _ _ _ _ _ _ [K_TriplesBlock] D Hp ltac:(discriminate) ltac:(vm_compute; reflexivity)) as (k & Hq & [<-|[]]).
  destruct (block_up _ _ _ D _ q eq_refl Hq) as (g0 & j & i & r & -> & Hg0 & Hs & Hr).
  assert (In ((g0 ++ j :: i :: r) ++ [z]) (flat_map (triples x) (triple_blocks x g0))) as Hin0.
  { apply in_flat_map. exists (g0 ++ [j; i]). assert (node_at x (g0 ++ [j; i]) K_TriplesBlock) as Hb by (exact (Hr [] r eq_refl)). split.
    - apply (in_triple_blocks _ _ _ _ _ D Hg0). exists (g0 ++ [j]). split; [split; [eauto|exact Hs]|]. split; [exists i; rewrite <- app_assoc; reflexivity|exact Hb].
    - apply (in_triples _ _ _ _ Hb). exists (r ++ [z]). split; [rewrite <- !app_assoc; reflexivity|]. split; [destruct r; discriminate|]. split; [exact Hp|].
      intros a c E Ha Hc. destruct (path_split c) as [->|(c' & y & ->)]; [congruence|]. rewrite app_assoc in E. apply app_one_inv in E as [E _]. rewrite <- app_assoc. exact (Hr _ _ E). }
  assert (g0 = g) as <-; [|exact Hin0]. destruct (Fwd _ Hg0 _ Hin0) as (_ & _ & I0 & M0). pose proof (M0 _ H Ip) as [u Eu]. pose proof (Hin _ Hg0 I0) as [v Ev]. rewrite Eu in Ev. rewrite <- app_assoc in Ev. rewrite <- (app_nil_r g) in Ev at 1. apply app_inv_head in Ev. symmetry in Ev. apply app_eq_nil in Ev as [-> _]. rewrite app_nil_r in Eu. exact Eu.
Qed.
Lemma group_triples_sorted x g : StronglySorted doc_before (flat_map (triples x) (triple_blocks x g)).
Proof.
  unfold triple_blocks. destruct (first_child_by_kind x g (is K_GroupGraphPatternSub)) as [s|]; [|constructor].
  assert (forall l, StronglySorted doc_before l -> (forall b, In b l -> exists i, b = s ++ [i]) -> StronglySorted doc_before (flat_map (triples x) l)) as K.
  { induction 1 as [|b l _ IH F]; intros Hl; [constructor|]. cbn [flat_map]. apply sorted_app; [|apply IH; intros c Hc; apply Hl; right; exact Hc|].
    - unfold triples. destruct (at_path x b); [|constructor]. apply sorted_map_app, block_sorted.
    - intros p q Hp Hq. apply in_flat_map in Hq as (c & Hc & Hq). rewrite Forall_forall in F. pose proof (F _ Hc) as B. destruct (Hl b (or_introl eq_refl)) as [i ->]. destruct (Hl c (or_intror Hc)) as [j ->]. apply before_child in B.
      assert (forall b p, In p (triples x b) -> exists r, p = b ++ r) as Ht by (clear; intros b p H; unfold triples in H; destruct (at_path x b); [|destruct H]; apply in_map_iff in H as (r & <- & _); eauto).
      apply Ht in Hp as [r ->]. apply Ht in Hq as [r' ->]. apply siblings_before, B. }
  apply K; [apply StronglySorted_filter, child_nodes_sorted|]. intros b Hb. apply filter_In in Hb as [Hb _]. apply in_child_nodes in Hb as (i & k & -> & _). eauto.
Qed.
Lemma has_error_iff x p : has_error x p = true <-> flawed x p.
Proof.
  unfold has_error, flawed. rewrite existsb_exists. split.
  - intros (q & Hin & K). apply in_descendants in Hin as (r & k & -> & H). apply (kind_is_iff _ _ _ _ H) in K. subst k. exists (p ++ r). split; [exists r; reflexivity|exact H].
  - intros (q & [r ->] & H). exists (p ++ r). split; [apply in_descendants; eauto|]. apply (kind_is_iff _ _ _ _ H). reflexivity.
Qed.
Lemma triple_subject_iff err t x p s : doc_tree err t x -> node_at x p K_TriplesSameSubjectPath -> triple_subject x p = Some s <-> subject x p s.
Proof.
  intros D H. unfold triple_subject, subject. split.
  - intros E. destruct (first_child x p) as [q|] eqn:F; [|discriminate]. apply first_child_spec in F as (i & k & -> & Hk & _).
    destruct (kind_is x (p ++ [i]) K_VarOrTerm) eqn:K1; [|destruct (kind_is x (p ++ [i]) K_TriplesNodePath) eqn:K2; [|discriminate]]; injection E as <-; [apply (kind_is_iff _ _ _ _ Hk) in K1|apply (kind_is_iff _ _ _ _ Hk) in K2]; subst k; [left|right]; (split; [eauto|exact Hk]).
  - assert (ordered K_TriplesSameSubjectPath any_sub (item_eqb (Sub K_VarOrTerm)) = true /\ ordered K_TriplesSameSubjectPath any_sub (item_eqb (Sub K_TriplesNodePath)) = true) as [O1 O2] by (split; vm_compute; reflexivity).
    assert (forall K i, ordered K_TriplesSameSubjectPath any_sub (item_eqb (Sub K)) = true -> node_at x (p ++ [i]) K -> first_child x p = Some (p ++ [i])) as F.
    { intros K i O Hi. apply (first_child_iff _ _ _ _ _ _ _ D H O) in Hi. unfold of_kind in Hi. destruct (first_child x p) as [q|]; [|discriminate]. destruct (kind_is x q K); [exact Hi|discriminate]. }
    intros [[[i ->] Hi]|[[i ->] Hi]]; [rewrite (F _ _ O1 Hi)|rewrite (F _ _ O2 Hi)]; rewrite (proj2 (kind_is_iff _ _ _ _ Hi) eq_refl); [reflexivity|]. destruct (kind_is x (p ++ [i]) K_VarOrTerm); reflexivity.
Qed.
Lemma text_eqb_iff (a b : text) : text_eqb a b = true <-> a = b.
Proof. unfold text_eqb. destruct (list_eq_dec N.eq_dec a b); split; congruence. Qed.
Definition keyed (key : path -> option text) (w : text) (l : list path) : list path := filter (fun p => match key p with Some v => text_eqb v w | None => false end) l.
Lemma keyed_app key w l m : keyed key w (l ++ m) = keyed key w l ++ keyed key w m.
Proof. apply filter_app. Qed.
(** the groups of the triples [l] *)
Definition grouping (key : path -> option text) (l : list path) (gs : list (text * list path)) : Prop :=
  NoDup (map fst gs) /\ forall w m, In (w, m) gs <-> m = keyed key w l /\ m <> [].
Lemma add_group_keys w p gs : forall v, In v (map fst (add_group w p gs)) <-> v = w \/ In v (map fst gs).
Proof.
  induction gs as [|[u l] gs IH]; intros v; cbn [add_group map fst In]; [intuition congruence|]. destruct (text_eqb u w) eqn:E; cbn [map fst In]; [apply text_eqb_iff in E; subst; intuition congruence|]. rewrite IH. intuition congruence.
Qed.
Lemma add_group_NoDup w p gs : NoDup (map fst gs) -> NoDup (map fst (add_group w p gs)).
Proof.
  induction gs as [|[u l] gs IH]; cbn [add_group map fst]; intros H; [constructor; [intros []|constructor]|]. inversion H as [|? ? H1 H2]; subst. destruct (text_eqb u w) eqn:E; cbn [map fst]; [exact H|].
  constructor; [|apply IH, H2]. rewrite add_group_keys. intros [->|K]; [|exact (H1 K)]. assert (text_eqb w w = true) by (apply text_eqb_iff; reflexivity). congruence.
Qed.
Lemma in_add_group w p gs : NoDup (map fst gs) -> forall v m, In (v, m) (add_group w p gs) <->
  (v <> w /\ In (v, m) gs) \/ (v = w /\ ((exists l, In (w, l) gs /\ m = l ++ [p]) \/ (~ In w (map fst gs) /\ m = [p]))).
Proof.
  induction gs as [|[u l] gs IH]; intros H v m; cbn [add_group map fst In].
  - split; [intros [[= <- <-]|[]]; right; split; [reflexivity|right; auto]|]. intros [[_ []]|[-> [(l & [] & _)|[_ ->]]]]. left. reflexivity.
  - inversion H as [|? ? H1 H2]; subst. destruct (text_eqb u w) eqn:E.
    + apply text_eqb_iff in E. subst u. cbn [In]. split.
      * intros [[= <- <-]|K]; [right; split; [reflexivity|left; exists l; auto]|]. left. split; [|right; exact K]. intros ->. apply H1. apply in_map_iff. exists (w, m). auto.
      * intros [[Hv [[= -> _]|K]]|[-> [(l' & [[= <-]|K] & ->)|[K _]]]]; [congruence|right; exact K|left; reflexivity| |exfalso; apply K; left; reflexivity].
        exfalso. apply H1. apply in_map_iff. exists (w, l'). auto.
    + assert (u <> w) as Nu by (intros ->; assert (text_eqb w w = true) by (apply text_eqb_iff; reflexivity); congruence). cbn [In]. rewrite (IH H2). split.
      * intros [[= <- <-]|[[Hv K]|[-> K]]]; [left; auto|left; auto|right]. split; [reflexivity|]. destruct K as [(l' & K & ->)|[K ->]]; [left; exists l'; auto|right; split; [|reflexivity]]. intros [->|K']; [congruence|exact (K K')].
      * intros [[Hv [[= -> ->]|K]]|[-> [(l' & [[= ->]|K] & ->)|[K ->]]]]; [left; reflexivity|right; left; auto|congruence|right; right; split; [reflexivity|left; exists l'; auto]|]. right. right. split; [reflexivity|]. right. split; [|reflexivity]. intros K'. apply K. right. exact K'.
Qed.
Lemma grouping_step key l p gs : grouping key l gs -> grouping key (l ++ [p]) (match key p with Some w => add_group w p gs | None => gs end).
Proof.
  intros [N H]. destruct (key p) as [w|] eqn:K.
  - split; [apply add_group_NoDup, N|]. intros v m. rewrite (in_add_group _ _ _ N), keyed_app. assert (keyed key v [p] = if text_eqb w v then [p] else []) as -> by (unfold keyed; cbn; rewrite K; destruct (text_eqb w v); reflexivity).
    destruct (list_eq_dec N.eq_dec v w) as [->|Nv].
    + assert (text_eqb w w = true) as -> by (apply text_eqb_iff; reflexivity). split.
      * intros [[Hv _]|[_ [(l' & Hl & ->)|[Hn ->]]]]; [congruence| |].
        { apply H in Hl as [-> _]. split; [reflexivity|]. destruct (keyed key w l); discriminate. }
        { destruct (keyed key w l) as [|a m] eqn:E; [split; [reflexivity|discriminate]|]. exfalso. apply Hn. apply in_map_iff. exists (w, a :: m). split; [reflexivity|]. apply H. rewrite E. split; [reflexivity|discriminate]. }
      * intros [-> _]. right. split; [reflexivity|]. destruct (keyed key w l) as [|a m] eqn:E; [right|left].
        { split; [|reflexivity]. intros Hin. apply in_map_iff in Hin as ([v m] & <- & Hin). apply H in Hin as [-> Hm]. cbn [fst] in *. congruence. }
        { exists (a :: m). split; [apply H; rewrite E; split; [reflexivity|discriminate]|reflexivity]. }
    + assert (text_eqb w v = false) as -> by (destruct (text_eqb w v) eqn:E; [apply text_eqb_iff in E; congruence|reflexivity]). rewrite app_nil_r, H. split; [intros [[_ K']|[-> _]]; [exact K'|congruence]|]. intros K'. left. auto.
  - split; [exact N|]. intros v m. rewrite H, keyed_app. assert (keyed key v [p] = []) as -> by (unfold keyed; cbn; rewrite K; reflexivity). rewrite app_nil_r. reflexivity.
Qed.
Lemma grouping_fold key l : forall done gs, grouping key done gs -> grouping key (done ++ l) (fold_left (fun gs p => match key p with Some w => add_group w p gs | None => gs end) l gs).
Proof.
  induction l as [|p l IH]; intros done gs H; [rewrite app_nil_r; exact H|]. cbn [fold_left]. change (p :: l) with ([p] ++ l). rewrite app_assoc. apply IH, grouping_step, H.
Qed.
Definition subject_text (x : tree) (p : path) : option text := option_map (text_at x) (triple_subject x p).
Definition sound_triples (x : tree) (g : path) : list path := filter (fun p => negb (has_error x p)) (flat_map (triples x) (triple_blocks x g)).
Lemma groups_ok x g : grouping (subject_text x) (sound_triples x g) (groups_of x g).
Proof.
  unfold groups_of. fold (sound_triples x g). assert (forall l gs, fold_left (fun gs p => match triple_subject x p with Some s => add_group (text_at x s) p gs | None => gs end) l gs =
    fold_left (fun gs p => match subject_text x p with Some w => add_group w p gs | None => gs end) l gs) as E.
  { induction l as [|p l IH]; intros gs; [reflexivity|]. cbn [fold_left]. rewrite IH. f_equal. unfold subject_text. destruct (triple_subject x p); reflexivity. }
  rewrite E. apply (grouping_fold _ _ [] []). split; [constructor|]. intros w m. split; [intros []|]. intros [-> K]. exact (K eq_refl).
Qed.
Lemma in_sound_triples err t x g p : doc_tree err t x -> node_at x g K_GroupGraphPattern -> In p (sound_triples x g) <-> triple_in x g p /\ ~ flawed x p.
Proof. intros D H. unfold sound_triples. rewrite filter_In, (in_group_triples _ _ _ _ _ D H), negb_true_iff, <- has_error_iff. destruct (has_error x p); intuition congruence. Qed.
Lemma triple_in_fun x g g' p : triple_in x g p -> triple_in x g' p -> g = g'.
Proof.
  intros (H1 & _ & I1 & M1) (H2 & _ & I2 & M2). destruct (M1 _ H2 I2) as [u ->]. destruct (M2 _ H1 I1) as [v E]. rewrite <- app_assoc in E. rewrite <- (app_nil_r g') in E at 1. apply app_inv_head in E. symmetry in E. apply app_eq_nil in E as [-> _]. apply app_nil_r.
Qed.
Lemma subject_fun err t x p s s' : doc_tree err t x -> node_at x p K_TriplesSameSubjectPath -> subject x p s -> subject x p s' -> s = s'.
Proof. intros D H K K'. apply (triple_subject_iff _ _ _ _ _ D H) in K, K'. congruence. Qed.
(** the members of a group are the triples alike to each of them *)
Lemma group_alike err t x g w m p : doc_tree err t x -> node_at x g K_GroupGraphPattern -> In (w, m) (groups_of x g) -> In p m -> forall q, In q m <-> alike x p q.
Proof.
  intros D H Hm Hp q. apply groups_ok in Hm as [-> _]. unfold keyed in *. rewrite filter_In in *. destruct Hp as [Hp Kp]. apply (in_sound_triples _ _ _ _ _ D H) in Hp as [Tp Fp]. rewrite (in_sound_triples _ _ _ _ _ D H).
  unfold subject_text in *. pose proof Tp as (_ & Np & _). destruct (triple_subject x p) as [s|] eqn:Es; [|discriminate]. cbn in Kp. apply text_eqb_iff in Kp. apply (triple_subject_iff _ _ _ _ _ D Np) in Es. split.
  - intros [[Tq Fq] Kq]. pose proof Tq as (_ & Nq & _). destruct (triple_subject x q) as [s'|] eqn:Es'; [|discriminate]. cbn in Kq. apply text_eqb_iff in Kq. apply (triple_subject_iff _ _ _ _ _ D Nq) in Es'. exists g, s, s'. split; [exact Tp|]. split; [exact Tq|]. split; [exact Fp|]. split; [exact Fq|]. split; [exact Es|]. split; [exact Es'|]. congruence.
  - intros (g' & s1 & s2 & T1 & T2 & _ & F2 & S1 & S2 & E). pose proof (triple_in_fun _ _ _ _ Tp T1). subst g'. split; [split; assumption|]. pose proof T2 as (_ & N2 & _). pose proof S2 as S2'. apply (triple_subject_iff _ _ _ _ _ D N2) in S2'. rewrite S2'. cbn. apply text_eqb_iff.
    rewrite <- E, <- Kp. f_equal. exact (subject_fun _ _ _ _ _ _ D Np S1 Es).
Qed.
Lemma alike_grouped err t x p q : doc_tree err t x -> alike x p q -> exists g w m, node_at x g K_GroupGraphPattern /\ In (w, m) (groups_of x g) /\ In p m.
Proof.
  intros D (g & s & s' & T & _ & F & _ & S1 & _). pose proof T as (H & N & _). exists g, (text_at x s), (keyed (subject_text x) (text_at x s) (sound_triples x g)). assert (In p (keyed (subject_text x) (text_at x s) (sound_triples x g))) as Hp.
  { unfold keyed. apply filter_In. split; [apply (in_sound_triples _ _ _ _ _ D H); split; assumption|]. unfold subject_text. apply (triple_subject_iff _ _ _ _ _ D N) in S1. rewrite S1. cbn. apply text_eqb_iff. reflexivity. }
  split; [exact H|]. split; [|exact Hp]. apply groups_ok. split; [reflexivity|]. intros E. rewrite E in Hp. destruct Hp.
Qed.
Lemma group_sorted x g w m : In (w, m) (groups_of x g) -> StronglySorted doc_before m.
Proof. intros H. apply groups_ok in H as [-> _]. apply StronglySorted_filter, StronglySorted_filter, group_triples_sorted. Qed.
Lemma NoDup_flat {A B} (f : A -> list B) l : NoDup l -> (forall a, In a l -> NoDup (f a)) -> (forall a b z, In a l -> In b l -> In z (f a) -> In z (f b) -> a = b) -> NoDup (flat_map f l).
Proof.
  induction 1 as [|a l H _ IH]; intros N I; [constructor|]. cbn [flat_map]. apply NoDup_app; [apply N; left; reflexivity|apply IH; [intros; apply N; right; assumption|intros; eapply I; try eassumption; right; assumption]|].
  intros z Hz K. apply in_flat_map in K as (b & Hb & Kz). rewrite (I a b z) in H; auto; [left; reflexivity|right; exact Hb].
Qed.
Lemma NoDup_fst {A B} (l : list (A * B)) : NoDup (map fst l) -> NoDup l.
Proof. induction l as [|a l IH]; intros H; [constructor|]. inversion H as [|? ? H1 H2]; subst. constructor; [|apply IH, H2]. intros K. apply H1, in_map, K. Qed.
Lemma firstn_bytes err t x p y : doc_tree err t x -> at_path x p = Some y -> (start_at x p, end_at x p) = bytes_at x t p.
Proof.
  intros D E. destruct (node_slice _ _ _ E) as (a & b & T & L & N). rewrite (doc_text _ _ _ D) in T. unfold bytes_at, end_at, text_at. rewrite E, <- N, <- L, <- byte_len_app. f_equal; f_equal; rewrite T; [symmetry; apply firstn_exact|]. rewrite app_assoc, <- app_length. symmetry. apply firstn_exact.
Qed.
Lemma Forall2_concat {A B} (R : A -> B -> Prop) ls ms : Forall2 (Forall2 R) ls ms -> Forall2 R (concat ls) (concat ms).
Proof. induction 1; cbn [concat]; [constructor|]. apply Forall2_app; assumption. Qed.
Lemma Forall_concat {A} (P : A -> Prop) ls : Forall (Forall P) ls -> Forall P (concat ls).
Proof. induction 1; cbn [concat]; [constructor|]. apply Forall_app. auto. Qed.
Lemma two_members {A} (l : list A) p : NoDup l -> In p l -> (2 <=? length l) = true <-> exists q, q <> p /\ In q l.
Proof.
  intros N Hp. rewrite Nat.leb_le. split.
  - intros L. destruct l as [|a [|b l]]; cbn in L; try lia. inversion N as [|? ? N1 N2]; subst. assert (a <> b) as Nab by (intros ->; apply N1; left; reflexivity).
    destruct Hp as [->|Hp]; [exists b; split; [congruence|right; left; reflexivity]|]. exists a. split; [intros ->; contradiction|left; reflexivity].
  - intros (q & Hne & Hq). destruct l as [|a [|b l]]; cbn; try lia; cbn in *; intuition congruence.
Qed.
Lemma same_subject_ok err t x order : doc_tree err t x -> (forall g l, Permutation (order g l) l) -> exists ds, same_subject order x t = VDone ds /\ coded SameSubject ds /\ reports x t (repeated x t) ds.
Proof.
  intros D Perm. unfold same_subject. set (F := find_all_triple_groups order x).
  assert (forall w m, In (w, m) F <-> exists g, node_at x g K_GroupGraphPattern /\ In (w, m) (groups_of x g) /\ (2 <=? length m) = true) as HF.
  { intros w m. unfold F, find_all_triple_groups. rewrite in_flat_map. split.
    - intros (g & Hg & Hm). apply filter_In in Hm as [Hm L]. apply in_nodes_of_kind in Hg as (r & -> & Hg). exists r. split; [exact Hg|]. split; [eapply Permutation_in; [apply Perm|exact Hm]|exact L].
    - intros (g & Hg & Hm & L). exists g. split; [apply in_nodes_of_kind; exists g; auto|]. apply filter_In. split; [|exact L]. eapply Permutation_in; [apply Permutation_sym, Perm|exact Hm]. }
  assert (forall g w m p, node_at x g K_GroupGraphPattern -> In (w, m) (groups_of x g) -> In p m -> triple_in x g p) as Tin.
  { intros g w m p Hg Hm Hp. pose proof (proj1 (group_alike _ _ _ _ _ _ _ D Hg Hm Hp p) Hp) as (g' & _ & _ & T & _). apply groups_ok in Hm as [-> _]. apply filter_In in Hp as [Hp _]. apply (in_sound_triples _ _ _ _ _ D Hg) in Hp. tauto. }
  set (data := fun m => DRanges (map (fun p => (start_at x p, end_at x p)) m)).
  assert (forall w m p, In (w, m) F -> In p m -> exists y, at_path x p = Some y) as Hat.
  { intros w m p Hm Hp. apply HF in Hm as (g & Hg & Hm & _). destruct (Tin _ _ _ _ Hg Hm Hp) as (_ & N & _). eapply node_some, N. }
  destruct (vmap_done (fun g => vmap (diag_at x t SameSubject (data (snd g))) (snd g))
    (fun g ds => Forall2 (fun pd d => d_data d = snd pd /\ located x t (fst pd) (d_range d)) (map (fun p => (p, data (snd g))) (snd g)) ds /\ Forall (fun d => d_code d = SameSubject) ds) F) as (ds & E & F2).
  { intros [w m] Hg. cbn [snd]. destruct (vmap_all err t x SameSubject (data m) m D) as (ds & E & H1 & H2); [intros p Hp; exact (Hat _ _ _ Hg Hp)|]. exists ds. auto. }
  unfold data in E. cbv beta in E. rewrite E. cbn [vbind]. exists (concat ds). split; [reflexivity|]. split.
  { apply Forall_concat. clear -F2. induction F2 as [|g d l ds [_ H] _ IH]; constructor; [exact H|exact IH]. }
  exists (concat (map (fun g => map (fun p => (p, data (snd g))) (snd g)) F)). split; [|split].
  - rewrite concat_map, map_map. assert (map (fun g : text * list path => map fst (map (fun p => (p, data (snd g))) (snd g))) F = map snd F) as ->.
    { apply map_ext. intros g. rewrite map_map. cbn [fst]. apply map_id. }
    unfold F, find_all_triple_groups. rewrite <- flat_map_concat_map.
    assert (forall l, flat_map snd (flat_map (fun g => filter (fun z : text * list path => 2 <=? length (snd z)) (order g (groups_of x g))) l) = flat_map (fun g => flat_map snd (filter (fun z => 2 <=? length (snd z)) (order g (groups_of x g)))) l) as Ef.
    { induction l as [|g l IH]; [reflexivity|]. cbn [flat_map]. rewrite flat_map_app, IH. reflexivity. }
    rewrite Ef. assert (forall g p, In p (flat_map snd (filter (fun z : text * list path => 2 <=? length (snd z)) (order g (groups_of x g)))) -> exists w m, In (w, m) (groups_of x g) /\ In p m) as Hin.
    { intros g p Hp. apply in_flat_map in Hp as ([w m] & Hm & Hp). apply filter_In in Hm as [Hm _]. exists w, m. split; [eapply Permutation_in; [apply Perm|exact Hm]|exact Hp]. }
    apply NoDup_flat; [apply sorted_NoDup, nodes_of_kind_sorted| |].
    + intros g Hg. apply in_nodes_of_kind in Hg as (r & -> & Hg). cbn [app] in Hg |- *. apply NoDup_flat.
      * apply NoDup_filter. eapply Permutation_NoDup; [apply Permutation_sym, Perm|]. apply NoDup_fst, groups_ok.
      * intros [w m] Hm. apply filter_In in Hm as [Hm _]. apply sorted_NoDup. eapply (group_sorted x r w). eapply Permutation_in; [apply Perm|exact Hm].
      * intros [w m] [w' m'] p Hm Hm' Hp Hp'. apply filter_In in Hm as [Hm _], Hm' as [Hm' _]. cbn [snd] in *. apply (Permutation_in _ (Perm r _)) in Hm, Hm'. apply groups_ok in Hm as [-> _], Hm' as [-> _].
        apply filter_In in Hp as [_ Hp], Hp' as [_ Hp']. destruct (subject_text x p) as [v|]; [|discriminate]. apply text_eqb_iff in Hp, Hp'. congruence.
    + intros g g' p Hg Hg' Hp Hp'. apply in_nodes_of_kind in Hg as (r & -> & Hg), Hg' as (r' & -> & Hg'). cbn [app] in *. apply Hin in Hp as (w & m & Hm & Hp), Hp' as (w' & m' & Hm' & Hp'). exact (triple_in_fun _ _ _ _ (Tin _ _ _ _ Hg Hm Hp) (Tin _ _ _ _ Hg' Hm' Hp')).
  - intros p dat. rewrite <- flat_map_concat_map, in_flat_map. assert (forall w m, In (w, m) F -> data m = DRanges (map (bytes_at x t) m)) as Hdata.
    { intros w m Hm. unfold data. f_equal. apply map_ext_in. intros q Hq. destruct (Hat _ _ _ Hm Hq) as [y Ey]. exact (firstn_bytes _ _ _ _ _ D Ey). }
    split.
    + intros ([w m] & Hm & Hp). cbn [snd] in Hp. apply in_map_iff in Hp as (p' & [= -> <-] & Hp). exists m. split; [exact (Hdata _ _ Hm)|]. pose proof (proj1 (HF _ _) Hm) as (g & Hg & Hm' & L). pose proof (group_sorted _ _ _ _ Hm') as So. split; [exact So|].
      pose proof (group_alike _ _ _ _ _ _ _ D Hg Hm' Hp) as A. split; [exact A|]. apply (two_members _ p (sorted_NoDup _ So) Hp) in L as (q & Hne & Hq). exists q. split; [exact Hne|apply A, Hq].
    + intros (l & -> & Sl & Hl & q & Hne & Hq). destruct (alike_grouped _ _ _ _ _ D Hq) as (g & w & m & Hg & Hm & Hp). pose proof (group_alike _ _ _ _ _ _ _ D Hg Hm Hp) as A. pose proof (group_sorted _ _ _ _ Hm) as So.
      assert (In (w, m) F) as HmF. { apply HF. exists g. split; [exact Hg|]. split; [exact Hm|]. apply (two_members _ p (sorted_NoDup _ So) Hp). exists q. split; [exact Hne|apply A, Hq]. }
      exists (w, m). split; [exact HmF|]. cbn [snd]. apply in_map_iff. exists p. split; [|exact Hp]. rewrite (Hdata _ _ HmF). do 3 f_equal. apply sorted_unique; [exact So|exact Sl|]. intros r. rewrite A, Hl. reflexivity.
  - rewrite concat_map || idtac. apply Forall2_concat. clear -F2. induction F2 as [|g d l ds [H _] _ IH]; constructor; [exact H|exact IH].
Qed.

(** ** syntax errors *)
Lemma tok_boundary ls tk : forall from, In tk (with_spans from ls) -> exists a b c, concat (map snd ls) = a ++ b ++ c /\ lstart tk = from + byte_len a /\ lend tk = from + byte_len (a ++ b).
Proof.
  induction ls as [|[k w] ls IH]; intros from H; [destruct H|]. cbn [with_spans map concat snd] in *. rewrite map_length, utf8_length in H. destruct H as [<-|H].
  - exists [], w, (concat (map snd ls)). cbn [lstart lend app]. split; [reflexivity|]. cbn [byte_len]. split; [cbn; lia|reflexivity].
  - destruct (IH _ H) as (a & b & c & E & E1 & E2). exists (w ++ a), b, c. rewrite E, <- !app_assoc. split; [reflexivity|]. rewrite !byte_len_app in *. split; lia.
Qed.
Lemma error_range err t x errs e : doc_parse err t x errs -> In e errs -> exists r, match from_byte_index (pe_start e) t, from_byte_index (pe_end e) t with Some a, Some b => Some (mkrange a b) | _, _ => None end = Some r /\ error_marks t e r.
Proof.
  intros (gas & g & P & _) He. pose proof (C25_parser_input err t) as (Ht & Hn & _). set (toks := with_spans 0 (lex err t)) in *.
  assert (returns (entry_of toks) toks g errs) as R by (apply (parses_to_intro gas); [exact P|discriminate]).
  destruct (C18_error_ranges _ _ _ _ _ (entry_of_unit toks) Hn Ht R He) as [_ K]. pose proof (proj1 (C25_tiles err t)) as Et.
  assert (exists a b c, t = a ++ b ++ c /\ pe_start e = byte_len a /\ pe_end e = byte_len (a ++ b)) as (a & b & c & E & E1 & E2).
  { destruct K as [(tk & Hin & _ & E1 & E2)|[(u & tk & v & Eu & _ & _ & E1 & E2)|(_ & E1 & E2)]].
    - destruct (tok_boundary _ _ _ Hin) as (a & b & c & E & F1 & F2). rewrite Et in E. exists a, b, c. cbn [Nat.add] in *. split; [exact E|]. split; congruence.
    - assert (In tk toks) as Hin by (rewrite Eu; apply in_or_app; right; left; reflexivity). destruct (tok_boundary _ _ _ Hin) as (a & b & c & E & F1 & F2). rewrite Et in E. exists (a ++ b), [], c. cbn [Nat.add app] in *. rewrite app_nil_r, <- app_assoc. split; [exact E|]. split; congruence.
    - exists [], [], t. split; [reflexivity|]. split; [exact E1|exact E2]. }
  exists (mkrange (position_after a) (position_after (a ++ b))). rewrite E1, E2. rewrite E at 1. rewrite from_byte_index_boundary. rewrite E, app_assoc at 1. rewrite from_byte_index_boundary. split; [reflexivity|]. exists a, b, c. auto.
Qed.
Lemma syntax_error_ok err t x errs : doc_parse err t x errs -> exists ds, syntax_error t errs = VDone ds /\
  match errs with [] => ds = [] | e :: _ => exists d, ds = [d] /\ d_code d = SyntaxError /\ d_data d = NoData /\ error_marks t e (d_range d) end.
Proof.
  intros P. unfold syntax_error. destruct errs as [|e errs]; [exists []; auto|]. destruct (error_range _ _ _ _ e P (or_introl eq_refl)) as (r & E & M).
  destruct (from_byte_index (pe_start e) t) as [a|]; [|discriminate]. destruct (from_byte_index (pe_end e) t) as [b|]; [|discriminate]. injection E as <-. eexists. split; [reflexivity|]. eexists. split; [reflexivity|]. auto.
Qed.
