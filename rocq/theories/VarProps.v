(** Find-references, document-highlight and rename: C41, C42. *)
From Coq Require Import String List Arith NArith Bool Lia Relations Sorted.
Import ListNotations.
From Verif Require Import ServerModel Kinds KindFacts ParserModel GrammarData ParserOutcome
  TextModel TextSpec TextProofs TextProps LexerRegex LexerModel LexerSpec LexerProps FormatData FormatModel FormatTree FormatText
  TreeModel TreePlace TreeShape VarModel VarUnion VarSpec VarRegions VarOcc VarDoc LexRename.

(** ** the same-variable relation *)
Theorem C41_equivalence t : (forall a, variable t a -> same_variable t a a) /\ (forall a b, same_variable t a b -> same_variable t b a) /\
  (forall a b c, same_variable t a b -> same_variable t b c -> same_variable t a c).
Proof.
  split; [|split].
  - intros a Ha. split; [exact Ha|]. split; [exact Ha|]. split; [reflexivity|]. exists (scope t a), (scope t a).
    split; [apply in_scope_scope|]. split; [apply in_scope_scope|]. apply rst_refl.
  - intros a b (Ha & Hb & E & sa & sb & H1 & H2 & C). split; [exact Hb|]. split; [exact Ha|]. split; [symmetry; exact E|]. exists sb, sa.
    split; [exact H2|]. split; [exact H1|]. rewrite <- E. apply rst_sym, C.
  - intros a b c (Ha & Hb & E & sa & sb & H1 & H2 & C) (_ & Hc & E' & sb' & sc & H1' & H2' & C'). split; [exact Ha|]. split; [exact Hc|]. split; [congruence|]. exists sa, sc.
    split; [exact H1|]. split; [exact H2'|]. apply in_scope_iff in H2. apply in_scope_iff in H1'. subst sb sb'. rewrite <- E in C'. eapply rst_trans; eassumption.
Qed.
Lemma sorted_unique l : StronglySorted doc_before l -> forall m, StronglySorted doc_before m -> (forall b, In b l <-> In b m) -> l = m.
Proof.
  induction 1 as [|x l Hs IH Hx]; intros m Hm H.
  - destruct m as [|y m]; [reflexivity|]. exfalso. apply (proj2 (H y)). left. reflexivity.
  - destruct m as [|y m]; [exfalso; apply (proj1 (H x)); left; reflexivity|]. inversion Hm as [|? ? Hm' Hy]; subst.
    rewrite Forall_forall in Hx, Hy. assert (x = y) as <-.
    { destruct (proj1 (H x) (or_introl eq_refl)) as [E|E]; [symmetry; exact E|]. destruct (proj2 (H y) (or_introl eq_refl)) as [E'|E']; [exact E'|].
      exfalso. apply (doc_before_irrefl x). eapply doc_before_trans; [apply Hx, E'|apply Hy, E]. }
    f_equal. apply IH; [exact Hm'|]. intros b. split; intros Hb.
    + destruct (proj1 (H b) (or_intror Hb)) as [<-|E]; [|exact E]. exfalso. exact (doc_before_irrefl _ (Hx _ Hb)).
    + destruct (proj2 (H b) (or_intror Hb)) as [<-|E]; [|exact E]. exfalso. exact (doc_before_irrefl _ (Hy _ Hb)).
Qed.
(** on any tree, not only that of a document: the occurrences found are exactly the class of the trigger, each once, in document order *)
Theorem C41_occurrences t a : variable t a ->
  exists l, find_variable_occurrences t a = VDone l /\ StronglySorted doc_before l /\ NoDup l /\ (forall b, In b l <-> same_variable t a b) /\ In a l /\
    forall b, In b l -> find_variable_occurrences t b = VDone l.
Proof.
  intros Ha. destruct (occurrences_are_class t a Ha) as (l & E & Hs & H). exists l. split; [exact E|]. split; [exact Hs|]. split; [apply sorted_NoDup, Hs|]. split; [exact H|].
  destruct (C41_equivalence t) as (R & S & T). split; [apply H, R, Ha|]. intros b Hb. apply H in Hb. destruct (occurrences_are_class t b (proj1 (proj2 Hb))) as (m & E' & Hs' & H').
  rewrite E'. f_equal. apply sorted_unique; [exact Hs'|exact Hs|]. intros c. rewrite H, H'. split; intros K; eapply T; try exact K; [exact Hb|apply S, Hb].
Qed.

(** ** the tree of a document *)
Lemma doc_root_not_var err t x : doc_tree err t x -> ~ variable x [].
Proof.
  intros D [cs E]. destruct (doc_tree_nodes _ _ _ D) as (k & ds & -> & U & _). injection E as -> _. discriminate.
Qed.
Lemma doc_var_node err t x v : doc_tree err t x -> variable x v ->
  (exists kw w, at_path x v = Some (Node K_Var [Tok kw w]) /\ (kw = K_VAR1 \/ kw = K_VAR2)) \/ (exists kw w, at_path x v = Some (Node K_Var [Node K_Error [Tok kw w]])).
Proof.
  intros D Hv. destruct Hv as [cs E]. destruct v as [|i v]; [exfalso; eapply doc_root_not_var; [exact D|exists cs; exact E]|].
  assert (placed_node K_Var cs) as P by (eapply doc_node_at; [exact D| |exact E]; discriminate).
  destruct (var_node _ _ P eq_refl) as [(kw & w & -> & K)|(kw & w & ->)]; [left|right]; exists kw, w; [split; [exact E|exact K]|exact E].
Qed.
Lemma doc_var_text err t x v : doc_tree err t x -> variable x v -> exists k w, text_at x v = w /\ In (k, w) (lex err t) /\ w <> [].
Proof.
  intros D Hv. destruct (doc_var_node _ _ _ _ D Hv) as [(kw & w & E & _)|(kw & w & E)]; exists kw, w; unfold text_at; rewrite E; cbn [tree_text flat_map]; rewrite ?app_nil_r.
  - split; [reflexivity|]. apply (doc_token err t x (v ++ [0]) kw w D). rewrite at_path_app, E. reflexivity.
  - split; [reflexivity|]. apply (doc_token err t x (v ++ [0; 0]) kw w D). rewrite at_path_app, E. reflexivity.
Qed.
Lemma doc_vars_apart err t x v u : doc_tree err t x -> variable x v -> variable x u -> doc_before v u ->
  chars_before x v + length (text_at x v) <= chars_before x u.
Proof.
  intros D Hv Hu B. pose proof (doc_var_node _ _ _ _ D Hv) as V. destruct Hv as [cs E], Hu as [ds E']. unfold text_at. rewrite E. eapply nodes_apart; [exact B| |exact E|exact E'].
  intros r ->. rewrite at_path_app, E in E'. destruct r as [|i r]; [rewrite app_nil_r in B; exact (doc_before_irrefl _ B)|].
  destruct V as [(kw & w & E2 & _)|(kw & w & E2)]; rewrite E in E2; injection E2 as ->; cbn [at_path] in E'; destruct i as [|i]; cbn in E'.
  - destruct r; discriminate.
  - destruct i; discriminate.
  - destruct r as [|j r]; [discriminate|]. destruct j as [|j]; cbn in E'; [destruct r; discriminate|destruct j; discriminate].
  - destruct i; discriminate.
Qed.

(** a range of the answer and a node: from the first character of the node to behind its last one *)
Definition located (x : tree) (t : text) (p : path) (r : range) : Prop :=
  chars_before x p + length (text_at x p) <= length t /\ firstn (length (text_at x p)) (skipn (chars_before x p) t) = text_at x p /\
  rstart r = position_after (firstn (chars_before x p) t) /\ rend r = position_after (firstn (chars_before x p + length (text_at x p)) t).
Lemma ranges_located err t x l : doc_tree err t x -> (forall b, In b l -> variable x b) ->
  exists rs, ranges x t (VDone l) = Reply rs /\ Forall2 (located x t) l rs.
Proof.
  intros D H. unfold ranges. destruct (unwrap_all_map (range_at x t) (located x t) l) as (rs & E & F).
  - intros b Hb. destruct (H b Hb) as [cs E]. destruct (range_at_doc _ _ _ _ _ D E) as (a & c & T & L & R). eexists. split; [exact R|]. unfold located, text_at. rewrite E.
    set (w := tree_text (Node K_Var cs)) in *. rewrite <- L, T. cbn [rstart rend]. split; [rewrite !app_length; lia|].
    assert (forall (a b : text), firstn (length a) (a ++ b) = a) as Hf by (intros a' b'; rewrite firstn_app, Nat.sub_diag, firstn_all; cbn [firstn]; apply app_nil_r).
    split; [rewrite skipn_app, Nat.sub_diag, skipn_all; cbn [skipn app]; apply Hf|]. split; [rewrite Hf; reflexivity|]. rewrite <- app_length, app_assoc, Hf. reflexivity.
  - rewrite E. exists rs. split; [reflexivity|exact F].
Qed.
Lemma doc_token_at err t x at_ offset p : doc_tree err t x -> byte_index at_ t = Some offset -> cursor_on x t offset p ->
  byte_len (tree_text x) <? offset = false /\ token_at x offset = Some p.
Proof.
  intros D B C. pose proof (doc_text _ _ _ D) as T. split; [rewrite T; apply Nat.ltb_ge; eapply byte_index_le, B|].
  pose proof (token_at_on x offset) as H. rewrite T in H. destruct (token_at x offset) as [q|].
  - f_equal. eapply cursor_fun; [|exact T|exact H|exact C]. intros r k w E. apply (doc_token _ _ _ _ _ _ D E).
  - exfalso. destruct C as (k & w & a & b & E & T' & _ & H1 & _). destruct H as [H|H].
    + rewrite H in T'. symmetry in T'. apply app_eq_nil in T' as [_ T']. apply app_eq_nil in T' as [-> _]. apply (proj2 (doc_token _ _ _ _ _ _ D E)). reflexivity.
    + rewrite T', app_assoc, byte_len_app in H. lia.
Qed.

(** find-references and document-highlight: with the cursor on a variable the ranges of exactly the occurrences of that variable *)
Theorem C41_references err t x at_ offset p v : doc_tree err t x ->
  byte_index at_ t = Some offset -> cursor_on x t offset p -> parent p = Some v -> variable x v ->
  exists l rs, references x t at_ = Reply (Some rs) /\ Forall2 (located x t) l rs /\
    (forall b, In b l <-> same_variable x v b) /\ NoDup l /\ StronglySorted doc_before l.
Proof.
  intros D B C Hp Hv. destruct (doc_token_at _ _ _ _ _ _ D B C) as [H1 H2]. unfold references. rewrite B, H1, H2, Hp, (proj2 (is_var_at_spec x v) Hv).
  destruct (C41_occurrences x v Hv) as (l & E & Hs & Hn & H & _). rewrite E. destruct (ranges_located _ _ _ l D) as (rs & R & F); [intros b Hb; apply H in Hb; apply Hb|].
  rewrite R. exists l, rs. split; [reflexivity|]. split; [exact F|]. split; [exact H|]. split; [exact Hn|exact Hs].
Qed.
(** the same answer from every occurrence *)
Theorem C41_any_occurrence err t x at_ offset p v at_' offset' p' v' : doc_tree err t x ->
  byte_index at_ t = Some offset -> cursor_on x t offset p -> parent p = Some v ->
  byte_index at_' t = Some offset' -> cursor_on x t offset' p' -> parent p' = Some v' -> same_variable x v v' ->
  references x t at_ = references x t at_'.
Proof.
  intros D B C Hp B' C' Hp' S. destruct (doc_token_at _ _ _ _ _ _ D B C) as [H1 H2]. destruct (doc_token_at _ _ _ _ _ _ D B' C') as [H1' H2'].
  unfold references. destruct S as (Hv & Hv' & S'). rewrite B, H1, H2, Hp, (proj2 (is_var_at_spec x v) Hv), B', H1', H2', Hp', (proj2 (is_var_at_spec x v') Hv').
  destruct (C41_occurrences x v Hv) as (l & E & _ & _ & H & _ & K). rewrite E, (K v'); [reflexivity|]. apply H. split; [exact Hv|]. split; [exact Hv'|exact S'].
Qed.
(** no position is answered by a crash; without a variable there is no location, outside of the document an error *)
Theorem C41_elsewhere err t x at_ : doc_tree err t x ->
  (byte_index at_ t = None -> references x t at_ = Refused InvalidParams) /\
  (t = [] -> references x t at_ = Refused InvalidParams) /\
  forall offset p, byte_index at_ t = Some offset -> cursor_on x t offset p -> (forall v, parent p = Some v -> ~ variable x v) -> references x t at_ = Reply None.
Proof.
  intros D. split; [intros B; unfold references; rewrite B; reflexivity|]. split.
  - intros E. unfold references. destruct (byte_index at_ t) as [offset|] eqn:B; [|reflexivity]. pose proof (doc_text _ _ _ D) as T. rewrite T. apply byte_index_le in B as B'.
    rewrite (proj2 (Nat.ltb_ge _ _) B'). pose proof (token_at_on x offset) as H. rewrite T in H. destruct (token_at x offset) as [q|]; [|reflexivity].
    exfalso. destruct H as (k & w & a & b & E' & T' & _). rewrite E in T'. symmetry in T'. apply app_eq_nil in T' as [_ T']. apply app_eq_nil in T' as [-> _].
    apply (proj2 (doc_token _ _ _ _ _ _ D E')). reflexivity.
  - intros offset p B C Hn. destruct (doc_token_at _ _ _ _ _ _ D B C) as [H1 H2]. unfold references. rewrite B, H1, H2.
    destruct (parent p) as [v|]; [|reflexivity]. destruct (is_var_at x v) eqn:V; [|reflexivity]. exfalso. apply (Hn v eq_refl). apply is_var_at_spec, V.
Qed.

(** ** names *)
(** the names rename takes are those of the SPARQL grammar, rule [166] *)
Theorem C42_names w : is_valid_variable_name w = true <-> matches varname w.
Proof. symmetry. apply varname_iff. Qed.
(** [n] is the name the user asks for, with or without its '?' or '$' *)
Definition asks_for (new_name n : text) : Prop := matches varname n /\ (new_name = n \/ new_name = QUESTION :: n \/ new_name = DOLLAR :: n).
Lemma asks_strip new_name n : asks_for new_name n -> strip_sigil new_name = n /\ is_valid_variable_name n = true.
Proof.
  intros [M H]. apply C42_names in M. split; [|exact M]. destruct H as [->|[-> | ->]]; [|reflexivity|reflexivity].
  destruct n as [|c r]; [reflexivity|]. cbn [is_valid_variable_name] in M. apply andb_prop in M as [M _]. unfold strip_sigil.
  destruct (N.eqb_spec c QUESTION) as [->|_]; [discriminate|]. destruct (N.eqb_spec c DOLLAR) as [->|_]; [discriminate|]. reflexivity.
Qed.
Lemma strip_asks new_name : is_valid_variable_name (strip_sigil new_name) = true -> asks_for new_name (strip_sigil new_name).
Proof.
  intros H. split; [apply C42_names, H|]. destruct new_name as [|c r]; [left; reflexivity|]. unfold strip_sigil. destruct (N.eqb_spec c QUESTION) as [->|_]; [right; left; reflexivity|].
  destruct (N.eqb_spec c DOLLAR) as [->|_]; [right; right; reflexivity|]. left. reflexivity.
Qed.

(** ** rename *)
Definition occurrence_edit (x : tree) (n : text) (b : path) : cedit := mkcedit (chars_before x b) (chars_before x b + length (text_at x b)) (QUESTION :: n).
Lemma edits_ordered err t x n l : doc_tree err t x -> (forall b, In b l -> variable x b) -> StronglySorted doc_before l -> StronglySorted before (map (occurrence_edit x n) l).
Proof.
  intros D H S. induction S as [|v l S IH Hv]; [constructor|]. cbn [map]. constructor; [apply IH; intros b Hb; apply H; right; exact Hb|].
  apply Forall_forall. intros c Hc. apply in_map_iff in Hc as (u & <- & Hu). rewrite Forall_forall in Hv. specialize (Hv _ Hu).
  pose proof (H v (or_introl eq_refl)) as V. pose proof (doc_vars_apart _ _ _ _ _ D V (H u (or_intror Hu)) Hv) as A.
  destruct (doc_var_text _ _ _ _ D V) as (kw & w & E & _ & Hw). unfold before, occurrence_edit. cbn [ci cj]. split; [exact A|]. left.
  rewrite E in A. destruct w; [congruence|]. cbn [length] in A. lia.
Qed.
Theorem C42_rename err t x at_ offset p v new_name n : doc_tree err t x ->
  byte_index at_ t = Some offset -> cursor_on x t offset p -> parent p = Some v -> variable x v -> asks_for new_name n ->
  exists es l, rename x t at_ new_name = Reply es /\ (forall b, In b l <-> same_variable x v b) /\ NoDup l /\
    Forall2 (edit_denotes t) es (map (occurrence_edit x n) l) /\ StronglySorted before (map (occurrence_edit x n) l).
Proof.
  intros D B C Hp Hv A. destruct (doc_token_at _ _ _ _ _ _ D B C) as [H1 H2]. destruct (asks_strip _ _ A) as [As Av].
  assert (is_var_token (kind_at x p) = true) as K.
  { destruct C as (k & w & a & b & E & _). destruct p as [|i p _] using rev_ind; [discriminate|]. rewrite parent_snoc in Hp. injection Hp as ->.
    rewrite at_path_app in E. unfold kind_at. rewrite at_path_app. destruct (doc_var_node _ _ _ _ D Hv) as [(kw & w' & E' & K)|(kw & w' & E')]; rewrite E' in *; cbn [at_path] in E |- *;
      destruct i as [|i]; cbn in E |- *; [destruct K as [-> | ->]; reflexivity|destruct i; discriminate|discriminate|destruct i; discriminate]. }
  unfold rename. rewrite B, H1, H2, K, As, Av, Hp, (proj2 (is_var_at_spec x v) Hv). cbn [negb].
  destruct (C41_occurrences x v Hv) as (l & E & Hs & Hn & H & _). rewrite E. assert (forall b, In b l -> variable x b) as Hb by (intros b Hb; apply H in Hb; apply Hb).
  destruct (ranges_located _ _ _ l D Hb) as (rs & R & F).
  rewrite R. exists (map (fun r => mkedit r (QUESTION :: n)) rs), l. split; [reflexivity|]. split; [exact H|]. split; [exact Hn|]. split; [|eapply edits_ordered; eassumption].
  clear -F. induction F as [|b r l rs (H1 & _ & H2 & H3) F IH]; cbn [map]; constructor; [|exact IH]. unfold edit_denotes, occurrence_edit. cbn [ci cj cnew erange new_text].
  split; [lia|]. split; [symmetry; exact H2|]. split; [symmetry; exact H3|reflexivity].
Qed.
(** the document after the edits: every occurrence reads ?n, the rest is as before (a final line break is added if there is none: C05) *)
Theorem C42_effect err t x at_ offset p v new_name n : doc_tree err t x ->
  byte_index at_ t = Some offset -> cursor_on x t offset p -> parent p = Some v -> variable x v -> asks_for new_name n ->
  exists es l r, rename x t at_ new_name = Reply es /\ (forall b, In b l <-> same_variable x v b) /\ NoDup l /\ apply_text_edits t es = Done r /\
    (r = splice 0 t (map (occurrence_edit x n) l) \/ r = splice 0 t (map (occurrence_edit x n) l) ++ [NL]).
Proof.
  intros D B C Hp Hv A. destruct (C42_rename _ _ _ _ _ _ _ _ _ D B C Hp Hv A) as (es & l & E & H & Hn & F & S).
  destruct (C05_simultaneous_edits t es es _ (Permutation.Permutation_refl _) F S) as (r & Hr & K). exists es, l, r.
  split; [exact E|]. split; [exact H|]. split; [exact Hn|]. split; [exact Hr|]. destruct K as [[_ ->]|[_ ->]]; [left|right]; reflexivity.
Qed.
(** every request is answered, and refused for these reasons only *)
Inductive refusal (x : tree) (t : text) (at_ : pos) (new_name : text) : error_code -> Prop :=
| outside : byte_index at_ t = None -> refusal x t at_ new_name InvalidParams
| empty_document : t = [] -> refusal x t at_ new_name InvalidParams
| not_a_variable offset p k w : byte_index at_ t = Some offset -> cursor_on x t offset p -> at_path x p = Some (Tok k w) -> k <> K_VAR1 -> k <> K_VAR2 -> refusal x t at_ new_name RequestFailed
| bad_name : (forall n, ~ asks_for new_name n) -> refusal x t at_ new_name InvalidParams
| in_error offset p q cs : byte_index at_ t = Some offset -> cursor_on x t offset p -> parent p = Some q -> at_path x q = Some (Node K_Error cs) -> refusal x t at_ new_name InternalError.
Theorem C42_answers err t x at_ new_name : doc_tree err t x ->
  match rename x t at_ new_name with
  | Reply _ => exists offset p v n, byte_index at_ t = Some offset /\ cursor_on x t offset p /\ parent p = Some v /\ variable x v /\ asks_for new_name n
  | Refused c => refusal x t at_ new_name c
  | Crash | Hang => False
  end.
Proof.
  intros D. unfold rename. destruct (byte_index at_ t) as [offset|] eqn:B; [|apply outside, B]. pose proof (doc_text _ _ _ D) as T.
  rewrite T, (proj2 (Nat.ltb_ge _ _) (byte_index_le _ _ _ B)). pose proof (token_at_on x offset) as H. rewrite T in H. destruct (token_at x offset) as [p|].
  2: { destruct H as [H|H]; [apply empty_document, H|]. apply byte_index_le in B. lia. }
  pose proof H as (k & w & a & b & E & _). unfold kind_at. rewrite E. cbn [option_map tkind]. destruct (is_var_token (Some k)) eqn:K; cbn [negb].
  2: { eapply not_a_variable; [exact B|exact H|exact E| |]; intros ->; discriminate. }
  destruct (is_valid_variable_name (strip_sigil new_name)) eqn:V; cbn [negb].
  2: { apply bad_name. intros n A. apply asks_strip in A as [A1 A2]. rewrite A1 in V. congruence. }
  assert (k = K_VAR1 \/ k = K_VAR2) as Hk by (cbn in K; destruct k; try discriminate; auto).
  destruct (doc_tree_nodes _ _ _ D) as (k0 & ds & Ex & _). destruct p as [|i q _] using rev_ind; [rewrite Ex in E; discriminate|]. rewrite parent_snoc.
  destruct (var_token_parent _ _ _ _ _ _ _ D E Hk) as (kq & cs & Eq & [-> | ->]).
  - assert (variable x q) as Hv by (exists cs; exact Eq). rewrite (proj2 (is_var_at_spec x q) Hv).
    destruct (C41_occurrences x q Hv) as (l & El & _ & _ & Hl & _). rewrite El. destruct (ranges_located _ _ _ l D) as (rs & R & _); [intros c Hc; apply Hl in Hc; apply Hc|].
    rewrite R. exists offset, (q ++ [i]), q, (strip_sigil new_name). split; [reflexivity|]. split; [exact H|]. split; [apply parent_snoc|]. split; [exact Hv|]. apply strip_asks, V.
  - destruct (is_var_at x q) eqn:Vq; [apply is_var_at_spec in Vq as [cs' Ev]; congruence|]. eapply in_error; [exact B|exact H|apply parent_snoc|exact Eq].
Qed.

(** ** cases that meet the hypotheses *)
Local Open Scope string_scope.
Definition tree_of (t : text) : tree := match parse rule_of 4000 (with_spans 0 (lex (fun _ => 0) t)) with Ok (Some (g, _)) => fst (graft g (lex (fun _ => 0) t)) | _ => Tok K_Error [] end.
Definition parses (t : text) : bool := match parse rule_of 4000 (with_spans 0 (lex (fun _ => 0) t)) with Ok (Some _) => true | _ => false end.
Lemma parses_tree t : parses t = true -> doc_tree (fun _ => 0) t (tree_of t).
Proof. unfold parses, tree_of, doc_tree. destruct (parse _ _ _) as [[[g errs]|]| | |] eqn:E; try discriminate. intros _. exists 4000, g, errs. split; [exact E|reflexivity]. Qed.
Definition query : text := chars "SELECT ?x WHERE { ?x <p> ?y . { SELECT ?y WHERE { ?x <q> ?y } } }".
Example C41_witness : doc_tree (fun _ => 0) query (tree_of query) /\ references (tree_of query) query (mkpos 0 19) =
  Reply (Some [mkrange (mkpos 0 7) (mkpos 0 9); mkrange (mkpos 0 18) (mkpos 0 20)]).
Proof. split; [apply parses_tree; vm_compute; reflexivity|vm_compute; reflexivity]. Qed.
Example C41_witness_linked : references (tree_of query) query (mkpos 0 27) =
  Reply (Some [mkrange (mkpos 0 25) (mkpos 0 27); mkrange (mkpos 0 39) (mkpos 0 41); mkrange (mkpos 0 57) (mkpos 0 59)]).
Proof. vm_compute. reflexivity. Qed.
Example C42_witness : exists offset p v n, byte_index (mkpos 0 27) query = Some offset /\ cursor_on (tree_of query) query offset p /\ parent p = Some v /\ variable (tree_of query) v /\ asks_for (chars "$new") n.
Proof.
  assert (D : doc_tree (fun _ => 0) query (tree_of query)) by (apply parses_tree; vm_compute; reflexivity).
  assert (exists es, rename (tree_of query) query (mkpos 0 27) (chars "$new") = Reply es) as [es E] by (eexists; vm_compute; reflexivity).
  pose proof (C42_answers _ _ _ (mkpos 0 27) (chars "$new") D) as H. rewrite E in H. exact H.
Qed.
Definition renamed (t : text) (at_ : pos) (new_name : text) : option text :=
  match rename (tree_of t) t at_ new_name with Reply es => match apply_text_edits t es with Done r => Some r | _ => None end | _ => None end.
Example C42_witness_text : renamed query (mkpos 0 27) (chars "$new") = Some (chars "SELECT ?x WHERE { ?x <p> ?new . { SELECT ?new WHERE { ?x <q> ?new } } }" ++ [NL])%list.
Proof. vm_compute. reflexivity. Qed.

(** ** where the occurrences found are not those of SPARQL *)
(** SPARQL: '?' and '$' introduce the same variable (4.1.3) *)
Theorem C41_dollar_refuted t a b w : text_at t a = QUESTION :: w -> text_at t b = DOLLAR :: w -> ~ same_variable t a b.
Proof.
  intros Ea Eb (_ & _ & E & _). unfold name_at in E. rewrite Ea, Eb in E. change (w = DOLLAR :: w) in E. apply (f_equal (@length _)) in E. cbn in E. lia.
Qed.
(** SPARQL: the variable of GRAPH and of SERVICE and those of the VALUES clause of a sub-select are in scope in it (18.2.1), so [SELECT *] exports them *)
Definition same_from (t : string) (c : nat) : option (list (nat * nat)) :=
  match references (tree_of (chars t)) (chars t) (mkpos 0 c) with Reply (Some rs) => Some (map (fun r => (character (rstart r), character (rend r))) rs) | _ => None end.
Theorem C41_exported_refuted :
  same_from "SELECT ?g { { SELECT * { GRAPH ?g { ?a ?b ?c } } } }" 8 = Some [(7, 9)] /\
  same_from "SELECT ?g { { SELECT * { SERVICE ?g { ?a ?b ?c } } } }" 8 = Some [(7, 9)] /\
  same_from "SELECT ?g { { SELECT * { ?a ?b ?c } VALUES ?g { 1 } } }" 8 = Some [(7, 9)].
Proof. split; [|split]; vm_compute; reflexivity. Qed.
(** SPARQL: a variable that occurs in FILTER or MINUS only is not in scope (18.2.1), so [SELECT *] does not export it *)
Theorem C41_not_exported_refuted :
  same_from "SELECT ?x { { SELECT * { ?a ?b ?c FILTER(?x) } } }" 8 = Some [(7, 9); (41, 43)] /\
  same_from "SELECT ?x { { SELECT * { ?a ?b ?c MINUS { ?x ?y ?z } } } }" 8 = Some [(7, 9); (42, 44)].
Proof. split; vm_compute; reflexivity. Qed.
(** a word where a variable is missing counts as one *)
Theorem C42_error_renamed_refuted : renamed (chars "SELECT ?a { BIND(1 AS a) }") (mkpos 0 8) (chars "new") = Some (chars "SELECT ?new { BIND(1 AS ?new) }" ++ [NL])%list.
Proof. vm_compute. reflexivity. Qed.
