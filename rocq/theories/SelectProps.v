(** C65: the code action that turns a query into a sub-query. *)
From Coq Require Import String List Arith NArith Bool Lia Sorted Permutation.
Import ListNotations.
From Verif Require Import ServerModel Kinds KindFacts ParserSyntax ParserModel GrammarData ParserTree ParserTerm ParserBuild ParserSpec ParserChecks ParserOutcome ParserProps
  TextModel TextSpec TextProofs Utf8Model LexerRegex LexerData LexerModel LexerProofs LexerSpec LexerProps FormatData FormatModel FormatTree FormatText FormatParse FormatWeave
  TreeModel TreePlace TreeItems TreeShape TreeRename VarModel VarSpec VarRegions VarDoc LexRename VarProps DiagModel DiagSpec AstFacts DiagFacts DiagGroup DiagRest ParseTreeProps LexLayout DiagProps OnTypeProofs OnTypeProps LayoutProps LexInsert PrologueRun PrologueSwap QuickFixModel QuickFixFacts CoverFacts RemoveFacts UngramData Replant LexMiddle QuickFixProps RemoveProps ShortenFacts GrammarCheck DiagScope ShortenProps SelectModel SelectFacts.
From Verif Require GrammarSpec GrammarFacts.

(** ** the specification *)
Definition group (cs : list tree) : tree := Node K_GroupGraphPattern (Tok K_LCurly (chars "{") :: cs ++ [Tok K_RCurly (chars "}")]).
(** the columns of a query: all, or the variables of its select clause in order *)
Definition selection (ps : list tree) : list tree := match last_of ps with Some (Tok K_Star _) => [Tok K_Star (chars "*")] | _ => filter is_var ps end.
Definition clause (cs : list tree) : list tree := match cs with Node K_SelectClause ps :: _ => ps | _ => [] end.
Definition kids (y : tree) : list tree := match y with Node _ cs => cs | Tok _ _ => [] end.
(** the query whose select clause has the columns of [cs] and whose pattern is the sub-query [inner] *)
Definition wrapped (k : kind) (cs inner : list tree) : tree :=
  Node k [Node K_SelectClause (Tok K_SELECT (chars "SELECT") :: selection (clause cs));
          Node K_WhereClause [Tok K_WHERE (chars "WHERE");
            group [Node K_GroupGraphPatternSub [Node K_GraphPatternNotTriples [Node K_GroupOrUnionGraphPattern [group [Node K_SubSelect inner]]]]]]].
(** the part of the document from byte [a] to byte [b] is in the element at [p] *)
Definition lies (x : tree) (p : path) (a b : nat) : Prop := start_at x p <= a /\ a <= b /\ b <= end_at x p.
(** the smallest element that has it (it does not merely touch its beginning, unless the document begins there) *)
Definition smallest (x : tree) (el : path) (a b : nat) : Prop := lies x el a b /\ (start_at x el < b \/ start_at x el = 0) /\ forall i c, at_path x (el ++ [i]) = Some c -> ~ lies x (el ++ [i]) a b.
(** the query [q] is asked for: by its keyword, or as a whole *)
Definition query_selected (x : tree) (q el : path) : Prop := el = q \/ exists c i w, part x q K_SelectClause c /\ el = c ++ [i] /\ at_path x el = Some (Tok K_SELECT w).

(** ** the element *)
Lemma token_texts err t : Forall (fun l => snd l <> []) (lex err t).
Proof. exact (proj2 (C25_tiles err t)). Qed.
Lemma smallest_covering err t x el y a b : doc_tree err t x -> at_path x el = Some y -> smallest x el a b -> covering 0 a b x = el.
Proof.
  intros D E ((H1 & H2 & H3) & H4 & H5). unfold end_at, text_at in H3. rewrite E in H3. apply (covering_at x 0 el y a b E); [exact H1|exact H3| |].
  - destruct H4 as [H4|H4]; [left; exact H4|right]. apply (all_first _ _ _ D el y E). rewrite (before_bytes _ _ _ E) in H4. destruct (leaves_before x el) as [|[k0 w0] ls] eqn:L; [reflexivity|exfalso].
    pose proof (token_texts err t) as F. rewrite (node_split _ _ _ _ _ D E), L in F. inversion F as [|? ? F1 _]; subst. cbn [flat_map] in H4. rewrite byte_len_app in H4. cbn [snd] in *. destruct w0 as [|c w0]; [apply F1; reflexivity|]. cbn [byte_len] in H4. pose proof (len_utf8_pos c). lia.
  - intros k cs j c -> Ej J1 J2. apply (H5 j c); [rewrite (AstFacts.at_child _ _ _ _ _ E); exact Ej|]. assert (S1 : start_at x (el ++ [j]) = start_at x el + byte_len (flat_map tree_text (firstn j cs))).
    { clear -E Ej. revert x E. induction el as [|i el IH]; intros x E; [cbn in *; injection E as ->; rewrite Ej; cbn; lia|]. destruct x as [|k' ds]; [discriminate|]. cbn [at_path app start_at] in *. destruct (nth_error ds i) as [d|]; [|discriminate]. rewrite (IH d E). lia. }
    unfold lies, end_at. rewrite S1. unfold text_at. rewrite (AstFacts.at_child _ _ _ _ _ E), Ej. split; [exact J1|]. split; [exact H2|exact J2].
Qed.
Lemma selected_query_ok x q k cs el : at_path x q = Some (Node k cs) -> select_like k = true -> query_selected x q el -> selected_query x el = Some q.
Proof.
  intros E S H. unfold selected_query. destruct H as [->|(c & i & w & [[j ->] _] & -> & H)].
  - unfold cast_select. rewrite !E, S. reflexivity.
  - rewrite H. replace (removelast (removelast ((q ++ [j]) ++ [i]))) with q by (rewrite !removelast_last; reflexivity).
    destruct ((q ++ [j]) ++ [i]) as [|a [|b l]] eqn:L; [apply (f_equal (@length _)) in L; rewrite !app_length in L; cbn in L; lia|apply (f_equal (@length _)) in L; rewrite !app_length in L; cbn in L; lia|]. unfold cast_select. rewrite E, S. reflexivity.
Qed.
(** ** the select clause is the first part of a query *)
Lemma clause_first err t x q k cs : doc_tree err t x -> at_path x q = Some (Node k cs) -> select_like k = true -> forall sc, part x q K_SelectClause sc -> exists ps cs', sc = q ++ [0] /\ cs = Node K_SelectClause ps :: cs'.
Proof.
  intros D E Sk sc [[i ->] [ps Es]]. rewrite (AstFacts.at_child _ _ _ _ _ E) in Es. destruct i as [|i].
  - destruct cs as [|c cs]; [discriminate|]. injection Es as ->. exists ps, cs. auto.
  - exfalso. destruct cs as [|c cs]; [discriminate|]. assert (Hq : q <> []) by (eapply doc_inner; [exact D|exists (c :: cs); exact E|destruct k; discriminate|destruct k; discriminate]).
    destruct (leads_leaf _ _ _ _ _ _ D Hq E) as (l & ls & El & Tl). assert (exists a, In a (item_of c)) as [a Ha].
    { destruct c as [k1 w1|k1 ds]; cbn [item_of]; [|eexists; left; reflexivity]. cbn [leaves flat_map app] in El. injection El as <- _. rewrite trivial_is in Tl. cbn in Tl. unfold lkind in Tl. cbn [fst] in Tl. rewrite Tl. eexists. left. reflexivity. }
    refine (doc_order _ _ _ _ _ _ (fun _ => true) (item_eqb (Sub K_SelectClause)) 0 (S i) c (Node K_SelectClause ps) a (Sub K_SelectClause) D E _ ltac:(lia) eq_refl Es Ha _ eq_refl _); [destruct k; try discriminate Sk; vm_compute; reflexivity|left; reflexivity|reflexivity].
Qed.

(** ** derivations *)
Notation gtree := GrammarSpec.tree.
Notation gleaf := GrammarSpec.Leaf.
Notation gnode := GrammarSpec.Node.
Lemma tok_inv k ts : derives (GrammarSpec.GTok k) ts -> ts = [gleaf k].
Proof. intros H. inversion H. reflexivity. Qed.
Lemma seq_inv a b ts : derives (GrammarSpec.GSeq a b) ts -> exists u v, ts = u ++ v /\ derives a u /\ derives b v.
Proof. intros H. inversion H. eauto. Qed.
Lemma alt_inv a b ts : derives (GrammarSpec.GAlt a b) ts -> derives a ts \/ derives b ts.
Proof. intros H. inversion H; auto. Qed.
Lemma opt_inv a ts : derives (GrammarSpec.GOpt a) ts -> ts = [] \/ derives a ts.
Proof. intros H. inversion H; auto. Qed.
Lemma node_inv k e ts : sparql_grammar k = Some e -> derives (GrammarSpec.GNode k) ts -> (ts = [] /\ derives e []) \/ exists us, ts = [gnode k us] /\ derives e us /\ us <> [].
Proof. intros G H. inversion H as [| |r e' us G' H' N|r e' G' H'| | | | | | |]; subst; rewrite G in G'; injection G' as <-; [right; eauto|left; auto]. Qed.
Lemma node_inv1 k e us : sparql_grammar k = Some e -> derives (GrammarSpec.GNode k) [gnode k us] -> derives e us.
Proof. intros G H. destruct (node_inv _ _ _ G H) as [[E _]|(vs & E & D & _)]; [discriminate|]. injection E as <-. exact D. Qed.
Lemma rep_inv (P : list gtree -> Prop) a ts : derives (GrammarSpec.GRep a) ts -> P [] -> (forall u v, derives a u -> P v -> P (u ++ v)) -> P ts.
Proof.
  intros H P0 PS. remember (GrammarSpec.GRep a) as e eqn:Ee. induction H; try discriminate Ee; [exact P0|]. injection Ee as ->. apply PS; [assumption|]. apply IHderives2. reflexivity.
Qed.
Definition is_gvar (t : gtree) : Prop := exists us, t = gnode K_Var us.
(** a select clause: a star, or columns, the last of which ends in a variable or a parenthesis *)
Lemma var_inv ts : derives (GrammarSpec.GNode K_Var) ts -> exists k, ts = [gnode K_Var [gleaf k]] /\ (k = K_VAR1 \/ k = K_VAR2).
Proof.
  intros H. destruct (node_inv K_Var G_Var ts eq_refl H) as [[_ E]|(us & -> & E & _)]; apply alt_inv in E as [E|E]; apply tok_inv in E; try discriminate E; subst us; eauto.
Qed.
Definition column : GrammarSpec.gexp := GrammarSpec.GAlt (GrammarSpec.GNode K_Var) (GrammarSpec.GSeq (GrammarSpec.GTok K_LParen) (GrammarSpec.GSeq (GrammarSpec.GNode K_Expression) (GrammarSpec.GSeq (GrammarSpec.GTok K_AS) (GrammarSpec.GSeq (GrammarSpec.GNode K_Var) (GrammarSpec.GTok K_RParen))))).
Definition good_columns (ts : list gtree) : Prop := (exists v, In v ts /\ is_gvar v) /\ exists pre k, GrammarSpec.leaves (gnode K_SelectClause ts) = pre ++ [k] /\ k <> K_Star.
Lemma column_good ts : derives column ts -> good_columns ts.
Proof.
  intros H. apply alt_inv in H as [H|H].
  - destruct (var_inv _ H) as (k & -> & Hk). split; [eexists; split; [left; reflexivity|eexists; reflexivity]|]. exists [], k. split; [reflexivity|]. destruct Hk; subst k; discriminate.
  - apply seq_inv in H as (a & b & -> & _ & H). apply seq_inv in H as (c & d & -> & _ & H). apply seq_inv in H as (e & f & -> & _ & H). apply seq_inv in H as (g & h & -> & Hv & H). apply tok_inv in H as ->. destruct (var_inv _ Hv) as (k & -> & Hk).
    split; [exists (gnode K_Var [gleaf k]); split; [rewrite !in_app_iff; do 3 right; left; left; reflexivity|eexists; reflexivity]|].
    exists (flat_map GrammarSpec.leaves (a ++ c ++ e ++ [gnode K_Var [gleaf k]])), K_RParen. split; [|discriminate]. cbn [GrammarSpec.leaves]. rewrite !app_assoc, flat_map_app. reflexivity.
Qed.
Lemma good_app u v : good_columns u -> v = [] \/ good_columns v -> good_columns (u ++ v).
Proof.
  intros (H1 & H2) [->|(_ & H4)]; [rewrite app_nil_r; split; assumption|]. destruct H1 as (z & Hz & Vz). split; [exists z; split; [apply in_app_iff; left; exact Hz|exact Vz]|].
  destruct H4 as (pre & k & E & N). cbn [GrammarSpec.leaves] in *. rewrite flat_map_app, E, app_assoc. eauto.
Qed.
Lemma clause_inv ts : derives (GrammarSpec.GNode K_SelectClause) [gnode K_SelectClause ts] -> (exists pre, ts = pre ++ [gleaf K_Star] /\ forall v, In v pre -> ~ is_gvar v) \/ good_columns ts.
Proof.
  intros H. apply (node_inv1 _ G_SelectClause) in H; [|reflexivity]. unfold G_SelectClause in H. fold column in H. apply seq_inv in H as (a & b & -> & Ha & H). apply tok_inv in Ha as ->. apply seq_inv in H as (o & c & -> & Ho & H).
  assert (Oo : forall v, In v o -> ~ is_gvar v). { apply opt_inv in Ho as [->|Ho]; [intros v []|]. apply alt_inv in Ho as [Ho|Ho]; apply tok_inv in Ho as ->; intros v [<-|[]] [us E]; discriminate. }
  apply alt_inv in H as [H|H].
  - right. apply seq_inv in H as (u & v & -> & Hu & Hv). assert (G : good_columns (u ++ v)).
    { apply good_app; [apply column_good, Hu|]. apply (rep_inv (fun l => l = [] \/ good_columns l) _ _ Hv); [left; reflexivity|]. intros u' v' Hu' Hv'. right. apply good_app; [apply column_good, Hu'|exact Hv']. }
    destruct G as ((z & Hz & Vz) & pre & k & E & N). split; [exists z; split; [apply in_app_iff; right; apply in_app_iff; right; exact Hz|exact Vz]|]. cbn [GrammarSpec.leaves] in *. rewrite flat_map_app, (flat_map_app _ o), E, !app_assoc. eauto.
  - left. apply tok_inv in H as ->. exists ([gleaf K_SELECT] ++ o). split; [rewrite <- app_assoc; reflexivity|]. intros v Hv. apply in_app_iff in Hv as [[<-|[]]|Hv]; [intros [us E]; discriminate|apply Oo, Hv].
Qed.
(** the parts of a query without a dataset are the parts of a sub-query *)
Lemma query_inv k ts : select_like k = true -> derives (GrammarSpec.GNode k) [gnode k ts] -> (forall us, ~ In (gnode K_DatasetClause us) ts) ->
  derives (GrammarSpec.GNode K_SubSelect) [gnode K_SubSelect ts] /\ exists ps ts', ts = gnode K_SelectClause ps :: ts' /\ derives (GrammarSpec.GNode K_SelectClause) [gnode K_SelectClause ps].
Proof.
  intros S H N. assert (C : forall us, derives (GrammarSpec.GNode K_SelectClause) us -> exists ps, us = [gnode K_SelectClause ps]).
  { intros us Hu. destruct (node_inv K_SelectClause G_SelectClause us eq_refl Hu) as [[_ E]|(vs & -> & _)]; [|eauto]. apply seq_inv in E as (a & b & E & Ha & _). apply tok_inv in Ha as ->. discriminate. }
  destruct k; try discriminate S.
  - apply (node_inv1 _ G_SelectQuery) in H; [|reflexivity]. apply seq_inv in H as (a & b & -> & Ha & H). apply seq_inv in H as (c & d & -> & Hc & H). apply seq_inv in H as (e & f & -> & He & Hf). destruct (C _ Ha) as [ps ->].
    assert (c = []) as ->.
    { assert (c = [] \/ exists us, In (gnode K_DatasetClause us) c) as H0.
      { apply (rep_inv (fun l => l = [] \/ exists us, In (gnode K_DatasetClause us) l) _ _ Hc); [left; reflexivity|].
        intros u v Hu Hv. destruct (node_inv K_DatasetClause G_DatasetClause u eq_refl Hu) as [[-> _]|(vs & -> & _)]; [exact Hv|]. right. exists vs. left. reflexivity. }
      destruct H0 as [H0|[us H0]]; [exact H0|exfalso]. apply (N us). apply in_app_iff. right. apply in_app_iff. left. exact H0. }
    split; [|exists ps, (e ++ f); split; [reflexivity|exact Ha]]. eapply GrammarSpec.d_node; [reflexivity| |discriminate]. unfold G_SubSelect. apply GrammarSpec.d_seq; [exact Ha|]. cbn [app]. apply GrammarSpec.d_seq; [exact He|]. rewrite <- (app_nil_r f). apply GrammarSpec.d_seq; [exact Hf|].
    eapply GrammarSpec.d_node_empty; [reflexivity|]. unfold G_ValuesClause. apply GrammarSpec.d_opt_none.
  - split; [exact H|]. apply (node_inv1 _ G_SubSelect) in H; [|reflexivity]. apply seq_inv in H as (a & b & -> & Ha & H). destruct (C _ Ha) as [ps ->]. exists ps, b. auto.
Qed.
(** ** trees without white space *)
Lemma bare_leaves_by f x : is_inner x -> leaves (bare f x) = map f (sigs (leaves x)).
Proof.
  induction x as [k w|k cs IH] using tree_ind'; intros [k' [cs' I]]; [discriminate|]. clear I k' cs'. cbn [bare leaves]. induction IH as [|c cs Hc _ IHl]; [reflexivity|]. cbn [flat_map]. rewrite flat_map_app, PrologueSwap.sigs_app, map_app. f_equal; [|exact IHl].
  destruct c as [k1 w1|k1 ds]; [|cbn [flat_map]; rewrite app_nil_r; apply Hc; eexists; eexists; reflexivity]. unfold sigs. cbn [leaves filter]. destruct (trivial (k1, w1)); [reflexivity|]. cbn [negb flat_map map]. rewrite app_nil_r. unfold tok. destruct (f (k1, w1)). reflexivity.
Qed.
Lemma bare_shape_by f x : (forall l, fst (f l) = fst l) -> shape (bare f x) = shape (bare same x).
Proof.
  intros Hf. induction x as [k w|k cs IH] using tree_ind'; [cbn [bare]; unfold tok; cbn [shape]; rewrite Hf; reflexivity|]. cbn [bare shape]. f_equal. induction IH as [|c cs Hc _ IHl]; [reflexivity|]. cbn [flat_map]. rewrite !map_app. f_equal; [|exact IHl].
  destruct c as [k1 w1|k1 ds]; [|cbn [map]; rewrite Hc; reflexivity]. destruct (trivial (k1, w1)); [reflexivity|]. cbn [map]. unfold tok. cbn [shape]. rewrite Hf. reflexivity.
Qed.
Lemma bare_is f k cs : bare f (Node k cs) = Node k (kids (bare f (Node k cs))).
Proof. reflexivity. Qed.
(** ** the columns *)
Lemma star_last x sc y ls l : at_path x sc = Some y -> leaves y = ls ++ [l] -> is_star_selection x sc = kind_eqb (fst l) K_Star.
Proof.
  intros E L. unfold is_star_selection, last_token. rewrite E. pose proof (leaves_placed y 0) as F. rewrite L, placed_at_app in F. apply Forall2_app_inv_r in F as (p1 & p2 & _ & F2 & Ep). rewrite Ep. cbn [placed_at] in F2. inversion F2 as [|p e ? ? [H _] F3]; subst. inversion F3; subst.
  rewrite last_of_app. cbn [option_map]. unfold kind_is, kind_at. rewrite at_path_app, E, H. reflexivity.
Qed.
Definition var_tree (err : text -> nat) (t : text) (v : tree) : Prop := exists k w, v = Node K_Var [Tok k w] /\ (k = K_VAR1 \/ k = K_VAR2) /\ In (k, w) (lex err t).
Lemma vars_plain err t x sc k cps : doc_tree err t x -> is_inner x -> derives (GrammarSpec.GNode K_QueryUnit) [shape (bare same x)] -> at_path x sc = Some (Node k cps) -> Forall (var_tree err t) (filter is_var cps).
Proof.
  intros D Ix F E. apply Forall_forall. intros v Hv. apply filter_In in Hv as [Hin V]. apply In_nth_error in Hin as [i Ei]. assert (Ev : at_path x (sc ++ [i]) = Some v) by (rewrite (AstFacts.at_child _ _ _ _ _ E); exact Ei).
  unfold is_var in V. apply andb_true_iff in V as [N K]. destruct v as [|kv ds]; [discriminate|]. apply kind_eqb_eq in K. cbn [tkind] in K. subst kv.
  destruct (doc_var_node err t x (sc ++ [i]) D ltac:(exists ds; exact Ev)) as [(kw & w & E1 & Hk)|(kw & w & E1)]; rewrite Ev in E1; injection E1 as ->.
  - exists kw, w. split; [reflexivity|]. split; [exact Hk|]. apply (doc_token err t x ((sc ++ [i]) ++ [0]) kw w D). rewrite (AstFacts.at_child _ _ _ _ _ Ev). reflexivity.
  - exfalso. destruct (bare_at (sc ++ [i]) x _ Ev Ix ltac:(eexists; eexists; reflexivity)) as (q' & A & _). cbn [bare flat_map app] in A. pose proof (derives_node _ _ _ _ _ F A) as Dv. apply var_inv in Dv as (k' & Ek & _). discriminate Ek.
Qed.
Lemma vars_bare cps : Forall (fun v => exists k w, v = Node K_Var [Tok k w] /\ (k = K_VAR1 \/ k = K_VAR2)) (filter is_var cps) -> filter is_var (flat_map (piece same) cps) = filter is_var cps.
Proof.
  induction cps as [|c cps IH]; intros F; [reflexivity|]. cbn [flat_map]. rewrite filter_app. cbn [filter] in *. destruct (is_var c) eqn:V.
  - inversion F as [|? ? (k & w & -> & Hk) F']; subst. rewrite (IH F'). destruct Hk; subst k; reflexivity.
  - rewrite (IH F). replace (filter is_var (piece same c)) with (@nil tree); [reflexivity|]. destruct c as [k w|k ds]; unfold piece; [destruct (trivial (k, w)); reflexivity|]. cbn [filter]. change (is_var (bare same (Node k ds))) with (is_var (Node k ds)). rewrite V. reflexivity.
Qed.
Lemma projected_texts x sc k cps : at_path x sc = Some (Node k cps) -> map (text_at x) (projected_variables x sc) = map tree_text (filter is_var cps).
Proof.
  intros E. unfold projected_variables, child_nodes. rewrite E.
  assert (G : forall m l, cps = l ++ m -> map (text_at x) (filter (fun q => DiagModel.kind_is x q K_Var) (concat (imap (fun i c => if is_node c then [sc ++ [i]] else []) (length l) m))) = map tree_text (filter is_var m)).
  { induction m as [|c m IH]; intros l El; [reflexivity|]. cbn [imap concat filter]. rewrite filter_app, map_app. specialize (IH (l ++ [c])). rewrite app_length in IH. cbn [length] in IH. rewrite Nat.add_1_r in IH. refine (eq_trans (f_equal (app _) (IH _)) _); [rewrite <- app_assoc; exact El|].
    assert (Ec : at_path x (sc ++ [length l]) = Some c) by (rewrite (AstFacts.at_child _ _ _ _ _ E), El, nth_error_app2, Nat.sub_diag by lia; reflexivity).
    unfold is_var at 2. destruct (is_node c); cbn [andb filter map]; [|reflexivity]. unfold DiagModel.kind_is, kind_at. rewrite Ec. cbn [option_map]. unfold is_kind. destruct (kind_eqb (tkind c) K_Var); [|reflexivity]. cbn [map app]. unfold text_at. rewrite Ec. reflexivity. }
  exact (G cps [] eq_refl).
Qed.
Lemma var_alone err t v : var_tree err t v -> exists l, leaves v = [l] /\ tree_text v = snd l /\ one_token (fst l) (snd l) /\ fst l <> K_Error /\ ~ In (fst l) extensible.
Proof.
  intros (k & w & -> & Hk & Hin). exists (k, w). split; [reflexivity|]. split; [cbn; apply app_nil_r|]. cbn [fst snd].
  assert (k <> K_Error /\ ~ In k extensible) as [N1 N2] by (destruct Hk; subst k; (split; [discriminate|cbn; intuition discriminate])). split; [exact (token_alone _ _ _ _ Hin N1 N2)|auto].
Qed.
(** what is written for the columns *)
Lemma selection_ok err t x sc cps : doc_tree err t x -> is_inner x -> derives (GrammarSpec.GNode K_QueryUnit) [shape (bare same x)] -> sc <> [] -> at_path x sc = Some (Node K_SelectClause cps) ->
  derives (GrammarSpec.GNode K_SelectClause) [shape (bare same (Node K_SelectClause cps))] ->
  exists ls, selection_text x sc = joined (map snd ls) /\ flat_map leaves (selection (kids (bare same (Node K_SelectClause cps)))) = ls /\ Forall (fun l => one_token (fst l) (snd l) /\ fst l <> K_Error /\ ~ In (fst l) extensible) ls /\
    derives (GrammarSpec.GNode K_SelectClause) [shape (Node K_SelectClause (Tok K_SELECT (chars "SELECT") :: selection (kids (bare same (Node K_SelectClause cps)))))].
Proof.
  intros D Ix Dx Hs E Dc. destruct (trails_leaf _ _ _ D _ _ Hs E ltac:(eexists; eexists; reflexivity)) as (ls & l & El & Tl). pose proof (star_last _ _ _ _ _ E El) as St.
  pose proof (bare_leaves_by same (Node K_SelectClause cps) ltac:(eexists; eexists; reflexivity)) as Lb. rewrite El, PrologueSwap.sigs_app, map_app in Lb. unfold sigs at 2 in Lb. cbn [filter] in Lb. rewrite Tl in Lb. cbn [negb map] in Lb.
  pose proof (vars_plain _ _ _ _ _ _ D Ix Dx E) as Fv. set (ps := kids (bare same (Node K_SelectClause cps))) in *. rewrite bare_is in Dc, Lb. fold ps in Dc, Lb.
  assert (Vb : filter is_var ps = filter is_var cps). { change ps with (flat_map (piece same) cps). apply vars_bare. eapply Forall_impl; [|exact Fv]. intros v (k & w & Ev & Hk & _). eauto. }
  cbn [shape] in Dc. unfold selection_text. rewrite St. destruct (clause_inv _ Dc) as [(pre & Ep & _)|[(v & Hv & [us Ev]) (pre & k & Ek & Nk)]].
  - assert (exists w ps', ps = ps' ++ [Tok K_Star w]) as (w & ps' & Eps).
    { destruct ps as [|c ps' _] using rev_ind; [destruct pre; discriminate|]. rewrite map_app in Ep. cbn [map] in Ep. apply app_inj_tail in Ep as [_ Ep]. destruct c as [k w|k ds]; [|discriminate]. cbn [shape] in Ep. injection Ep as ->. eauto. }
    assert (fst l = K_Star) as El2. { rewrite Eps in Lb. cbn [leaves] in Lb. rewrite flat_map_app in Lb. cbn [flat_map leaves] in Lb. rewrite app_nil_r in Lb. apply app_inj_tail in Lb as [_ Lb]. unfold same in Lb. rewrite <- Lb. reflexivity. }
    rewrite El2. cbn [kind_eqb]. replace (kind_eqb K_Star K_Star) with true by reflexivity. unfold selection. rewrite Eps, last_of_app. exists [(K_Star, chars "*")]. split; [reflexivity|]. split; [reflexivity|].
    split; [constructor; [|constructor]; split; [intros e; reflexivity|split; [discriminate|cbn; intuition discriminate]]|].
    cbn [shape map]. eapply GrammarSpec.d_node; [reflexivity| |discriminate]. unfold G_SelectClause. apply (GrammarSpec.d_seq _ _ _ [_] [_]); [constructor|]. apply (GrammarSpec.d_seq _ _ _ [] [_]); [constructor|]. apply GrammarSpec.d_alt_r. constructor.
  - assert (fst l <> K_Star) as Nl.
    { rewrite <- (shape_leaves (Node K_SelectClause ps)) in Ek || idtac. pose proof (shape_leaves (Node K_SelectClause ps)) as SL. cbn [shape] in SL. rewrite Ek, Lb, map_app in SL. cbn [map] in SL. apply app_inj_tail in SL as [_ SL]. unfold lkind, same in SL. congruence. }
    destruct (kind_eqb_spec (fst l) K_Star) as [?|_]; [congruence|]. assert (Sel : selection ps = filter is_var cps).
    { unfold selection. destruct (last_of ps) as [[k' w'|k' ds]|] eqn:Lp; [|exact Vb|exact Vb]. destruct (kind_eqb_spec k' K_Star) as [->|Nk']; [exfalso|destruct k'; try exact Vb; congruence].
      unfold last_of in Lp. destruct (rev ps) as [|c r] eqn:Rp; [discriminate|]. injection Lp as ->. apply (f_equal (@rev _)) in Rp. rewrite rev_involutive in Rp. cbn [rev] in Rp. rewrite Rp in Lb. cbn [leaves] in Lb. rewrite flat_map_app in Lb. cbn [flat_map leaves] in Lb. rewrite app_nil_r in Lb. apply app_inj_tail in Lb as [_ Lb]. unfold same in Lb. subst l. apply Nl. reflexivity. }
    rewrite Sel. exists (flat_map leaves (filter is_var cps)). rewrite (projected_texts _ _ _ _ E).
    assert (Ne : filter is_var cps <> []). { rewrite <- Vb. intros E0. apply in_map_iff in Hv as (c & Ec & Hin). assert (In c (filter is_var ps)) as J; [|rewrite E0 in J; destruct J]. apply filter_In. split; [exact Hin|]. rewrite <- Ec in Ev. destruct c; [discriminate|]. cbn [shape] in Ev. injection Ev as -> _. reflexivity. }
    split; [|split; [reflexivity|split]].
    + f_equal. clear -Fv. induction Fv as [|v vs Hv _ IH]; [reflexivity|]. cbn [map flat_map]. rewrite map_app. destruct (var_alone _ _ _ Hv) as (l & El & Et & _). rewrite El. cbn [map app]. f_equal; [exact Et|exact IH].
    + clear -Fv. induction Fv as [|v vs Hv _ IH]; [constructor|]. cbn [flat_map]. apply Forall_app. split; [|exact IH]. destruct (var_alone _ _ _ Hv) as (l & -> & _ & H). constructor; [exact H|constructor].
    + cbn [shape map]. eapply GrammarSpec.d_node; [reflexivity| |discriminate]. unfold G_SelectClause. fold column. apply (GrammarSpec.d_seq _ _ _ [_] _); [constructor|]. apply (GrammarSpec.d_seq _ _ _ [] _); [constructor|]. apply GrammarSpec.d_alt_l.
      assert (C : forall v, var_tree err t v -> derives column [shape v]). { intros v' (k' & w' & -> & Hk' & _). apply GrammarSpec.d_alt_l. cbn [shape map]. eapply GrammarSpec.d_node; [reflexivity| |discriminate]. unfold G_Var. destruct Hk'; subst k'; [apply GrammarSpec.d_alt_l|apply GrammarSpec.d_alt_r]; constructor. }
      destruct Fv as [|v1 vs H1 Fv]; [congruence|]. cbn [map]. apply (GrammarSpec.d_seq _ _ _ [_] _); [apply C, H1|]. clear -Fv C. induction Fv as [|v2 vs H2 _ IH]; [constructor|]. cbn [map]. apply (GrammarSpec.d_rep_cons _ _ [_] _); [apply C, H2|exact IH].
Qed.
(** ** the new query *)
Lemma wrapped_derives k bs inner : select_like k = true -> derives (GrammarSpec.GNode K_SelectClause) [shape (Node K_SelectClause (Tok K_SELECT (chars "SELECT") :: selection (clause bs)))] ->
  derives (GrammarSpec.GNode K_SubSelect) [shape (Node K_SubSelect inner)] -> derives (GrammarSpec.GNode k) [shape (wrapped k bs inner)].
Proof.
  intros Sk H1 H2. unfold wrapped.
  assert (Gr : forall e z, derives e [shape z] -> derives (GrammarSpec.GAlt (GrammarSpec.GNode K_SubSelect) (GrammarSpec.GNode K_GroupGraphPatternSub)) [shape z] -> derives (GrammarSpec.GNode K_GroupGraphPattern) [shape (group [z])]).
  { intros e z _ H. unfold group. cbn [shape map app]. eapply GrammarSpec.d_node; [reflexivity| |discriminate]. unfold G_GroupGraphPattern. apply (GrammarSpec.d_seq _ _ _ [_] [_; _]); [constructor|]. apply (GrammarSpec.d_seq _ _ _ [_] [_]); [exact H|constructor]. }
  pose proof (Gr _ _ H2 (GrammarSpec.d_alt_l _ _ _ _ H2)) as G1.
  assert (G2 : derives (GrammarSpec.GNode K_GroupGraphPatternSub) [shape (Node K_GroupGraphPatternSub [Node K_GraphPatternNotTriples [Node K_GroupOrUnionGraphPattern [group [Node K_SubSelect inner]]]])]).
  { set (g := group [Node K_SubSelect inner]) in *. cbn [shape map]. eapply GrammarSpec.d_node; [reflexivity| |discriminate]. unfold G_GroupGraphPatternSub. apply (GrammarSpec.d_seq _ _ _ [] [_]); [constructor|]. apply (GrammarSpec.d_rep_cons _ _ [_] []); [|constructor].
    apply (GrammarSpec.d_seq _ _ _ [_] []); [|apply (GrammarSpec.d_seq _ _ _ [] []); constructor]. eapply GrammarSpec.d_node; [reflexivity| |discriminate]. unfold G_GraphPatternNotTriples. apply GrammarSpec.d_alt_l. eapply GrammarSpec.d_node; [reflexivity| |discriminate].
    unfold G_GroupOrUnionGraphPattern. apply (GrammarSpec.d_seq _ _ _ [_] []); [exact G1|constructor]. }
  pose proof (Gr _ _ G2 (GrammarSpec.d_alt_r _ _ _ _ G2)) as G3. set (g := group [Node K_GroupGraphPatternSub _]) in *. set (c := Node K_SelectClause _) in *.
  assert (G4 : derives (GrammarSpec.GNode K_WhereClause) [shape (Node K_WhereClause [Tok K_WHERE (chars "WHERE"); g])]).
  { cbn [shape map]. eapply GrammarSpec.d_node; [reflexivity| |discriminate]. unfold G_WhereClause. apply (GrammarSpec.d_seq _ _ _ [_] [_]); [|exact G3]. apply GrammarSpec.d_opt_some. constructor. }
  set (wc := Node K_WhereClause _) in *. cbn [shape map].
  assert (Sm : derives (GrammarSpec.GNode K_SolutionModifier) []).
  { eapply GrammarSpec.d_node_empty; [reflexivity|]. unfold G_SolutionModifier. repeat (apply (GrammarSpec.d_seq _ _ _ [] []) || apply GrammarSpec.d_opt_none). }
  destruct k; try discriminate Sk; (eapply GrammarSpec.d_node; [reflexivity| |discriminate]).
  - unfold G_SelectQuery. apply (GrammarSpec.d_seq _ _ _ [_] [_]); [exact H1|]. apply (GrammarSpec.d_seq _ _ _ [] [_]); [constructor|]. apply (GrammarSpec.d_seq _ _ _ [_] []); [exact G4|exact Sm].
  - unfold G_SubSelect. apply (GrammarSpec.d_seq _ _ _ [_] [_]); [exact H1|]. apply (GrammarSpec.d_seq _ _ _ [_] []); [exact G4|]. apply (GrammarSpec.d_seq _ _ _ [] []); [exact Sm|].
    eapply GrammarSpec.d_node_empty; [reflexivity|]. unfold G_ValuesClause. apply GrammarSpec.d_opt_none.
Qed.
(** the keyword SELECT *)
Definition select_chars : list (N * N) := [(65, 90); (97, 122); (383, 383)]%N.
Definition opens_select (x : kind * re * bool) : bool := if kind_eqb (fst (fst x)) K_SELECT then included (snd (fst x)) (Cat (Cls select_chars) (Star top)) else true.
Lemma opens_select_checked : forallb opens_select lexer_rules = true.
Proof. vm_compute. reflexivity. Qed.
Lemma opens_select_each x : In x lexer_rules -> opens_select x = true.
Proof. exact (proj1 (forallb_forall opens_select lexer_rules) opens_select_checked x). Qed.
Lemma opens_select_sound k r wb w : opens_select (k, r, wb) = true -> k = K_SELECT -> matches r w -> matches (Cat (Cls select_chars) (Star top)) w.
Proof. unfold opens_select. cbn [fst snd]. intros H -> M. rewrite kind_eqb_refl in H. eapply included_sound; [exact H|exact M]. Qed.
Lemma select_head err t l1 w l2 : lex err t = l1 ++ (K_SELECT, w) :: l2 -> exists c r, w = c :: r /\ in_class c select_chars = true.
Proof.
  intros E. destruct (munched _ _ _ _ _ _ E ltac:(discriminate)) as (r & wb & Hin & M & _). pose proof (opens_select_sound _ _ _ _ (opens_select_each _ Hin) eq_refl M) as C. apply cat_split in C as (a & b & -> & Ma & _). inversion Ma as [|c rs Hc| | | | |]; subst. exists c, b. auto.
Qed.
Lemma select_char c : in_class c select_chars = true -> ws_char c = false /\ c <> 10%N /\ c <> 13%N /\ (c <= 1114111)%N.
Proof.
  intros H. unfold select_chars in H. rewrite !in_class_cons, in_class_nil in H. split; [|lia]. destruct (ws_char c) eqn:W; [|reflexivity]. apply blank_in in W. cbn in W. lia.
Qed.
Lemma not_fused_right a b : not_fused (a ++ b) -> not_fused b.
Proof. induction a as [|l a IH]; intros H; [exact H|]. apply IH. apply not_fused_tail in H. exact H. Qed.
Lemma not_fused_left a : forall b, not_fused (a ++ b) -> not_fused a.
Proof. induction a as [|[k u] a IH]; intros b H; [exact I|]. destruct a as [|[k' u'] a]; [exact I|]. cbn [app] in *. destruct H as [N1 N2]. split; [exact N1|]. apply (IH b), N2. Qed.

(** a pair of brackets ends in its closing bracket *)
Definition ends_bracket (x : kind * re * bool) : bool := if kind_eqb (fst (fst x)) K_NIL || kind_eqb (fst (fst x)) K_ANON then included (snd (fst x)) (Cat (Star top) (Cls [(41, 41); (93, 93)]%N)) else true.
Lemma ends_bracket_checked : forallb ends_bracket lexer_rules = true.
Proof. vm_compute. reflexivity. Qed.
Lemma ends_bracket_each x : In x lexer_rules -> ends_bracket x = true.
Proof. exact (proj1 (forallb_forall ends_bracket lexer_rules) ends_bracket_checked x). Qed.
Lemma ends_bracket_sound k r wb w : ends_bracket (k, r, wb) = true -> k = K_NIL \/ k = K_ANON -> matches r w -> matches (Cat (Star top) (Cls [(41, 41); (93, 93)]%N)) w.
Proof. unfold ends_bracket. cbn [fst snd]. intros H Hk M. replace (kind_eqb k K_NIL || kind_eqb k K_ANON) with true in H by (destruct Hk; subst k; reflexivity). eapply included_sound; [exact H|exact M]. Qed.
Lemma bracket_last err t l1 k w l2 : lex err t = l1 ++ (k, w) :: l2 -> k = K_NIL \/ k = K_ANON -> forall a c, w = a ++ [c] -> c <> NL.
Proof.
  intros E Hk a c Ew. destruct (munched _ _ _ _ _ _ E ltac:(destruct Hk; subst k; discriminate)) as (r & wb & Hin & M & _). pose proof (ends_bracket_sound _ _ _ _ (ends_bracket_each _ Hin) Hk M) as C. apply cat_split in C as (u & v & Ew2 & _ & Mv).
  inversion Mv as [|c' rs Hc| | | | |]; subst v rs. rewrite Ew in Ew2. apply app_inj_tail in Ew2 as [_ <-]. intros ->. discriminate Hc.
Qed.

(** ** the whole *)
Lemma start_first x : forall q k c cs, at_path x q = Some (Node k (c :: cs)) -> start_at x (q ++ [0]) = start_at x q.
Proof.
  intros q. revert x. induction q as [|i q IH]; intros x k c cs E; [cbn in *; injection E as ->; reflexivity|]. destruct x as [|k' ds]; [discriminate|]. cbn [at_path app start_at] in *. destruct (nth_error ds i) as [d|]; [|discriminate]. rewrite (IH d _ _ _ E). reflexivity.
Qed.
Lemma sigs_deepen n ls : sigs (map (deepen n) ls) = map (deepen n) (sigs ls).
Proof. induction ls as [|[k w] ls IH]; [reflexivity|]. unfold sigs in *. cbn [map filter]. change (trivial (deepen n (k, w))) with (trivial (k, w)). destruct (trivial (k, w)); cbn [negb map]; rewrite IH; reflexivity. Qed.
Lemma bare_child cs d : In (Node (tkind d) (kids d)) (flat_map (piece same) cs) -> is_inner d -> exists c ds, In c cs /\ c = Node (tkind d) ds.
Proof.
  intros H [k [l ->]]. cbn [tkind kids] in *. apply in_flat_map in H as (c & Hc & H). destruct c as [k1 w1|k1 ds].
  - unfold piece in H. destruct (trivial (k1, w1)); [destruct H|]. cbn in H. destruct H as [H|[]]. discriminate.
  - unfold piece in H. destruct H as [H|[]]. cbn [bare] in H. injection H as -> _. eauto.
Qed.
Lemma wrapped_leaves k bs inner : leaves (wrapped k bs inner) = open_tokens (flat_map leaves (selection (clause bs))) ++ flat_map leaves inner ++ [(K_RCurly, chars "}"); (K_RCurly, chars "}")].
Proof. unfold wrapped, group, open_tokens. cbn [leaves flat_map app]. rewrite ?app_nil_r, ?flat_map_app. cbn [leaves flat_map app]. rewrite ?app_nil_r. cbn [app]. rewrite <- ?app_assoc. cbn [app]. rewrite <- ?app_assoc. reflexivity. Qed.
Lemma tokens_sigs err z : tokens err z = sigs (lex err z).
Proof. reflexivity. Qed.
Lemma closing_cut n v : closing_text n ++ v = (NL :: spaces n) ++ 125%N :: [NL] ++ 125%N :: v.
Proof. unfold closing_text. cbn [app]. f_equal. rewrite <- app_assoc. reflexivity. Qed.
Lemma lex_closing err n v : lex err (closing_text n ++ v) = (K_WHITESPACE, NL :: spaces n) :: (K_RCurly, [125%N]) :: (K_WHITESPACE, [NL]) :: (K_RCurly, [125%N]) :: lex err v.
Proof.
  rewrite closing_cut.
  rewrite (lex_ws err (NL :: spaces n)); [|discriminate|exact (spaces_ws n)|reflexivity]. f_equal. rewrite lex_curly. f_equal. rewrite (lex_ws err [NL]); [|discriminate|reflexivity|reflexivity]. f_equal. apply lex_curly.
Qed.
(** the element asked for is in no IRI and no variable *)
Lemma parent_other err t x q k cs el : doc_tree err t x -> at_path x q = Some (Node k cs) -> select_like k = true -> query_selected x q el -> parent_is x el K_iri = false /\ parent_is x el K_Var = false /\ exists k', kind_at x el = Some k' /\ select_kind k' = true.
Proof.
  intros D E Sk [->|(c & i & w & [_ [ps Ec]] & -> & H)].
  - assert (Up : forall K, (forall p ds, at_path x p = Some (Node K ds) -> forall d, In d ds -> select_like (tkind d) = false) -> (forall p w, at_path x p <> Some (Tok K w) \/ True) -> parent_is x q K = false).
    { intros K HK _. unfold parent_is. destruct q as [|i0 q0] eqn:Eq; [reflexivity|]. rewrite <- Eq in *. destruct (@exists_last _ q ltac:(rewrite Eq; discriminate)) as (p & i & Ep). rewrite Ep, removelast_last. unfold kind_is, kind_at. rewrite Ep in E.
      destruct (at_path x p) as [[k1 w1|k1 ds]|] eqn:Epp; cbn [option_map tkind]; [exfalso; rewrite (at_path_app p x [i]), Epp in E; discriminate| |reflexivity].
      destruct (kind_eqb_spec k1 K) as [->|]; [exfalso|reflexivity]. rewrite (AstFacts.at_child _ _ _ _ _ Epp) in E. apply nth_error_In in E. pose proof (HK _ _ Epp _ E) as X. cbn [tkind] in X. congruence. }
    split; [|split].
    + apply Up; [|intros; right; exact I]. intros p ds Ep d Hd. destruct (doc_iri _ _ _ _ _ D Ep) as [(w & ->)|[(k' & w & -> & Hk)|(kw & w & ->)]]; destruct Hd as [<-|[]]; reflexivity.
    + apply Up; [|intros; right; exact I]. intros p ds Ep d Hd. destruct (doc_var_node _ _ _ p D ltac:(exists ds; exact Ep)) as [(kw & w & E2 & Hk)|(kw & w & E2)]; rewrite Ep in E2; injection E2 as ->; destruct Hd as [<-|[]]; [destruct Hk; subst kw; reflexivity|reflexivity].
    + exists k. unfold kind_at. rewrite E. split; [reflexivity|]. destruct k; try discriminate Sk; reflexivity.
  - unfold parent_is, kind_is, kind_at. rewrite removelast_last, Ec, H. cbn [option_map tkind]. destruct (c ++ [i]) eqn:X; [destruct c; discriminate|]. split; [reflexivity|]. split; [reflexivity|]. exists K_SELECT. auto.
Qed.

(** The query [q] of a document of the grammar is asked for.  It has no dataset clause of its own; a line of it ends in white space only (not in a comment, not in a
    string); the text before it ends in white space.  Then the reply has the edits after which the document is the document before with, in the place of the
    query, the query that has the same columns and whose only pattern is the query as it was; no token of it has changed but the white space in brackets *)
Theorem C65_sub_select_partial : forall err t x errs q k cs el r a b tab,
  doc_parse err t x errs -> grammatical err t -> at_path x q = Some (Node k cs) -> In k [K_SelectQuery; K_SubSelect] -> query_selected x q el ->
  byte_index (rstart r) t = Some a -> byte_index (rend r) t = Some b -> smallest x el a b ->
  (forall c, ~ part x q K_DatasetClause c) -> Forall (fun l => In NL (snd l) -> blank_inside (fst l)) (leaves (Node k cs)) -> blank_before x q -> not_fused (leaves_before x q ++ leaves (Node k cs)) ->
  exists es t' x' q' n, n = (match tab with Some n => n | None => 2 end) /\ offer_sub_select x t tab r = Reply (Some es) /\ all_edited t es t' /\ doc_parse err t' x' [] /\
    at_path (bare same x) q' = Some (bare same (Node k cs)) /\
    bare same x' = put_at (bare same x) q' (wrapped k (kids (bare same (Node k cs))) (kids (bare (deepen n) (Node k cs)))).
Proof.
  intros err t x errs q k cs el r a b tab P G Eq Hk Sel Ia Ib Sm Nd Fl Bl NF. pose proof (doc_parse_tree _ _ _ _ P) as D. assert (Sk : select_like k = true) by (destruct Hk as [<-|[<-|[]]]; reflexivity).
  set (n := match tab with Some n => n | None => 2 end). pose proof (grammatical_parsed _ _ G) as (x0 & P0 & Q & D0). destruct (doc_parse_fun _ _ _ _ _ _ P P0) as [<- ->].
  assert (Ix : is_inner x) by (destruct Q as [l Q]; destruct x; [discriminate|eexists; eexists; reflexivity]).
  set (y := Node k cs) in *. assert (Iy : is_inner y) by (eexists; eexists; reflexivity).
  destruct (bare_at q x y Eq Ix Iy) as (q0 & A0 & _ & _). pose proof (bare_is same k cs) as By. fold y in By. rewrite By in A0. pose proof (derives_node _ _ _ _ _ D0 A0) as Dy. cbn [shape] in Dy. set (bs := kids (bare same y)) in *.
  assert (Ebs : bs = flat_map (piece same) cs) by reflexivity.
  assert (Nd' : forall us, ~ In (gnode K_DatasetClause us) (map shape bs)).
  { intros us H. apply in_map_iff in H as (d & Ed & Hd). destruct d as [k1 w1|k1 ds]; [discriminate|]. cbn [shape] in Ed. injection Ed as -> _. rewrite Ebs in Hd. destruct (bare_child cs (Node K_DatasetClause ds) Hd ltac:(eexists; eexists; reflexivity)) as (c & ds' & Hc & ->).
    apply In_nth_error in Hc as [i Hi]. apply (Nd (q ++ [i])). split; [eauto|]. exists ds'. rewrite (AstFacts.at_child _ _ _ _ _ Eq). exact Hi. }
  destruct (query_inv k _ Sk Dy Nd') as (Dsub & gps & gts & Egt & Dcl).
  destruct bs as [|b1 bs'] eqn:Ebs1; [discriminate|]. cbn [map] in Egt. injection Egt as Eb1 _. destruct b1 as [k1 w1|k1 ps]; [discriminate|]. cbn [shape] in Eb1. injection Eb1 as -> Eps.
  assert (exists sc, part x q K_SelectClause sc) as [sc Hsc].
  { assert (Hin : In (Node K_SelectClause ps) (flat_map (piece same) cs)) by (rewrite <- Ebs; left; reflexivity). destruct (bare_child cs (Node K_SelectClause ps) Hin ltac:(eexists; eexists; reflexivity)) as (c & ds & Hc & Ec). cbn [tkind] in Ec. subst c. apply In_nth_error in Hc as [i Hi]. exists (q ++ [i]). split; [eauto|]. exists ds. rewrite (AstFacts.at_child _ _ _ _ _ Eq). exact Hi. }
  destruct (clause_first _ _ _ _ _ _ D Eq Sk sc Hsc) as (cps & cs' & -> & Ecs).
  assert (Esc : at_path x (q ++ [0]) = Some (Node K_SelectClause cps)) by (rewrite (AstFacts.at_child _ _ _ _ _ Eq), Ecs; reflexivity).
  assert (Eps2 : Node K_SelectClause ps = bare same (Node K_SelectClause cps)). { rewrite Ecs in Ebs. cbn [flat_map piece app] in Ebs. injection Ebs as -> _. reflexivity. }
  assert (Eps3 : ps = kids (bare same (Node K_SelectClause cps))) by (rewrite <- Eps2; reflexivity).
  assert (Dcl' : derives (GrammarSpec.GNode K_SelectClause) [shape (bare same (Node K_SelectClause cps))]) by (rewrite <- Eps2; cbn [shape]; rewrite Eps; exact Dcl).
  assert (Nsc : q ++ [0] <> []) by (destruct q; discriminate).
  destruct (selection_ok _ _ _ _ _ D Ix D0 Nsc Esc Dcl') as (ls & Es1 & Es2 & Es3 & Es4). rewrite <- Eps3 in Es2, Es4.
  (* the first leaf is the keyword *)
  destruct (leads_leaf _ _ _ _ _ _ D Nsc Esc) as (l1 & lr & El1 & Tl1).
  assert (Kl1 : fst l1 = K_SELECT).
  { pose proof (bare_leaves_by same (Node K_SelectClause cps) ltac:(eexists; eexists; reflexivity)) as Lb. rewrite El1 in Lb. unfold sigs in Lb. cbn [filter] in Lb. rewrite Tl1 in Lb. cbn [negb map] in Lb. rewrite <- Eps2 in Lb.
    rewrite <- Eps2 in Dcl'. cbn [shape] in Dcl'. apply (node_inv1 _ G_SelectClause) in Dcl'; [|reflexivity]. unfold G_SelectClause in Dcl'. apply seq_inv in Dcl' as (u1 & u2 & Eu & Hu & _). apply tok_inv in Hu as ->.
    destruct ps as [|p1 ps1]; [discriminate|]. cbn [map app] in Eu. injection Eu as Eu _. destruct p1 as [k1 w1|k1 ds]; [|discriminate]. cbn [shape] in Eu. injection Eu as ->. cbn [leaves flat_map app] in Lb. injection Lb as Lb _. unfold same in Lb. rewrite <- Lb. reflexivity. }
  destruct l1 as [kl wl]. cbn [fst] in Kl1. subst kl.
  assert (Ely : exists lr', leaves y = (K_SELECT, wl) :: lr'). { unfold y. rewrite Ecs. cbn [leaves flat_map] in El1 |- *. rewrite El1. cbn [app]. eauto. }
  destruct Ely as [lr' Ely].
  pose proof (node_split _ _ _ _ _ D Eq) as Sp. pose proof (node_text _ _ _ _ _ D Eq) as Et. set (U := flat_map snd (leaves_before x q)) in *. set (V := flat_map snd (leaves_behind x q)) in *.
  assert (HeadW : exists c r0, wl = c :: r0 /\ in_class c select_chars = true). { rewrite Ely in Sp. cbn [app] in Sp. exact (select_head _ _ _ _ _ Sp). }
  destruct HeadW as (c1 & r1 & Ewl & Cc1). destruct (select_char _ Cc1) as (W1 & W2 & W3 & W4).
  assert (Nq : q <> []) by (eapply doc_inner; [exact D|exists cs; exact Eq|destruct k; discriminate|destruct k; discriminate]).
  destruct (trails_leaf _ _ _ D _ _ Nq Eq Iy) as (L & [kz uz] & ELz & Tz).
  pose proof (grammatical_tokens _ _ G) as Fq. assert (Fy : Forall query_token (leaves y)) by (rewrite Sp in Fq; apply Forall_app in Fq as [_ Fq]; apply Forall_app in Fq; apply Fq).
  assert (Sy : lex err (tree_text y ++ V) = leaves y ++ leaves_behind x q).
  { rewrite leaves_text. unfold V. rewrite <- flat_map_app. apply (LexInsert.lex_suffix err t (leaves_before x q)). exact Sp. }
  assert (SV : lex err V = leaves_behind x q). { apply (LexInsert.lex_suffix err t (leaves_before x q ++ leaves y)). rewrite <- app_assoc. exact Sp. }
  assert (Lc : lex err (flat_map snd (leaves y) ++ closing_text n ++ V) = leaves y ++ lex err (closing_text n ++ V)).
  { rewrite lex_closing. rewrite ELz in Sy, Fy |- *. rewrite <- app_assoc in Sy.
    refine (eq_trans (f_equal (lex err) _) (eq_trans (left_spaced err _ L kz uz _ (NL :: spaces n) (125%N :: [NL] ++ 125%N :: V) Sy Fy _ Tz _ _ _) _)).
    - apply f_equal. apply closing_cut.
    - pose proof (not_fused_right _ _ NF) as NF2. rewrite ELz in NF2. exact NF2.
    - discriminate.
    - exact (spaces_ws n).
    - apply opens_solid_char; [reflexivity|discriminate|discriminate].
    - f_equal. f_equal. rewrite lex_curly. f_equal. rewrite (lex_ws err [NL]); [|discriminate|reflexivity|reflexivity]. f_equal. apply lex_curly. }
  assert (Lb : lex err (indented n (tree_text y) ++ closing_text n ++ V) = map (deepen n) (leaves y) ++ lex err (closing_text n ++ V)).
  { rewrite leaves_text. apply lex_indented; [exact Lc| |exact Fl]. apply Forall_app. split; [eapply Forall_impl; [|exact Fy]; intros l Hl; apply (query_token_known _ Hl)|]. rewrite lex_closing, SV.
    constructor; [discriminate|]. constructor; [discriminate|]. constructor; [discriminate|]. constructor; [discriminate|]. rewrite Sp in Fq. apply Forall_app in Fq as [_ Fq]. apply Forall_app in Fq as [_ Fq]. eapply Forall_impl; [|exact Fq]. intros l Hl. apply (query_token_known _ Hl). }
  set (op := opening_text n (selection_text x (q ++ [0]))).
  assert (To : tokens err (op ++ indented n (tree_text y) ++ closing_text n ++ V) = open_tokens ls ++ tokens err (indented n (tree_text y) ++ closing_text n ++ V)).
  { unfold op. rewrite Es1. apply tokens_opening; [exact Es3|]. rewrite leaves_text, Ely. cbn [flat_map snd]. rewrite Ewl. cbn [app indented flat_map]. exact W1. }
  assert (Lu : lex err (U ++ op ++ indented n (tree_text y) ++ closing_text n ++ V) = leaves_before x q ++ lex err (op ++ indented n (tree_text y) ++ closing_text n ++ V)).
  { refine (node_relex err t x q y D Eq K_SELECT wl lr' _ Ely _ Fq (not_fused_left _ _ NF) Bl _); [rewrite Ewl; auto|]. unfold op, opening_text. change (chars "SELECT ") with (83%N :: chars "ELECT "). cbn [app]. apply opens_solid_char; [reflexivity|discriminate|discriminate]. }
  assert (Tk : tokens err (U ++ op ++ indented n (tree_text y) ++ closing_text n ++ V) = sigs (leaves_before x q) ++ leaves (wrapped k bs (kids (bare (deepen n) y))) ++ sigs (leaves_behind x q)).
  { rewrite !tokens_sigs in To. rewrite tokens_sigs. refine (eq_trans (f_equal sigs Lu) _). rewrite PrologueSwap.sigs_app. apply (f_equal (fun z => sigs (leaves_before x q) ++ z)). refine (eq_trans To _). rewrite Lb, PrologueSwap.sigs_app, sigs_deepen, lex_closing, SV.
    rewrite wrapped_leaves. rewrite Ebs1. cbn [clause]. rewrite Es2. rewrite <- !app_assoc. f_equal. f_equal.
    rewrite <- (bare_leaves_by (deepen n) y Iy). unfold y. rewrite (bare_is (deepen n) k cs). reflexivity. }
  assert (Dw : derives (GrammarSpec.GNode k) [shape (wrapped k bs (kids (bare (deepen n) y)))]).
  { apply wrapped_derives; [exact Sk|rewrite Ebs1; cbn [clause]; exact Es4|]. cbn [shape]. replace (map shape (kids (bare (deepen n) y))) with (map shape bs); [rewrite Ebs1; exact Dsub|]. pose proof (bare_shape_by (deepen n) y ltac:(reflexivity)) as Bs. apply (f_equal (fun g => match g with gnode _ us => us | gleaf _ => [] end)) in Bs. symmetry. exact Bs. }
  unfold wrapped in Tk, Dw. destruct (replanted _ _ _ _ _ _ _ _ _ P G Eq Dw Tk) as (x' & q' & P' & Q' & Aq & B').
  destruct (@exists_last _ (tree_text y)) as (w0 & c0 & Ew0). { rewrite leaves_text, Ely. cbn [flat_map snd]. rewrite Ewl. discriminate. }
  assert (Nc0 : c0 <> NL).
  { intros ->. assert (uz <> []) as Nu. { pose proof (token_texts err t) as F. rewrite Sp, ELz in F. rewrite !Forall_app in F. destruct F as (_ & (_ & F) & _). inversion F; subst. assumption. }
    destruct (@exists_last _ uz Nu) as (u0 & c2 & Euz). assert (c2 = NL) as ->. { rewrite leaves_text, ELz, flat_map_app in Ew0. cbn [flat_map snd] in Ew0. rewrite app_nil_r, Euz, app_assoc in Ew0. apply app_inj_tail in Ew0. apply Ew0. }
    rewrite ELz in Fl. apply Forall_app in Fl as [_ Fl]. apply Forall_inv in Fl as Fl1. cbn [fst snd] in Fl1. specialize (Fl1 ltac:(rewrite Euz; apply in_app_iff; right; left; reflexivity)).
    assert (kz = K_NIL \/ kz = K_ANON) as Kz by (destruct Fl1 as [E1|[E1|E1] ]; [rewrite E1 in Tz; discriminate Tz|auto|auto]). assert (Sp2 : lex err t = (leaves_before x q ++ L) ++ (kz, uz) :: leaves_behind x q) by (rewrite Sp, ELz, <- !app_assoc; reflexivity). exact (bracket_last err _ _ kz _ _ Sp2 Kz u0 NL Euz eq_refl). }
  destruct (edits_sub U (tree_text y) V n op (closing_text n) c0 w0 Ew0 Nc0) as (first & inner & last & I1 & I2 & I3 & I4). rewrite <- Et in I1, I2, I3, I4.
  exists (last :: inner ++ [first]), (U ++ op ++ indented n (tree_text y) ++ closing_text n ++ V), x', q', n. split; [reflexivity|]. split; [|split; [exact I4|split; [exact P'|split; [exact Aq|]]]].
  - assert (exists z, at_path x el = Some z) as [z Ez] by (destruct Sel as [->|(c & i & w & _ & -> & H)]; eauto).
    unfold offer_sub_select, byte_range. rewrite Ia, Ib. rewrite (proj2 (Nat.leb_le _ _)) by (destruct Sm as ((_ & H & _) & _); exact H). rewrite (smallest_covering _ _ _ _ _ _ _ D Ez Sm).
    destruct (parent_other _ _ _ _ _ _ _ D Eq Sk Sel) as (Pa & Pb & k' & Ek' & Sk'). rewrite Pa, Pb. cbn [andb orb]. rewrite Ek', Sk'. fold n. unfold sub_select. rewrite (selected_query_ok _ _ _ _ _ Eq Sk Sel).
    rewrite (proj2 (select_clause_iff _ _ _ _ _ _ D ltac:(exists cs; exact Eq) Sk) Hsc). fold op.
    assert (Ty : text_at x q = tree_text y) by (unfold text_at; rewrite Eq; reflexivity). assert (S1 : start_at x q = byte_len U) by (exact (before_bytes _ _ _ Eq)).
    assert (S2 : start_at x (q ++ [0]) = byte_len U) by (pose proof Eq as Eq2; unfold y in Eq2; rewrite Ecs in Eq2; rewrite (start_first _ _ _ _ _ Eq2); exact S1).
    replace (end_at x q) with (byte_len (U ++ tree_text y)) by (unfold end_at; rewrite Ty, S1, byte_len_app; reflexivity). rewrite I2, Ty, S2, S1, I3, I1. reflexivity.
  - rewrite B'. unfold wrapped. rewrite Ebs1. reflexivity.
Qed.

(** ** the action answers for every document and every range; only a range whose end is before its start crashes the server *)
Lemma cast_select_inv x q q' : cast_select x q = Some q' -> q' = q /\ exists k cs, at_path x q = Some (Node k cs) /\ select_like k = true.
Proof. unfold cast_select. destruct (at_path x q) as [[k w|k cs]|]; try discriminate. destruct (select_like k) eqn:S; [|discriminate]. intros [= <-]. eauto. Qed.
Theorem C65_answers : forall err t x errs r tab, doc_parse err t x errs ->
  (forall a b, byte_index (rstart r) t = Some a -> byte_index (rend r) t = Some b -> if a <=? b then exists o, offer_sub_select x t tab r = Reply o else offer_sub_select x t tab r = Crash) /\
  (byte_index (rstart r) t = None \/ byte_index (rend r) t = None -> offer_sub_select x t tab r = Refused InvalidParams).
Proof.
  intros err t x errs r tab P. pose proof (doc_parse_tree _ _ _ _ P) as D. unfold offer_sub_select, byte_range. split.
  - intros a b -> ->. destruct (a <=? b) eqn:L; [|reflexivity]. set (el := covering 0 a b x). destruct (_ || _); [eauto|]. destruct (kind_at x el) as [k0|]; [|eauto]. destruct (select_kind k0); [|eauto]. set (n := match tab with Some n => n | None => 2 end).
    unfold sub_select. destruct (selected_query x el) as [q|] eqn:Eq; [|eauto]. assert (exists k cs, at_path x q = Some (Node k cs) /\ select_like k = true) as (k & cs & Ey & Sk).
    { unfold selected_query in Eq. destruct (at_path x el) as [[k1 w1|k1 ds]|]; [| |discriminate]; [destruct el as [|? [|? ?]]; try discriminate|]; apply cast_select_inv in Eq as [-> H]; exact H. }
    destruct (select_clause x q) as [sc|] eqn:Es; [|eauto]. apply (select_clause_iff _ _ _ _ _ _ D ltac:(exists cs; exact Ey) Sk) in Es. destruct (clause_first _ _ _ _ _ _ D Ey Sk sc Es) as (ps & cs' & -> & Ecs).
    destruct (insertion t (end_at x q) (closing_text n)); [|eauto]. pose proof (node_text _ _ _ _ _ D Ey) as Et. set (U := flat_map snd (leaves_before x q)) in *. set (V := flat_map snd (leaves_behind x q)) in *.
    assert (S2 : start_at x (q ++ [0]) = byte_len U) by (pose proof Ey as Ey2; rewrite Ecs in Ey2; rewrite (start_first _ _ _ _ _ Ey2); exact (before_bytes _ _ _ Ey)).
    assert (Ty : text_at x q = tree_text (Node k cs)) by (unfold text_at; rewrite Ey; reflexivity). rewrite S2, Ty.
    destruct (indent_edits_ok U V (spaces n ++ spaces n) (tree_text (Node k cs)) []) as (es & Ee & _). cbn [app byte_len] in Ee. rewrite <- Et in Ee. rewrite Ee. destruct (insertion t (start_at x q) _); eexists; reflexivity.
  - intros [-> | ->]; [reflexivity|]. destruct (byte_index (rstart r) t); reflexivity.
Qed.

(** ** a case, and what is not claimed *)
Local Open Scope string_scope.
Local Open Scope list_scope.
(** the document behind the action at a cursor, asked for with the tab size [tab] *)
Definition sub_selected (t : text) (tab : option nat) (l c : nat) : option text :=
  match offer_sub_select (tree_of t) t tab (mkrange (mkpos l c) (mkpos l c)) with
  | Reply (Some es) => match apply_text_edits t es with Done u => Some u | _ => None end
  | _ => None
  end.
Definition C65_query : text := chars "PREFIX e: <e>" ++ [NL] ++ chars "SELECT ?x (COUNT(?z) AS ?n) WHERE {" ++ [NL] ++ chars "  ?x e:p ?z ." ++ [NL] ++ chars "} GROUP BY ?x" ++ [NL].
Definition C65_after : text := chars "PREFIX e: <e>" ++ [NL] ++ chars "SELECT ?x ?n WHERE {" ++ [NL] ++ chars "  {" ++ [NL] ++ chars "    SELECT ?x (COUNT(?z) AS ?n) WHERE {" ++ [NL] ++ chars "      ?x e:p ?z ." ++ [NL] ++
  chars "    } GROUP BY ?x" ++ [NL] ++ chars "  }" ++ [NL] ++ chars "}" ++ [NL].
Definition C65_from : text := chars "SELECT * FROM <g> { ?x ?p ?y }" ++ [NL].
Definition C65_long : text := chars "SELECT * { ?x ?p '''a" ++ [NL] ++ chars "b''' }" ++ [NL].
Example C65_witness : exists q cs el, (doc_parse (fun _ => 0) C65_query (tree_of C65_query) (errors_of C65_query) /\ grammatical (fun _ => 0) C65_query) /\ at_path (tree_of C65_query) q = Some (Node K_SelectQuery cs) /\
  query_selected (tree_of C65_query) q el /\ byte_index (mkpos 1 2) C65_query = Some 16 /\ smallest (tree_of C65_query) el 16 16 /\ (forall c, ~ part (tree_of C65_query) q K_DatasetClause c) /\
  Forall (fun l => In NL (snd l) -> blank_inside (fst l)) (leaves (Node K_SelectQuery cs)) /\ blank_before (tree_of C65_query) q /\ not_fused (leaves_before (tree_of C65_query) q ++ leaves (Node K_SelectQuery cs)) /\
  sub_selected C65_query None 1 2 = Some C65_after.
Proof.
  exists [0; 2]. eexists. exists [0; 2; 0; 0]. split; [assert (P : doc_parse (fun _ => 0) C65_query (tree_of C65_query) (errors_of C65_query)) by (apply parses_doc; vm_compute; reflexivity); split; [exact P|apply (derivation_checked 200 _ _ _ (doc_parse_tree _ _ _ _ P)); vm_compute; reflexivity]|]. split; [vm_compute; reflexivity|].
  split; [right; exists [0; 2; 0], 0; eexists; split; [split; [exists 0; reflexivity|eexists; vm_compute; reflexivity]|]; split; [reflexivity|vm_compute; reflexivity]|].
  split; [vm_compute; reflexivity|]. split.
  { split; [|split; [left; apply Nat.ltb_lt; vm_compute; reflexivity|]].
    - split; [apply Nat.leb_le; vm_compute; reflexivity|]. split; [apply Nat.leb_le; reflexivity|apply Nat.leb_le; vm_compute; reflexivity].
    - intros i c H. exfalso. vm_compute in H. discriminate. }
  split.
  { intros c [[i ->] [ds H]]. do 8 (destruct i as [|i]; [vm_compute in H; discriminate|]). vm_compute in H. destruct i; discriminate. }
  split.
  { apply Forall_forall. intros l H. vm_compute in H. repeat (destruct H as [<-|H]; [try (left; reflexivity); cbn; intros H0; exfalso; repeat (destruct H0 as [H0|H0]; [discriminate|]); destruct H0|]). destruct H. }
  split.
  { intros a c H. match type of H with ?u = _ => assert (u = chars "PREFIX e: <e>" ++ [NL]) as K by (vm_compute; reflexivity) end. rewrite K in H. apply app_inj_tail in H as [_ <-]. reflexivity. }
  split; [vm_compute; repeat (split; [intros ? Hq; discriminate Hq|]); exact I|vm_compute; reflexivity].
Qed.
(** a dataset is for the query of a document only: the sub-query that still has it is a syntax error; a line feed in a string is indented as well: another string *)
Theorem C65_dataset_refuted : (doc_parse (fun _ => 0) C65_from (tree_of C65_from) (errors_of C65_from) /\ grammatical (fun _ => 0) C65_from) /\
  exists t', sub_selected C65_from None 0 2 = Some t' /\ doc_parse (fun _ => 0) t' (tree_of t') (errors_of t') /\ errors_of t' <> [].
Proof. split; [apply grammatical_text; vm_compute; reflexivity|]. eexists; split; [vm_compute; reflexivity|]; split; [apply parses_doc; vm_compute; reflexivity|vm_compute; discriminate]. Qed.
Theorem C65_string_refuted : (doc_parse (fun _ => 0) C65_long (tree_of C65_long) (errors_of C65_long) /\ grammatical (fun _ => 0) C65_long) /\
  exists t', sub_selected C65_long None 0 2 = Some t' /\ In (K_STRING_LITERAL_LONG1, chars "'''a" ++ [NL] ++ chars "b'''") (tokens (fun _ => 0) C65_long) /\
    In (K_STRING_LITERAL_LONG1, chars "'''a" ++ [NL] ++ chars "    b'''") (tokens (fun _ => 0) t') /\ ~ In (K_STRING_LITERAL_LONG1, chars "'''a" ++ [NL] ++ chars "b'''") (tokens (fun _ => 0) t').
Proof.
  split; [apply grammatical_text; vm_compute; reflexivity|]. eexists. split; [vm_compute; reflexivity|]. split; [vm_compute; tauto|]. split; [vm_compute; tauto|]. vm_compute. intuition discriminate.
Qed.
