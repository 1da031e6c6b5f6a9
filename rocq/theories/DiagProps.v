(** C45 to C54: what the client gets for textDocument/diagnostic.
    [x] and [errs] are the tree and the errors that the parser gives for the text [t] ([doc_parse]); [order] is the
    iteration order of a HashMap, i.e. any permutation; [shorten] is the prefix map of the default backend. *)
From Coq Require Import String List Arith NArith Bool Lia Sorted Permutation.
Import ListNotations.
From Verif Require Import ServerModel Kinds KindFacts ParserSyntax ParserModel GrammarData ParserTree ParserTerm ParserBuild ParserSpec ParserChecks ParserOutcome ParserProps
  TextModel TextSpec TextProofs TextProps Utf8Model LexerRegex LexerModel LexerSpec LexerProps FormatData FormatModel FormatTree FormatText FormatParse FormatWeave
  TreeModel TreePlace TreeShape TreeKids TreeItems VarModel VarSpec VarRegions VarOcc VarDoc LexRename VarProps DiagModel DiagSpec AstFacts DiagFacts DiagGroup DiagScope DiagRest.

Definition any_order (order : path -> list (text * list path) -> list (text * list path)) : Prop := forall g l, Permutation (order g l) l.

Lemma query_doc_iff x : kind_is x [] K_QueryUnit = true -> (forall w, x <> Tok K_QueryUnit w) -> query_doc x.
Proof.
  unfold kind_is, kind_at, query_doc, node_at. cbn. intros K N. apply kind_eqb_eq in K. destruct x as [k w|k cs]; cbn [tkind] in K; subst k; [destruct (N w); reflexivity|]. eauto.
Qed.
Lemma of_code_app c a b : of_code c (a ++ b) = of_code c a ++ of_code c b.
Proof. apply filter_app. Qed.
Lemma of_code_all c ds : coded c ds -> of_code c ds = ds.
Proof. induction 1 as [|d ds H _ IH]; [reflexivity|]. unfold of_code in *. cbn [filter]. rewrite H, IH. destruct c; reflexivity. Qed.
Lemma of_code_none c c' ds : coded c' ds -> code_eqb c' c = false -> of_code c ds = [].
Proof. intros H N. induction H as [|d ds H _ IH]; [reflexivity|]. unfold of_code in *. cbn [filter]. rewrite H, N. exact IH. Qed.

(** all parts of the answer *)
Record answer (x : tree) (t : text) (errs : list parse_error) (shorten : text -> option (text * text * text)) (ds : list diag) : Prop := mkanswer {
  a_unused : reports_in_order x t (fun d dat => (exists w, declares x d w /\ dat = DString w /\ forall p, ~ uses x p w) \/ (unlabelled x d /\ dat = NoData /\ forall p, ~ uses x p [])) (of_code UnusedPrefix ds);
  a_undeclared : reports_in_order x t (fun p dat => in_select x p /\ exists w, uses x p w /\ dat = DString w /\ forall d, ~ declares x d w) (of_code UndeclaredPrefix ds);
  a_uncompacted : reports_in_order x t (fun p dat => in_select x p /\ exists u pr ns cu, iriref x p u /\ shorten u = Some (pr, ns, cu) /\ dat = DStrings [pr; ns; cu]) (of_code UncompactedUri ds);
  a_ungrouped : reports x t (fun v dat => dat = NoData /\ ungrouped x v) (of_code UngroupedSelectVar ds);
  a_projection : reports_in_order x t (fun v dat => dat = NoData /\ shadows false x v) (of_code InvalidProjectionVar ds);
  a_same : reports x t (repeated x t) (of_code SameSubject ds);
  a_syntax : match errs with [] => of_code SyntaxError ds = [] | e :: _ => exists d, of_code SyntaxError ds = [d] /\ d_data d = NoData /\ error_marks t e (d_range d) end;
  a_duplicate : reports_in_order x t (fun d dat => (forall u, ~ unlabelled x u) /\ exists w d', declares x d w /\ dat = DString w /\ declares x d' w /\ doc_before d' d) (of_code DuplicatePrefix ds);
  a_star : reports x t (fun s dat => dat = NoData /\ starred_group x s) (of_code GroupByStar ds)
}.
Lemma reports_marks x t P ds : reports x t P ds -> Forall (marks t) ds.
Proof. intros (l & _ & _ & F). induction F as [|pd d l ds [_ H] _ IH]; constructor; [eapply located_marks, H|exact IH]. Qed.
Lemma in_order_reports x t P ds : reports_in_order x t P ds -> reports x t P ds.
Proof. intros (l & S & H). exists l. split; [apply sorted_NoDup, S|exact H]. Qed.
Lemma syntax_marks t e d : error_marks t e (d_range d) -> marks t d.
Proof. intros (a & b & c & H1 & _ & _ & H2 & H3). exists a, b, c. auto. Qed.
Lemma diagnostics_split shorten order x errs t d1 d2 d3 d4 d5 d6 d7 d8 d9 : query_doc x ->
  unused_prefix x t = VDone d1 -> undeclared_prefix x t = VDone d2 -> uncompacted_uri shorten x t = VDone d3 -> ungrouped_select_variable x t = VDone d4 ->
  invalid_projection_variable x t = VDone d5 -> same_subject order x t = VDone d6 -> syntax_error t errs = VDone d7 -> duplicate_prefix x t = VDone d8 -> groupby_star_selection x t = VDone d9 ->
  diagnostics shorten order x errs t = Reply (d1 ++ d2 ++ d3 ++ d4 ++ d5 ++ d6 ++ d7 ++ d8 ++ d9).
Proof.
  intros Q E1 E2 E3 E4 E5 E6 E7 E8 E9. unfold diagnostics. rewrite (proj2 (kind_is_iff _ _ _ _ Q) eq_refl). cbn [negb]. rewrite E1, E2, E3, E4, E5, E6, E7, E8, E9. reflexivity.
Qed.
Lemma all_parts err t x errs shorten order : doc_parse err t x errs -> any_order order -> query_doc x ->
  exists ds, diagnostics shorten order x errs t = Reply ds /\ answer x t errs shorten ds /\ Forall (marks t) ds.
Proof.
  intros P O Q. pose proof (doc_parse_tree _ _ _ _ P) as D.
  destruct (unused_ok _ _ _ D Q) as (d1 & E1 & C1 & R1). destruct (undeclared_ok _ _ _ D Q) as (d2 & E2 & C2 & R2). destruct (uncompacted_ok _ _ _ shorten D Q) as (d3 & E3 & C3 & R3).
  destruct (ungrouped_ok _ _ _ D Q) as (d4 & E4 & C4 & R4). destruct (invalid_projection_ok _ _ _ D Q) as (d5 & E5 & C5 & R5). destruct (same_subject_ok _ _ _ order D O) as (d6 & E6 & C6 & R6).
  destruct (syntax_error_ok _ _ _ _ P) as (d7 & E7 & R7). destruct (duplicate_ok _ _ _ D Q) as (d8 & E8 & C8 & R8). destruct (groupby_star_ok _ _ _ D) as (d9 & E9 & C9 & R9).
  assert (coded SyntaxError d7) as C7 by (destruct errs; [subst; constructor|destruct R7 as (d & -> & H & _); constructor; [exact H|constructor]]).
  exists (d1 ++ d2 ++ d3 ++ d4 ++ d5 ++ d6 ++ d7 ++ d8 ++ d9). split; [apply diagnostics_split; assumption|]. split.
  - constructor.
    all: rewrite !of_code_app.
    all: repeat match goal with |- context [of_code ?c ?d] => match goal with C : coded c d |- _ => rewrite (of_code_all c d C) | C : coded ?c' d |- _ => rewrite (of_code_none c c' d C eq_refl) end end.
    all: rewrite ?app_nil_r; cbn [app]; try assumption.
    destruct errs; [subst; reflexivity|]. destruct R7 as (d & -> & _ & H). eauto.
  - repeat (apply Forall_app; split); try (eapply reports_marks; (eassumption || apply in_order_reports; eassumption)).
    destruct errs; [subst; constructor|]. destruct R7 as (d & -> & _ & _ & H). constructor; [eapply syntax_marks, H|constructor].
Qed.
Lemma reply_query err t x errs shorten order ds : doc_parse err t x errs -> diagnostics shorten order x errs t = Reply ds -> query_doc x.
Proof.
  intros P E. apply doc_parse_tree in P as D. destruct (doc_root _ _ _ D) as (k & H & [-> | ->]); [exact H|]. unfold diagnostics in E. rewrite (kind_is_node _ _ K_QueryUnit _ H) in E. discriminate.
Qed.
Lemma answered err t x errs shorten order ds : doc_parse err t x errs -> any_order order -> diagnostics shorten order x errs t = Reply ds -> answer x t errs shorten ds.
Proof. intros P O E. destruct (all_parts _ _ _ _ shorten order P O (reply_query _ _ _ _ _ _ _ P E)) as (ds' & E' & A & _). rewrite E' in E. injection E as <-. exact A. Qed.

(** ** C45: the request is always answered, and every diagnostic marks a part of the text *)
Theorem C45_answered : forall err t x errs shorten order, doc_parse err t x errs -> any_order order ->
  (exists ds, query_doc x /\ diagnostics shorten order x errs t = Reply ds /\ forall d, In d ds -> marks t d) \/
  (node_at x [] K_UpdateUnit /\ diagnostics shorten order x errs t = Refused InternalError).
Proof.
  intros err t x errs shorten order P O. pose proof (doc_parse_tree _ _ _ _ P) as D. destruct (doc_root _ _ _ D) as (k & H & [-> | ->]).
  - left. destruct (all_parts _ _ _ _ shorten order P O H) as (ds & E & _ & M). exists ds. split; [exact H|]. split; [exact E|]. apply Forall_forall. exact M.
  - right. split; [exact H|]. unfold diagnostics. rewrite (kind_is_node _ _ K_QueryUnit _ H). reflexivity.
Qed.
(** the iteration order decides on the order of the diagnostics only *)
Lemma located_fun x t p r r' : located x t p r -> located x t p r' -> r = r'.
Proof. intros (_ & _ & H1 & H2) (_ & _ & K1 & K2). destruct r, r'. cbn in *. congruence. Qed.
Lemma reports_det x t c l ds : Forall2 (fun pd d => d_data d = snd pd /\ located x t (fst pd) (d_range d)) l ds -> coded c ds ->
  forall ds', Forall2 (fun pd d => d_data d = snd pd /\ located x t (fst pd) (d_range d)) l ds' -> coded c ds' -> ds = ds'.
Proof.
  induction 1 as [|pd d l ds [D1 D2] _ IH]; intros C ds' F' C'; inversion F' as [|? d' ? ds0' [D1' D2'] F0']; subst; [reflexivity|]. inversion C as [|? ? Cd C0]; subst. inversion C' as [|? ? Cd' C0']; subst.
  f_equal; [destruct d, d'; cbn in *; f_equal; [congruence|eapply located_fun; eassumption|congruence]|apply IH; assumption].
Qed.
Lemma reports_perm x t P c ds ds' : reports x t P ds -> reports x t P ds' -> coded c ds -> coded c ds' -> Permutation ds ds'.
Proof.
  intros (l & N & H & F) (l' & N' & H' & F') C C'.
  assert (Permutation l l') as Pm by (apply NoDup_Permutation; [apply NoDup_fst, N|apply NoDup_fst, N'|]; intros [p dat]; rewrite H, H'; reflexivity).
  clear N N' H H'. revert ds ds' F F' C C'. induction Pm as [|[p dat] l l' _ IH|a b l|l l1 l2 P1 IH1 P2 IH2]; intros ds ds' F F' C C'.
  - inversion F; inversion F'; subst. constructor.
  - inversion F as [|? d ? ds0 [D1 D2] F0]; subst. inversion F' as [|? d' ? ds0' [D1' D2'] F0']; subst. inversion C; inversion C'; subst. assert (d = d') as <-. { destruct d, d'. cbn in *. f_equal; [congruence|eapply located_fun; eassumption|congruence]. } constructor. apply IH; assumption.
  - inversion F as [|? d ? ds0 [D1 D2] F0]; subst. inversion F0 as [|? e ? ds1 [G1 G2] F1]; subst. inversion F' as [|? d' ? ds0' [D1' D2'] F0']; subst. inversion F0' as [|? e' ? ds1' [G1' G2'] F1']; subst.
    inversion C as [|? ? Cd C0]; subst. inversion C0 as [|? ? Ce C1]; subst. inversion C' as [|? ? Cd' C0']; subst. inversion C0' as [|? ? Ce' C1']; subst.
    assert (d = e') as <-. { destruct d, e'. cbn in *. f_equal; [congruence|eapply located_fun; eassumption|congruence]. } assert (e = d') as <-. { destruct e, d'. cbn in *. f_equal; [congruence|eapply located_fun; eassumption|congruence]. }
    assert (ds1 = ds1') as <-; [|constructor]. eapply reports_det; eassumption.
  - (* the middle list has diagnostics too *)
    assert (exists ds1, Forall2 (fun pd d => d_data d = snd pd /\ located x t (fst pd) (d_range d)) l1 ds1 /\ coded c ds1) as (ds1 & F1 & C1).
    { clear -P1 F C. apply Permutation_sym in P1. assert (forall pd, In pd l -> exists d, (d_data d = snd pd /\ located x t (fst pd) (d_range d)) /\ d_code d = c) as K.
      { clear -F C. induction F as [|pd d l ds HD _ IH]; intros q Hq; [destruct Hq|]. inversion C; subst. destruct Hq as [<-|Hq]; [eauto|apply IH; assumption]. }
      assert (forall pd, In pd l1 -> exists d, (d_data d = snd pd /\ located x t (fst pd) (d_range d)) /\ d_code d = c) as K1 by (intros pd Hpd; apply K; eapply Permutation_in; eassumption). clear -K1.
      induction l1 as [|pd l1 IH]; [exists []; split; constructor|]. destruct IH as (ds & H1 & H2); [intros q Hq; apply K1; right; exact Hq|]. destruct (K1 pd (or_introl eq_refl)) as (d & Hd & Hc). exists (d :: ds). split; constructor; assumption. }
    eapply Permutation_trans; [apply (IH1 ds ds1)|apply (IH2 ds1 ds')]; assumption.
Qed.
Theorem C45_order_irrelevant : forall err t x errs shorten order order' ds ds', doc_parse err t x errs -> any_order order -> any_order order' ->
  diagnostics shorten order x errs t = Reply ds -> diagnostics shorten order' x errs t = Reply ds' -> Permutation ds ds'.
Proof.
  intros err t x errs shorten order order' ds ds' P O O' E E'. pose proof (reply_query _ _ _ _ _ _ _ P E) as Q. pose proof (doc_parse_tree _ _ _ _ P) as D.
  destruct (unused_ok _ _ _ D Q) as (d1 & E1 & _). destruct (undeclared_ok _ _ _ D Q) as (d2 & E2 & _). destruct (uncompacted_ok _ _ _ shorten D Q) as (d3 & E3 & _).
  destruct (ungrouped_ok _ _ _ D Q) as (d4 & E4 & _). destruct (invalid_projection_ok _ _ _ D Q) as (d5 & E5 & _). destruct (same_subject_ok _ _ _ order D O) as (d6 & E6 & C6 & R6). destruct (same_subject_ok _ _ _ order' D O') as (d6' & E6' & C6' & R6').
  destruct (syntax_error_ok _ _ _ _ P) as (d7 & E7 & _). destruct (duplicate_ok _ _ _ D Q) as (d8 & E8 & _). destruct (groupby_star_ok _ _ _ D) as (d9 & E9 & _).
  rewrite (diagnostics_split shorten order x errs t _ _ _ _ _ _ _ _ _ Q E1 E2 E3 E4 E5 E6 E7 E8 E9) in E. rewrite (diagnostics_split shorten order' x errs t _ _ _ _ _ _ _ _ _ Q E1 E2 E3 E4 E5 E6' E7 E8 E9) in E'. injection E as <-. injection E' as <-.
  do 5 apply Permutation_app_head. apply Permutation_app_tail. eapply reports_perm; eassumption.
Qed.

Section answers.
Context (err : text -> nat) (t : text) (x : tree) (errs : list parse_error) (shorten : text -> option (text * text * text)) (order : path -> list (text * list path) -> list (text * list path)) (ds : list diag).
Context (P : doc_parse err t x errs) (O : any_order order) (E : diagnostics shorten order x errs t = Reply ds).
(** ** C46: undeclared prefixes *)
Theorem C46_undeclared_prefixes_partial : reports_in_order x t (fun p dat => in_select x p /\ exists w, uses x p w /\ dat = DString w /\ forall d, ~ declares x d w) (of_code UndeclaredPrefix ds).
Proof. exact (a_undeclared _ _ _ _ _ (answered _ _ _ _ _ _ _ P O E)). Qed.
(** ** C47: unused declarations; an incomplete one counts as one of the empty prefix *)
Theorem C47_unused_prefixes : reports_in_order x t (fun d dat => (exists w, declares x d w /\ dat = DString w /\ forall p, ~ uses x p w) \/ (unlabelled x d /\ dat = NoData /\ forall p, ~ uses x p [])) (of_code UnusedPrefix ds).
Proof. exact (a_unused _ _ _ _ _ (answered _ _ _ _ _ _ _ P O E)). Qed.
(** ** C48: prefixes that are declared again *)
Theorem C48_duplicate_prefixes_partial : (forall u, ~ unlabelled x u) ->
  reports_in_order x t (fun d dat => exists w d', declares x d w /\ dat = DString w /\ declares x d' w /\ doc_before d' d) (of_code DuplicatePrefix ds).
Proof.
  intros L. destruct (a_duplicate _ _ _ _ _ (answered _ _ _ _ _ _ _ P O E)) as (l & S & H & F). exists l. split; [exact S|]. split; [|exact F]. intros p dat. rewrite H. split; [intros [_ K]; exact K|]. intros K. split; assumption.
Qed.
Theorem C48_incomplete : (exists u, unlabelled x u) -> of_code DuplicatePrefix ds = [].
Proof.
  intros [u U]. destruct (a_duplicate _ _ _ _ _ (answered _ _ _ _ _ _ _ P O E)) as (l & _ & H & F). destruct l as [|[p dat] l]; [inversion F; reflexivity|]. exfalso. exact (proj1 (proj1 (H p dat) (or_introl eq_refl)) u U).
Qed.
(** ** C49: variables that are selected but not grouped *)
Theorem C49_ungrouped_variables_partial : reports x t (fun v dat => dat = NoData /\ ungrouped x v) (of_code UngroupedSelectVar ds).
Proof. exact (a_ungrouped _ _ _ _ _ (answered _ _ _ _ _ _ _ P O E)). Qed.
(** ** C50: projections to a variable that is in scope *)
Theorem C50_projections_partial : reports_in_order x t (fun v dat => dat = NoData /\ shadows false x v) (of_code InvalidProjectionVar ds).
Proof. exact (a_projection _ _ _ _ _ (answered _ _ _ _ _ _ _ P O E)). Qed.
(** ... in scope by the standard, if there is neither FILTER nor MINUS, and no variable stands for a graph or a service *)
Theorem C50_projections_standard_partial : (forall p, ~ node_at x p K_Filter) -> (forall p, ~ node_at x p K_MinusGraphPattern) ->
  (forall k m v u, In k [K_GraphGraphPattern; K_ServiceGraphPattern] -> node_at x m k -> part x m K_VarOrIri v -> ~ part x v K_Var u) ->
  reports_in_order x t (fun v dat => dat = NoData /\ shadows true x v) (of_code InvalidProjectionVar ds).
Proof.
  intros H1 H2 H3. destruct C50_projections_partial as (l & S & H & F). exists l. split; [exact S|]. split; [|exact F]. intros p dat. rewrite H. unfold shadows.
  split; intros [Ed (sq & sc & wc & e & u & K1 & K2 & K3 & K4 & K5 & K6)]; (split; [exact Ed|]); exists sq, sc, wc, e, u; repeat (split; [assumption|]); (split; [|exact K6]); apply (scope_agree x H1 H2 H3); exact K5.
Qed.
(** ** C51: SELECT * with GROUP BY *)
Theorem C51_grouped_stars_partial : reports x t (fun s dat => dat = NoData /\ starred_group x s) (of_code GroupByStar ds).
Proof. exact (a_star _ _ _ _ _ (answered _ _ _ _ _ _ _ P O E)). Qed.
(** ** C52: triples of a group pattern whose subjects are written alike *)
Theorem C52_same_subject : reports x t (repeated x t) (of_code SameSubject ds).
Proof. exact (a_same _ _ _ _ _ (answered _ _ _ _ _ _ _ P O E)). Qed.
(** ** C53: the first syntax error *)
Theorem C53_syntax_error : match errs with [] => of_code SyntaxError ds = [] | e :: _ => exists d, of_code SyntaxError ds = [d] /\ d_data d = NoData /\ error_marks t e (d_range d) end.
Proof. exact (a_syntax _ _ _ _ _ (answered _ _ _ _ _ _ _ P O E)). Qed.
(** ** C54: IRIs that could be shortened *)
Theorem C54_uncompacted_iris_partial : reports_in_order x t (fun p dat => in_select x p /\ exists u pr ns cu, iriref x p u /\ shorten u = Some (pr, ns, cu) /\ dat = DStrings [pr; ns; cu]) (of_code UncompactedUri ds).
Proof. exact (a_uncompacted _ _ _ _ _ (answered _ _ _ _ _ _ _ P O E)). Qed.
End answers.

(** ** cases that meet the hypotheses *)
Local Open Scope string_scope.
Definition errors_of (t : text) : list parse_error := match parse rule_of 4000 (with_spans 0 (lex (fun _ => 0) t)) with Ok (Some (_, errs)) => errs | _ => [] end.
Lemma parses_doc t : parses t = true -> doc_parse (fun _ => 0) t (tree_of t) (errors_of t).
Proof. unfold parses, tree_of, errors_of, doc_parse. destruct (parse _ _ _) as [[[g errs]|]| | |] eqn:E; try discriminate. intros _. exists 4000, g. split; [exact E|reflexivity]. Qed.
Definition short (u : text) : option (text * text * text) := if text_eqb u (chars "http://e.org/a") then Some (chars "e", chars "http://e.org/", chars "e:a") else None.
Definition same_order (_ : path) (l : list (text * list path)) : list (text * list path) := l.
Lemma same_order_ok : any_order same_order.
Proof. intros g l. apply Permutation_refl. Qed.
Definition found (c : code) (s : string) : option (list (nat * nat)) :=
  match diagnostics short same_order (tree_of (chars s)) (errors_of (chars s)) (chars s) with
  | Reply ds => Some (map (fun d => (character (rstart (d_range d)), character (rend (d_range d)))) (of_code c ds))
  | _ => None
  end.
Definition flawed_query : text := chars "PREFIX f: <v> SELECT ?y (?x AS ?z) { ?x e:p <http://e.org/a> . ?x ?p ?z . { SELECT * { ?x } GROUP BY ?x } } GROUP BY ?x".
Example C45_witness : doc_parse (fun _ => 0) flawed_query (tree_of flawed_query) (errors_of flawed_query) /\ any_order same_order /\
  exists ds, diagnostics short same_order (tree_of flawed_query) (errors_of flawed_query) flawed_query = Reply ds /\
    map d_code ds = [UnusedPrefix; UndeclaredPrefix; UncompactedUri; UngroupedSelectVar; InvalidProjectionVar; SameSubject; SameSubject; SyntaxError; GroupByStar].
Proof. split; [apply parses_doc; vm_compute; reflexivity|]. split; [exact same_order_ok|]. eexists. split; vm_compute; reflexivity. Qed.
Example C45_witness_update : exists s, parses (chars s) = true /\ diagnostics short same_order (tree_of (chars s)) (errors_of (chars s)) (chars s) = Refused InternalError.
Proof. exists "INSERT DATA { <s> <p> <o> }". split; vm_compute; reflexivity. Qed.
Example C46_witness : found UndeclaredPrefix "SELECT * { ?x e:p f:q }" = Some [(14, 17); (18, 21)].
Proof. vm_compute. reflexivity. Qed.
Example C47_witness : found UnusedPrefix "PREFIX e: <u> PREFIX f: <v> ASK { ?x e:p ?y }" = Some [(14, 27)] /\ found UnusedPrefix "PREFIX <u> ASK { ?x e:p ?y }" = Some [(0, 10)].
Proof. split; vm_compute; reflexivity. Qed.
Example C48_witness : found DuplicatePrefix "PREFIX e: <u> PREFIX f: <v> PREFIX e: <u> ASK { ?x e:p ?y }" = Some [(28, 41)].
Proof. vm_compute. reflexivity. Qed.
Example C49_witness : found UngroupedSelectVar "SELECT ?x ?y (SUM(?z)+?w AS ?s) { ?x ?y ?z } GROUP BY ?x" = Some [(10, 12); (22, 24)].
Proof. vm_compute. reflexivity. Qed.
Example C50_witness : found InvalidProjectionVar "SELECT (1 AS ?x) (2 AS ?w) { ?x ?y ?z }" = Some [(13, 15)].
Proof. vm_compute. reflexivity. Qed.
Example C51_witness : found GroupByStar "SELECT * { { SELECT * { ?x ?y ?z } GROUP BY ?x } } GROUP BY ?x" = Some [(7, 8); (20, 21)].
Proof. vm_compute. reflexivity. Qed.
Example C52_witness : found SameSubject "SELECT * { ?x ?y ?z . ?a ?b ?c . ?x ?p ?q . { ?x ?y ?z } }" = Some [(11, 19); (33, 41)].
Proof. vm_compute. reflexivity. Qed.
Example C53_witness : found SyntaxError "SELECT ?x { ?x ?y }" = Some [(18, 19)] /\ found SyntaxError "SELECT ?x { ?x ?y ?z }" = Some [].
Proof. split; vm_compute; reflexivity. Qed.
Example C54_witness : found UncompactedUri "SELECT ?x { ?x <http://e.org/a> <u> }" = Some [(15, 31)].
Proof. vm_compute. reflexivity. Qed.

(** ** what is missed, and what is reported but correct *)
(** prefixes are looked at in the body of a SELECT query only *)
Theorem C46_other_queries_refuted :
  found UndeclaredPrefix "ASK { ?x e:p ?y }" = Some [] /\ found UndeclaredPrefix "CONSTRUCT { ?x e:p ?y } { ?x ?z ?y }" = Some [] /\
  found UndeclaredPrefix "DESCRIBE e:f" = Some [] /\ found UndeclaredPrefix "SELECT * { } VALUES ?x { e:f }" = Some [].
Proof. split; [|split; [|split]]; vm_compute; reflexivity. Qed.
(** one declaration without prefix hides all duplicates *)
Theorem C48_incomplete_refuted : found DuplicatePrefix "PREFIX e: <u> PREFIX <v> PREFIX e: <u> ASK { ?x e:p ?y }" = Some [].
Proof. vm_compute. reflexivity. Qed.
(** missed: a variable that is used to define itself; sub-selects; aggregates without GROUP BY.  Correct but reported: the same variable, written with '$' *)
Theorem C49_missed_refuted :
  found UngroupedSelectVar "SELECT (?y AS ?y) { ?x ?y ?z } GROUP BY ?x" = Some [] /\ found UngroupedSelectVar "SELECT * { { SELECT ?y { ?x ?y ?z } GROUP BY ?x } }" = Some [] /\
  found UngroupedSelectVar "SELECT (COUNT(?x) AS ?c) ?y { ?x ?y ?z }" = Some [].
Proof. split; [|split]; vm_compute; reflexivity. Qed.
Theorem C49_dollar_refuted : found UngroupedSelectVar "SELECT $x { ?x ?y ?z } GROUP BY ?x" = Some [(7, 9)].
Proof. vm_compute. reflexivity. Qed.
(** correct but reported: the variable occurs in FILTER or MINUS only, so it is not in scope (18.2.1) *)
Theorem C50_not_in_scope_refuted :
  found InvalidProjectionVar "SELECT (1 AS ?x) { ?w ?y ?z FILTER(?x) }" = Some [(13, 15)] /\ found InvalidProjectionVar "SELECT (1 AS ?x) { ?w ?y ?z MINUS { ?x ?y ?z } }" = Some [(13, 15)].
Proof. split; vm_compute; reflexivity. Qed.
(** missed: the variable of GRAPH and SERVICE; '$'; sub-selects; the name of another expression *)
Theorem C50_missed_refuted :
  found InvalidProjectionVar "SELECT (1 AS ?x) { GRAPH ?x { ?w ?y ?z } }" = Some [] /\ found InvalidProjectionVar "SELECT (1 AS $x) { ?x ?y ?z }" = Some [] /\
  found InvalidProjectionVar "SELECT * { { SELECT (1 AS ?x) { ?x ?y ?z } } }" = Some [] /\ found InvalidProjectionVar "SELECT (1 AS ?x) (2 AS ?x) { ?w ?y ?z }" = Some [].
Proof. split; [|split; [|split]]; vm_compute; reflexivity. Qed.
(** missed: a sub-select with VALUES.  No star selection but reported: an unfinished product *)
Theorem C51_values_refuted : found GroupByStar "SELECT * { { SELECT * { ?x ?y ?z } GROUP BY ?x VALUES ?x { 1 } } }" = Some [].
Proof. vm_compute. reflexivity. Qed.
Theorem C51_product_refuted : found GroupByStar "SELECT (?x * { ?x ?y ?z } GROUP BY ?x" = Some [(11, 12)].
Proof. vm_compute. reflexivity. Qed.
(** blank nodes that are written alike are different nodes *)
Theorem C52_blank_nodes_refuted : found SameSubject "SELECT * { [] <p> 1 . [] <q> 2 }" = Some [(11, 19); (22, 30)] /\ found SameSubject "SELECT * { [ <p> 1 ] <q> 2 . [ <p> 1 ] <q> 2 }" = Some [(11, 26); (29, 44)].
Proof. split; vm_compute; reflexivity. Qed.
(** the rest of the document behind a query is skipped without error *)
Theorem C53_rest_refuted : found SyntaxError "SELECT ?x { ?x ?y ?z } }" = Some [].
Proof. vm_compute. reflexivity. Qed.
Theorem C54_other_queries_refuted : found UncompactedUri "ASK { ?x <http://e.org/a> <u> }" = Some [].
Proof. vm_compute. reflexivity. Qed.
