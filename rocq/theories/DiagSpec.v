(** What C45-C54 say about the diagnostics, apart from the model's helpers: which nodes are reported. *)
From Coq Require Import String List Arith NArith Bool Sorted Permutation.
Import ListNotations.
From Verif Require Import ServerModel Kinds ParserModel GrammarData TextModel TextSpec LexerModel LexerSpec LexerProps FormatData FormatModel FormatText FormatWeave TreeModel TreePlace VarModel VarSpec VarProps DiagModel.

(** [p] is a node of kind [k] *)
Definition node_at (x : tree) (p : path) (k : kind) : Prop := exists cs, at_path x p = Some (Node k cs).
(** [q] is the node [p] or inside it *)
Definition inside (p q : path) : Prop := exists r, q = p ++ r.
(** the tree of a query (not of an update) *)
Definition query_doc (x : tree) : Prop := node_at x [] K_QueryUnit.
(** [x] and [errs] are the syntax tree and the errors the parser gives for the text [t] *)
Definition doc_parse (err : text -> nat) (t : text) (x : tree) (errs : list parse_error) : Prop :=
  exists gas g, parse rule_of gas (with_spans 0 (lex err t)) = Ok (Some (g, errs)) /\ x = fst (graft g (lex err t)).

(** ** what is reported *)
Definition code_eqb (a b : code) : bool :=
  match a, b with
  | UnusedPrefix, UnusedPrefix | UndeclaredPrefix, UndeclaredPrefix | UncompactedUri, UncompactedUri | UngroupedSelectVar, UngroupedSelectVar
  | InvalidProjectionVar, InvalidProjectionVar | SameSubject, SameSubject | SyntaxError, SyntaxError | DuplicatePrefix, DuplicatePrefix | GroupByStar, GroupByStar => true
  | _, _ => false
  end.
Definition of_code (c : code) (ds : list diag) : list diag := filter (fun d => code_eqb (d_code d) c) ds.
(** the diagnostics [ds] are exactly one for each node or token [p] with data such that [P]; each marks what it is about *)
Definition reports (x : tree) (t : text) (P : path -> ddata -> Prop) (ds : list diag) : Prop :=
  exists l, NoDup (map fst l) /\ (forall p dat, In (p, dat) l <-> P p dat) /\ Forall2 (fun pd d => d_data d = snd pd /\ located x t (fst pd) (d_range d)) l ds.
(** ... in the order of the document *)
Definition reports_in_order (x : tree) (t : text) (P : path -> ddata -> Prop) (ds : list diag) : Prop :=
  exists l, StronglySorted doc_before (map fst l) /\ (forall p dat, In (p, dat) l <-> P p dat) /\ Forall2 (fun pd d => d_data d = snd pd /\ located x t (fst pd) (d_range d)) l ds.
(** the range of a diagnostic marks a part of the text *)
Definition marks (t : text) (d : diag) : Prop :=
  exists a b c, t = a ++ b ++ c /\ rstart (d_range d) = position_after a /\ rend (d_range d) = position_after (a ++ b).

(** ** prefixes *)
(** what precedes the first colon *)
Definition prefix_part (w p : text) : Prop := exists r, w = p ++ COLON :: r /\ ~ In COLON p.
(** the prefixed name at [p] has the prefix [w] *)
Definition uses (x : tree) (p : path) (w : text) : Prop := node_at x p K_PrefixedName /\ prefix_part (text_at x p) w.
(** the declaration at [d] declares the prefix [w] *)
Definition declares (x : tree) (d : path) (w : text) : Prop :=
  node_at x d K_PrefixDecl /\ exists i u, at_path x (d ++ [i]) = Some (Tok K_PNAME_NS u) /\ prefix_part u w.
(** an incomplete declaration, as in [PREFIX <http://..>] *)
Definition unlabelled (x : tree) (d : path) : Prop := node_at x d K_PrefixDecl /\ forall w, ~ declares x d w.
(** inside the select query, i.e. not in an ASK, CONSTRUCT or DESCRIBE query and not in a VALUES clause behind the query *)
Definition in_select (x : tree) (p : path) : Prop := exists sq, node_at x sq K_SelectQuery /\ inside sq p.
(** the IRI at [p] is written [<u>] *)
Definition iriref (x : tree) (p : path) (u : text) : Prop := node_at x p K_iri /\ exists i, at_path x (p ++ [i]) = Some (Tok K_IRIREF (60%N :: u ++ [62%N])).

(** ** select clauses *)
(** no node between the [i]th and the [j]th child of [p] *)
Definition adjacent (x : tree) (p : path) (i j : nat) : Prop := i < j /\ forall m k, i < m < j -> ~ node_at x (p ++ [m]) k.
(** the select clause [sc] has [(e AS v)] (also if AS is missing) *)
Definition assigned (x : tree) (sc e v : path) : Prop :=
  exists i j, e = sc ++ [i] /\ v = sc ++ [j] /\ node_at x e K_Expression /\ node_at x v K_Var /\ adjacent x sc i j.
(** the select clause [sc] has the variable [v], not as the name of an expression *)
Definition selected (x : tree) (sc v : path) : Prop := (exists i, v = sc ++ [i]) /\ node_at x v K_Var /\ forall e, ~ assigned x sc e v.
(** the query or sub-select [q] has the child [c] *)
Definition part (x : tree) (q : path) (k : kind) (c : path) : Prop := (exists i, c = q ++ [i]) /\ node_at x c k.
Definition grouped (x : tree) (q gc : path) : Prop := exists sm, part x q K_SolutionModifier sm /\ part x sm K_GroupClause gc.
(** tokens that are neither white space nor comments *)
Definition significant (x : tree) (p : path) : list lexeme := match at_path x p with Some y => filter (fun l => negb (is_trivia (fst l))) (FormatWeave.leaves y) | None => [] end.
(** the expression [e] is just the variable [v] *)
Definition alone (x : tree) (e v : path) : Prop := inside e v /\ variable x v /\ significant x e = significant x v.
(** what comes last in a condition of GROUP BY *)
Definition last_part (x : tree) (c : path) (k : kind) (n : path) : Prop := part x c k n /\ forall k' n', part x c k' n' -> n' = n \/ doc_before n' n.
(** [GROUP BY v], [GROUP BY (v)] or [GROUP BY (.. AS v)] *)
Definition groups_by (x : tree) (gc v : path) : Prop :=
  exists c, part x gc K_GroupCondition c /\ (last_part x c K_Var v \/ exists e, last_part x c K_Expression e /\ alone x e v).
(** the variables in [e] that are not in an aggregate *)
Definition unaggregated_in (x : tree) (e u : path) : Prop := inside e u /\ variable x u /\ forall a, inside e a -> inside a u -> ~ node_at x a K_Aggregate.

(** ** variables in scope *)
(** [scope true x p u]: the variable [u] is in scope at the end of [p], a WHERE clause, a group graph pattern, a part of one, or a sub-select (SPARQL 1.1 Query Language, 18.2.1).
    [scope false x p u]: as the server has it. The variables in a FILTER or MINUS count, those that stand for the graph or the service do not. *)
Definition star (x : tree) (sc : path) : Prop := exists i w, at_path x (sc ++ [i]) = Some (Tok K_Star w).
Inductive scope (std : bool) (x : tree) : path -> path -> Prop :=
| in_where wc g u : node_at x wc K_WhereClause -> part x wc K_GroupGraphPattern g -> scope std x g u -> scope std x wc u
| in_sub_select g s u : node_at x g K_GroupGraphPattern -> part x g K_SubSelect s -> scope std x s u -> scope std x g u
| in_triples g s b u : node_at x g K_GroupGraphPattern -> part x g K_GroupGraphPatternSub s -> part x s K_TriplesBlock b -> inside b u -> variable x u -> scope std x g u
| in_pattern g s n u : node_at x g K_GroupGraphPattern -> part x g K_GroupGraphPatternSub s -> part x s K_GraphPatternNotTriples n -> scope std x n u -> scope std x g u
| in_group k n m g u : In k [K_GroupOrUnionGraphPattern; K_OptionalGraphPattern; K_GraphGraphPattern; K_ServiceGraphPattern] ->
    node_at x n K_GraphPatternNotTriples -> part x n k m -> part x m K_GroupGraphPattern g -> scope std x g u -> scope std x n u
| in_bind n b u : node_at x n K_GraphPatternNotTriples -> part x n K_Bind b -> part x b K_Var u -> scope std x n u
| in_values k n d b o u : In k [K_InlineDataOneVar; K_InlineDataFull] ->
    node_at x n K_GraphPatternNotTriples -> part x n K_InlineData d -> part x d K_DataBlock b -> part x b k o -> part x o K_Var u -> scope std x n u
| in_star s sc wc u : node_at x s K_SubSelect -> part x s K_SelectClause sc -> star x sc -> part x s K_WhereClause wc -> scope std x wc u -> scope std x s u
| in_projection s sc u : node_at x s K_SubSelect -> part x s K_SelectClause sc -> part x sc K_Var u -> scope std x s u
| in_term k n m v u : std = true -> In k [K_GraphGraphPattern; K_ServiceGraphPattern] ->
    node_at x n K_GraphPatternNotTriples -> part x n k m -> part x m K_VarOrIri v -> part x v K_Var u -> scope std x n u
| in_minus n m g u : std = false -> node_at x n K_GraphPatternNotTriples -> part x n K_MinusGraphPattern m -> part x m K_GroupGraphPattern g -> scope std x g u -> scope std x n u
| in_filter n f u : std = false -> node_at x n K_GraphPatternNotTriples -> part x n K_Filter f -> inside f u -> variable x u -> scope std x n u.

(** ** what the server takes for an error *)
(** a VALUES clause behind a sub-select hides its solution modifier *)
Definition hidden (x : tree) (q : path) : Prop := exists vc, part x q K_ValuesClause vc.
(** a variable that is neither grouped nor aggregated, in a query with GROUP BY: selected, or in an expression of the select clause and not the name of this or an earlier expression *)
Definition ungrouped (x : tree) (v : path) : Prop :=
  exists sq sc gc, node_at x sq K_SelectQuery /\ part x sq K_SelectClause sc /\ grouped x sq gc /\ (forall g, groups_by x gc g -> text_at x g <> text_at x v) /\
    (selected x sc v \/
     exists e a, assigned x sc e a /\ unaggregated_in x e v /\
       ((forall e' a', assigned x sc e' a' -> text_at x a' <> text_at x v) \/ exists e' a', assigned x sc e' a' /\ doc_before a a' /\ text_at x a' = text_at x v)).
(** [(e AS v)] where [v] is already in scope in the WHERE clause *)
Definition shadows (std : bool) (x : tree) (v : path) : Prop :=
  exists sq sc wc e u, node_at x sq K_SelectQuery /\ part x sq K_SelectClause sc /\ part x sq K_WhereClause wc /\ assigned x sc e v /\ scope std x wc u /\ text_at x u = text_at x v.
(** the last token in [sc] is the [*] at [s] *)
Definition ends_in_star (x : tree) (sc s : path) : Prop :=
  inside sc s /\ (exists w, at_path x s = Some (Tok K_Star w)) /\ forall r k w, inside sc r -> at_path x r = Some (Tok k w) -> r = s \/ doc_before r s.
(** a query or sub-select with GROUP BY whose select clause ends in [*] *)
Definition starred_group (x : tree) (s : path) : Prop :=
  exists q k sc gc, node_at x q k /\ In k [K_SelectQuery; K_SubSelect] /\ part x q K_SelectClause sc /\ grouped x q gc /\ ~ hidden x q /\ ends_in_star x sc s.
(** the triples of the group graph pattern [g], not those of a pattern in it *)
Definition triple_in (x : tree) (g p : path) : Prop :=
  node_at x g K_GroupGraphPattern /\ node_at x p K_TriplesSameSubjectPath /\ inside g p /\ forall g', node_at x g' K_GroupGraphPattern -> inside g' p -> inside g' g.
(** what was not parsed *)
Definition flawed (x : tree) (p : path) : Prop := exists q, inside p q /\ node_at x q K_Error.
Definition subject (x : tree) (p s : path) : Prop := part x p K_VarOrTerm s \/ part x p K_TriplesNodePath s.
(** two triples in a group whose subjects are written alike *)
Definition alike (x : tree) (p q : path) : Prop :=
  exists g s s', triple_in x g p /\ triple_in x g q /\ ~ flawed x p /\ ~ flawed x q /\ subject x p s /\ subject x q s' /\ text_at x s = text_at x s'.
(** where a node is, in bytes *)
Definition bytes_at (x : tree) (t : text) (p : path) : nat * nat :=
  (byte_len (firstn (chars_before x p) t), byte_len (firstn (chars_before x p + length (text_at x p)) t)).
(** the data: where all triples of the group are *)
Definition repeated (x : tree) (t : text) (p : path) (dat : ddata) : Prop :=
  exists l, dat = DRanges (map (bytes_at x t) l) /\ StronglySorted doc_before l /\ (forall q, In q l <-> alike x p q) /\ exists q, q <> p /\ alike x p q.
(** the range is that of the parse error, which does not cut a character *)
Definition error_marks (t : text) (e : parse_error) (r : range) : Prop :=
  exists a b c, t = a ++ b ++ c /\ byte_len a = pe_start e /\ byte_len (a ++ b) = pe_end e /\ rstart r = position_after a /\ rend r = position_after (a ++ b).
