(** Diagnostics: /repo/src/server/message_handler/diagnostic/*.rs on the AST of
    /repo/crates/sparql-parser/src/ast/mod.rs (below: ast).

    Simplifications: an AST node is the path of its syntax node; a HashSet is a list; the messages, the source
    and the severity of a diagnostic are left out (the message is built from the data and the text in the range,
    the severity is a function of the code).  The order in which a HashMap is iterated is unspecified: the functions
    take it as a parameter.  [shorten] is Server::shorten_uri, i.e. the prefix map of the default backend
    (the curies crate).  What [expect], [unwrap] and slicing do on failure is [VPanic]. *)
From Coq Require Import String List Arith NArith Bool.
Import ListNotations.
From Verif Require Import ServerModel Kinds ParserModel TextModel LexerSpec FormatData FormatModel TreeModel VarModel.

(** ** rowan *)
Definition kind_is (t : tree) (p : path) (k : kind) : bool := match kind_at t p with Some k' => kind_eqb k' k | None => false end.
(** SyntaxNode::children(): the children that are nodes *)
Definition child_nodes (t : tree) (p : path) : list path :=
  match at_path t p with
  | Some (Node _ cs) => concat (imap (fun i c => if is_node c then [p ++ [i]] else []) 0 cs)
  | _ => []
  end.
(** children_with_tokens() *)
Definition children (t : tree) (p : path) : list path :=
  match at_path t p with Some (Node _ cs) => imap (fun i _ => p ++ [i]) 0 cs | _ => [] end.
Definition last_of {A} (l : list A) : option A := hd_error (rev l).
Definition first_child (t : tree) (p : path) : option path := hd_error (child_nodes t p).
Definition last_child (t : tree) (p : path) : option path := last_of (child_nodes t p).
Definition first_child_by_kind (t : tree) (p : path) (f : kind -> bool) : option path :=
  find (fun q => match kind_at t q with Some k => f k | None => false end) (child_nodes t p).
(** descendants() and preorder() (its Enter events) *)
Definition descendants (t : tree) (p : path) : list path := match at_path t p with Some x => map (app p) (node_paths x) | None => [] end.
(** last_token() *)
Definition last_token (t : tree) (p : path) : option path := match at_path t p with Some x => option_map (app p) (last_of (leaf_paths x)) | None => None end.
Definition is (k k' : kind) : bool := kind_eqb k' k.
Definition nodes_of_kind (t : tree) (p : path) (k : kind) : list path := filter (fun q => kind_is t q k) (descendants t p).

(** ** the prologue *)
Definition COLON : char := 58%N.
(** str::split_once(":") *)
Fixpoint split_colon (w : text) : option (text * text) :=
  match w with
  | [] => None
  | c :: r => if N.eqb c COLON then Some ([], r) else match split_colon r with Some (a, b) => Some (c :: a, b) | None => None end
  end.
Definition expect_some {A} (o : option A) : vout A := match o with Some a => VDone a | None => VPanic end.
(** ast:13-19 QueryUnit::select_query *)
Definition select_query (t : tree) : option path :=
  match first_child t [] with Some q => first_child_by_kind t q select_like | None => None end.
(** ast:28-34 QueryUnit::prologue *)
Definition prologue (t : tree) : option path :=
  match first_child t [] with Some q => first_child_by_kind t q (is K_Prologue) | None => None end.
(** ast:21-26 QueryUnit::strip_prologue *)
Definition strip_prologue (t : tree) : option path :=
  hd_error ((fix skip l := match l with q :: r => if kind_is t q K_Prologue then skip r else l | [] => [] end) (child_nodes t [])).
(** ast:43-48 Prologue::prefix_declarations *)
Definition prefix_declarations (t : tree) (p : path) : list path := filter (fun q => kind_is t q K_PrefixDecl) (child_nodes t p).
(** ast:86-96 PrefixDeclaration::prefix *)
Definition declared_prefix (t : tree) (d : path) : vout (option text) :=
  match find (fun q => kind_is t q K_PNAME_NS) (children t d) with
  | Some q => match split_colon (text_at t q) with Some (a, _) => VDone (Some a) | None => VPanic end
  | None => VDone None
  end.
(** ast:676-683 PrefixedName::prefix *)
Definition used_prefix (t : tree) (p : path) : vout text :=
  match split_colon (text_at t p) with Some (a, _) => VDone a | None => VPanic end.
Section sequence.
Context {A B : Type} (f : A -> vout B).
Fixpoint vmap (l : list A) : vout (list B) :=
  match l with [] => VDone [] | x :: l => let! y := f x in let! ys := vmap l in VDone (y :: ys) end.
End sequence.
Definition mem (w : text) (l : list text) : bool := existsb (text_eqb w) l.
Definition flatten {A} (l : list (option A)) : list A := flat_map (fun o => match o with Some x => [x] | None => [] end) l.

(** ** diagnostics *)
Inductive code := UnusedPrefix | UndeclaredPrefix | UncompactedUri | UngroupedSelectVar | InvalidProjectionVar | SameSubject | SyntaxError | DuplicatePrefix | GroupByStar.
(** LSPAny: nothing, a string, an array of strings, an array of byte ranges *)
Inductive ddata := NoData | DString (w : text) | DStrings (l : list text) | DRanges (l : list (nat * nat)).
Record diag := mkdiag { d_code : code; d_range : range; d_data : ddata }.
(** Range::from_byte_offset_range(syntax().text_range()).expect(..) *)
Definition diag_at (t : tree) (doc : text) (c : code) (d : ddata) (p : path) : vout diag :=
  match range_at t doc p with Some r => VDone (mkdiag c r d) | None => VPanic end.

(** unused_prefix_declaration.rs:21-59 *)
Definition unused_prefix (t : tree) (doc : text) : vout (list diag) :=
  match prologue t with
  | None => VDone []
  | Some pr =>
    let! used := match strip_prologue t with
                 | Some q => vmap (used_prefix t) (nodes_of_kind t q K_PrefixedName)
                 | None => VDone []
                 end in
    let! ds := vmap (fun d => let! p := declared_prefix t d in
                              if mem (match p with Some w => w | None => [] end) used then VDone []
                              else let! x := diag_at t doc UnusedPrefix (match p with Some w => DString w | None => NoData end) d in VDone [x])
                    (prefix_declarations t pr) in
    VDone (concat ds)
  end.
(** undeclared_prefix.rs:21-62 *)
Definition undeclared_prefix (t : tree) (doc : text) : vout (list diag) :=
  match select_query t with
  | None => VDone []
  | Some sq =>
    let! declared := match prologue t with Some pr => vmap (declared_prefix t) (prefix_declarations t pr) | None => VDone [] end in
    let! ds := vmap (fun p => let! w := used_prefix t p in
                              if mem w (flatten declared) then VDone []
                              else let! x := diag_at t doc UndeclaredPrefix (DString w) p in VDone [x])
                    (nodes_of_kind t sq K_PrefixedName) in
    VDone (concat ds)
  end.
(** duplicate_prefix_declaration.rs:22-50: a declaration without a prefix ends it without diagnostics *)
Fixpoint duplicates (t : tree) (doc : text) (seen : list text) (ds : list path) : vout (option (list diag)) :=
  match ds with
  | [] => VDone (Some [])
  | d :: ds =>
    let! p := declared_prefix t d in
    match p with
    | None => VDone None
    | Some w =>
      if mem w seen
      then let! x := diag_at t doc DuplicatePrefix (DString w) d in
           let! r := duplicates t doc seen ds in VDone (option_map (cons x) r)
      else duplicates t doc (w :: seen) ds
    end
  end.
Definition duplicate_prefix (t : tree) (doc : text) : vout (list diag) :=
  match prologue t with
  | None => VDone []
  | Some pr => let! r := duplicates t doc [] (prefix_declarations t pr) in VDone (match r with Some l => l | None => [] end)
  end.
(** ast:657-661 Iri::raw_iri: the text without its first and last byte; slicing panics inside a character *)
Definition raw_iri (t : tree) (p : path) : vout (option text) :=
  match children t p with
  | c :: _ =>
    if kind_is t c K_IRIREF && (2 <=? byte_len (text_at t p)) then
      match text_at t p with
      | a :: r => match rev r with
                  | z :: b => if (len_utf8 a =? 1) && (len_utf8 z =? 1) then VDone (Some (rev b)) else VPanic
                  | [] => VPanic
                  end
      | [] => VPanic
      end
    else VDone None
  | [] => VDone None
  end.
(** uncompacted_uri.rs:26-62; the range is not unwrapped *)
Definition uncompacted_uri (shorten : text -> option (text * text * text)) (t : tree) (doc : text) : vout (list diag) :=
  match select_query t with
  | None => VDone []
  | Some sq =>
    let! ds := vmap (fun p => let! r := raw_iri t p in
                              VDone (match r with
                                     | Some raw => match shorten raw, range_at t doc p with
                                                   | Some (prefix, namespace, curie), Some r => [mkdiag UncompactedUri r (DStrings [prefix; namespace; curie])]
                                                   | _, _ => []
                                                   end
                                     | None => []
                                     end))
                    (nodes_of_kind t sq K_iri) in
    VDone (concat ds)
  end.

(** ** the select clause *)
(** ast:124-126, 121-123, 146-148, 55-57 *)
Definition select_clause (t : tree) (sq : path) : option path := first_child_by_kind t sq (is K_SelectClause).
Definition where_clause (t : tree) (sq : path) : option path := first_child_by_kind t sq (is K_WhereClause).
Definition of_kind (t : tree) (k : kind) (o : option path) : option path := match o with Some q => if kind_is t q k then Some q else None | None => None end.
Definition solution_modifier (t : tree) (sq : path) : option path := of_kind t K_SolutionModifier (last_child t sq).
Definition group_clause (t : tree) (sq : path) : option path :=
  match solution_modifier t sq with Some sm => of_kind t K_GroupClause (first_child t sm) | None => None end.
(** each node child with the one before it *)
Fixpoint with_prev (prev : option path) (l : list path) : list (option path * path) :=
  match l with [] => [] | q :: l => (prev, q) :: with_prev (Some q) l end.
Definition after_expression (t : tree) (x : option path * path) : bool := match fst x with Some e => kind_is t e K_Expression | None => false end.
(** ast:168-178 SelectClause::variables: variables but those after an expression *)
Definition selected_variables (t : tree) (sc : path) : list path :=
  map snd (filter (fun x => kind_is t (snd x) K_Var && negb (after_expression t x)) (with_prev None (child_nodes t sc))).
(** ast:202-217 SelectClause::assignments: (expression, variable) *)
Definition assignments (t : tree) (sc : path) : list (path * path) :=
  flat_map (fun x => match fst x with Some e => [(e, snd x)] | None => [] end)
    (filter (fun x => kind_is t (snd x) K_Var && after_expression t x) (with_prev None (child_nodes t sc))).
(** ast:195-199 SelectClause::is_star_selection *)
Definition is_star_selection (t : tree) (sc : path) : bool := match last_token t sc with Some q => kind_is t q K_Star | None => false end.
(** ast:237-251 Expression::as_var: follow only children that are no trivia *)
Fixpoint as_var (x : tree) : option path :=
  match x with
  | Tok _ _ => None
  | Node K_Var _ => Some []
  | Node _ cs =>
    (fix only i l : option path :=
       match l with
       | [] => None
       | c :: l => if is_trivia (tkind c) then only (S i) l
                   else if existsb (fun d => negb (is_trivia (tkind d))) l then None
                   else option_map (cons i) (as_var c)
       end) 0 cs
  end.
(** ast:253-265 Expression::unaggregated_variables: a stack, so the last child comes first; not below aggregates *)
Fixpoint unaggregated (x : tree) : list path :=
  match x with
  | Tok _ _ => []
  | Node k cs => (if kind_eqb k K_Var then [[]] else []) ++
                 (if kind_eqb k K_Aggregate then [] else concat (rev (imap (fun i c => map (cons i) (unaggregated c)) 0 cs)))
  end.
Definition unaggregated_at (t : tree) (e : path) : list path := match at_path t e with Some x => map (app e) (unaggregated x) | None => [] end.
(** ast:1451-1460 GroupClause::visible_variables *)
Definition group_variables (t : tree) (gc : path) : list path :=
  flatten (map (fun c => match last_child t c with
                         | Some n => if kind_is t n K_Var then Some n
                                     else if kind_is t n K_Expression then match at_path t n with Some x => option_map (app n) (as_var x) | None => None end
                                     else None
                         | None => None
                         end) (child_nodes t gc)).
Definition texts (t : tree) (l : list path) : list text := map (text_at t) l.
(** HashMap::from_iter: the last index of a name *)
Fixpoint last_index (t : tree) (w : text) (i : nat) (l : list (path * path)) : option nat :=
  match l with
  | [] => None
  | (_, v) :: l => match last_index t w (S i) l with Some j => Some j | None => if text_eqb (text_at t v) w then Some i else None end
  end.
(** ungrouped_select_variable.rs:25-109 *)
Definition ungrouped_select_variable (t : tree) (doc : text) : vout (list diag) :=
  match select_query t with
  | None => VDone []
  | Some sq =>
    match group_clause t sq, select_clause t sq with
    | Some gc, Some sc =>
      let group_vars := texts t (group_variables t gc) in
      let as_ := assignments t sc in
      let plain := filter (fun v => negb (mem (text_at t v) group_vars)) (selected_variables t sc) in
      let inner := concat (imap (fun i a => filter (fun v => negb (mem (text_at t v) group_vars) &&
                                                             match last_index t (text_at t v) 0 as_ with Some j => i <? j | None => true end)
                                                   (unaggregated_at t (fst a))) 0 as_) in
      vmap (diag_at t doc UngroupedSelectVar NoData) (plain ++ inner)
    | _, _ => VDone []
    end
  end.
(** invalid_projection_variable.rs:22-68 *)
Definition visible_at (t : tree) (p : path) : list path := match at_path t p with Some x => map (app p) (visible x) | None => [] end.
Definition invalid_projection_variable (t : tree) (doc : text) : vout (list diag) :=
  match select_query t with
  | None => VDone []
  | Some sq =>
    match select_clause t sq with
    | None => VDone []
    | Some sc =>
      match assignments t sc, where_clause t sq with
      | [], _ | _, None => VDone []
      | as_, Some wc =>
        let body := texts t (visible_at t wc) in
        vmap (diag_at t doc InvalidProjectionVar NoData) (filter (fun v => mem (text_at t v) body) (map snd as_))
      end
    end
  end.
(** groupby_star_selection.rs:15-57 *)
Definition groupby_star_selection (t : tree) (doc : text) : vout (list diag) :=
  vmap (diag_at t doc GroupByStar NoData)
    (flatten (map (fun sq => match group_clause t sq, select_clause t sq with
                             | Some _, Some sc => if is_star_selection t sc then last_token t sc else None
                             | _, _ => None
                             end)
      (filter (fun q => match kind_at t q with Some k => select_like k | None => false end) (descendants t [])))).

(** ** triples with the same subject *)
(** ast:402-407 GroupGraphPattern::triple_blocks *)
Definition triple_blocks (t : tree) (g : path) : list path :=
  match first_child_by_kind t g (is K_GroupGraphPatternSub) with Some s => filter (fun q => kind_is t q K_TriplesBlock) (child_nodes t s) | None => [] end.
(** ast:450-460 TriplesBlock::triples, recursive; as paths from the block *)
Fixpoint block_triples (x : tree) : list path :=
  match x with
  | Tok _ _ => []
  | Node _ cs => concat (imap (fun i c => match c with
                                          | Node K_TriplesSameSubjectPath _ => [[i]]
                                          | Node K_TriplesBlock _ => map (cons i) (block_triples c)
                                          | _ => []
                                          end) 0 cs)
  end.
Definition triples (t : tree) (b : path) : list path := match at_path t b with Some x => map (app b) (block_triples x) | None => [] end.
(** ast:491-493, 971-973 Triple::subject *)
Definition triple_subject (t : tree) (p : path) : option path :=
  match first_child t p with Some q => if kind_is t q K_VarOrTerm || kind_is t q K_TriplesNodePath then Some q else None | None => None end.
(** ast:1647-1655 has_error *)
Definition has_error (t : tree) (p : path) : bool := existsb (fun q => kind_is t q K_Error) (descendants t p).
Fixpoint add_group (w : text) (p : path) (gs : list (text * list path)) : list (text * list path) :=
  match gs with
  | [] => [(w, [p])]
  | (v, l) :: gs => if text_eqb v w then (v, l ++ [p]) :: gs else (v, l) :: add_group w p gs
  end.
(** same_subject.rs:64-93 find_all_triple_groups; [order g]: how the HashMap of the group pattern [g] is iterated *)
Definition groups_of (t : tree) (g : path) : list (text * list path) :=
  fold_left (fun gs p => match triple_subject t p with Some s => add_group (text_at t s) p gs | None => gs end)
    (filter (fun p => negb (has_error t p)) (flat_map (triples t) (triple_blocks t g))) [].
Definition find_all_triple_groups (order : path -> list (text * list path) -> list (text * list path)) (t : tree) : list (text * list path) :=
  flat_map (fun g => filter (fun x => 2 <=? length (snd x)) (order g (groups_of t g))) (nodes_of_kind t [] K_GroupGraphPattern).
(** same_subject.rs:23-62 *)
Definition same_subject (order : path -> list (text * list path) -> list (text * list path)) (t : tree) (doc : text) : vout (list diag) :=
  let! ds := vmap (fun g => vmap (diag_at t doc SameSubject (DRanges (map (fun p => (start_at t p, end_at t p)) (snd g)))) (snd g)) (find_all_triple_groups order t) in
  VDone (concat ds).

(** syntax_error.rs:22-42: [errs] are those of a fresh parse of the document *)
Definition syntax_error (doc : text) (errs : list parse_error) : vout (list diag) :=
  match errs with
  | [] => VDone []
  | e :: _ => match from_byte_index (pe_start e) doc, from_byte_index (pe_end e) doc with
              | Some a, Some b => VDone [mkdiag SyntaxError (mkrange a b) NoData]
              | _, _ => VPanic
              end
  end.

(** mod.rs:23-61 handle_diagnostic_request, without auto_fix_prefixes *)
Definition diagnostics (shorten : text -> option (text * text * text)) (order : path -> list (text * list path) -> list (text * list path))
    (t : tree) (errs : list parse_error) (doc : text) : reply (list diag) :=
  if negb (kind_is t [] K_QueryUnit) then Refused InternalError
  else match (let! d1 := unused_prefix t doc in
              let! d2 := undeclared_prefix t doc in
              let! d3 := uncompacted_uri shorten t doc in
              let! d4 := ungrouped_select_variable t doc in
              let! d5 := invalid_projection_variable t doc in
              let! d6 := same_subject order t doc in
              let! d7 := syntax_error doc errs in
              let! d8 := duplicate_prefix t doc in
              let! d9 := groupby_star_selection t doc in
              VDone (d1 ++ d2 ++ d3 ++ d4 ++ d5 ++ d6 ++ d7 ++ d8 ++ d9)) with
       | VDone ds => Reply ds
       | VPanic => Crash
       | VLoop => Hang
       end.
