(** The formatter: /repo/src/server/message_handler/formatting/core.rs (line numbers below are of that file).

    Simplifications common to this file:
    - a rowan tree is a [tree] with texts as lists of characters; an element in it is a zipper ([loc]);
      text ranges are byte offsets counted from the texts;
    - [self.text.get(a..b)] between two places of the tree is computed from the texts of the tree between
      them (the tree is lossless, C12);
    - [unicode_width] is a parameter [width];
    - [u8] indentation wraps at 256 (release builds);
    - positions and byte offsets are unbounded. *)
From Coq Require Import String List Arith NArith Bool.
Import ListNotations.
From Verif Require Import Kinds ParserModel TextModel LexerSpec FormatData.

(** FormatSettings (src/server/configuration.rs:181-197) *)
Record fsettings := mkfs {
  align_predicates : bool; align_prefixes : bool; separate_prologue : bool; capitalize_keywords : bool;
  insert_spaces : option bool; tab_size : option nat; where_new_line : bool; filter_same_line : bool;
  compact : option nat; line_length : nat; contract_triples : bool; keep_empty_lines : bool }.
(** configuration.rs:199-216  Default *)
Definition default_fsettings : fsettings := mkfs true false false true (Some true) (Some 2) false true None 120 false false.

Inductive tree := Tok (k : kind) (t : text) | Node (k : kind) (cs : list tree).
Definition tkind (x : tree) : kind := match x with Tok k _ | Node k _ => k end.
Definition is_node (x : tree) : bool := match x with Node _ _ => true | Tok _ _ => false end.
Fixpoint tree_text (x : tree) : text := match x with Tok _ t => t | Node _ cs => flat_map tree_text cs end.
Definition tlen (x : tree) : nat := byte_len (tree_text x).
Definition trivial (k : kind) : bool := is_trivia k.
Fixpoint leaves_under (parent : kind) (x : tree) : list (kind * kind) :=
  match x with Tok k _ => [(k, parent)] | Node k cs => flat_map (leaves_under k) cs end.
Fixpoint last_leaf (x : tree) : option kind :=
  match x with
  | Tok k _ => Some k
  | Node _ cs => (fix go l := match l with [] => None | [x] => last_leaf x | _ :: l => go l end) cs
  end.

(** where an element is: its parent's kind and range start, its siblings (left ones nearest first) *)
Record frame := mkframe { f_kind : kind; f_start : nat; f_left : list tree; f_right : list tree }.
Record loc := mkloc { el : tree; l_start : nat; l_up : list frame }.
Definition l_end (l : loc) : nat := l_start l + tlen (el l).
Definition l_kind (l : loc) : kind := tkind (el l).
(** rowan: children_with_tokens *)
Fixpoint child_locs (k : kind) (s : nat) (up : list frame) (left cs : list tree) (at_ : nat) : list loc :=
  match cs with
  | [] => []
  | c :: r => mkloc c at_ (mkframe k s left r :: up) :: child_locs k s up (c :: left) r (at_ + tlen c)
  end.
Definition children (l : loc) : list loc :=
  match el l with Tok _ _ => [] | Node k cs => child_locs k (l_start l) (l_up l) [] cs (l_start l) end.
Definition parent_kind (l : loc) : option kind := match l_up l with f :: _ => Some (f_kind f) | [] => None end.
(** rowan: prev_sibling (nodes only) of the element and of its parent *)
Definition prev_sibling (l : loc) : option tree := match l_up l with f :: _ => find is_node (f_left f) | [] => None end.
Definition parent_prev_sibling (l : loc) : option tree := match l_up l with _ :: f :: _ => find is_node (f_left f) | _ => None end.
Definition some {A} (x : option A) : bool := match x with Some _ => true | None => false end.
Definition kind_is (k : kind) (x : option kind) : bool := match x with Some k' => kind_eqb k' k | None => false end.
(** rowan: ancestors().nth(n), the element itself being the first for nodes *)
Definition ancestor (n : nat) (l : loc) : option kind :=
  if is_node (el l) then nth_error (l_kind l :: map f_kind (l_up l)) n else nth_error (map f_kind (l_up l)) n.
(** rowan: first_token().prev_token() *)
Fixpoint prev_token (up : list frame) : option kind :=
  match up with
  | [] => None
  | f :: up => match f_left f with x :: _ => last_leaf x | [] => prev_token up end
  end.
(** the leaves after the element, each with its parent's kind *)
Definition leaves_after (l : loc) : list (kind * kind) := flat_map (fun f => flat_map (leaves_under (f_kind f)) (f_right f)) (l_up l).

(** 137-150 SimplifiedTextEdit *)
Record sedit := mkse { s_from : nat; s_to : nat; s_new : text }.
Definition ins (p : nat) (t : text) : sedit := mkse p p t.
Definition sp : text := [32%N].
Definition nl : text := [10%N].
Definition repeat_text (n : nat) (t : text) : text := concat (repeat t n).

(** u8 arithmetic *)
Definition u8 (n : nat) : nat := n mod 256.

(** 201-220 inc_indent *)
Definition inc_indent (x : tree) : nat :=
  match x with
  | Tok _ _ => 0
  | Node k cs =>
    match k with
    | K_BlankNodePropertyListPath | K_BlankNodePropertyList | K_GroupGraphPattern | K_BrackettedExpression | K_ConstructTemplate | K_Quads
    | K_QuadsNotTriples => 1
    | K_ConstructQuery => match find is_node cs with Some c => if kind_eqb (tkind c) K_ConstructTemplate then 0 else 1 | None => 0 end
    | _ => 0
    end
  end.

(** str::to_uppercase on keyword texts: ASCII letters, and U+017F, which matches S *)
Definition upper_char (c : char) : char := if N.eqb c 0x17F then 83%N else upper c.
Definition to_uppercase (t : text) : text := map upper_char t.
(** char::is_whitespace: White_Space of Unicode *)
Definition is_whitespace (c : char) : bool :=
  ((9 <=? c) && (c <=? 13) || N.eqb c 32 || N.eqb c 133 || N.eqb c 160 || N.eqb c 5760 || (8192 <=? c) && (c <=? 8202) || N.eqb c 8232
   || N.eqb c 8233 || N.eqb c 8239 || N.eqb c 8287 || N.eqb c 12288)%N.

Section walker.
Variables (width : text -> nat) (settings : fsettings) (indent_base : text).

(** 909-912 get_linebreak *)
Definition get_linebreak (ind : nat) : text := nl ++ repeat_text ind indent_base.
(** utils.rs:116-128 subtree_width *)
Fixpoint token_texts (x : tree) : list text :=
  match x with Tok k t => if trivial k then [] else [t] | Node _ cs => flat_map token_texts cs end.
Definition subtree_width (x : tree) : nat :=
  match x with
  | Tok _ t => width t
  | Node _ cs => list_sum (map width (token_texts x)) + (length (filter is_node cs) - 1)
  end.

(** 972-983 empty_line_marker *)
Definition has_empty_line (t : text) : bool := 1 <? count_occ N.eq_dec t NL.

(** elements at the positions 0, 3, 6, ... of a list *)
Fixpoint step_by_3 {A} (l : list A) : list A :=
  match l with
  | [] => []
  | x :: l => x :: match l with _ :: _ :: r => step_by_3 r | _ => [] end
  end.
Definition significant_children (l : loc) : list loc := filter (fun c => negb (trivial (l_kind c))) (children l).
(** inserts before every third significant child but the first: the predicates of a property list *)
Definition break_predicates (prop_list : loc) (t : text) : list sedit :=
  map (fun c => ins (l_start c) t) (skipn 1 (step_by_3 (significant_children prop_list))).

(** a list with the element before each one *)
Fixpoint with_prev {A} (prev : option A) (l : list A) : list (option A * A) :=
  match l with [] => [] | x :: l => (prev, x) :: with_prev (Some x) l end.

(** 273-694 in_node_augmentation; [cs] are the children without whitespace and extracted comments *)
Definition in_node_augmentation (l : loc) (cs : list loc) (ind : nat) : list sedit :=
  let each (f : loc -> list sedit) := flat_map f cs in
  match l_kind l with
  | K_QueryUnit | K_UpdateUnit =>                                                     (* 280-297 *)
    match cs with
    | [] => [mkse 0 (l_end l) []]
    | first :: _ => [mkse 0 (l_start first) []; mkse (l_end (last cs first)) (l_end l) []]
    end
  | K_Prologue =>                                                                     (* 298-337 *)
    if align_prefixes settings then
      let prefixes := flat_map (fun c => if kind_eqb (l_kind c) K_PrefixDecl && is_node (el c) then
                        match nth_error (significant_children c) 1 with
                        | Some g => if kind_eqb (l_kind g) K_PNAME_NS then [(l_end g, width (tree_text (el g)))] else []
                        | None => []
                        end else []) cs in
      let longest := list_max (map snd prefixes) in
      map (fun x => ins (fst x) (repeat_text (longest - snd x) sp)) prefixes
    else []
  | K_SelectClause =>                                                                 (* 339-389 *)
    let total := 6 + list_sum (map (fun c => match l_kind c with K_LParen | K_RParen => 1 | _ => width (tree_text (el c)) + 1 end) (skipn 1 cs)) + 1 + 7 in
    let too_long := line_length settings <? total in
    flat_map (fun x =>
      match x with
      | (Some prev, (idx, c)) =>
        match l_kind c with
        | K_RParen => []
        | _ =>
          if (0 <? idx) && kind_eqb (l_kind prev) K_LParen then []
          else if kind_eqb (l_kind c) K_AS || kind_eqb (l_kind prev) K_AS then [ins (l_start c) sp]
          else if (0 <? idx) && too_long then [ins (l_start c) (nl ++ repeat_text (u8 (7 + u8 (ind * 2))) sp)]
          else [ins (l_start c) sp]
        end
      | _ => []
      end)
      (skipn 1 (combine (None :: map Some cs) (combine (0 :: List.seq 0 (length cs)) cs)))
  | K_GroupCondition =>                                                               (* 390-412 *)
    flat_map (fun x =>
      match x with
      | (Some prev, c) => if kind_eqb (l_kind c) K_RParen || kind_eqb (l_kind prev) K_LParen then [] else [ins (l_start c) sp]
      | (None, _) => []
      end) (with_prev None cs)
  | K_ConstructQuery =>                                                               (* 413-430 *)
    each (fun c => match l_kind c with
                   | K_CONSTRUCT => [ins (l_end c) sp]
                   | K_LCurly => [ins (l_start c) sp]
                   | K_RCurly => [ins (l_start c) nl]
                   | _ => [] end)
  | K_PropertyListPathNotEmpty | K_PropertyListNotEmpty =>                            (* 432-443 *)
    each (fun c => match l_kind c with K_Semicolon | K_ObjectListPath | K_ObjectList => [ins (l_start c) sp] | _ => [] end)
  | K_BlankNodePropertyListPath | K_BlankNodePropertyList =>                          (* 445-461 *)
    match nth_error cs 1 with
    | Some p => if is_node (el p) then break_predicates p (get_linebreak ind ++ sp ++ sp) else []
    | None => []
    end
  | K_TriplesSameSubjectPath | K_TriplesSameSubject =>                                (* 462-491 *)
    match cs with
    | [] => []
    | subject :: _ =>
      let prop_list := last cs subject in
      if is_node (el subject) && is_node (el prop_list) &&
         match l_kind prop_list with K_PropertyListPathNotEmpty | K_PropertyListNotEmpty => true | _ => false end then
        break_predicates prop_list (get_linebreak ind ++
          (if align_predicates settings then repeat_text (width (tree_text (el subject)) + 1) sp else sp ++ sp))
      else []
    end
  | K_TriplesBlock | K_TriplesTemplate | K_ConstructTriples | K_Quads | K_GroupGraphPatternSub =>   (* 493-506 *)
    each (fun c => match l_kind c with K_Dot => [ins (l_start c) sp] | _ => [] end)
  | K_ExpressionList | K_ObjectList | K_ObjectListPath =>                             (* 508-518 *)
    each (fun c => match l_kind c with K_Comma => [mkse (l_start c) (l_end c) [44; 32]%N] | _ => [] end)
  | K_DescribeQuery =>                                                                (* 520-532 *)
    each (fun c => match l_kind c with K_VAR1 | K_VAR2 | K_VarOrIri | K_Star => [ins (l_start c) sp] | _ => [] end)
  | K_Modify =>                                                                       (* 533-560 *)
    each (fun c => match l_kind c with
                   | K_iri => [ins (l_start c) sp]
                   | K_DeleteClause | K_InsertClause | K_UsingClause =>
                     match l_up c with
                     | f :: _ => match f_left f with _ :: _ => [ins (l_start c) (get_linebreak ind)] | [] => [] end
                     | [] => []
                     end
                   | K_WHERE => [ins (l_start c) (get_linebreak ind); ins (l_end c) sp]
                   | _ => [] end)
  | K_Aggregate => each (fun c => match l_kind c with K_Semicolon | K_DISTINCT => [ins (l_end c) sp] | _ => [] end)   (* 561-570 *)
  | K_Update => each (fun c => match l_kind c with K_Semicolon => [ins (l_start c) sp] | _ => [] end)                 (* 571-580 *)
  | K_ANON => [mkse (l_start l) (l_end l) [91; 93]%N]                                 (* 581 *)
  | K_Bind =>                                                                         (* 582-596 *)
    each (fun c => match l_kind c with
                   | K_LParen => [ins (l_start c) sp]
                   | K_AS => [ins (l_start c) sp; ins (l_end c) sp]
                   | _ => [] end)
  | K_INTEGER_POSITIVE | K_DECIMAL_POSITIVE | K_DOUBLE_POSITIVE | K_INTEGER_NEGATIVE | K_DECIMAL_NEGATIVE | K_DOUBLE_NEGATIVE =>  (* 597-611 *)
    if some (parent_prev_sibling l) then [ins (l_start l + 1) sp] else []
  | K_DELETE =>                                                                       (* 612-623 *)
    if capitalize_keywords settings then [mkse (l_start l) (l_end l) (chars "DELETE")]
    else if 6 <? tlen (el l) then [mkse 6 (l_end l) []] else []
  | K_QuadPattern | K_QuadData => each (fun c => match l_kind c with K_RCurly => [ins (l_start c) nl] | _ => [] end)  (* 624-633 *)
  | K_QuadsNotTriples =>                                                              (* 634-651 *)
    each (fun c => match l_kind c with
                   | K_GRAPH | K_VarOrIri => [ins (l_end c) sp]
                   | K_RCurly => [ins (l_start c) (get_linebreak ind)]
                   | _ => [] end)
  | K_DELETE_WHERE =>                                                                 (* 652-664 *)
    mkse (l_start l + 6) (l_end l - 5) sp ::
    (if capitalize_keywords settings then [mkse (l_start l) (l_start l + 6) (chars "DELETE"); mkse (l_end l - 5) (l_end l) (chars "WHERE")] else [])
  | K_DELETE_DATA =>                                                                  (* 665-677 *)
    mkse (l_start l + 6) (l_end l - 4) sp ::
    (if capitalize_keywords settings then [mkse (l_start l) (l_start l + 6) (chars "DELETE"); mkse (l_end l - 4) (l_end l) (chars "DATA")] else [])
  | K_INSERT_DATA =>                                                                  (* 678-690 *)
    mkse (l_start l + 6) (l_end l - 4) sp ::
    (if capitalize_keywords settings then [mkse (l_start l) (l_start l + 6) (chars "INSERT"); mkse (l_end l - 4) (l_end l) (chars "DATA")] else [])
  | K_a => [mkse (l_start l) (l_end l) [97]%N]                                        (* 691 *)
  | _ => []
  end.

(** shared by 722-732 and 890-900: the [compact] setting *)
Definition compact_space (l : loc) : bool :=
  match compact settings with
  | Some w => match ancestor 3 l with Some k => negb (kind_eqb k K_SelectQuery) | None => false end && (subtree_width (el l) <=? w)
  | None => false
  end.
Definition blank_node_list (k : option kind) : bool := kind_is K_BlankNodePropertyListPath k || kind_is K_BlankNodePropertyList k.
Definition node_children (x : tree) : list tree := match x with Node _ cs => cs | Tok _ _ => [] end.
(** text between the parent's previous sibling node and the element (734-750) *)
Fixpoint until_node (l : list tree) : list tree := match l with [] => [] | x :: l => if is_node x then [] else x :: until_node l end.
Definition since_parent_sibling (l : loc) : text :=
  match l_up l with
  | f0 :: f1 :: _ => flat_map tree_text (rev (until_node (f_left f1))) ++ flat_map tree_text (rev (f_left f0))
  | _ => []
  end.

(** 696-807 pre_node_augmentation *)
Definition pre_node_augmentation (l : loc) (ind : nat) : list sedit :=
  let break := [ins (l_start l) (get_linebreak ind)] in
  match l_kind l with
  | K_ConstructTriples | K_SolutionModifier | K_DatasetClause | K_TriplesTemplate | K_UNION => break
  | K_TriplesBlock => if is_node (el l) && some (prev_sibling l) then break else []
  | K_GraphPatternNotTriples =>
    if is_node (el l) && some (prev_sibling l) &&
       match find is_node (node_children (el l)) with Some c => negb (kind_eqb (tkind c) K_Filter) | None => false end
    then break else []
  | K_SubSelect | K_GroupGraphPatternSub => if compact_space l then [ins (l_start l) sp] else break
  | K_Filter =>
    if is_node (el l) then
      match parent_prev_sibling l with
      | Some prev =>
        if kind_eqb (tkind prev) K_TriplesBlock && negb (existsb (N.eqb NL) (since_parent_sibling l)) && filter_same_line settings
        then [ins (l_start l) sp] else break
      | None => []
      end
    else []
  | K_QuadsNotTriples | K_UpdateOne =>
    if is_node (el l) && match prev_token (l_up l) with Some k => negb (kind_eqb k K_Dot) | None => false end then break else []
  | K_PropertyListPathNotEmpty | K_PropertyListNotEmpty =>
    if blank_node_list (parent_kind l) then
      if 3 <? length (node_children (el l)) then break else if is_node (el l) then [ins (l_start l) sp] else []
    else []
  | K_WhereClause =>
    if where_new_line settings || kind_is K_ConstructQuery (parent_kind l) || kind_is K_DescribeQuery (parent_kind l)
       || (is_node (el l) && kind_is K_DatasetClause (option_map tkind (prev_sibling l)))
    then break else [ins (l_start l) sp]
  | _ => []
  end.

(** 814-842 is an error node next? *)
Definition before_error (l : loc) : bool :=
  match l_kind l with
  | K_Prologue | K_PropertyListPathNotEmpty | K_PropertyListNotEmpty | K_ConstructTriples | K_GroupGraphPatternSub | K_SubSelect =>
    is_node (el l) && match find (fun x => negb (trivial (fst x))) (leaves_after l) with Some (_, p) => kind_eqb p K_Error | None => false end
  | _ => false
  end.
(** 809-907 post_node_augmentation *)
Definition post_node_augmentation (l : loc) (ind : nat) : list sedit :=
  if before_error l then [] else
  match l_kind l with
  | K_UNION => [ins (l_end l) sp]
  | K_Prologue =>
    if separate_prologue settings &&
       (negb (keep_empty_lines settings) ||
        (is_node (el l) && match l_up l with
          | f :: _ => existsb is_node (f_right f) &&
                      match f_right f with n :: _ => negb (kind_eqb (tkind n) K_WHITESPACE) || negb (has_empty_line (tree_text n)) | [] => true end
          | [] => false
          end))
    then [ins (l_end l) (get_linebreak ind)] else []
  | K_PropertyListPathNotEmpty | K_PropertyListNotEmpty =>
    if blank_node_list (parent_kind l) && is_node (el l) then
      if 3 <? length (filter is_node (node_children (el l))) then [ins (l_end l) (get_linebreak (ind - 1))] else [ins (l_end l) sp]
    else []
  | K_ConstructTriples =>
    match parent_kind l with Some k => if kind_eqb k K_ConstructTriples then [] else [ins (l_end l) (get_linebreak (ind - 1))] | None => [] end
  | K_GroupGraphPatternSub | K_SubSelect => if compact_space l then [ins (l_end l) sp] else [ins (l_end l) (get_linebreak (ind - 1))]
  | _ => []
  end.

(** 242-271 node_augmentation *)
Definition keyword_edit (l : loc) : list sedit :=
  if kind_eqb (l_kind l) K_IN then [mkse (l_start l) (l_end l) (if capitalize_keywords settings then chars "IN" else chars "in")]
  else if existsb (kind_eqb (l_kind l)) KEYWORDS && capitalize_keywords settings
  then [mkse (l_start l) (l_end l) (to_uppercase (tree_text (el l)))] else [].
Definition node_augmentation (l : loc) (cs : list loc) (ind : nat) : list sedit :=
  in_node_augmentation l cs ind ++ pre_node_augmentation l ind ++ post_node_augmentation l ind ++ keyword_edit l.

(** 184-191 SimplifiedCommentMarker *)
Record scomment := mksc { sc_text : text; sc_pos : nat; sc_indent : nat; sc_trailing : bool; sc_empty : bool }.
(** 914-952 comment_marker *)
Fixpoint attach_to (left : list tree) (start : nat) (between : text) (empty : bool) : option (nat * text) * bool :=
  match left with
  | [] => (None, empty)
  | x :: r =>
    if trivial (tkind x)
    then attach_to r (start - tlen x) (tree_text x ++ between) (empty || (keep_empty_lines settings && kind_eqb (tkind x) K_WHITESPACE && has_empty_line (tree_text x)))
    else (Some (start, between), empty)
  end.
Definition comment_marker (c : loc) (ind : nat) : scomment :=
  match l_up c with
  | [] => mksc (tree_text (el c)) 0 ind false false       (* expect: all comment nodes should have a parent *)
  | f :: _ =>
    match attach_to (f_left f) (l_start c) [] false with
    | (Some (p, between), empty) => mksc (tree_text (el c)) p ind (negb (existsb (N.eqb NL) between)) empty
    | (None, empty) =>
      (* the parent: its end lies behind the comment, the slice is None, and so trailing is false *)
      let pend := f_start f + list_sum (map tlen (f_left f)) + tlen (el c) + list_sum (map tlen (f_right f)) in
      mksc (tree_text (el c)) (match f_kind f with K_QueryUnit | K_UpdateUnit => 0 | _ => pend end) ind false empty
    end
  end.

(** 994-1018: the children of an element without whitespace and (outside error nodes) comments *)
Definition formatted_children (l : loc) : list loc :=
  filter (fun c => match l_kind c with K_WHITESPACE => false | K_Comment => kind_eqb (l_kind l) K_Error | _ => true end) (children l).
Definition comments_of (l : loc) (ind : nat) : list scomment :=
  if kind_eqb (l_kind l) K_Error then []
  else map (fun c => comment_marker c (u8 (ind + inc_indent (el l)))) (filter (fun c => kind_eqb (l_kind c) K_Comment) (children l)).
Definition empty_lines_of (l : loc) : list nat :=
  map l_start (filter (fun c => kind_eqb (l_kind c) K_WHITESPACE && has_empty_line (tree_text (el c))) (children l)).
(** 1020-1047 separation *)
Definition separation (l : loc) (cs : list loc) (ind : nat) : list sedit :=
  flat_map (fun x =>
    match x with
    | (Some a, b) =>
      match get_separator (l_kind l) with
      | LineBreak => [mkse (l_end a) (l_start b) (get_linebreak ind)]
      | Space => [mkse (l_end a) (l_start b) sp]
      | Empty => [mkse (l_end a) (l_start b) (if kind_eqb (l_kind b) K_Error then sp else [])]
      | Unknown => []
      end
    | (None, _) => []
    end) (with_prev None cs).
(** 992-1068 Walker::next: what one element contributes *)
Definition visit_edits (l : loc) (ind : nat) : list sedit :=
  let cs := formatted_children l in node_augmentation l cs ind ++ separation l cs ind.
(** the traversal: an element before its children, the last child first (a stack) *)
Fixpoint walk_tree (t : tree) (s : nat) (up : list frame) (ind : nat) : list (loc * nat) :=
  (mkloc t s up, ind) ::
  match t with
  | Tok _ _ => []
  | Node k cs =>
    (fix go (left cs : list tree) (at_ : nat) : list (loc * nat) :=
       match cs with
       | [] => []
       | c :: r => go (c :: left) r (at_ + tlen c) ++ walk_tree c at_ (mkframe k s left r :: up) (u8 (ind + inc_indent t))
       end) [] cs s
  end.
Definition walk (root : tree) : list (loc * nat) := walk_tree root 0 [] 0.
Definition all_edits (root : tree) : list sedit := flat_map (fun x => visit_edits (fst x) (snd x)) (walk root).
Definition all_comments (root : tree) : list scomment := flat_map (fun x => comments_of (fst x) (snd x)) (walk root).
Definition all_empty_lines (root : tree) : list nat := flat_map (fun x => empty_lines_of (fst x)) (walk root).
End walker.

(** slice::sort_by, a stable sort, modelled by insertion *)
Fixpoint sorted_insert {A} (cmp : A -> A -> comparison) (e : A) (l : list A) : list A :=
  match l with
  | [] => [e]
  | x :: r => match cmp e x with Gt => x :: sorted_insert cmp e r | _ => e :: l end
  end.
Definition sort_by {A} (cmp : A -> A -> comparison) (l : list A) : list A := fold_right (sorted_insert cmp) [] l.
Definition then_cmp (a b : comparison) : comparison := match a with Eq => b | x => x end.

(** 101-135 merge_empty_lines *)
Fixpoint newline_in_run (prev_end : nat) (es : list sedit) : bool :=
  match es with
  | [] => false
  | e :: es => if s_from e =? prev_end then existsb (N.eqb NL) (s_new e) || newline_in_run (s_to e) es else false
  end.
Fixpoint merge_empty (es : list sedit) (marks : list nat) : list sedit :=
  match es with
  | [] => []
  | e :: r =>
    match marks with
    | m :: marks' =>
      if m <=? s_from e then
        (if existsb (N.eqb NL) (s_new e) || newline_in_run (s_to e) r then mkse (s_from e) (s_to e) (NL :: s_new e) else e) :: merge_empty r marks'
      else e :: merge_empty r marks
    | [] => es
    end
  end.
Definition merge_empty_lines (es : list sedit) (marks : list nat) : list sedit :=
  merge_empty (sort_by (fun a b => then_cmp (Nat.compare (s_from a) (s_from b)) (Nat.compare (s_to a) (s_to b))) es) (sort_by Nat.compare marks).

(** outcome of the formatter *)
Inductive fout (A : Type) := FDone (a : A) | FPanic | FLoop.
Arguments FDone {A} a.
Arguments FPanic {A}.
Arguments FLoop {A}.
Definition fbind {A B} (x : fout A) (f : A -> fout B) : fout B := match x with FDone a => f a | FPanic => FPanic | FLoop => FLoop end.

(** a position moved over a character (1205-1211, 1250-1256) *)
Definition advance_pos (p : pos) (c : char) : pos := if is_nl c then mkpos (S (line p)) 0 else mkpos (line p) (character p + len_utf16 c).

(** 152-159 CommentMarker *)
Record comment := mkcm { c_text : text; c_pos : pos; c_indent : nat; c_trailing : bool; c_empty : bool }.
(** 1176-1219 transform_comments: [FLoop] where the loop runs on after the last character *)
Fixpoint tc_here (off : nat) (p : pos) (cs : list scomment) : list comment * list scomment :=
  match cs with
  | [] => ([], [])
  | c :: r => if off =? sc_pos c then let '(done, rest) := tc_here off p r in (mkcm (sc_text c) p (sc_indent c) (sc_trailing c) (sc_empty c) :: done, rest)
              else ([], cs)
  end.
Fixpoint tc_scan (t : text) (off : nat) (p : pos) (cs : list scomment) : fout (list comment) :=
  let '(done, rest) := tc_here off p cs in
  match rest, t with
  | [], _ => FDone done
  | _, [] => FLoop
  | _, c :: t => fbind (tc_scan t (off + len_utf8 c) (advance_pos p c) rest) (fun l => FDone (done ++ l))
  end.
Definition transform_comments (cs : list scomment) (t : text) : fout (list comment) :=
  tc_scan t 0 (mkpos 0 0) (sort_by (fun a b => Nat.compare (sc_pos a) (sc_pos b)) cs).

(** 1221-1266 transform_edits *)
Fixpoint tr_here (off : nat) (p marker : pos) (es : list sedit) : list text_edit * list sedit * pos :=
  match es with
  | [] => ([], [], marker)
  | e :: r =>
    let marker := if off =? s_from e then p else marker in
    if off =? s_to e then let '(done, rest, m) := tr_here off p marker r in (mkedit (mkrange marker p) (s_new e) :: done, rest, m)
    else ([], es, marker)
  end.
Fixpoint tr_scan (t : text) (off : nat) (p marker : pos) (es : list sedit) : fout (list text_edit) :=
  let '(done, rest, marker) := tr_here off p marker es in
  match rest, t with
  | [], _ => FDone done
  | _, [] => FLoop
  | _, c :: t => fbind (tr_scan t (off + len_utf8 c) (advance_pos p c) marker rest) (fun l => FDone (done ++ l))
  end.
Definition transform_edits (es : list sedit) (t : text) : fout (list text_edit) :=
  match rev (sort_by (fun a b => then_cmp (Nat.compare (s_to b) (s_to a)) (Nat.compare (s_from b) (s_from a))) es) with
  | [] => FPanic                                        (* edits.next().unwrap() *)
  | es => tr_scan t 0 (mkpos 0 0) (mkpos 0 0) es
  end.

(** src/server/lsp/textdocument.rs:389-391, 426-428 is_empty *)
Definition edit_is_empty (e : text_edit) : bool :=
  pos_eqb (rstart (erange e)) (rend (erange e)) && match new_text e with [] => true | _ => false end.
(** 1268-1299 consolidate_edits; the accumulator is kept last group first *)
Definition consolidate_step (acc : list (list text_edit)) (e : text_edit) : list (list text_edit) :=
  if edit_is_empty e then acc else
  match acc with
  | [] => [[e]]
  | [] :: r => [e] :: r
  | (n :: g) :: r =>
    if pos_eqb (rstart (erange n)) (rend (erange e)) then (e :: n :: g) :: r
    else if pos_eqb (rstart (erange n)) (rend (erange n)) && pos_eqb (rstart (erange n)) (rstart (erange e))
    then (mkedit (mkrange (rstart (erange n)) (rend (erange e))) (new_text n ++ new_text e) :: g) :: r
    else [e] :: acc
  end.
Definition consolidate_edits (es : list text_edit) : list (list text_edit) := rev (fold_left consolidate_step es []).

(** 1319-1345 fuse and range: [expect] panics without an edit *)
Definition fuse (g : list text_edit) : fout text_edit :=
  match g with
  | [] => FPanic
  | e :: _ => FDone (mkedit (mkrange (rstart (erange e)) (rend (erange (last g e)))) (flat_map new_text g))
  end.
(** 1351-1367 split_at *)
Definition split_at (g : list text_edit) (p : pos) : list text_edit * list text_edit :=
  let is_before e := pos_ltb (rstart (erange e)) p && pos_leb (rend (erange e)) p in
  (filter is_before g, filter (fun e => negb (is_before e)) g).

Section comments.
Variables (text_ : text) (indent_base : text).
(** 162-181 CommentMarker::to_edit, its text *)
Definition comment_text (c : comment) : text :=
  (if (line (c_pos c) =? 0) && (character (c_pos c) =? 0) then []
   else if c_trailing c then sp else nl ++ repeat_text (c_indent c) indent_base) ++ c_text c.
(** index and value of the first character that is a line break or not whitespace *)
Fixpoint first_stop (t : text) (i : nat) : option (nat * char) :=
  match t with [] => None | c :: t => if negb (is_whitespace c) || is_nl c then Some (i, c) else first_stop t (S i) end.
Definition starts_with_two_breaks (t : text) : bool := match t with a :: b :: _ => is_nl a && is_nl b | _ => false end.
(** 1401-1455: the text of the edit after the comment is put before it *)
Definition with_comment (c : comment) (next : text_edit) : text :=
  let t := new_text next in
  match first_stop t 0 with
  | Some (i, ch) =>
    if is_nl ch then
      if c_empty c && starts_with_two_breaks t then nl ++ comment_text c ++ skipn (i + 1) t
      else comment_text c ++ skipn i t
    else comment_text c ++ nl ++ repeat_text (c_indent c) indent_base ++ skipn i t
  | None =>
    let ind := match byte_index (rend (erange next)) text_ with
               | Some b => match split_byte text_ b with Some (_, x :: _) => if N.eqb x 125 then c_indent c - 1 else c_indent c | _ => c_indent c end
               | None => c_indent c
               end in
    (if c_empty c then nl else []) ++ comment_text c ++ nl ++ repeat_text ind indent_base
  end.
(** 1383-1458: the comments at or behind the group's start; [start] is not recomputed *)
Fixpoint merge_group (g : list text_edit) (start : pos) (cs : list comment) : fout (list text_edit * list comment) :=
  match cs with
  | [] => FDone (g, [])
  | c :: r =>
    if pos_leb start (c_pos c) then
      let '(before, after) := split_at g (c_pos c) in
      fbind (fuse after) (fun next => merge_group (before ++ [mkedit (erange next) (with_comment c next)]) start r)
    else FDone (g, cs)
  end.
Fixpoint merge_groups (gs : list (list text_edit)) (cs : list comment) : fout (list text_edit * list comment) :=
  match gs with
  | [] => FDone ([], cs)
  | g :: gs =>
    fbind (fuse g) (fun e =>                                       (* consolidated_edit.range() *)
    fbind (merge_group g (rstart (erange e)) cs) (fun '(g', cs') =>
    fbind (fuse g') (fun e' =>
    fbind (merge_groups gs cs') (fun '(es, rest) => FDone (e' :: es, rest)))))
  end.
(** 1370-1471 merge_comments *)
Definition merge_comments (gs : list (list text_edit)) (cs : list comment) : fout (list text_edit) :=
  fbind (merge_groups gs (rev cs)) (fun '(es, rest) =>
  FDone (es ++ flat_map (fun c => [mkedit (mkrange (mkpos 0 0) (mkpos 0 0)) nl;
                                   mkedit (mkrange (c_pos c) (c_pos c)) (comment_text c)]) rest)).
End comments.

(** FormattingOptions *)
Record foptions := mkfo { o_tab_size : nat; o_insert_spaces : bool }.
(** 67-99 format_document *)
Definition indent_string (s : fsettings) (o : foptions) : text :=
  if match insert_spaces s with Some b => b | None => o_insert_spaces o end
  then repeat_text (match tab_size s with Some n => n | None => o_tab_size o end) sp else [9%N].
Definition format_document (width : text -> nat) (s : fsettings) (o : foptions) (t : text) (root : tree) : fout (list text_edit) :=
  let ib := indent_string s o in
  let es := all_edits width s ib root in
  let es := if keep_empty_lines s then merge_empty_lines es (all_empty_lines root) else es in
  fbind (transform_comments (all_comments s root) t) (fun comments =>
  fbind (transform_edits es t) (fun edits =>
  merge_comments t ib (consolidate_edits (sort_edits edits)) comments)).
