(** Variables: find-references, document-highlight and rename.
    /repo/src/server/message_handler/{common,references,document_highlight,rename}/mod.rs and
    /repo/crates/sparql-parser/src/ast/mod.rs (below: ast).

    Simplifications: a [Var] is the path of its node; HashMap<SyntaxNode, usize> is an association list;
    what [expect] and [unwrap] do on [None] is [Panic]. *)
From Coq Require Import String List Arith NArith Bool.
Import ListNotations.
From Verif Require Import ServerModel Kinds ParserModel TextModel LexerSpec FormatData FormatModel TreeModel.

(** ** names *)
Definition QUESTION : char := 63%N.
Definition DOLLAR : char := 36%N.
(** ast:731-737 Var::var_name *)
Definition var_name (w : text) : text := match w with c :: r => if N.eqb c QUESTION then r else w | [] => w end.
Definition name_at (t : tree) (p : path) : text := var_name (text_at t p).
Definition text_eqb (a b : text) : bool := if list_eq_dec N.eq_dec a b then true else false.

(** common/mod.rs:88-106 is_var_name_start_char *)
Definition var_start (c : char) : bool :=
  ((65 <=? c) && (c <=? 90) || (97 <=? c) && (c <=? 122) || (c =? 95) || (48 <=? c) && (c <=? 57)
   || (0xC0 <=? c) && (c <=? 0xD6) || (0xD8 <=? c) && (c <=? 0xF6) || (0xF8 <=? c) && (c <=? 0x2FF) || (0x370 <=? c) && (c <=? 0x37D)
   || (0x37F <=? c) && (c <=? 0x1FFF) || (0x200C <=? c) && (c <=? 0x200D) || (0x2070 <=? c) && (c <=? 0x218F)
   || (0x2C00 <=? c) && (c <=? 0x2FEF) || (0x3001 <=? c) && (c <=? 0xD7FF) || (0xF900 <=? c) && (c <=? 0xFDCF)
   || (0xFDF0 <=? c) && (c <=? 0xFFFD) || (0x10000 <=? c) && (c <=? 0xEFFFF))%N.
(** common/mod.rs:109-112 is_var_name_char *)
Definition var_char (c : char) : bool :=
  (var_start c || (c =? 0xB7) || (0x300 <=? c) && (c <=? 0x36F) || (0x203F <=? c) && (c <=? 0x2040))%N.
(** common/mod.rs:82-85 is_valid_variable_name *)
Definition is_valid_variable_name (w : text) : bool := match w with c :: r => var_start c && forallb var_char r | [] => false end.

(** ** the variables visible from outside a node (ast: visible_variables), as paths from that node *)
Definition is_kind (k : kind) (x : tree) : bool := kind_eqb (tkind x) k.
Definition select_like (k : kind) : bool := match k with K_SelectQuery | K_SubSelect => true | _ => false end.
Section pick.
Context (f : tree -> list path).
(** first_child_by_kind and the like: [f] of the first child that satisfies [p] *)
Fixpoint pick (p : tree -> bool) (i : nat) (l : list tree) : list path :=
  match l with [] => [] | x :: l => if p x then map (cons i) (f x) else pick p (S i) l end.
(** [f] of the last child that satisfies [p] *)
Fixpoint pick_last (p : tree -> bool) (i : nat) (l : list tree) : list path :=
  match l with [] => [] | x :: l => if existsb p l then pick_last p (S i) l else if p x then map (cons i) (f x) else [] end.
(** [f] of all children that satisfy [p] *)
Fixpoint pick_all (p : tree -> bool) (i : nat) (l : list tree) : list path :=
  match l with [] => [] | x :: l => (if p x then map (cons i) (f x) else []) ++ pick_all p (S i) l end.
End pick.
(** Var::cast *)
Definition is_var (x : tree) : bool := is_node x && is_kind K_Var x.
(** descendants().filter_map(Var::cast) *)
Fixpoint vars_below (t : tree) : list path :=
  match t with
  | Tok _ _ => []
  | Node k cs => (if kind_eqb k K_Var then [[]] else []) ++ concat (imap (fun i c => map (cons i) (vars_below c)) 0 cs)
  end.
Definition cast_var (x : tree) : list path := if is_var x then [[]] else [].
(** ast:191-193, 1377-1379 SelectClause::projected_variables *)
Definition projected (x : tree) : list path := match x with Node _ cs => pick_all (fun _ => [[]]) is_var 0 cs | Tok _ _ => [] end.
(** ast:1536-1540 the last child or token of the select clause is a star *)
Definition is_star (x : tree) : bool := match x with Node _ cs => match rev cs with l :: _ => is_kind K_Star l | [] => false end | Tok _ _ => false end.
(** children_with_tokens().take_while(..) *)
Fixpoint take_while (p : tree -> bool) (l : list tree) : list tree := match l with x :: l => if p x then x :: take_while p l else [] | [] => [] end.
(** ast:1336-1355 InlineData *)
Definition data_vars (x : tree) : list path :=
  match x with
  | Node K_InlineDataOneVar cs => pick cast_var is_node 0 cs
  | Node K_InlineDataFull cs => pick_all (fun _ => [[]]) is_var 0 (take_while (fun c => negb (is_kind K_RParen c)) cs)
  | _ => []
  end.
Definition inline_data (x : tree) : list path :=
  match x with Node _ cs => pick_last (fun b => match b with Node _ ds => pick data_vars is_node 0 ds | Tok _ _ => [] end) is_node 0 cs | Tok _ _ => [] end.

Fixpoint visible (t : tree) : list path :=
  match t with
  | Tok _ _ => []
  | Node k cs =>
    match k with
    | K_SelectQuery | K_SubSelect =>                        (* ast:1534-1550, 121-126 *)
      match find (fun c => is_node c && is_kind K_SelectClause c) cs with
      | Some sc => if is_star sc then pick visible (fun c => is_node c && is_kind K_WhereClause c) 0 cs
                   else pick projected (fun c => is_node c && is_kind K_SelectClause c) 0 cs
      | None => []
      end
    | K_WhereClause =>                                      (* ast:1127-1131, 382-384 *)
      pick (fun c => if is_kind K_GroupGraphPattern c then visible c else []) is_node 0 cs
    | K_GroupGraphPattern =>                                (* ast:1086-1105, 438-440 *)
      pick (fun c => if select_like (tkind c) then visible c
                     else match c with
                          | Tok _ _ => []
                          | Node _ ds => pick_all (fun d => match tkind d with K_TriplesBlock => vars_below d | _ => visible d end)
                                           (fun d => is_node d && (is_kind K_TriplesBlock d || is_kind K_GraphPatternNotTriples d)) 0 ds
                          end) is_node 0 cs
    | K_GraphPatternNotTriples =>                           (* ast:1575-1602, 1616-1627 *)
      pick (fun c => match tkind c with
                     | K_GroupOrUnionGraphPattern | K_OptionalGraphPattern | K_MinusGraphPattern | K_GraphGraphPattern | K_ServiceGraphPattern => visible c
                     | K_Filter => vars_below c             (* ast:1283-1285 *)
                     | K_Bind => match c with Node _ ds => pick_last cast_var is_node 0 ds | Tok _ _ => [] end   (* ast:1307-1314 *)
                     | K_InlineData => inline_data c        (* ast:1336-1355 *)
                     | _ => []
                     end) is_node 0 cs
    | K_GroupOrUnionGraphPattern =>                         (* ast:1178-1183, 302-307 *)
      pick_all visible (fun c => is_node c && is_kind K_GroupGraphPattern c) 0 cs
    | K_OptionalGraphPattern | K_MinusGraphPattern | K_GraphGraphPattern | K_ServiceGraphPattern =>   (* ast:1152-1156, 1205-1209, 1231-1235, 1257-1261, 315-337, 373-378 *)
      pick_last (fun c => if is_kind K_GroupGraphPattern c then visible c else []) is_node 0 cs
    | _ => []
    end
  end.
(** SelectQuery::cast(node) and sub_select.visible_variables() has a variable of this name (common/mod.rs:51-56) *)
Definition projects (t : tree) (name : text) (p : path) : bool :=
  match at_path t p with
  | Some x => is_node x && select_like (tkind x) && existsb (fun v => text_eqb (name_at t (p ++ v)) name) (visible x)
  | None => false
  end.

(** ** the union-find structure: common/mod.rs:147-172 *)
Inductive vout (A : Type) := VDone (a : A) | VPanic | VLoop.
Arguments VDone {A} a.
Arguments VPanic {A}.
Arguments VLoop {A}.
Definition vbind {A B} (x : vout A) (f : A -> vout B) : vout B := match x with VDone a => f a | VPanic => VPanic | VLoop => VLoop end.
Notation "'let!' x := a 'in' b" := (vbind a (fun x => b)) (at level 200, x pattern, right associativity).
(** self.parent[i]: panics out of bounds *)
Definition index {A} (l : list A) (i : nat) : vout A := match nth_error l i with Some x => VDone x | None => VPanic end.
(** 152-156 new *)
Definition uf_new (size : nat) : list nat := List.seq 0 size.
(** 158-164 find *)
Fixpoint uf_find (gas : nat) (par : list nat) (node : nat) : vout (nat * list nat) :=
  match gas with
  | 0 => VLoop
  | S g =>
    let! q := index par node in
    if q =? node then VDone (node, par)
    else let! qq := index par q in
         let par := set_nth node qq par in
         uf_find g par qq
  end.
(** 166-171 union *)
Definition uf_union (gas : nat) (par : list nat) (u v : nat) : vout (list nat) :=
  let! (ru, par) := uf_find gas par u in
  let! (rv, par) := uf_find gas par v in
  VDone (if ru =? rv then par else set_nth ru rv par).

(** ** regions *)
Definition regions_map := list (path * nat).
Fixpoint lookup (ids : regions_map) (p : path) : option nat :=
  match ids with [] => None | (q, i) :: r => if path_eqb q p then Some i else lookup r p end.
Definition boundary (t : tree) (p : path) : bool := match at_path t p with Some x => is_node x && is_kind K_SubSelect x | None => false end.
(** 116-134 register_regions *)
Definition register_region (state : list path * regions_map) (b : path) : (list path * regions_map) * nat :=
  let '(regions, ids) := state in
  match lookup ids b with
  | Some i => (state, i)
  | None => ((regions ++ [b], (b, length regions) :: ids), length regions)
  end.
Fixpoint register_all (state : list path * regions_map) (bs : list path) (innermost : option nat) : (list path * regions_map) * option nat :=
  match bs with
  | [] => (state, innermost)
  | b :: bs => let '(state, i) := register_region state b in
               register_all state bs (match innermost with Some j => Some j | None => Some i end)
  end.
Definition register_regions (t : tree) (state : list path * regions_map) (p : path) : (list path * regions_map) * nat :=
  let '(state, innermost) := register_all state (filter (boundary t) (ancestors p)) None in
  (state, match innermost with Some i => i | None => 0 end).
Fixpoint register_occurrences (t : tree) (state : list path * regions_map) (occ : list path) : (list path * regions_map) * list nat :=
  match occ with
  | [] => (state, [])
  | p :: occ => let '(state, i) := register_regions t state p in
                let '(state, is) := register_occurrences t state occ in (state, i :: is)
  end.
(** 137-145 parent_region_id *)
Definition parent_region_id (t : tree) (ids : regions_map) (b : path) : nat :=
  match parent b with
  | Some q => match find (boundary t) (ancestors q) with
              | Some r => match lookup ids r with Some i => i | None => 0 end
              | None => 0
              end
  | None => 0
  end.
(** 50-60 the loop over the regions *)
Fixpoint connect (t : tree) (name : text) (ids : regions_map) (id : nat) (regions : list path) (par : list nat) : vout (list nat) :=
  match regions with
  | [] => VDone par
  | r :: rs =>
    let! par := (if projects t name r then uf_union (S (length par)) par id (parent_region_id t ids r) else VDone par) in
    connect t name ids (S id) rs par
  end.
Fixpoint position (p : path) (l : list path) : option nat :=
  match l with [] => None | q :: l => if path_eqb q p then Some 0 else option_map S (position p l) end.
(** 68-73 the occurrences whose component is [c] *)
Fixpoint in_component (par : list nat) (c : nat) (l : list (path * nat)) : vout (list path) :=
  match l with
  | [] => VDone []
  | (p, r) :: l =>
    let! (x, par) := uf_find (S (length par)) par r in
    let! ps := in_component par c l in
    VDone (if x =? c then p :: ps else ps)
  end.
(** 23-74 find_variable_occurrences; the root is the tree *)
Definition occurrences_of (t : tree) (name : text) : list path := filter (fun p => text_eqb (name_at t p) name) (vars_below t).
Definition find_variable_occurrences (t : tree) (trigger : path) : vout (list path) :=
  let name := name_at t trigger in
  let occ := occurrences_of t name in
  let '((regions, ids), occ_regions) := register_occurrences t ([[]], [([], 0)]) occ in
  let! par := connect t name ids 0 regions (uf_new (length regions)) in
  match position trigger occ with
  | None => VPanic
  | Some i =>
    let! r := index occ_regions i in
    let! (c, par) := uf_find (S (length par)) par r in
    in_component par c (combine occ occ_regions)
  end.

(** ** the requests *)
Inductive reply (A : Type) := Reply (a : A) | Refused (c : error_code) | Crash | Hang.
Arguments Reply {A} a.
Arguments Refused {A} c.
Arguments Crash {A}.
Arguments Hang {A}.
(** textdocument.rs:393-398 Range::from_byte_offset_range, then unwrap *)
Definition range_at (t : tree) (doc : text) (p : path) : option range :=
  match from_byte_index (start_at t p) doc, from_byte_index (end_at t p) doc with Some a, Some b => Some (mkrange a b) | _, _ => None end.
Fixpoint unwrap_all {A} (l : list (option A)) : option (list A) :=
  match l with
  | [] => Some []
  | Some x :: l => match unwrap_all l with Some r => Some (x :: r) | None => None end
  | None :: _ => None
  end.
Definition ranges (t : tree) (doc : text) (ps : vout (list path)) : reply (list range) :=
  match ps with
  | VDone ps => match unwrap_all (map (range_at t doc) ps) with Some rs => Reply rs | None => Crash end
  | VPanic => Crash
  | VLoop => Hang
  end.
Definition is_var_at (t : tree) (p : path) : bool := match at_path t p with Some x => is_var x | None => false end.
(** references/mod.rs:19-59 handle_references_request, [None]: no locations are set.  document_highlight/mod.rs:20-60
    does the same with other names.  [t] is the parse tree of [doc]. *)
Definition references (t : tree) (doc : text) (at_ : pos) : reply (option (list range)) :=
  match byte_index at_ doc with
  | None => Refused InvalidParams
  | Some offset =>
    if byte_len (tree_text t) <? offset then Crash   (* rowan: "Bad offset" *)
    else match token_at t offset with
    | None => Refused InvalidParams
    | Some tok =>
      match parent tok with
      | Some v => if is_var_at t v
                  then match ranges t doc (find_variable_occurrences t v) with
                       | Reply rs => Reply (Some rs) | Refused c => Refused c | Crash => Crash | Hang => Hang
                       end
                  else Reply None
      | None => Reply None
      end
    end
  end.
(** rename/mod.rs:53-56  strip_prefix(['?', '$']) *)
Definition strip_sigil (w : text) : text := match w with c :: r => if N.eqb c QUESTION || N.eqb c DOLLAR then r else w | [] => w end.
Definition is_var_token (k : option kind) : bool := match k with Some K_VAR1 | Some K_VAR2 => true | _ => false end.
(** rename/mod.rs:15-88 handle_rename_request: the edits *)
Definition rename (t : tree) (doc : text) (at_ : pos) (new_name : text) : reply (list text_edit) :=
  match byte_index at_ doc with
  | None => Refused InvalidParams
  | Some offset =>
    if byte_len (tree_text t) <? offset then Crash   (* rowan: "Bad offset" *)
    else match token_at t offset with
    | None => Refused InvalidParams
    | Some tok =>
      if negb (is_var_token (kind_at t tok)) then Refused RequestFailed
      else
        let new := strip_sigil new_name in
        if negb (is_valid_variable_name new) then Refused InvalidParams
        else match parent tok with
             | Some v => if is_var_at t v
                         then match ranges t doc (find_variable_occurrences t v) with
                              | Reply rs => Reply (map (fun r => mkedit r (QUESTION :: new)) rs)
                              | Refused c => Refused c | Crash => Crash | Hang => Hang
                              end
                         else Refused InternalError
             | None => Refused InternalError
             end
    end
  end.
