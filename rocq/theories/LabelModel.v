(** The code actions that add a label to a variable and that contract triples with the same subject.
    /repo/src/server/message_handler/code_action/variable/add_label.rs (below: label), code_action/same_subject.rs (below: same),
    message_handler/indent.rs, /repo/crates/sparql-parser/src/ast/mod.rs (below: ast).
    Simplifications: as in ResultModel.v; the display width of a character is the parameter [width]; how the groups of a group pattern are
    iterated (a HashMap) is the parameter [order]. *)
From Coq Require Import String List Arith NArith Bool.
Import ListNotations.
From Verif Require Import ServerModel Kinds ParserModel TextModel LexerSpec FormatData FormatModel TreeModel VarModel DiagModel OnTypeModel QuickFixModel SelectModel ResultModel FilterModel.

(** ** label *)
(** ast:841-855 Path::can_cast *)
Definition path_kind (k : kind) : bool :=
  match k with
  | K_Path | K_VerbPath | K_VerbSimple | K_PathAlternative | K_PathSequence | K_PathElt | K_PathEltOrInverse | K_PathPrimary | K_PathNegatedPropertySet | K_PathOneInPropertySet => true
  | _ => false
  end.
Definition verb_at (x : tree) (c : path) : bool := match kind_at x c with Some k => path_kind k | None => false end.
(** ast:878-880 ObjectList::can_cast *)
Definition objects_at (x : tree) (c : path) : bool := kind_is x c K_ObjectListPath || kind_is x c K_ObjectList.
(** ast:622-633 PropertyListPath::properties, the objects only; [l] are the child nodes *)
Fixpoint property_objects (x : tree) (l : list path) : list (option path) :=
  match l with
  | [] => []
  | [c] => if verb_at x c then [None] else []
  | c :: o :: l => (if verb_at x c then [if objects_at x o then Some o else None] else []) ++ property_objects x l
  end.
(** rowan: next_sibling_or_token, prev_sibling_or_token *)
Definition next_element (x : tree) (p : path) : option path := nth_error (elements x (removelast p)) (S (last p 0)).
Definition prev_element (x : tree) (p : path) : option path :=
  match p with [] => None | _ => match last p 0 with 0 => None | S i => nth_error (elements x (removelast p)) i end end.
(** label:37-42: what is in front of [w]'s end in its line; label:42 calls it indentation *)
Fixpoint since_feed (w : text) : text := match w with c :: r => if N.eqb c NL then [] else c :: since_feed r | [] => [] end.
Definition line_before (w : text) : text := rev (since_feed (rev w)).
(** label:44-50 *)
Definition label_var (w : text) : text := chars "?" ++ var_name w ++ chars "_label".
Definition label_text (indentation w : text) : text :=
  chars " ." ++ NL :: indentation ++ w ++ chars " rdfs:label " ++ label_var w ++ chars " . " ++ lang_text (label_var w).
(** label:26-27 *)
Definition rdfs : text := chars "rdfs".
Definition rdfs_namespace : text := chars "http://www.w3.org/2000/01/rdf-schema#".
(** label:52-59: the end of the objects of the last property *)
Definition objects_end (x : tree) (p : path) : option nat :=
  match properties_list_path x p with
  | Some l => match last_of (property_objects x (child_nodes x l)) with Some (Some o) => Some (end_at x o) | _ => None end
  | None => None
  end.
(** label:61-72: the dot behind the triple, or behind one token that is trivia *)
Definition dot_behind (x : tree) (p : path) : option path :=
  match next_element x p with
  | Some n => match (if match kind_at x n with Some k => is_trivia k | None => false end then next_element x n else Some n) with
              | Some d => if kind_is x d K_Dot then Some d else None
              | None => None
              end
  | None => None
  end.
(** label:29-94 code_action *)
Definition add_label (x : tree) (t : text) (v : path) : vout (option (list text_edit)) :=
  match triple_above x v with
  | None => VDone None
  | Some p =>
    match triple_subject x p with
    | None => VDone None
    | Some s =>
      match split_at (start_at x s) t with
      | None => VPanic                                  (* text[..subject_start] *)
      | Some (before, _) =>
        match objects_end x p with
        | None => VDone None
        | Some o =>
          match from_byte_index o t with
          | None => VDone None
          | Some start =>
            let end_ := match dot_behind x p with Some d => match from_byte_index (end_at x d) t with Some q => q | None => start end | None => start end in
            let! declared := namespace_is_declared x rdfs in
            VDone (Some (mkedit (mkrange start end_) (label_text (line_before before) (text_at x v)) ::
                         if declared then [] else [mkedit origin (declaration_text rdfs rdfs_namespace)]))
          end
        end
      end
    end
  end.
Definition offer_label (x : tree) (t : text) (r : range) : reply (vout (option (list text_edit))) := at_variable x t (VDone None) (add_label x t) r.

(** ** same *)
Section Contract.
Context (width : char -> nat) (order : path -> list (text * list path) -> list (text * list path)).
(** same:120-151: a triple that goes away *)
Definition removed_triple (x : tree) (t : text) (p : path) : vout text_edit :=
  let a := match prev_element x (removelast p) with Some w => if kind_is x w K_WHITESPACE then start_at x w else start_at x p | None => start_at x p end in
  let b := match find (fun c => kind_is x c K_WHITESPACE || kind_is x c K_Dot) (skipn (S (last p 0)) (elements x (removelast p))) with
           | Some n => end_at x (match next_element x n with Some m => if kind_is x m K_Dot then m else n | None => n end)
           | None => end_at x p
           end in
  match from_byte_index a t, from_byte_index b t with
  | Some a, Some b => VDone (mkedit (mkrange a b) [])
  | _, _ => VPanic                                      (* unwrap *)
  end.
(** same:153-168: the indentation *)
Definition contract_indent (align : bool) (tab : option nat) (x : tree) (t : text) (p : path) : vout nat :=
  if align then
    match match at_path x p with Some y => hd_error (leaf_paths y) | None => None end with
    | Some tok => let! c := predicate_alignment_column width x t (p ++ tok) in expect_some c
    | None => VPanic
    end
  else let! c := column_at_offset width t (match triple_subject x p with Some s => start_at x s | None => 0 end) in VDone (c + match tab with Some n => n | None => 2 end).
(** join *)
Fixpoint join (sep : text) (l : list text) : text := match l with [] => [] | [w] => w | w :: l => w ++ sep ++ join sep l end.
(** the texts of their property lists *)
Definition property_texts (x : tree) (ps : list path) : list text := map (text_at x) (flatten (map (properties_list_path x) ps)).
(** same:111-193 contract_triples *)
Definition contract_triples (align : bool) (tab : option nat) (x : tree) (t : text) (ps : list path) : vout (list text_edit) :=
  match ps with
  | [] => VDone []
  | p :: ps =>
    let! es := vmap (removed_triple x t) ps in
    let! n := contract_indent align tab x t p in
    let! q := expect_some (from_byte_index (end_at x p) t) in
    let sep := chars " ;" ++ NL :: spaces n in
    VDone (es ++ [mkedit (mkrange q q) (sep ++ join sep (property_texts x ps))])
  end.
(** same:37-56: of two edits with the same range only the first is kept *)
Definition range_eqb (r s : range) : bool := pos_eqb (rstart r) (rstart s) && pos_eqb (rend r) (rend s).
Fixpoint keep_ranges (seen : list range) (es : list text_edit) : list text_edit :=
  match es with
  | [] => []
  | e :: es => if existsb (range_eqb (erange e)) seen then keep_ranges seen es else e :: keep_ranges (erange e :: seen) es
  end.
(** same:24-60 contract_all_triple_groups, part of the answer to every request for code actions (mod.rs:95-99).  QueryUnit::cast: a query *)
Definition contract_all (align : bool) (tab : option nat) (x : tree) (t : text) : vout (option (list text_edit)) :=
  match x with
  | Node K_QueryUnit _ =>
    let! ess := vmap (fun g => contract_triples align tab x t (snd g)) (find_all_triple_groups order x) in
    VDone (match keep_ranges [] (concat ess) with [] => None | es => Some es end)
  | _ => VDone None
  end.
End Contract.
