(** The code actions that add a column to a query.
    /repo/src/server/message_handler/code_action/variable/add_to_result.rs (below: add), variable/add_aggregate_to_result.rs (below: agg)
    and, for the choice of the element, mod.rs of code_action (below: mod).

    Simplifications: a code action is its edits of the document (kind and diagnostics are left out); the document is open and parsed. *)
From Coq Require Import String List Arith NArith Bool.
Import ListNotations.
From Verif Require Import ServerModel Kinds ParserModel TextModel LexerSpec FormatData FormatModel TreeModel VarModel DiagModel QuickFixModel SelectModel.

(** character - 1 on u32, without overflow checks *)
Definition pred_u32 (n : nat) : nat := match n with 0 => N.to_nat 4294967295 | S n => n end.
(** SelectQuery::can_cast (ast:1517-1519): queries and sub-queries *)
Definition is_query (x : tree) (q : path) : bool := match at_path x q with Some (Node k _) => select_like k | _ => false end.
(** add:19-26, agg:16-23: the query the column is for *)
Definition target_query (x : tree) (v : path) : option path :=
  match nth_error (ancestors v) 2 with
  | None => None
  | Some g => if kind_is x g K_SubSelect then find (is_query x) (skipn 3 (ancestors v)) else find (is_query x) (ancestors v)
  end.
(** the texts of the variables of GROUP BY: add:31-41, agg:24-34 *)
Definition group_texts (x : tree) (q : path) : option (list text) := option_map (fun gc => texts x (group_variables x gc)) (group_clause x q).
(** rowan: children_with_tokens() *)
Definition elements (x : tree) (p : path) : list path := match at_path x p with Some (Node _ cs) => map (fun i => p ++ [i]) (List.seq 0 (length cs)) | _ => [] end.
(** last_child_or_token().kind() *)
Definition last_kind (x : tree) (p : path) : option kind := match at_path x p with Some (Node _ cs) => option_map tkind (last_of cs) | _ => None end.
(** add:57-67, agg:87-93: the star gives way *)
Definition instead_of_star (p : pos) (w : text) : text_edit := mkedit (mkrange (mkpos (line p) (pred_u32 (character p))) p) w.
(** add:18-87 code_action *)
Definition add_to_result (x : tree) (t : text) (v : path) : option text_edit :=
  match target_query x v with
  | None => None
  | Some q =>
    match select_clause x q with
    | None => None
    | Some sc =>
      if negb (mem (text_at x v) (texts x (selected_variables x sc))) && match group_texts x q with None => true | Some vs => mem (text_at x v) vs end then
        let '(offset, at_end) := match find (fun c => kind_is x c K_LParen) (elements x sc) with Some c => (start_at x c, false) | None => (end_at x sc, true) end in
        match from_byte_index offset t with
        | None => None
        | Some p =>
          match last_kind x sc with
          | None => None
          | Some K_Star => Some (instead_of_star p (text_at x v))
          | Some _ => Some (mkedit (mkrange p p) (if at_end : bool then 32%N :: text_at x v else text_at x v ++ [32%N]))
          end
        end
      else None
    end
  end.
(** ast:731-737 Var::var_name: without its question mark, but with its dollar sign *)
Definition var_name (w : text) : text := match w with c :: a => if N.eqb c 63 then a else w | [] => w end.
(** agg:49-80: the aggregates *)
Definition aggregate_columns (w : text) : list (text * text) :=
  let simple (f : text) (p : text) := chars "(" ++ f ++ chars "(" ++ w ++ chars ") AS ?" ++ p ++ chars "_" ++ var_name w ++ chars ")" in
  [(chars "Aggregate Count", simple (chars "COUNT") (chars "count"));
   (chars "Aggregate Sum", simple (chars "SUM") (chars "sum"));
   (chars "Aggregate Min", simple (chars "MIN") (chars "min"));
   (chars "Aggregate Max", simple (chars "MAX") (chars "max"));
   (chars "Aggregate Avg", simple (chars "AVG") (chars "avg"));
   (chars "Aggregate Sample", simple (chars "SAMPLE") (chars "sample"));
   (chars "Aggregate Group Concat", chars "(GROUP_CONCAT(DISTINCT " ++ w ++ chars "; SEPARATOR = "", "") as ?group_concat_" ++ var_name w ++ chars ")")].
(** agg:15-106 code_actions; line 35 asks for the name of the variable among the texts of the grouped variables *)
Definition add_aggregates (x : tree) (t : text) (v : path) : option (list (text * text_edit)) :=
  match target_query x v with
  | None => None
  | Some q =>
    match group_texts x q with
    | None => None
    | Some vs =>
      if mem (var_name (text_at x v)) vs then None
      else match select_clause x q with
           | None => None
           | Some sc =>
             match from_byte_index (end_at x sc) t, last_kind x sc with
             | Some p, Some k => Some (map (fun '(title, w) => (title, match k with K_Star => instead_of_star p w | _ => mkedit (mkrange p p) (32%N :: w) end)) (aggregate_columns (text_at x v)))
             | _, _ => None
             end
           end
    end
  end.
(** mod:59-102 generate_code_actions with variable/mod.rs:12-37: these actions at a range of the document.  Left out: the other actions, and that an
    error in the contraction of triples (mod:95-99) takes the place of the reply *)
Definition at_variable {A} (x : tree) (t : text) (none : A) (act : path -> A) (r : range) : reply A :=
  match byte_range r t with
  | VDone (Some (a, b)) =>
    let el := covering 0 a b x in
    Reply (if parent_is x el K_iri && is_uncompressed x (removelast el) then none else if parent_is x el K_Var then act (removelast el) else none)
  | VDone None => Refused InvalidParams
  | VPanic => Crash
  | VLoop => Hang
  end.
Definition offer_add_to_result (x : tree) (t : text) (r : range) : reply (option text_edit) := at_variable x t None (add_to_result x t) r.
Definition offer_aggregates (x : tree) (t : text) (r : range) : reply (list (text * text_edit)) :=
  at_variable x t [] (fun v => match add_aggregates x t v with Some l => l | None => [] end) r.
