(** The code action that turns a query into a sub-query.
    /repo/src/server/message_handler/code_action/select.rs (below: sel) and, for the choice of the element, mod.rs of the same
    directory (below: mod).

    Simplifications: a code action is the list of its edits of the document (title, kind and diagnostics are left out); the
    document is open and parsed. *)
From Coq Require Import String List Arith NArith Bool.
Import ListNotations.
From Verif Require Import ServerModel Kinds ParserModel TextModel LexerSpec FormatData FormatModel TreeModel VarModel DiagModel QuickFixModel.

(** " ".repeat(n) *)
Definition spaces (n : nat) : text := repeat 32%N n.
(** sel:43-47 char_indices().filter(..): the bytes at which the line feeds of [w] are; [idx] is the byte at which [w] starts *)
Fixpoint line_feeds (idx : nat) (w : text) : list nat :=
  match w with
  | [] => []
  | c :: w => (if N.eqb c NL then [idx] else []) ++ line_feeds (idx + byte_len [c]) w
  end.
(** collect::<Vec<_>>().join(" ") *)
Fixpoint joined (l : list text) : text :=
  match l with [] => [] | [w] => w | w :: l => w ++ 32%N :: joined l end.
(** ast:191-193 SelectClause::projected_variables *)
Definition projected_variables (x : tree) (sc : path) : list path := filter (fun q => kind_is x q K_Var) (child_nodes x sc).
(** sel:19-22: SelectQuery::cast also takes a sub-query (ast:1517-1519) *)
Definition cast_select (x : tree) (q : path) : option path := match at_path x q with Some (Node k _) => if select_like k then Some q else None | _ => None end.
Definition selected_query (x : tree) (el : path) : option path :=
  match at_path x el with
  | Some (Node _ _) => cast_select x el
  | Some (Tok _ _) => match el with _ :: _ :: _ => cast_select x (removelast (removelast el)) | _ => None end
  | None => None
  end.
(** sel:25-34 *)
Definition selection_text (x : tree) (sc : path) : text :=
  if is_star_selection x sc then chars "*" else joined (map (text_at x) (projected_variables x sc)).
(** sel:35-42 *)
Definition opening_text (n : nat) (sel : text) : text := chars "SELECT " ++ sel ++ chars " WHERE {" ++ NL :: spaces n ++ chars "{" ++ NL :: spaces n ++ spaces n.
Definition closing_text (n : nat) : text := NL :: spaces n ++ chars "}" ++ NL :: chars "}".
(** Position::from_byte_index, an empty range *)
Definition insertion (t : text) (o : nat) (w : text) : option text_edit := match from_byte_index o t with Some p => Some (mkedit (mkrange p p) w) | None => None end.
(** sel:47-59: unwrap *)
Fixpoint indent_edits (t : text) (w : text) (os : list nat) : vout (list text_edit) :=
  match os with
  | [] => VDone []
  | o :: os => match insertion t o w with
               | Some e => let! es := indent_edits t w os in VDone (e :: es)
               | None => VPanic
               end
  end.
(** sel:14-85 code_actions *)
Definition sub_select (x : tree) (t : text) (n : nat) (el : path) : vout (option (list text_edit)) :=
  match selected_query x el with
  | None => VDone None
  | Some q =>
    match select_clause x q with
    | None => VDone None
    | Some sc =>
      match insertion t (end_at x q) (closing_text n) with
      | None => VDone None
      | Some last =>
        let! inner := indent_edits t (spaces n ++ spaces n) (map (fun idx => start_at x sc + (idx + 1)) (line_feeds 0 (text_at x q))) in
        match insertion t (start_at x q) (opening_text n (selection_text x sc)) with
        | None => VDone None
        | Some first => VDone (Some (last :: inner ++ [first]))
        end
      end
    end
  end.
(** the kinds at which the action is offered: mod:84-87; the parent of such an element is no iri and no variable *)
Definition select_kind (k : kind) : bool := match k with K_SelectQuery | K_SELECT | K_SubSelect => true | _ => false end.
Definition parent_is (x : tree) (el : path) (k : kind) : bool := match el with [] => false | _ => kind_is x (removelast el) k end.
(** ast:663-667 Iri::is_uncompressed *)
Definition is_uncompressed (x : tree) (q : path) : bool := match at_path x q with Some (Node _ (c :: _)) => kind_eqb (tkind c) K_IRIREF | _ => false end.
(** mod:59-102 generate_code_actions, this action only: settings.format.tab_size, 2 if it is not set.  Left out: the other actions, and that an
    error in the contraction of triples (mod:95-99) takes the place of the reply *)
Definition offer_sub_select (x : tree) (t : text) (tab_size : option nat) (r : range) : reply (option (list text_edit)) :=
  match byte_range r t with
  | VDone (Some (a, b)) =>
    let el := covering 0 a b x in
    if (parent_is x el K_iri && is_uncompressed x (removelast el)) || parent_is x el K_Var then Reply None
    else match kind_at x el with
         | Some k => if select_kind k then match sub_select x t (match tab_size with Some n => n | None => 2 end) el with VDone o => Reply o | VPanic => Crash | VLoop => Hang end else Reply None
         | None => Reply None
         end
  | VDone None => Refused InvalidParams
  | VPanic => Crash
  | VLoop => Hang
  end.
