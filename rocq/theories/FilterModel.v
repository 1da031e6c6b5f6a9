(** The code actions that add a FILTER for a variable.
    /repo/src/server/message_handler/code_action/variable/filter_var.rs (below: filter), variable/filter_var_lang.rs (below: lang).
    Simplifications: as in ResultModel.v. *)
From Coq Require Import String List Arith NArith Bool.
Import ListNotations.
From Verif Require Import ServerModel Kinds ParserModel TextModel LexerSpec FormatData FormatModel TreeModel VarModel DiagModel QuickFixModel SelectModel ResultModel.

(** Triple::can_cast (/repo/crates/sparql-parser/src/ast/mod.rs:996-1000) *)
Definition is_triple (x : tree) (q : path) : bool := match at_path x q with Some (Node k _) => kind_eqb k K_TriplesSameSubjectPath | _ => false end.
(** /repo/crates/sparql-parser/src/ast/mod.rs:722-724 Var::triple *)
Definition triple_above (x : tree) (v : path) : option path := find (is_triple x) (ancestors v).
(** rowan: next_sibling_or_token_by_kind, the first sibling behind that is of the kind *)
Definition later_sibling (x : tree) (p : path) (k : kind) : option path := find (fun c => kind_is x c k) (skipn (S (last p 0)) (elements x (removelast p))).
(** filter:15-40, lang:23-49: [w] behind the triple and its dot *)
Definition behind_triple (x : tree) (t : text) (v : path) (w : text) : option text_edit :=
  match triple_above x v with
  | None => None
  | Some p =>
    match from_byte_index (match later_sibling x p K_Dot with Some d => end_at x d | None => end_at x p end) t with
    | None => None
    | Some q => Some (mkedit (mkrange q q) w)
    end
  end.
(** filter:34 *)
Definition filter_text (w : text) : text := chars "FILTER (" ++ w ++ chars ")".
(** lang:43 *)
Definition lang_text (w : text) : text := chars "FILTER (LANG(" ++ w ++ chars ") = ""en"")".
Definition offer_filter (x : tree) (t : text) (r : range) : reply (option text_edit) := at_variable x t None (fun v => behind_triple x t v (32%N :: filter_text (text_at x v))) r.
Definition offer_lang_filter (x : tree) (t : text) (r : range) : reply (option text_edit) := at_variable x t None (fun v => behind_triple x t v (32%N :: lang_text (text_at x v))) r.
