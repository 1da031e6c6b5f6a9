(** Quick fixes for prefixes.
    /repo/src/server/message_handler/code_action/quickfix.rs (below: qf), /repo/src/server/analysis.rs and
    /repo/src/server/message_handler/diagnostic/auto_fix_prefixes.rs (below: auto).

    Simplifications: a code action is the list of its edits of the document (its title, its kind and the diagnostic it
    repeats are left out); the document is open and parsed.  [find] is Converter::find_by_prefix of the prefix map of the default
    backend (the curies crate), [None] also if there is no default backend. *)
From Coq Require Import String List Arith NArith Bool.
Import ListNotations.
From Verif Require Import ServerModel Kinds ParserModel TextModel LexerSpec FormatData FormatModel TreeModel VarModel DiagModel.


Definition origin : range := mkrange (mkpos 0 0) (mkpos 0 0).
(** qf:117-123, 153-156: format!("PREFIX {}: <{}>\n", ..) *)
Definition declaration_text (p ns : text) : text := chars "PREFIX " ++ p ++ chars ": <" ++ ns ++ chars ">" ++ [NL].
(** qf:135-170 declare_prefix *)
Definition declare_prefix (find : text -> option text) (dat : ddata) : reply (option (list text_edit)) :=
  match dat with
  | DString p => Reply (match find p with Some ns => Some [mkedit origin (declaration_text p ns)] | None => None end)
  | _ => Refused InvalidParams
  end.

(** rowan: SyntaxNode::covering_element(from..to), from the node at byte [off].  Of the children, the one that contains the range
    is taken; an empty range between two children belongs to the first (GreenNodeData::child_at_range, a binary search; no child is empty).
    The assertion that the root contains the range holds for ranges in the document. *)
Fixpoint covering (off from to : nat) (x : tree) : path :=
  match x with
  | Tok _ _ => []
  | Node _ cs => (fix go (i off : nat) (cs : list tree) : path :=
      match cs with
      | [] => []
      | c :: cs => let stop := off + byte_len (tree_text c) in
                   if (off <=? from) && (to <=? stop) then i :: covering off from to c else go (S i) stop cs
      end) 0 off cs
  end.
(** textdocument.rs:378-383 to_byte_index_range; TextRange::new panics if the range ends before it starts *)
Definition byte_range (r : range) (t : text) : vout (option (nat * nat)) :=
  match byte_index (rstart r) t, byte_index (rend r) t with
  | Some a, Some b => if a <=? b then VDone (Some (a, b)) else VPanic
  | _, _ => VDone None
  end.
(** the tokens behind the last token of the node at [d]: last_token(), then next_token() *)
Fixpoint behind (p : path) (l : list path) : list path := match l with q :: l => if path_eqb p q then l else behind p l | [] => [] end.
Definition tokens_after (x : tree) (d : path) : list path := match last_token x d with Some q => behind q (leaf_paths x) | None => [] end.
Definition first_significant (x : tree) (l : list path) : option path :=
  find (fun q => match kind_at x q with Some k => negb (is_trivia k) | None => true end) l.
(** qf:47-96 remove_prefix_declaration *)
Definition removal_range (x : tree) (t : text) (r : range) : vout range :=
  let! br := byte_range r t in
  VDone (match br with
         | Some (a, b) =>
           let d := covering 0 a b x in
           if kind_is x d K_PrefixDecl
           then match first_significant x (tokens_after x d) with
                | Some q => match from_byte_index a t, from_byte_index (start_at x q) t with
                            | Some s, Some e => mkrange s e
                            | _, _ => r
                            end
                | None => r
                end
           else r
         | None => r
         end).
Definition remove_prefix_declaration (x : tree) (t : text) (r : range) : vout (list text_edit) :=
  let! r := removal_range x t r in VDone [mkedit r []].

(** analysis.rs:9-17, 61-72 namespace_is_declared, find_all_prefix_declarations; [any] stops at the first that fits *)
Fixpoint declared_among (x : tree) (w : text) (ds : list path) : vout bool :=
  match ds with
  | [] => VDone false
  | d :: ds => let! p := declared_prefix x d in
               if match p with Some w' => text_eqb w' w | None => false end then VDone true else declared_among x w ds
  end.
Definition namespace_is_declared (x : tree) (w : text) : vout bool :=
  match first_child x [] with
  | Some q => match first_child x q with
              | Some pr => if kind_is x pr K_Prologue then declared_among x w (prefix_declarations x pr) else VDone false
              | None => VDone false
              end
  | None => VDone false
  end.
(** qf:98-133 shorten_uri; common.rs:8-30 serde_parse: an array of three strings *)
Definition shorten_uri (x : tree) (d : diag) : reply (option (list text_edit)) :=
  match d_data d with
  | NoData => Refused InvalidRequest
  | DStrings [p; ns; curie] =>
    match namespace_is_declared x p with
    | VDone b => Reply (Some (mkedit (d_range d) curie :: if b then [] else [mkedit origin (declaration_text p ns)]))
    | VPanic => Crash
    | VLoop => Hang
    end
  | _ => Refused ParseError
  end.

(** auto:22-74 auto_fix_prefixes: the edits of the request it sends (none: no request).  [seen] is the HashSet [prefixes] *)
Section auto.
Context (find : text -> option text) (add_missing remove_unused : bool) (x : tree) (t : text).
Fixpoint auto_fixes (seen : list text) (ds : list diag) : vout (list text_edit) :=
  match ds with
  | [] => VDone []
  | d :: ds =>
    match d_data d with
    | DString w =>
      if mem w seen then auto_fixes seen ds
      else let! es := match d_code d with
                      | UndeclaredPrefix => VDone (if add_missing then match declare_prefix find (d_data d) with Reply (Some es) => es | _ => [] end else [])
                      | UnusedPrefix => if remove_unused then remove_prefix_declaration x t (d_range d) else VDone []
                      | _ => VDone []
                      end in
           let! r := auto_fixes (w :: seen) ds in VDone (es ++ r)
    | _ => auto_fixes seen ds
    end
  end.
End auto.
