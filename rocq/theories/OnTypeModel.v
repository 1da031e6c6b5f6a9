(** On-type formatting and folding ranges.
    /repo/src/server/message_handler/on_type_formatting/mod.rs (below: otf), indent.rs, folding_range/mod.rs.

    Simplifications: the display width of a character ([unicode_width]) is the parameter [width]; the answer is
    the list of edits (or nothing), the message around it is not modelled. *)
From Coq Require Import String List Arith NArith Bool.
Import ListNotations.
From Verif Require Import ServerModel Kinds ParserModel TextModel LexerSpec FormatData FormatModel TreeModel VarModel DiagModel LexLayout.

(** Rust: [&text[..b]] and [&text[b..]]; [None] if [b] is not a character boundary *)
Fixpoint split_at (b : nat) (t : text) : option (text * text) :=
  match b with
  | 0 => Some ([], t)
  | _ => match t with
         | [] => None
         | c :: r => if b <? len_utf8 c then None else match split_at (b - len_utf8 c) r with Some (x, y) => Some (c :: x, y) | None => None end
         end
  end.
(** text.get(b - 1..b).is_some_and(|s| s == c) for an ASCII character [c] *)
Definition right_after (c : char) (b : nat) (t : text) : bool :=
  match split_at b t with Some (x, _) => match rev x with d :: _ => N.eqb c d | [] => false end | None => false end.
(** chars().take_while(|c| *c == ' ' || *c == '\t') *)
Fixpoint leading_blanks (t : text) : nat := match t with c :: r => if tabb c then S (leading_blanks r) else 0 | [] => 0 end.

(** ** indent.rs *)
(** otf:107-112, 237-242 the FormattingOptions of the client *)
Record options := mkoptions { tab_size : nat; insert_spaces : bool }.
Definition tab_unit (o : options) : text := if insert_spaces o then repeat SPACE (tab_size o) else [TAB].
(** rowan: parent_ancestors() of a token *)
Definition parent_ancestors (p : path) : list path := match parent p with Some q => ancestors q | None => [] end.
(** indent.rs:49-58 *)
Definition braced (k : kind) : bool :=
  match k with K_GroupGraphPattern | K_ConstructTemplate | K_QuadData | K_QuadPattern | K_QuadsNotTriples | K_InlineDataOneVar | K_InlineDataFull => true | _ => false end.
(** indent.rs:44-74 brace_nesting_depth *)
Fixpoint count_braces (prev : option kind) (l : list (option kind)) : nat :=
  match l with
  | [] => 0
  | Some k :: l =>
    (if braced k then 1 else if kind_eqb k K_ConstructQuery then (match prev with Some K_TriplesTemplate => 1 | _ => 0 end) else 0) + count_braces (Some k) l
  | None :: l => count_braces prev l
  end.
Definition brace_nesting_depth (t : tree) (tok : path) : nat := count_braces None (map (kind_at t) (parent_ancestors tok)).
Section OnType.
Context (width : char -> nat).
Fixpoint since_newline (w : text) : nat := match w with c :: r => if N.eqb c NL then 0 else width c + since_newline r | [] => 0 end.
(** indent.rs:13-19 column_at_offset *)
Definition column_at_offset (doc : text) (offset : nat) : vout nat := match split_at offset doc with Some (x, _) => VDone (since_newline (rev x)) | None => VPanic end.
(** ast:495-497 Triple::properties_list_path *)
Definition properties_list_path (t : tree) (p : path) : option path :=
  match nth_error (child_nodes t p) 1 with
  | Some q => if kind_is t q K_PropertyListPath || kind_is t q K_PropertyListPathNotEmpty then Some q else None
  | None => None
  end.
Definition enclosing_triple (t : tree) (tok : path) : option path := find (fun q => kind_is t q K_TriplesSameSubjectPath) (parent_ancestors tok).
(** indent.rs:25-37 predicate_alignment_column *)
Definition predicate_alignment_column (t : tree) (doc : text) (tok : path) : vout (option nat) :=
  match enclosing_triple t tok with
  | Some q => match properties_list_path t q with
              | Some l => let! c := column_at_offset doc (start_at t l) in VDone (Some c)
              | None => VDone None
              end
  | None => VDone None
  end.

(** ** on_type_formatting/mod.rs *)
Record otf_settings := mkots { auto_line_break : bool; otf_align : bool }.
Inductive trigger := TNewline | TSemicolon | TDot | TOther.
(** otf:42-73 request.get_char(): the trigger characters *)
Definition trigger_of (w : text) : trigger :=
  match w with [c] => if N.eqb c NL then TNewline else if N.eqb c 59 then TSemicolon else if N.eqb c 46 then TDot else TOther | _ => TOther end.
Context (settings : otf_settings) (o : options).
(** otf:140-142 the last token before [tok] that is neither whitespace nor comment *)
Fixpoint before_path (p : path) (l : list path) : list path := match l with q :: l => if path_eqb p q then [] else q :: before_path p l | [] => [] end.
Definition prev_meaningful (t : tree) (tok : path) : option path :=
  find (fun q => match kind_at t q with Some K_WHITESPACE | Some K_Comment => false | _ => true end) (rev (before_path tok (leaf_paths t))).
Definition aligned (t : tree) (doc : text) (tok : path) (indent : text) : vout text :=
  if otf_align settings
  then let! c := predicate_alignment_column t doc tok in
       VDone (match c with Some c => repeat SPACE c | None => indent ++ tab_unit o end)
  else VDone (indent ++ tab_unit o).
(** otf:160-168, 286-299 the edit: the blanks behind the cursor are replaced *)
Definition blank_edit (doc : text) (at_ : pos) (offset : nat) (w : text) : option text_edit :=
  match split_at offset doc with
  | Some (_, rest) => Some (mkedit (mkrange at_ (mkpos (line at_) (character at_ + leading_blanks rest))) w)
  | None => None   (* slicing panics *)
  end.
(** otf:76-170 handle_newline_trigger *)
Definition newline_trigger (t : tree) (doc : text) (at_ : pos) (offset : nat) : reply (option text_edit) :=
  if negb (right_after NL offset doc) then Refused InvalidRequest
  else match token_at t offset with
  | None => Refused InternalError
  | Some tok =>
    let indent := repeat_text (brace_nesting_depth t tok) (tab_unit o) in
    match kind_at t tok with
    | Some K_WHITESPACE | Some K_ANON | Some K_NIL =>
      let final := match prev_meaningful t tok with
                   | Some q => if kind_is t q K_Semicolon then aligned t doc q indent else VDone indent
                   | None => VDone indent
                   end in
      match final with
      | VDone w => match blank_edit doc at_ offset w with Some e => Reply (Some e) | None => Crash end
      | VPanic => Crash
      | VLoop => Hang
      end
    | _ => Reply None
    end
  end.
(** otf:304-329 find_triple_for_terminator *)
Definition find_triple_for_terminator (t : tree) (tok : path) (k : kind) : option path :=
  match k with
  | K_Semicolon => enclosing_triple t tok
  | K_Dot => match parent tok with
             | Some b => if kind_is t b K_TriplesBlock then first_child_by_kind t b (is K_TriplesSameSubjectPath) else None
             | None => None
             end
  | _ => None
  end.
(** otf:174-302 handle_terminator_trigger; [k] is Semicolon or Dot and [c] its character *)
Definition terminator_trigger (t : tree) (doc : text) (at_ : pos) (offset : nat) (k : kind) (c : char) : reply (option text_edit) :=
  if negb (auto_line_break settings) then Reply None
  else if negb (right_after c offset doc) then Refused InvalidRequest
  else match token_at t offset with
  | None => Refused InternalError
  | Some tok =>
    if negb (kind_is t tok k) then Reply None
    else match find_triple_for_terminator t tok k with
    | Some q =>
      if has_error t q then Reply None
      else
        let indent := repeat_text (brace_nesting_depth t tok) (tab_unit o) in
        match (match k with K_Semicolon => aligned t doc tok indent | _ => VDone indent end) with
        | VDone w => match blank_edit doc at_ offset (NL :: w) with Some e => Reply (Some e) | None => Crash end
        | VPanic => Crash
        | VLoop => Hang
        end
    | None => Reply None
    end
  end.
(** otf:22-74 handle_on_type_format_request for an open document with parse tree [t] *)
Definition on_type_formatting (t : tree) (doc : text) (at_ : pos) (ch : text) : reply (option text_edit) :=
  match byte_index at_ doc with
  | None => Refused InvalidParams
  | Some offset =>
    if (byte_len (tree_text t) <? offset) && (match trigger_of ch with TOther => false | _ => true end) then Crash   (* rowan: "Bad offset" *)
    else match trigger_of ch with
    | TNewline => newline_trigger t doc at_ offset
    | TSemicolon => terminator_trigger t doc at_ offset K_Semicolon 59%N
    | TDot => terminator_trigger t doc at_ offset K_Dot 46%N
    | TOther => Refused InvalidRequest
    end
  end.
End OnType.

(** ** folding_range/mod.rs *)
(** a folding range: lines, and the collapsed text of the imports region *)
Record fold := mkfold { f_start : nat; f_end : nat; f_imports : option text }.
(** first_child_or_token, last_child_or_token *)
Definition child_or_token (t : tree) (p : path) (i : nat) : option path := match at_path t (p ++ [i]) with Some _ => Some (p ++ [i]) | None => None end.
Definition last_index_of (t : tree) (p : path) : option nat := match at_path t p with Some (Node _ (c :: cs)) => Some (length cs) | _ => None end.
(** fold:58-85 *)
Definition group_fold (t : tree) (doc : text) (g : path) : option fold :=
  match child_or_token t g 0, last_index_of t g with
  | Some a, Some n =>
    let b := g ++ [n] in
    if kind_is t a K_LCurly && kind_is t b K_RCurly then
      match from_byte_index (start_at t a) doc, from_byte_index (start_at t b) doc with
      | Some pa, Some pb => match line pb with
                            | 0 => None
                            | S l => if l <=? line pa then None else Some (mkfold (line pa) l None)
                            end
      | _, _ => None
      end
    else None
  | _, _ => None
  end.
(** fold:38-88 compute_folding_ranges *)
Definition folding_ranges (t : tree) (doc : text) : vout (list fold) :=
  let! imports :=
    match first_child t [] with
    | Some c => match first_child t c with
                | Some p => if kind_is t p K_Prologue
                            then match range_at t doc p with
                                 | Some r => VDone [mkfold (line (rstart r)) (line (rend r)) (Some (text_at t p))]
                                 | None => VPanic
                                 end
                            else VDone []
                | None => VDone []
                end
    | None => VDone []
    end in
  VDone (imports ++ flatten (map (group_fold t doc) (nodes_of_kind t [] K_GroupGraphPattern))).
