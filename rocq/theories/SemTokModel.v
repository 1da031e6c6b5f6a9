(** Semantic tokens: /repo/src/server/message_handler/semantic_tokens/mod.rs. *)
From Coq Require Import List Arith NArith Bool.
Import ListNotations.
From Verif Require Import Kinds TextModel.

(** semantic_tokens/mod.rs:14-23  TOKEN_TYPES, the legend (the types that occur, of
    lsp/capabilities/server.rs:123-150) *)
Inductive semtype := T_Keyword | T_Function | T_Variable | T_String | T_Number | T_Comment | T_Operator | T_Namespace.
Definition token_types : list semtype :=
  [T_Keyword; T_Function; T_Variable; T_String; T_Number; T_Comment; T_Operator; T_Namespace].
(** equality of types (derived PartialEq / Hash) *)
Definition semtype_eq_dec (a b : semtype) : {a = b} + {a <> b}.
Proof. decide equality. Defined.

(** semantic_tokens/mod.rs:87-261  the type of a token kind (transcribed arm by arm) *)
Definition semantic_type (k : kind) : option semtype :=
  match k with
  | K_SELECT | K_ASK | K_DESCRIBE | K_CONSTRUCT | K_WHERE | K_PREFIX | K_VERSION | K_BASE | K_ORDER | K_BY 
  | K_AS | K_GROUP | K_HAVING | K_DISTINCT | K_REDUCED | K_FROM | K_NAMED | K_LIMIT | K_OFFSET | K_VALUES 
  | K_UNDEF | K_OPTIONAL | K_UNION | K_MINUS | K_GRAPH | K_SERVICE | K_SILENT | K_BIND | K_ASC | K_DESC 
  | K_NOT | K_IN | K_EXISTS | K_INSERT | K_DELETE | K_DATA | K_LOAD | K_CLEAR | K_DROP | K_CREATE | K_ADD 
  | K_MOVE | K_COPY | K_WITH | K_USING | K_INTO | K_TO | K_DEFAULT | K_ALL | K_INSERT_DATA | K_DELETE_DATA 
  | K_DELETE_WHERE | K_SEPARATOR | K_a | K_True | K_False | K_NIL => Some T_Keyword
  | K_FILTER | K_STR | K_LANG | K_LANGMATCHES | K_DATATYPE | K_BOUND | K_IRI | K_URI | K_BNODE | K_RAND 
  | K_ABS | K_CEIL | K_FLOOR | K_ROUND | K_CONCAT | K_STRLEN | K_UCASE | K_LCASE | K_ENCODE_FOR_URI 
  | K_CONTAINS | K_STRSTARTS | K_STRENDS | K_STRBEFORE | K_STRAFTER | K_YEAR | K_MONTH | K_DAY | K_HOURS 
  | K_MINUTES | K_SECONDS | K_TIMEZONE | K_TZ | K_NOW | K_UUID | K_STRUUID | K_MD5 | K_SHA1 | K_SHA256 
  | K_SHA384 | K_SHA512 | K_COALESCE | K_IF | K_STRLANG | K_STRDT | K_sameTerm | K_isIRI | K_isURI 
  | K_isBLANK | K_isLITERAL | K_isNUMERIC | K_REGEX | K_SUBSTR | K_REPLACE | K_TRIPLE | K_SUBJECT 
  | K_PREDICATE | K_OBJECT | K_isTRIPLE | K_LANGDIR | K_STRLANGDIR | K_hasLANG | K_hasLANGDIR | K_COUNT 
  | K_SUM | K_MIN | K_MAX | K_AVG | K_SAMPLE | K_GROUP_CONCAT => Some T_Function
  | K_STRING_LITERAL1 | K_STRING_LITERAL2 | K_STRING_LITERAL_LONG1 | K_STRING_LITERAL_LONG2 => Some T_String
  | K_VAR1 | K_VAR2 => Some T_Variable
  | K_INTEGER | K_DECIMAL | K_DOUBLE | K_INTEGER_POSITIVE | K_DECIMAL_POSITIVE | K_DOUBLE_POSITIVE 
  | K_INTEGER_NEGATIVE | K_DECIMAL_NEGATIVE | K_DOUBLE_NEGATIVE => Some T_Number
  | K_Comment => Some T_Comment
  | K_DoublePipe | K_DoubleAnd | K_Equals | K_ExclamationMarkEquals | K_Less | K_More | K_LessEquals 
  | K_MoreEquals | K_Star | K_Plus | K_Minus | K_Slash | K_ExclamationMark | K_Zirkumflex | K_Pipe 
  | K_DoubleZirkumflex => Some T_Operator
  | K_IRIREF | K_PNAME_LN | K_PNAME_NS => Some T_Namespace
  | _ => None
  end.

(** semantic_tokens/mod.rs:316-323  InternalSemanticToken (without the always empty modifiers) *)
Record semtok := mksemtok { st_line : nat; st_char : nat; st_length : nat; st_type : semtype }.

(** a token of the tree: its kind and text *)
Definition leaf := (kind * text)%type.

(** str::rfind('\n'): the byte offset of the last line break *)
Fixpoint rfind_nl (t : text) (at_ : nat) : option nat :=
  match t with
  | [] => None
  | c :: r => match rfind_nl r (at_ + len_utf8 c) with
              | Some i => Some i
              | None => if is_nl c then Some at_ else None
              end
  end.
(** semantic_tokens/mod.rs:72-81  where the next token starts *)
Definition next_place (k : kind) (t : text) (line char : nat) : nat * nat :=
  let len := byte_len t in
  if kind_eqb k K_WHITESPACE then
    match rfind_nl t 0 with
    | Some offset => (line + length (filter is_nl t), len - offset - 1)
    | None => (line, char + len)
    end
  else (line, char + len).
(** semantic_tokens/mod.rs:61-279  collect_semantic_tokens.  rowan's first_token/next_token visit the
    tokens of the tree in order (a tree has no empty inner nodes: C15), so the loop is over the list of
    tokens.  The casts to u32 lose nothing: rowan refuses texts of 4 GiB and more. *)
Fixpoint collect (toks : list leaf) (r : option range) (line char : nat) : list semtok :=
  match toks with
  | [] => []
  | (k, t) :: rest =>
    let '(end_line, end_char) := next_place k t line char in
    let token_range := mkrange (mkpos line char) (mkpos end_line end_char) in
    let here :=
      if match r with None => true | Some r => overlaps token_range r end
      then match semantic_type k with Some ty => [mksemtok line char (byte_len t) ty] | None => [] end
      else [] in
    here ++ collect rest r end_line end_char
  end.
Definition collect_semantic_tokens (toks : list leaf) (r : option range) : list semtok := collect toks r 0 0.

(** HashMap lookup in the legend (semantic_tokens/mod.rs:282-287) *)
Fixpoint type_id (l : list semtype) (ty : semtype) (i : nat) : option nat :=
  match l with
  | [] => None
  | x :: r => if semtype_eq_dec x ty then Some i else type_id r ty (i + 1)
  end.
(** checked subtraction; [None]: underflow (a panic in debug builds, wrap around in release builds) *)
Definition sub_checked (a b : nat) : option nat := if b <=? a then Some (a - b) else None.
(** semantic_tokens/mod.rs:281-312  encode_semantic_tokens *)
Fixpoint encode (ts : list semtok) (prev_line prev_char : nat) : option (list nat) :=
  match ts with
  | [] => Some []
  | s :: rest =>
    match sub_checked (st_line s) prev_line with
    | None => None
    | Some line_delta =>
      match (if 0 <? line_delta then Some (st_char s) else sub_checked (st_char s) prev_char), type_id token_types (st_type s) 0 with
      | Some char_delta, Some id =>
        match encode rest (st_line s) (st_char s) with
        | Some data => Some ([line_delta; char_delta; st_length s; id; 0] ++ data)
        | None => None
        end
      | _, _ => None
      end
    end
  end.
Definition encode_semantic_tokens (ts : list semtok) : option (list nat) := encode ts 0 0.

(** semantic_tokens/mod.rs:25-59  the data of the response to textDocument/semanticTokens/full ([None])
    and .../range *)
Definition semantic_tokens_response (toks : list leaf) (r : option range) : option (list nat) :=
  encode_semantic_tokens (collect_semantic_tokens toks r).
