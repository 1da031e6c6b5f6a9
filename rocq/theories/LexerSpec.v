(** The terminals of SPARQL, transcribed by hand from the W3C grammar (SPARQL 1.1 Query Language, 19.8,
    rules [139]-[173], and rule LANG_DIR of SPARQL 1.2), and the keywords; not from the code. *)
From Coq Require Import String Ascii List Arith NArith Bool.
Import ListNotations.
From Verif Require Import Kinds TextModel LexerRegex LexerModel.

Definition lit (s : string) : re := fold_right (fun c r => match r with Eps => Chr (N_of_ascii c) | _ => Cat (Chr (N_of_ascii c)) r end) Eps (list_ascii_of_string s).
Definition opt (a : re) : re := Alt Eps a.
Definition plus (a : re) : re := Cat a (Star a).
Definition oneof (s : string) : re := Cls (map (fun c => (N_of_ascii c, N_of_ascii c)) (list_ascii_of_string s)).
Definition rng (a b : N) : re := Cls [(a, b)].
Fixpoint alts (l : list re) : re := match l with [] => Cls [] | [a] => a | a :: l => Alt a (alts l) end.
Fixpoint seq (l : list re) : re := match l with [] => Eps | [a] => a | a :: l => Cat a (seq l) end.

Local Open Scope string_scope.
Local Open Scope N_scope.
(** [164] PN_CHARS_BASE *)
Definition pn_chars_base : re := Cls [(0x41, 0x5A); (0x61, 0x7A); (0xC0, 0xD6); (0xD8, 0xF6); (0xF8, 0x2FF); (0x370, 0x37D); (0x37F, 0x1FFF);
  (0x200C, 0x200D); (0x2070, 0x218F); (0x2C00, 0x2FEF); (0x3001, 0xD7FF); (0xF900, 0xFDCF); (0xFDF0, 0xFFFD); (0x10000, 0xEFFFF)].
Definition digit : re := rng 48 57.
(** [165] PN_CHARS_U *)
Definition pn_chars_u : re := Alt pn_chars_base (lit "_").
(** [167] PN_CHARS *)
Definition pn_chars : re := alts [pn_chars_u; lit "-"; digit; rng 0xB7 0xB7; rng 0x300 0x36F; rng 0x203F 0x2040].
(** [168] PN_PREFIX *)
Definition pn_prefix : re := seq [pn_chars_base; opt (Cat (Star (Alt pn_chars (lit "."))) pn_chars)].
(** [166] VARNAME *)
Definition varname : re := Cat (Alt pn_chars_u digit) (Star (alts [pn_chars_u; digit; rng 0xB7 0xB7; rng 0x300 0x36F; rng 0x203F 0x2040])).
(** [170]-[173] PLX, PERCENT, HEX, PN_LOCAL_ESC *)
Definition hex : re := Cls [(48, 57); (65, 70); (97, 102)].
Definition plx : re := Alt (seq [lit "%"; hex; hex]) (Cat (lit "\") (oneof "_~.-!$&'()*+,;=/?#@%")).
(** [169] PN_LOCAL *)
Definition pn_local : re :=
  Cat (alts [pn_chars_u; lit ":"; digit; plx])
      (opt (Cat (Star (alts [pn_chars; lit "."; lit ":"; plx])) (alts [pn_chars; lit ":"; plx]))).
(** [140] PNAME_NS *)
Definition pname_ns : re := Cat (opt pn_prefix) (lit ":").
(** [155] EXPONENT *)
Definition exponent : re := seq [oneof "eE"; opt (oneof "+-"); plus digit].
Definition integer : re := plus digit.
Definition decimal : re := seq [Star digit; lit "."; plus digit].
Definition double : re := alts [seq [plus digit; lit "."; Star digit; exponent]; seq [lit "."; plus digit; exponent]; Cat (plus digit) exponent].
(** [160] ECHAR *)
Definition echar : re := Cat (Chr 92) (Cls [(116, 116); (98, 98); (110, 110); (114, 114); (102, 102); (92, 92); (34, 34); (39, 39)]).
(** [162] WS *)
Definition ws : re := Cls [(0x20, 0x20); (9, 9); (0xD, 0xD); (0xA, 0xA)].
(** strings: the quote is character [q] *)
Definition short_string (q : N) (plain : list (N * N)) : re := seq [Chr q; Star (Alt (Cls plain) echar); Chr q].
Definition long_string (q : N) (plain : list (N * N)) : re :=
  seq [Chr q; Chr q; Chr q; Star (Cat (opt (Alt (Chr q) (Cat (Chr q) (Chr q)))) (Alt (Cls plain) echar)); Chr q; Chr q; Chr q].

Definition terminal (k : kind) : option re :=
  match k with
  | K_IRIREF => (* [139] every character but the less-than, greater-than, double quote, braces, bar, caret, backquote, backslash and U+0000-U+0020 *)
      Some (seq [lit "<"; Star (Cls [(0x21, 0x21); (0x23, 0x3B); (0x3D, 0x3D); (0x3F, 0x5B); (0x5D, 0x5D); (0x5F, 0x5F); (0x61, 0x7A); (0x7E, 0x10FFFF)]); lit ">"])
  | K_PNAME_NS => Some pname_ns
  | K_PNAME_LN => (* [141] *) Some (Cat pname_ns pn_local)
  | K_BLANK_NODE_LABEL => (* [142] *) Some (seq [lit "_:"; Alt pn_chars_u digit; opt (Cat (Star (Alt pn_chars (lit "."))) pn_chars)])
  | K_VAR1 => (* [143] *) Some (Cat (lit "?") varname)
  | K_VAR2 => (* [144] *) Some (Cat (lit "$") varname)
  | K_LANG_DIR => (* SPARQL 1.2 LANG_DIR *)
      Some (seq [lit "@"; plus (Cls [(97, 122); (65, 90)]); Star (Cat (lit "-") (plus (Cls [(97, 122); (65, 90); (48, 57)]))); opt (Cat (lit "--") (plus (Cls [(97, 122); (65, 90)])))])
  | K_INTEGER => (* [146] *) Some integer
  | K_DECIMAL => (* [147] *) Some decimal
  | K_DOUBLE => (* [148] *) Some double
  | K_INTEGER_POSITIVE => Some (Cat (lit "+") integer)
  | K_DECIMAL_POSITIVE => Some (Cat (lit "+") decimal)
  | K_DOUBLE_POSITIVE => Some (Cat (lit "+") double)
  | K_INTEGER_NEGATIVE => Some (Cat (lit "-") integer)
  | K_DECIMAL_NEGATIVE => Some (Cat (lit "-") decimal)
  | K_DOUBLE_NEGATIVE => Some (Cat (lit "-") double)
  | K_STRING_LITERAL1 => (* [156] not U+0027 U+005C U+000A U+000D, or ECHAR *)
      Some (short_string 0x27 [(0, 9); (0xB, 0xC); (0xE, 0x26); (0x28, 0x5B); (0x5D, 0x10FFFF)])
  | K_STRING_LITERAL2 => (* [157] not U+0022 U+005C U+000A U+000D, or ECHAR *)
      Some (short_string 0x22 [(0, 9); (0xB, 0xC); (0xE, 0x21); (0x23, 0x5B); (0x5D, 0x10FFFF)])
  | K_STRING_LITERAL_LONG1 => (* [158] neither quote nor backslash, or ECHAR *) Some (long_string 0x27 [(0, 0x26); (0x28, 0x5B); (0x5D, 0x10FFFF)])
  | K_STRING_LITERAL_LONG2 => (* [159] *) Some (long_string 0x22 [(0, 0x21); (0x23, 0x5B); (0x5D, 0x10FFFF)])
  | K_NIL => (* [161] *) Some (seq [lit "("; Star ws; lit ")"])
  | K_ANON => (* [163] *) Some (seq [lit "["; Star ws; lit "]"])
  | K_WHITESPACE => Some (plus ws)
  | K_Comment => (* 19.4: from # to the end of the line, marked by U+000D or U+000A *)
      Some (Cat (lit "#") (Star (Cls [(0, 9); (0xB, 0xC); (0xE, 0x10FFFF)])))
  | _ => None
  end.

(** the keywords (19.8; matched case-insensitively, except [a]) *)
Definition keywords : list (kind * string) := [
  (K_BASE, "BASE"); (K_PREFIX, "PREFIX"); (K_SELECT, "SELECT"); (K_DISTINCT, "DISTINCT"); (K_REDUCED, "REDUCED"); (K_AS, "AS");
  (K_CONSTRUCT, "CONSTRUCT"); (K_WHERE, "WHERE"); (K_DESCRIBE, "DESCRIBE"); (K_ASK, "ASK"); (K_FROM, "FROM"); (K_NAMED, "NAMED"); (K_GROUP, "GROUP");
  (K_BY, "BY"); (K_HAVING, "HAVING"); (K_ORDER, "ORDER"); (K_ASC, "ASC"); (K_DESC, "DESC"); (K_LIMIT, "LIMIT"); (K_OFFSET, "OFFSET");
  (K_VALUES, "VALUES"); (K_LOAD, "LOAD"); (K_SILENT, "SILENT"); (K_INTO, "INTO"); (K_CLEAR, "CLEAR"); (K_DROP, "DROP"); (K_CREATE, "CREATE");
  (K_ADD, "ADD"); (K_TO, "TO"); (K_MOVE, "MOVE"); (K_COPY, "COPY"); (K_INSERT, "INSERT"); (K_DATA, "DATA"); (K_DELETE, "DELETE"); (K_WITH, "WITH");
  (K_USING, "USING"); (K_DEFAULT, "DEFAULT"); (K_GRAPH, "GRAPH"); (K_ALL, "ALL"); (K_OPTIONAL, "OPTIONAL"); (K_SERVICE, "SERVICE"); (K_BIND, "BIND");
  (K_UNDEF, "UNDEF"); (K_MINUS, "MINUS"); (K_UNION, "UNION"); (K_FILTER, "FILTER"); (K_IN, "IN"); (K_NOT, "NOT"); (K_STR, "STR"); (K_LANG, "LANG");
  (K_LANGMATCHES, "LANGMATCHES"); (K_DATATYPE, "DATATYPE"); (K_BOUND, "BOUND"); (K_IRI, "IRI"); (K_URI, "URI"); (K_BNODE, "BNODE"); (K_RAND, "RAND");
  (K_ABS, "ABS"); (K_CEIL, "CEIL"); (K_FLOOR, "FLOOR"); (K_ROUND, "ROUND"); (K_CONCAT, "CONCAT"); (K_STRLEN, "STRLEN"); (K_UCASE, "UCASE");
  (K_LCASE, "LCASE"); (K_ENCODE_FOR_URI, "ENCODE_FOR_URI"); (K_CONTAINS, "CONTAINS"); (K_STRSTARTS, "STRSTARTS"); (K_STRENDS, "STRENDS");
  (K_STRBEFORE, "STRBEFORE"); (K_STRAFTER, "STRAFTER"); (K_YEAR, "YEAR"); (K_MONTH, "MONTH"); (K_DAY, "DAY"); (K_HOURS, "HOURS");
  (K_MINUTES, "MINUTES"); (K_SECONDS, "SECONDS"); (K_TIMEZONE, "TIMEZONE"); (K_TZ, "TZ"); (K_NOW, "NOW"); (K_UUID, "UUID"); (K_STRUUID, "STRUUID");
  (K_MD5, "MD5"); (K_SHA1, "SHA1"); (K_SHA256, "SHA256"); (K_SHA384, "SHA384"); (K_SHA512, "SHA512"); (K_COALESCE, "COALESCE"); (K_IF, "IF");
  (K_STRLANG, "STRLANG"); (K_STRDT, "STRDT"); (K_sameTerm, "SAMETERM"); (K_isIRI, "ISIRI"); (K_isURI, "ISURI"); (K_isBLANK, "ISBLANK");
  (K_isLITERAL, "ISLITERAL"); (K_isNUMERIC, "ISNUMERIC"); (K_REGEX, "REGEX"); (K_SUBSTR, "SUBSTR"); (K_REPLACE, "REPLACE"); (K_EXISTS, "EXISTS");
  (K_COUNT, "COUNT"); (K_SUM, "SUM"); (K_MIN, "MIN"); (K_MAX, "MAX"); (K_AVG, "AVG"); (K_SAMPLE, "SAMPLE"); (K_GROUP_CONCAT, "GROUP_CONCAT");
  (K_SEPARATOR, "SEPARATOR"); (K_VERSION, "VERSION"); (K_STRLANGDIR, "STRLANGDIR"); (K_hasLANG, "HASLANG"); (K_hasLANGDIR, "HASLANGDIR");
  (K_isTRIPLE, "ISTRIPLE"); (K_TRIPLE, "TRIPLE"); (K_SUBJECT, "SUBJECT"); (K_PREDICATE, "PREDICATE"); (K_OBJECT, "OBJECT"); (K_LANGDIR, "LANGDIR");
  (K_True, "TRUE"); (K_False, "FALSE")
].
Definition punctuation : list (kind * string) := [
  (K_LParen, "("); (K_RParen, ")"); (K_Star, "*"); (K_LCurly, "{"); (K_RCurly, "}"); (K_LCurlyPipe, "{|"); (K_PipeRCurly, "|}");
  (K_Semicolon, ";"); (K_Dot, "."); (K_Tilde, "~"); (K_Comma, ","); (K_Pipe, "|"); (K_Slash, "/"); (K_Zirkumflex, "^"); (K_QuestionMark, "?");
  (K_Plus, "+"); (K_ExclamationMark, "!"); (K_LBrack, "["); (K_RBrack, "]"); (K_DoublePipe, "||"); (K_DoubleAnd, "&&"); (K_Equals, "=");
  (K_ExclamationMarkEquals, "!="); (K_Less, "<"); (K_More, ">"); (K_LessEquals, "<="); (K_MoreEquals, ">="); (K_DoubleLess, "<<");
  (K_DoubleLessLParen, "<<("); (K_DoubleMore, ">>"); (K_RParenDoubleMore, ")>>"); (K_Minus, "-"); (K_DoubleZirkumflex, "^^"); (K_a, "a")
].
Definition chars (s : string) : text := map N_of_ascii (list_ascii_of_string s).
Definition upper (c : char) : char := if ((97 <=? c) && (c <=? 122))%N then (c - 32)%N else c.
(** equal up to the case of ASCII letters *)
Definition same_word (t u : text) : Prop := map upper t = map upper u.
