(** Generated by tools/grammar2coq.py from crates/sparql-parser/src/parser/grammar.rs.
    Each [parse_X] is the statement-by-statement transcription of [fn parse_X]; the
    statement language is defined in ParserSyntax.v. *)
From Coq Require Import List.
Import ListNotations.
From Verif Require Import Kinds ParserSyntax.

(** grammar.rs:5-16 fn parse_QueryUnit *)
Definition parse_QueryUnit : rule :=
  mkrule K_QueryUnit None
    (Call K_Query)
    true.

(** grammar.rs:18-51 fn parse_Query *)
Definition parse_Query : rule :=
  mkrule K_Query None
    (Seq (Call K_Prologue)
     (Seq (Match (Arm [K_SELECT] (Call K_SelectQuery)
      (Arm [K_CONSTRUCT] (Call K_ConstructQuery)
      (Arm [K_DESCRIBE] (Call K_DescribeQuery)
      (Arm [K_ASK] (Call K_AskQuery)
      (ArmEnd (DErr [K_SELECT; K_CONSTRUCT; K_DESCRIBE; K_ASK])))))))
     (Call K_ValuesClause)))
    false.

(** grammar.rs:53-89 fn parse_Prologue *)
Definition parse_Prologue : rule :=
  mkrule K_Prologue (Some [K_BASE; K_PREFIX; K_VERSION])
    (While [K_BASE; K_PREFIX; K_VERSION] (Match (Arm [K_BASE] (Call K_BaseDecl)
        (Arm [K_PREFIX] (Call K_PrefixDecl)
        (Arm [K_VERSION] (Call K_VersionDecl)
        (ArmEnd (DErr [K_BASE; K_PREFIX; K_VERSION])))))))
    false.

(** grammar.rs:91-110 fn parse_SelectQuery *)
Definition parse_SelectQuery : rule :=
  mkrule K_SelectQuery None
    (Seq (Call K_SelectClause)
     (Seq (While [K_FROM] (Call K_DatasetClause))
     (Seq (Sync [K_WHERE; K_LCurly])
     (Seq (Call K_WhereClause)
     (Call K_SolutionModifier)))))
    false.

(** grammar.rs:112-208 fn parse_ConstructQuery *)
Definition parse_ConstructQuery : rule :=
  mkrule K_ConstructQuery None
    (Seq (Expect K_CONSTRUCT)
     (Seq (Sync [K_WHERE; K_LCurly; K_FROM])
     (Match (Arm [K_LCurly] (Seq (Call K_ConstructTemplate)
         (Seq (While [K_FROM] (Call K_DatasetClause))
         (Seq (Sync [K_WHERE; K_LCurly])
         (Seq (Call K_WhereClause)
         (Call K_SolutionModifier)))))
      (Arm [K_WHERE; K_FROM] (Seq (While [K_FROM] (Call K_DatasetClause))
         (Seq (Sync [K_WHERE])
         (Seq (Expect K_WHERE)
         (Seq (Sync [K_LCurly])
         (Seq (Expect K_LCurly)
         (Seq (If [K_IRIREF; K_PNAME_NS; K_STRING_LITERAL1; K_STRING_LITERAL2; K_LParen; K_INTEGER; K_NIL; K_LBrack; K_DoubleLess; K_DoubleLessLParen; K_VAR1; K_VAR2; K_DECIMAL; K_DOUBLE; K_INTEGER_POSITIVE; K_DECIMAL_POSITIVE; K_DOUBLE_POSITIVE; K_INTEGER_NEGATIVE; K_DECIMAL_NEGATIVE; K_DOUBLE_NEGATIVE; K_True; K_False; K_STRING_LITERAL_LONG1; K_STRING_LITERAL_LONG2; K_PNAME_LN; K_BLANK_NODE_LABEL; K_ANON] (Call K_TriplesTemplate))
         (Seq (Sync [K_RCurly])
         (Seq (Expect K_RCurly)
         (Call K_SolutionModifier)))))))))
      (ArmEnd (DErr [K_LCurly; K_WHERE; K_FROM])))))))
    false.

(** grammar.rs:210-296 fn parse_DescribeQuery *)
Definition parse_DescribeQuery : rule :=
  mkrule K_DescribeQuery None
    (Seq (Expect K_DESCRIBE)
     (Seq (Sync [K_IRIREF; K_PNAME_NS; K_Star; K_VAR1; K_VAR2; K_PNAME_LN])
     (Seq (Match (Arm [K_IRIREF; K_PNAME_NS; K_VAR1; K_VAR2; K_PNAME_LN] (Seq (Call K_VarOrIri)
         (While [K_IRIREF; K_PNAME_NS; K_VAR1; K_VAR2; K_PNAME_LN] (Call K_VarOrIri)))
      (Arm [K_Star] (Expect K_Star)
      (ArmEnd (DErr [K_IRIREF; K_PNAME_NS; K_VAR1; K_VAR2; K_PNAME_LN; K_Star])))))
     (Seq (While [K_FROM] (Call K_DatasetClause))
     (Seq (If [K_WHERE; K_LCurly] (Call K_WhereClause))
     (Call K_SolutionModifier))))))
    false.

(** grammar.rs:298-317 fn parse_AskQuery *)
Definition parse_AskQuery : rule :=
  mkrule K_AskQuery None
    (Seq (Expect K_ASK)
     (Seq (While [K_FROM] (Call K_DatasetClause))
     (Seq (Sync [K_WHERE; K_LCurly])
     (Seq (Call K_WhereClause)
     (Call K_SolutionModifier)))))
    false.

(** grammar.rs:319-329 fn parse_ValuesClause *)
Definition parse_ValuesClause : rule :=
  mkrule K_ValuesClause (Some [K_VALUES])
    (If [K_VALUES] (Seq (Expect K_VALUES)
       (Call K_DataBlock)))
    false.

(** grammar.rs:331-342 fn parse_UpdateUnit *)
Definition parse_UpdateUnit : rule :=
  mkrule K_UpdateUnit None
    (Call K_Update)
    true.

(** grammar.rs:344-389 fn parse_Update *)
Definition parse_Update : rule :=
  mkrule K_Update (Some [K_BASE; K_PREFIX; K_VERSION; K_LOAD; K_CLEAR; K_DROP; K_CREATE; K_ADD; K_MOVE; K_COPY; K_INSERT_DATA; K_DELETE_DATA; K_DELETE_WHERE; K_WITH; K_DELETE; K_INSERT])
    (Seq (Call K_Prologue)
     (If [K_LOAD; K_CLEAR; K_DROP; K_CREATE; K_ADD; K_MOVE; K_COPY; K_INSERT_DATA; K_DELETE_DATA; K_DELETE_WHERE; K_WITH; K_DELETE; K_INSERT] (Seq (Call K_UpdateOne)
       (If [K_Semicolon] (Seq (Expect K_Semicolon)
         (Call K_Update))))))
    false.

(** grammar.rs:391-396 fn parse_BaseDecl *)
Definition parse_BaseDecl : rule :=
  mkrule K_BaseDecl None
    (Seq (Expect K_BASE)
     (Expect K_IRIREF))
    false.

(** grammar.rs:398-404 fn parse_PrefixDecl *)
Definition parse_PrefixDecl : rule :=
  mkrule K_PrefixDecl None
    (Seq (Expect K_PREFIX)
     (Seq (Expect K_PNAME_NS)
     (Expect K_IRIREF)))
    false.

(** grammar.rs:406-411 fn parse_VersionDecl *)
Definition parse_VersionDecl : rule :=
  mkrule K_VersionDecl None
    (Seq (Expect K_VERSION)
     (Call K_VersionSpecifier))
    false.

(** grammar.rs:413-436 fn parse_VersionSpecifier *)
Definition parse_VersionSpecifier : rule :=
  mkrule K_VersionSpecifier None
    (Match (Arm [K_STRING_LITERAL1] (Expect K_STRING_LITERAL1)
      (Arm [K_STRING_LITERAL2] (Expect K_STRING_LITERAL2)
      (ArmEnd (DErr [K_STRING_LITERAL1; K_STRING_LITERAL2])))))
    false.

(** grammar.rs:438-538 fn parse_SelectClause *)
Definition parse_SelectClause : rule :=
  mkrule K_SelectClause None
    (Seq (Expect K_SELECT)
     (Seq (If [K_DISTINCT; K_REDUCED] (Match (Arm [K_DISTINCT] (Expect K_DISTINCT)
        (Arm [K_REDUCED] (Expect K_REDUCED)
        (ArmEnd (DErr [K_DISTINCT; K_REDUCED]))))))
     (Match (Arm [K_LParen; K_VAR1; K_VAR2] (Seq (Match (Arm [K_VAR1; K_VAR2] (Call K_Var)
          (Arm [K_LParen] (Seq (Expect K_LParen)
             (Seq (Call K_Expression)
             (Seq (Expect K_AS)
             (Seq (Call K_Var)
             (Expect K_RParen)))))
          (ArmEnd (DErr [K_VAR1; K_VAR2; K_LParen])))))
         (While [K_LParen; K_VAR1; K_VAR2] (Match (Arm [K_VAR1; K_VAR2] (Call K_Var)
            (Arm [K_LParen] (Seq (Expect K_LParen)
               (Seq (Call K_Expression)
               (Seq (Expect K_AS)
               (Seq (Call K_Var)
               (Expect K_RParen)))))
            (ArmEnd (DErr [K_VAR1; K_VAR2; K_LParen])))))))
      (Arm [K_Star] (Expect K_Star)
      (ArmEnd (DErr [K_LParen; K_VAR1; K_VAR2; K_Star])))))))
    false.

(** grammar.rs:540-566 fn parse_DatasetClause *)
Definition parse_DatasetClause : rule :=
  mkrule K_DatasetClause None
    (Seq (Expect K_FROM)
     (Match (Arm [K_IRIREF; K_PNAME_NS; K_PNAME_LN] (Call K_DefaultGraphClause)
      (Arm [K_NAMED] (Call K_NamedGraphClause)
      (ArmEnd (DErr [K_IRIREF; K_PNAME_NS; K_PNAME_LN; K_NAMED]))))))
    false.

(** grammar.rs:568-575 fn parse_WhereClause *)
Definition parse_WhereClause : rule :=
  mkrule K_WhereClause None
    (Seq (If [K_WHERE] (Expect K_WHERE))
     (Call K_GroupGraphPattern))
    false.

(** grammar.rs:577-601 fn parse_SolutionModifier *)
Definition parse_SolutionModifier : rule :=
  mkrule K_SolutionModifier (Some [K_GROUP; K_HAVING; K_ORDER; K_LIMIT; K_OFFSET])
    (Seq (If [K_GROUP] (Call K_GroupClause))
     (Seq (If [K_HAVING] (Call K_HavingClause))
     (Seq (If [K_ORDER] (Call K_OrderClause))
     (If [K_LIMIT; K_OFFSET] (Call K_LimitOffsetClauses)))))
    false.

(** grammar.rs:603-610 fn parse_SubSelect *)
Definition parse_SubSelect : rule :=
  mkrule K_SubSelect None
    (Seq (Call K_SelectClause)
     (Seq (Call K_WhereClause)
     (Seq (Call K_SolutionModifier)
     (Call K_ValuesClause))))
    false.

(** grammar.rs:612-632 fn parse_Var *)
Definition parse_Var : rule :=
  mkrule K_Var None
    (Match (Arm [K_VAR1] (Expect K_VAR1)
      (Arm [K_VAR2] (Expect K_VAR2)
      (ArmEnd (DErr [K_VAR1; K_VAR2])))))
    false.

(** grammar.rs:634-638 fn parse_Expression *)
Definition parse_Expression : rule :=
  mkrule K_Expression None
    (Call K_ConditionalOrExpression)
    false.

(** grammar.rs:640-676 fn parse_ConstructTemplate *)
Definition parse_ConstructTemplate : rule :=
  mkrule K_ConstructTemplate None
    (Seq (Expect K_LCurly)
     (Seq (If [K_IRIREF; K_PNAME_NS; K_STRING_LITERAL1; K_STRING_LITERAL2; K_LParen; K_INTEGER; K_NIL; K_LBrack; K_DoubleLess; K_DoubleLessLParen; K_VAR1; K_VAR2; K_DECIMAL; K_DOUBLE; K_INTEGER_POSITIVE; K_DECIMAL_POSITIVE; K_DOUBLE_POSITIVE; K_INTEGER_NEGATIVE; K_DECIMAL_NEGATIVE; K_DOUBLE_NEGATIVE; K_True; K_False; K_STRING_LITERAL_LONG1; K_STRING_LITERAL_LONG2; K_PNAME_LN; K_BLANK_NODE_LABEL; K_ANON] (Call K_ConstructTriples))
     (Expect K_RCurly)))
    false.

(** grammar.rs:678-716 fn parse_TriplesTemplate *)
Definition parse_TriplesTemplate : rule :=
  mkrule K_TriplesTemplate None
    (Seq (Call K_TriplesSameSubject)
     (If [K_Dot] (Seq (Expect K_Dot)
       (If [K_IRIREF; K_PNAME_NS; K_STRING_LITERAL1; K_STRING_LITERAL2; K_LParen; K_INTEGER; K_NIL; K_LBrack; K_DoubleLess; K_DoubleLessLParen; K_VAR1; K_VAR2; K_DECIMAL; K_DOUBLE; K_INTEGER_POSITIVE; K_DECIMAL_POSITIVE; K_DOUBLE_POSITIVE; K_INTEGER_NEGATIVE; K_DECIMAL_NEGATIVE; K_DOUBLE_NEGATIVE; K_True; K_False; K_STRING_LITERAL_LONG1; K_STRING_LITERAL_LONG2; K_PNAME_LN; K_BLANK_NODE_LABEL; K_ANON] (Call K_TriplesTemplate)))))
    false.

(** grammar.rs:718-744 fn parse_VarOrIri *)
Definition parse_VarOrIri : rule :=
  mkrule K_VarOrIri None
    (Match (Arm [K_VAR1; K_VAR2] (Call K_Var)
      (Arm [K_IRIREF; K_PNAME_NS; K_PNAME_LN] (Call K_iri)
      (ArmEnd (DErr [K_VAR1; K_VAR2; K_IRIREF; K_PNAME_NS; K_PNAME_LN])))))
    false.

(** grammar.rs:746-750 fn parse_DefaultGraphClause *)
Definition parse_DefaultGraphClause : rule :=
  mkrule K_DefaultGraphClause None
    (Call K_SourceSelector)
    false.

(** grammar.rs:752-757 fn parse_NamedGraphClause *)
Definition parse_NamedGraphClause : rule :=
  mkrule K_NamedGraphClause None
    (Seq (Expect K_NAMED)
     (Call K_SourceSelector))
    false.

(** grammar.rs:759-763 fn parse_SourceSelector *)
Definition parse_SourceSelector : rule :=
  mkrule K_SourceSelector None
    (Call K_iri)
    false.

(** grammar.rs:765-789 fn parse_iri *)
Definition parse_iri : rule :=
  mkrule K_iri None
    (Match (Arm [K_IRIREF] (Expect K_IRIREF)
      (Arm [K_PNAME_NS; K_PNAME_LN] (Call K_PrefixedName)
      (ArmEnd (DErr [K_IRIREF; K_PNAME_NS; K_PNAME_LN])))))
    false.

(** grammar.rs:791-848 fn parse_GroupGraphPattern *)
Definition parse_GroupGraphPattern : rule :=
  mkrule K_GroupGraphPattern None
    (Seq (Expect K_LCurly)
     (Seq (Match (Arm [K_SELECT] (Call K_SubSelect)
      (Arm [K_IRIREF; K_PNAME_NS; K_STRING_LITERAL1; K_STRING_LITERAL2; K_LParen; K_LCurly; K_INTEGER; K_VALUES; K_GRAPH; K_OPTIONAL; K_SERVICE; K_BIND; K_NIL; K_MINUS; K_FILTER; K_LBrack; K_DoubleLess; K_DoubleLessLParen; K_VAR1; K_VAR2; K_DECIMAL; K_DOUBLE; K_INTEGER_POSITIVE; K_DECIMAL_POSITIVE; K_DOUBLE_POSITIVE; K_INTEGER_NEGATIVE; K_DECIMAL_NEGATIVE; K_DOUBLE_NEGATIVE; K_True; K_False; K_STRING_LITERAL_LONG1; K_STRING_LITERAL_LONG2; K_PNAME_LN; K_BLANK_NODE_LABEL; K_ANON] (Call K_GroupGraphPatternSub)
      (ArmEnd DSkip))))
     (Seq (Sync [K_RCurly])
     (Expect K_RCurly))))
    false.

(** grammar.rs:850-942 fn parse_GroupClause *)
Definition parse_GroupClause : rule :=
  mkrule K_GroupClause None
    (Seq (Expect K_GROUP)
     (Seq (Expect K_BY)
     (Seq (Call K_GroupCondition)
     (While [K_IRIREF; K_PNAME_NS; K_LParen; K_VAR1; K_VAR2; K_NOT; K_STR; K_LANG; K_LANGMATCHES; K_LANGDIR; K_DATATYPE; K_BOUND; K_IRI; K_URI; K_BNODE; K_RAND; K_ABS; K_CEIL; K_FLOOR; K_ROUND; K_CONCAT; K_STRLEN; K_UCASE; K_LCASE; K_ENCODE_FOR_URI; K_CONTAINS; K_STRSTARTS; K_STRENDS; K_STRBEFORE; K_STRAFTER; K_YEAR; K_MONTH; K_DAY; K_HOURS; K_MINUTES; K_SECONDS; K_TIMEZONE; K_TZ; K_NOW; K_UUID; K_STRUUID; K_MD5; K_SHA1; K_SHA256; K_SHA384; K_SHA512; K_COALESCE; K_IF; K_STRLANG; K_STRLANGDIR; K_STRDT; K_sameTerm; K_isIRI; K_isURI; K_isBLANK; K_isLITERAL; K_isNUMERIC; K_hasLANG; K_hasLANGDIR; K_isTRIPLE; K_TRIPLE; K_SUBJECT; K_PREDICATE; K_OBJECT; K_REGEX; K_SUBSTR; K_REPLACE; K_EXISTS; K_COUNT; K_SUM; K_MIN; K_MAX; K_AVG; K_SAMPLE; K_GROUP_CONCAT; K_PNAME_LN] (Call K_GroupCondition)))))
    false.

(** grammar.rs:944-1033 fn parse_HavingClause *)
Definition parse_HavingClause : rule :=
  mkrule K_HavingClause None
    (Seq (Expect K_HAVING)
     (Seq (Call K_HavingCondition)
     (While [K_IRIREF; K_PNAME_NS; K_LParen; K_NOT; K_STR; K_LANG; K_LANGMATCHES; K_LANGDIR; K_DATATYPE; K_BOUND; K_IRI; K_URI; K_BNODE; K_RAND; K_ABS; K_CEIL; K_FLOOR; K_ROUND; K_CONCAT; K_STRLEN; K_UCASE; K_LCASE; K_ENCODE_FOR_URI; K_CONTAINS; K_STRSTARTS; K_STRENDS; K_STRBEFORE; K_STRAFTER; K_YEAR; K_MONTH; K_DAY; K_HOURS; K_MINUTES; K_SECONDS; K_TIMEZONE; K_TZ; K_NOW; K_UUID; K_STRUUID; K_MD5; K_SHA1; K_SHA256; K_SHA384; K_SHA512; K_COALESCE; K_IF; K_STRLANG; K_STRLANGDIR; K_STRDT; K_sameTerm; K_isIRI; K_isURI; K_isBLANK; K_isLITERAL; K_isNUMERIC; K_hasLANG; K_hasLANGDIR; K_isTRIPLE; K_TRIPLE; K_SUBJECT; K_PREDICATE; K_OBJECT; K_REGEX; K_SUBSTR; K_REPLACE; K_EXISTS; K_COUNT; K_SUM; K_MIN; K_MAX; K_AVG; K_SAMPLE; K_GROUP_CONCAT; K_PNAME_LN] (Call K_HavingCondition))))
    false.

(** grammar.rs:1035-1129 fn parse_OrderClause *)
Definition parse_OrderClause : rule :=
  mkrule K_OrderClause None
    (Seq (Expect K_ORDER)
     (Seq (Expect K_BY)
     (Seq (Call K_OrderCondition)
     (While [K_IRIREF; K_PNAME_NS; K_LParen; K_ASC; K_DESC; K_VAR1; K_VAR2; K_NOT; K_STR; K_LANG; K_LANGMATCHES; K_LANGDIR; K_DATATYPE; K_BOUND; K_IRI; K_URI; K_BNODE; K_RAND; K_ABS; K_CEIL; K_FLOOR; K_ROUND; K_CONCAT; K_STRLEN; K_UCASE; K_LCASE; K_ENCODE_FOR_URI; K_CONTAINS; K_STRSTARTS; K_STRENDS; K_STRBEFORE; K_STRAFTER; K_YEAR; K_MONTH; K_DAY; K_HOURS; K_MINUTES; K_SECONDS; K_TIMEZONE; K_TZ; K_NOW; K_UUID; K_STRUUID; K_MD5; K_SHA1; K_SHA256; K_SHA384; K_SHA512; K_COALESCE; K_IF; K_STRLANG; K_STRLANGDIR; K_STRDT; K_sameTerm; K_isIRI; K_isURI; K_isBLANK; K_isLITERAL; K_isNUMERIC; K_hasLANG; K_hasLANGDIR; K_isTRIPLE; K_TRIPLE; K_SUBJECT; K_PREDICATE; K_OBJECT; K_REGEX; K_SUBSTR; K_REPLACE; K_EXISTS; K_COUNT; K_SUM; K_MIN; K_MAX; K_AVG; K_SAMPLE; K_GROUP_CONCAT; K_PNAME_LN] (Call K_OrderCondition)))))
    false.

(** grammar.rs:1131-1157 fn parse_LimitOffsetClauses *)
Definition parse_LimitOffsetClauses : rule :=
  mkrule K_LimitOffsetClauses None
    (Match (Arm [K_LIMIT] (Seq (Call K_LimitClause)
         (If [K_OFFSET] (Call K_OffsetClause)))
      (Arm [K_OFFSET] (Seq (Call K_OffsetClause)
         (If [K_LIMIT] (Call K_LimitClause)))
      (ArmEnd (DErr [K_LIMIT; K_OFFSET])))))
    false.

(** grammar.rs:1159-1337 fn parse_GroupCondition *)
Definition parse_GroupCondition : rule :=
  mkrule K_GroupCondition None
    (Match (Arm [K_NOT; K_STR; K_LANG; K_LANGMATCHES; K_LANGDIR; K_DATATYPE; K_BOUND; K_IRI; K_URI; K_BNODE; K_RAND; K_ABS; K_CEIL; K_FLOOR; K_ROUND; K_CONCAT; K_STRLEN; K_UCASE; K_LCASE; K_ENCODE_FOR_URI; K_CONTAINS; K_STRSTARTS; K_STRENDS; K_STRBEFORE; K_STRAFTER; K_YEAR; K_MONTH; K_DAY; K_HOURS; K_MINUTES; K_SECONDS; K_TIMEZONE; K_TZ; K_NOW; K_UUID; K_STRUUID; K_MD5; K_SHA1; K_SHA256; K_SHA384; K_SHA512; K_COALESCE; K_IF; K_STRLANG; K_STRLANGDIR; K_STRDT; K_sameTerm; K_isIRI; K_isURI; K_isBLANK; K_isLITERAL; K_isNUMERIC; K_hasLANG; K_hasLANGDIR; K_isTRIPLE; K_TRIPLE; K_SUBJECT; K_PREDICATE; K_OBJECT; K_REGEX; K_SUBSTR; K_REPLACE; K_EXISTS; K_COUNT; K_SUM; K_MIN; K_MAX; K_AVG; K_SAMPLE; K_GROUP_CONCAT] (Call K_BuiltInCall)
      (Arm [K_IRIREF; K_PNAME_NS; K_PNAME_LN] (Call K_FunctionCall)
      (Arm [K_LParen] (Seq (Expect K_LParen)
         (Seq (Call K_Expression)
         (Seq (If [K_AS] (Seq (Expect K_AS)
           (Call K_Var)))
         (Expect K_RParen))))
      (Arm [K_VAR1; K_VAR2] (Call K_Var)
      (ArmEnd (DErr [K_NOT; K_STR; K_LANG; K_LANGMATCHES; K_LANGDIR; K_DATATYPE; K_BOUND; K_IRI; K_URI; K_BNODE; K_RAND; K_ABS; K_CEIL; K_FLOOR; K_ROUND; K_CONCAT; K_STRLEN; K_UCASE; K_LCASE; K_ENCODE_FOR_URI; K_CONTAINS; K_STRSTARTS; K_STRENDS; K_STRBEFORE; K_STRAFTER; K_YEAR; K_MONTH; K_DAY; K_HOURS; K_MINUTES; K_SECONDS; K_TIMEZONE; K_TZ; K_NOW; K_UUID; K_STRUUID; K_MD5; K_SHA1; K_SHA256; K_SHA384; K_SHA512; K_COALESCE; K_IF; K_STRLANG; K_STRLANGDIR; K_STRDT; K_sameTerm; K_isIRI; K_isURI; K_isBLANK; K_isLITERAL; K_isNUMERIC; K_hasLANG; K_hasLANGDIR; K_isTRIPLE; K_TRIPLE; K_SUBJECT; K_PREDICATE; K_OBJECT; K_REGEX; K_SUBSTR; K_REPLACE; K_EXISTS; K_COUNT; K_SUM; K_MIN; K_MAX; K_AVG; K_SAMPLE; K_GROUP_CONCAT; K_IRIREF; K_PNAME_NS; K_PNAME_LN; K_LParen; K_VAR1; K_VAR2])))))))
    false.

(** grammar.rs:1339-1830 fn parse_BuiltInCall *)
Definition parse_BuiltInCall : rule :=
  mkrule K_BuiltInCall None
    (Match (Arm [K_COUNT; K_SUM; K_MIN; K_MAX; K_AVG; K_SAMPLE; K_GROUP_CONCAT] (Call K_Aggregate)
      (Arm [K_STR] (Seq (Expect K_STR)
         (Seq (Expect K_LParen)
         (Seq (Call K_Expression)
         (Expect K_RParen))))
      (Arm [K_LANG] (Seq (Expect K_LANG)
         (Seq (Expect K_LParen)
         (Seq (Call K_Expression)
         (Expect K_RParen))))
      (Arm [K_LANGMATCHES] (Seq (Expect K_LANGMATCHES)
         (Seq (Expect K_LParen)
         (Seq (Call K_Expression)
         (Seq (Expect K_Comma)
         (Seq (Call K_Expression)
         (Expect K_RParen))))))
      (Arm [K_LANGDIR] (Seq (Expect K_LANGDIR)
         (Seq (Expect K_LParen)
         (Seq (Call K_Expression)
         (Expect K_RParen))))
      (Arm [K_DATATYPE] (Seq (Expect K_DATATYPE)
         (Seq (Expect K_LParen)
         (Seq (Call K_Expression)
         (Expect K_RParen))))
      (Arm [K_BOUND] (Seq (Expect K_BOUND)
         (Seq (Expect K_LParen)
         (Seq (Call K_Var)
         (Expect K_RParen))))
      (Arm [K_IRI] (Seq (Expect K_IRI)
         (Seq (Expect K_LParen)
         (Seq (Call K_Expression)
         (Expect K_RParen))))
      (Arm [K_URI] (Seq (Expect K_URI)
         (Seq (Expect K_LParen)
         (Seq (Call K_Expression)
         (Expect K_RParen))))
      (Arm [K_BNODE] (Seq (Expect K_BNODE)
         (Match (Arm [K_LParen] (Seq (Expect K_LParen)
             (Seq (Call K_Expression)
             (Expect K_RParen)))
          (Arm [K_NIL] (Expect K_NIL)
          (ArmEnd (DErr [K_LParen; K_NIL]))))))
      (Arm [K_RAND] (Seq (Expect K_RAND)
         (Expect K_NIL))
      (Arm [K_ABS] (Seq (Expect K_ABS)
         (Seq (Expect K_LParen)
         (Seq (Call K_Expression)
         (Expect K_RParen))))
      (Arm [K_CEIL] (Seq (Expect K_CEIL)
         (Seq (Expect K_LParen)
         (Seq (Call K_Expression)
         (Expect K_RParen))))
      (Arm [K_FLOOR] (Seq (Expect K_FLOOR)
         (Seq (Expect K_LParen)
         (Seq (Call K_Expression)
         (Expect K_RParen))))
      (Arm [K_ROUND] (Seq (Expect K_ROUND)
         (Seq (Expect K_LParen)
         (Seq (Call K_Expression)
         (Expect K_RParen))))
      (Arm [K_CONCAT] (Seq (Expect K_CONCAT)
         (Call K_ExpressionList))
      (Arm [K_SUBSTR] (Call K_SubstringExpression)
      (Arm [K_STRLEN] (Seq (Expect K_STRLEN)
         (Seq (Expect K_LParen)
         (Seq (Call K_Expression)
         (Expect K_RParen))))
      (Arm [K_REPLACE] (Call K_StrReplaceExpression)
      (Arm [K_UCASE] (Seq (Expect K_UCASE)
         (Seq (Expect K_LParen)
         (Seq (Call K_Expression)
         (Expect K_RParen))))
      (Arm [K_LCASE] (Seq (Expect K_LCASE)
         (Seq (Expect K_LParen)
         (Seq (Call K_Expression)
         (Expect K_RParen))))
      (Arm [K_ENCODE_FOR_URI] (Seq (Expect K_ENCODE_FOR_URI)
         (Seq (Expect K_LParen)
         (Seq (Call K_Expression)
         (Expect K_RParen))))
      (Arm [K_CONTAINS] (Seq (Expect K_CONTAINS)
         (Seq (Expect K_LParen)
         (Seq (Call K_Expression)
         (Seq (Expect K_Comma)
         (Seq (Call K_Expression)
         (Expect K_RParen))))))
      (Arm [K_STRSTARTS] (Seq (Expect K_STRSTARTS)
         (Seq (Expect K_LParen)
         (Seq (Call K_Expression)
         (Seq (Expect K_Comma)
         (Seq (Call K_Expression)
         (Expect K_RParen))))))
      (Arm [K_STRENDS] (Seq (Expect K_STRENDS)
         (Seq (Expect K_LParen)
         (Seq (Call K_Expression)
         (Seq (Expect K_Comma)
         (Seq (Call K_Expression)
         (Expect K_RParen))))))
      (Arm [K_STRBEFORE] (Seq (Expect K_STRBEFORE)
         (Seq (Expect K_LParen)
         (Seq (Call K_Expression)
         (Seq (Expect K_Comma)
         (Seq (Call K_Expression)
         (Expect K_RParen))))))
      (Arm [K_STRAFTER] (Seq (Expect K_STRAFTER)
         (Seq (Expect K_LParen)
         (Seq (Call K_Expression)
         (Seq (Expect K_Comma)
         (Seq (Call K_Expression)
         (Expect K_RParen))))))
      (Arm [K_YEAR] (Seq (Expect K_YEAR)
         (Seq (Expect K_LParen)
         (Seq (Call K_Expression)
         (Expect K_RParen))))
      (Arm [K_MONTH] (Seq (Expect K_MONTH)
         (Seq (Expect K_LParen)
         (Seq (Call K_Expression)
         (Expect K_RParen))))
      (Arm [K_DAY] (Seq (Expect K_DAY)
         (Seq (Expect K_LParen)
         (Seq (Call K_Expression)
         (Expect K_RParen))))
      (Arm [K_HOURS] (Seq (Expect K_HOURS)
         (Seq (Expect K_LParen)
         (Seq (Call K_Expression)
         (Expect K_RParen))))
      (Arm [K_MINUTES] (Seq (Expect K_MINUTES)
         (Seq (Expect K_LParen)
         (Seq (Call K_Expression)
         (Expect K_RParen))))
      (Arm [K_SECONDS] (Seq (Expect K_SECONDS)
         (Seq (Expect K_LParen)
         (Seq (Call K_Expression)
         (Expect K_RParen))))
      (Arm [K_TIMEZONE] (Seq (Expect K_TIMEZONE)
         (Seq (Expect K_LParen)
         (Seq (Call K_Expression)
         (Expect K_RParen))))
      (Arm [K_TZ] (Seq (Expect K_TZ)
         (Seq (Expect K_LParen)
         (Seq (Call K_Expression)
         (Expect K_RParen))))
      (Arm [K_NOW] (Seq (Expect K_NOW)
         (Expect K_NIL))
      (Arm [K_UUID] (Seq (Expect K_UUID)
         (Expect K_NIL))
      (Arm [K_STRUUID] (Seq (Expect K_STRUUID)
         (Expect K_NIL))
      (Arm [K_MD5] (Seq (Expect K_MD5)
         (Seq (Expect K_LParen)
         (Seq (Call K_Expression)
         (Expect K_RParen))))
      (Arm [K_SHA1] (Seq (Expect K_SHA1)
         (Seq (Expect K_LParen)
         (Seq (Call K_Expression)
         (Expect K_RParen))))
      (Arm [K_SHA256] (Seq (Expect K_SHA256)
         (Seq (Expect K_LParen)
         (Seq (Call K_Expression)
         (Expect K_RParen))))
      (Arm [K_SHA384] (Seq (Expect K_SHA384)
         (Seq (Expect K_LParen)
         (Seq (Call K_Expression)
         (Expect K_RParen))))
      (Arm [K_SHA512] (Seq (Expect K_SHA512)
         (Seq (Expect K_LParen)
         (Seq (Call K_Expression)
         (Expect K_RParen))))
      (Arm [K_COALESCE] (Seq (Expect K_COALESCE)
         (Call K_ExpressionList))
      (Arm [K_IF] (Seq (Expect K_IF)
         (Seq (Expect K_LParen)
         (Seq (Call K_Expression)
         (Seq (Expect K_Comma)
         (Seq (Call K_Expression)
         (Seq (Expect K_Comma)
         (Seq (Call K_Expression)
         (Expect K_RParen))))))))
      (Arm [K_STRLANG] (Seq (Expect K_STRLANG)
         (Seq (Expect K_LParen)
         (Seq (Call K_Expression)
         (Seq (Expect K_Comma)
         (Seq (Call K_Expression)
         (Expect K_RParen))))))
      (Arm [K_STRLANGDIR] (Seq (Expect K_STRLANGDIR)
         (Seq (Expect K_LParen)
         (Seq (Call K_Expression)
         (Seq (Expect K_Comma)
         (Seq (Call K_Expression)
         (Seq (Expect K_Comma)
         (Seq (Call K_Expression)
         (Expect K_RParen))))))))
      (Arm [K_STRDT] (Seq (Expect K_STRDT)
         (Seq (Expect K_LParen)
         (Seq (Call K_Expression)
         (Seq (Expect K_Comma)
         (Seq (Call K_Expression)
         (Expect K_RParen))))))
      (Arm [K_sameTerm] (Seq (Expect K_sameTerm)
         (Seq (Expect K_LParen)
         (Seq (Call K_Expression)
         (Seq (Expect K_Comma)
         (Seq (Call K_Expression)
         (Expect K_RParen))))))
      (Arm [K_isIRI] (Seq (Expect K_isIRI)
         (Seq (Expect K_LParen)
         (Seq (Call K_Expression)
         (Expect K_RParen))))
      (Arm [K_isURI] (Seq (Expect K_isURI)
         (Seq (Expect K_LParen)
         (Seq (Call K_Expression)
         (Expect K_RParen))))
      (Arm [K_isBLANK] (Seq (Expect K_isBLANK)
         (Seq (Expect K_LParen)
         (Seq (Call K_Expression)
         (Expect K_RParen))))
      (Arm [K_isLITERAL] (Seq (Expect K_isLITERAL)
         (Seq (Expect K_LParen)
         (Seq (Call K_Expression)
         (Expect K_RParen))))
      (Arm [K_isNUMERIC] (Seq (Expect K_isNUMERIC)
         (Seq (Expect K_LParen)
         (Seq (Call K_Expression)
         (Expect K_RParen))))
      (Arm [K_hasLANG] (Seq (Expect K_hasLANG)
         (Seq (Expect K_LParen)
         (Seq (Call K_Expression)
         (Expect K_RParen))))
      (Arm [K_hasLANGDIR] (Seq (Expect K_hasLANGDIR)
         (Seq (Expect K_LParen)
         (Seq (Call K_Expression)
         (Expect K_RParen))))
      (Arm [K_REGEX] (Call K_RegexExpression)
      (Arm [K_EXISTS] (Call K_ExistsFunc)
      (Arm [K_NOT] (Call K_NotExistsFunc)
      (Arm [K_isTRIPLE] (Seq (Expect K_isTRIPLE)
         (Seq (Expect K_LParen)
         (Seq (Call K_Expression)
         (Expect K_RParen))))
      (Arm [K_TRIPLE] (Seq (Expect K_TRIPLE)
         (Seq (Expect K_LParen)
         (Seq (Call K_Expression)
         (Seq (Expect K_Comma)
         (Seq (Call K_Expression)
         (Seq (Expect K_Comma)
         (Seq (Call K_Expression)
         (Expect K_RParen))))))))
      (Arm [K_SUBJECT] (Seq (Expect K_SUBJECT)
         (Seq (Expect K_LParen)
         (Seq (Call K_Expression)
         (Expect K_RParen))))
      (Arm [K_PREDICATE] (Seq (Expect K_PREDICATE)
         (Seq (Expect K_LParen)
         (Seq (Call K_Expression)
         (Expect K_RParen))))
      (Arm [K_OBJECT] (Seq (Expect K_OBJECT)
         (Seq (Expect K_LParen)
         (Seq (Call K_Expression)
         (Expect K_RParen))))
      (ArmEnd (DErr [K_COUNT; K_SUM; K_MIN; K_MAX; K_AVG; K_SAMPLE; K_GROUP_CONCAT; K_STR; K_LANG; K_LANGMATCHES; K_LANGDIR; K_DATATYPE; K_BOUND; K_IRI; K_URI; K_BNODE; K_RAND; K_ABS; K_CEIL; K_FLOOR; K_ROUND; K_CONCAT; K_SUBSTR; K_STRLEN; K_REPLACE; K_UCASE; K_LCASE; K_ENCODE_FOR_URI; K_CONTAINS; K_STRSTARTS; K_STRENDS; K_STRBEFORE; K_STRAFTER; K_YEAR; K_MONTH; K_DAY; K_HOURS; K_MINUTES; K_SECONDS; K_TIMEZONE; K_TZ; K_NOW; K_UUID; K_STRUUID; K_MD5; K_SHA1; K_SHA256; K_SHA384; K_SHA512; K_COALESCE; K_IF; K_STRLANG; K_STRLANGDIR; K_STRDT; K_sameTerm; K_isIRI; K_isURI; K_isBLANK; K_isLITERAL; K_isNUMERIC; K_hasLANG; K_hasLANGDIR; K_REGEX; K_EXISTS; K_NOT; K_isTRIPLE; K_TRIPLE; K_SUBJECT; K_PREDICATE; K_OBJECT])))))))))))))))))))))))))))))))))))))))))))))))))))))))))))))))))))
    false.

(** grammar.rs:1832-1837 fn parse_FunctionCall *)
Definition parse_FunctionCall : rule :=
  mkrule K_FunctionCall None
    (Seq (Call K_iri)
     (Call K_ArgList))
    false.

(** grammar.rs:1839-1843 fn parse_HavingCondition *)
Definition parse_HavingCondition : rule :=
  mkrule K_HavingCondition None
    (Call K_Constraint)
    false.

(** grammar.rs:1845-2012 fn parse_Constraint *)
Definition parse_Constraint : rule :=
  mkrule K_Constraint None
    (Match (Arm [K_LParen] (Call K_BrackettedExpression)
      (Arm [K_NOT; K_STR; K_LANG; K_LANGMATCHES; K_LANGDIR; K_DATATYPE; K_BOUND; K_IRI; K_URI; K_BNODE; K_RAND; K_ABS; K_CEIL; K_FLOOR; K_ROUND; K_CONCAT; K_STRLEN; K_UCASE; K_LCASE; K_ENCODE_FOR_URI; K_CONTAINS; K_STRSTARTS; K_STRENDS; K_STRBEFORE; K_STRAFTER; K_YEAR; K_MONTH; K_DAY; K_HOURS; K_MINUTES; K_SECONDS; K_TIMEZONE; K_TZ; K_NOW; K_UUID; K_STRUUID; K_MD5; K_SHA1; K_SHA256; K_SHA384; K_SHA512; K_COALESCE; K_IF; K_STRLANG; K_STRLANGDIR; K_STRDT; K_sameTerm; K_isIRI; K_isURI; K_isBLANK; K_isLITERAL; K_isNUMERIC; K_hasLANG; K_hasLANGDIR; K_isTRIPLE; K_TRIPLE; K_SUBJECT; K_PREDICATE; K_OBJECT; K_REGEX; K_SUBSTR; K_REPLACE; K_EXISTS; K_COUNT; K_SUM; K_MIN; K_MAX; K_AVG; K_SAMPLE; K_GROUP_CONCAT] (Call K_BuiltInCall)
      (Arm [K_IRIREF; K_PNAME_NS; K_PNAME_LN] (Call K_FunctionCall)
      (ArmEnd (DErr [K_LParen; K_NOT; K_STR; K_LANG; K_LANGMATCHES; K_LANGDIR; K_DATATYPE; K_BOUND; K_IRI; K_URI; K_BNODE; K_RAND; K_ABS; K_CEIL; K_FLOOR; K_ROUND; K_CONCAT; K_STRLEN; K_UCASE; K_LCASE; K_ENCODE_FOR_URI; K_CONTAINS; K_STRSTARTS; K_STRENDS; K_STRBEFORE; K_STRAFTER; K_YEAR; K_MONTH; K_DAY; K_HOURS; K_MINUTES; K_SECONDS; K_TIMEZONE; K_TZ; K_NOW; K_UUID; K_STRUUID; K_MD5; K_SHA1; K_SHA256; K_SHA384; K_SHA512; K_COALESCE; K_IF; K_STRLANG; K_STRLANGDIR; K_STRDT; K_sameTerm; K_isIRI; K_isURI; K_isBLANK; K_isLITERAL; K_isNUMERIC; K_hasLANG; K_hasLANGDIR; K_isTRIPLE; K_TRIPLE; K_SUBJECT; K_PREDICATE; K_OBJECT; K_REGEX; K_SUBSTR; K_REPLACE; K_EXISTS; K_COUNT; K_SUM; K_MIN; K_MAX; K_AVG; K_SAMPLE; K_GROUP_CONCAT; K_IRIREF; K_PNAME_NS; K_PNAME_LN]))))))
    false.

(** grammar.rs:2014-2371 fn parse_OrderCondition *)
Definition parse_OrderCondition : rule :=
  mkrule K_OrderCondition None
    (Match (Arm [K_ASC; K_DESC] (Seq (Match (Arm [K_ASC] (Expect K_ASC)
          (Arm [K_DESC] (Expect K_DESC)
          (ArmEnd (DErr [K_ASC; K_DESC])))))
         (Call K_BrackettedExpression))
      (Arm [K_IRIREF; K_PNAME_NS; K_LParen; K_VAR1; K_VAR2; K_NOT; K_STR; K_LANG; K_LANGMATCHES; K_LANGDIR; K_DATATYPE; K_BOUND; K_IRI; K_URI; K_BNODE; K_RAND; K_ABS; K_CEIL; K_FLOOR; K_ROUND; K_CONCAT; K_STRLEN; K_UCASE; K_LCASE; K_ENCODE_FOR_URI; K_CONTAINS; K_STRSTARTS; K_STRENDS; K_STRBEFORE; K_STRAFTER; K_YEAR; K_MONTH; K_DAY; K_HOURS; K_MINUTES; K_SECONDS; K_TIMEZONE; K_TZ; K_NOW; K_UUID; K_STRUUID; K_MD5; K_SHA1; K_SHA256; K_SHA384; K_SHA512; K_COALESCE; K_IF; K_STRLANG; K_STRLANGDIR; K_STRDT; K_sameTerm; K_isIRI; K_isURI; K_isBLANK; K_isLITERAL; K_isNUMERIC; K_hasLANG; K_hasLANGDIR; K_isTRIPLE; K_TRIPLE; K_SUBJECT; K_PREDICATE; K_OBJECT; K_REGEX; K_SUBSTR; K_REPLACE; K_EXISTS; K_COUNT; K_SUM; K_MIN; K_MAX; K_AVG; K_SAMPLE; K_GROUP_CONCAT; K_PNAME_LN] (Match (Arm [K_IRIREF; K_PNAME_NS; K_LParen; K_NOT; K_STR; K_LANG; K_LANGMATCHES; K_LANGDIR; K_DATATYPE; K_BOUND; K_IRI; K_URI; K_BNODE; K_RAND; K_ABS; K_CEIL; K_FLOOR; K_ROUND; K_CONCAT; K_STRLEN; K_UCASE; K_LCASE; K_ENCODE_FOR_URI; K_CONTAINS; K_STRSTARTS; K_STRENDS; K_STRBEFORE; K_STRAFTER; K_YEAR; K_MONTH; K_DAY; K_HOURS; K_MINUTES; K_SECONDS; K_TIMEZONE; K_TZ; K_NOW; K_UUID; K_STRUUID; K_MD5; K_SHA1; K_SHA256; K_SHA384; K_SHA512; K_COALESCE; K_IF; K_STRLANG; K_STRLANGDIR; K_STRDT; K_sameTerm; K_isIRI; K_isURI; K_isBLANK; K_isLITERAL; K_isNUMERIC; K_hasLANG; K_hasLANGDIR; K_isTRIPLE; K_TRIPLE; K_SUBJECT; K_PREDICATE; K_OBJECT; K_REGEX; K_SUBSTR; K_REPLACE; K_EXISTS; K_COUNT; K_SUM; K_MIN; K_MAX; K_AVG; K_SAMPLE; K_GROUP_CONCAT; K_PNAME_LN] (Call K_Constraint)
          (Arm [K_VAR1; K_VAR2] (Call K_Var)
          (ArmEnd (DErr [K_IRIREF; K_PNAME_NS; K_LParen; K_NOT; K_STR; K_LANG; K_LANGMATCHES; K_LANGDIR; K_DATATYPE; K_BOUND; K_IRI; K_URI; K_BNODE; K_RAND; K_ABS; K_CEIL; K_FLOOR; K_ROUND; K_CONCAT; K_STRLEN; K_UCASE; K_LCASE; K_ENCODE_FOR_URI; K_CONTAINS; K_STRSTARTS; K_STRENDS; K_STRBEFORE; K_STRAFTER; K_YEAR; K_MONTH; K_DAY; K_HOURS; K_MINUTES; K_SECONDS; K_TIMEZONE; K_TZ; K_NOW; K_UUID; K_STRUUID; K_MD5; K_SHA1; K_SHA256; K_SHA384; K_SHA512; K_COALESCE; K_IF; K_STRLANG; K_STRLANGDIR; K_STRDT; K_sameTerm; K_isIRI; K_isURI; K_isBLANK; K_isLITERAL; K_isNUMERIC; K_hasLANG; K_hasLANGDIR; K_isTRIPLE; K_TRIPLE; K_SUBJECT; K_PREDICATE; K_OBJECT; K_REGEX; K_SUBSTR; K_REPLACE; K_EXISTS; K_COUNT; K_SUM; K_MIN; K_MAX; K_AVG; K_SAMPLE; K_GROUP_CONCAT; K_PNAME_LN; K_VAR1; K_VAR2])))))
      (ArmEnd (DErr [K_ASC; K_DESC; K_IRIREF; K_PNAME_NS; K_LParen; K_VAR1; K_VAR2; K_NOT; K_STR; K_LANG; K_LANGMATCHES; K_LANGDIR; K_DATATYPE; K_BOUND; K_IRI; K_URI; K_BNODE; K_RAND; K_ABS; K_CEIL; K_FLOOR; K_ROUND; K_CONCAT; K_STRLEN; K_UCASE; K_LCASE; K_ENCODE_FOR_URI; K_CONTAINS; K_STRSTARTS; K_STRENDS; K_STRBEFORE; K_STRAFTER; K_YEAR; K_MONTH; K_DAY; K_HOURS; K_MINUTES; K_SECONDS; K_TIMEZONE; K_TZ; K_NOW; K_UUID; K_STRUUID; K_MD5; K_SHA1; K_SHA256; K_SHA384; K_SHA512; K_COALESCE; K_IF; K_STRLANG; K_STRLANGDIR; K_STRDT; K_sameTerm; K_isIRI; K_isURI; K_isBLANK; K_isLITERAL; K_isNUMERIC; K_hasLANG; K_hasLANGDIR; K_isTRIPLE; K_TRIPLE; K_SUBJECT; K_PREDICATE; K_OBJECT; K_REGEX; K_SUBSTR; K_REPLACE; K_EXISTS; K_COUNT; K_SUM; K_MIN; K_MAX; K_AVG; K_SAMPLE; K_GROUP_CONCAT; K_PNAME_LN])))))
    false.

(** grammar.rs:2373-2379 fn parse_BrackettedExpression *)
Definition parse_BrackettedExpression : rule :=
  mkrule K_BrackettedExpression None
    (Seq (Expect K_LParen)
     (Seq (Call K_Expression)
     (Expect K_RParen)))
    false.

(** grammar.rs:2381-2386 fn parse_LimitClause *)
Definition parse_LimitClause : rule :=
  mkrule K_LimitClause None
    (Seq (Expect K_LIMIT)
     (Expect K_INTEGER))
    false.

(** grammar.rs:2388-2393 fn parse_OffsetClause *)
Definition parse_OffsetClause : rule :=
  mkrule K_OffsetClause None
    (Seq (Expect K_OFFSET)
     (Expect K_INTEGER))
    false.

(** grammar.rs:2395-2420 fn parse_DataBlock *)
Definition parse_DataBlock : rule :=
  mkrule K_DataBlock None
    (Match (Arm [K_VAR1; K_VAR2] (Call K_InlineDataOneVar)
      (Arm [K_LParen; K_NIL] (Call K_InlineDataFull)
      (ArmEnd (DErr [K_VAR1; K_VAR2; K_LParen; K_NIL])))))
    false.

(** grammar.rs:2422-2483 fn parse_UpdateOne *)
Definition parse_UpdateOne : rule :=
  mkrule K_UpdateOne None
    (Match (Arm [K_LOAD] (Call K_Load)
      (Arm [K_CLEAR] (Call K_Clear)
      (Arm [K_DROP] (Call K_Drop)
      (Arm [K_ADD] (Call K_Add)
      (Arm [K_MOVE] (Call K_Move)
      (Arm [K_COPY] (Call K_Copy)
      (Arm [K_CREATE] (Call K_Create)
      (Arm [K_DELETE_WHERE] (Call K_DeleteWhere)
      (Arm [K_WITH; K_DELETE; K_INSERT] (Call K_Modify)
      (Arm [K_INSERT_DATA] (Call K_InsertData)
      (Arm [K_DELETE_DATA] (Call K_DeleteData)
      (ArmEnd (DErr [K_LOAD; K_CLEAR; K_DROP; K_ADD; K_MOVE; K_COPY; K_CREATE; K_DELETE_WHERE; K_WITH; K_DELETE; K_INSERT; K_INSERT_DATA; K_DELETE_DATA]))))))))))))))
    false.

(** grammar.rs:2485-2497 fn parse_Load *)
Definition parse_Load : rule :=
  mkrule K_Load None
    (Seq (Expect K_LOAD)
     (Seq (If [K_SILENT] (Expect K_SILENT))
     (Seq (Call K_iri)
     (If [K_INTO] (Seq (Expect K_INTO)
       (Call K_GraphRef))))))
    false.

(** grammar.rs:2499-2507 fn parse_Clear *)
Definition parse_Clear : rule :=
  mkrule K_Clear None
    (Seq (Expect K_CLEAR)
     (Seq (If [K_SILENT] (Expect K_SILENT))
     (Call K_GraphRefAll)))
    false.

(** grammar.rs:2509-2517 fn parse_Drop *)
Definition parse_Drop : rule :=
  mkrule K_Drop None
    (Seq (Expect K_DROP)
     (Seq (If [K_SILENT] (Expect K_SILENT))
     (Call K_GraphRefAll)))
    false.

(** grammar.rs:2519-2529 fn parse_Add *)
Definition parse_Add : rule :=
  mkrule K_Add None
    (Seq (Expect K_ADD)
     (Seq (If [K_SILENT] (Expect K_SILENT))
     (Seq (Call K_GraphOrDefault)
     (Seq (Expect K_TO)
     (Call K_GraphOrDefault)))))
    false.

(** grammar.rs:2531-2541 fn parse_Move *)
Definition parse_Move : rule :=
  mkrule K_Move None
    (Seq (Expect K_MOVE)
     (Seq (If [K_SILENT] (Expect K_SILENT))
     (Seq (Call K_GraphOrDefault)
     (Seq (Expect K_TO)
     (Call K_GraphOrDefault)))))
    false.

(** grammar.rs:2543-2553 fn parse_Copy *)
Definition parse_Copy : rule :=
  mkrule K_Copy None
    (Seq (Expect K_COPY)
     (Seq (If [K_SILENT] (Expect K_SILENT))
     (Seq (Call K_GraphOrDefault)
     (Seq (Expect K_TO)
     (Call K_GraphOrDefault)))))
    false.

(** grammar.rs:2555-2563 fn parse_Create *)
Definition parse_Create : rule :=
  mkrule K_Create None
    (Seq (Expect K_CREATE)
     (Seq (If [K_SILENT] (Expect K_SILENT))
     (Call K_GraphRef)))
    false.

(** grammar.rs:2565-2570 fn parse_DeleteWhere *)
Definition parse_DeleteWhere : rule :=
  mkrule K_DeleteWhere None
    (Seq (Expect K_DELETE_WHERE)
     (Call K_QuadPattern))
    false.

(** grammar.rs:2572-2608 fn parse_Modify *)
Definition parse_Modify : rule :=
  mkrule K_Modify None
    (Seq (If [K_WITH] (Seq (Expect K_WITH)
       (Call K_iri)))
     (Seq (Match (Arm [K_DELETE] (Seq (Call K_DeleteClause)
         (If [K_INSERT] (Call K_InsertClause)))
      (Arm [K_INSERT] (Call K_InsertClause)
      (ArmEnd (DErr [K_DELETE; K_INSERT])))))
     (Seq (While [K_USING] (Call K_UsingClause))
     (Seq (Expect K_WHERE)
     (Call K_GroupGraphPattern)))))
    false.

(** grammar.rs:2610-2615 fn parse_InsertData *)
Definition parse_InsertData : rule :=
  mkrule K_InsertData None
    (Seq (Expect K_INSERT_DATA)
     (Call K_QuadData))
    false.

(** grammar.rs:2617-2622 fn parse_DeleteData *)
Definition parse_DeleteData : rule :=
  mkrule K_DeleteData None
    (Seq (Expect K_DELETE_DATA)
     (Call K_QuadData))
    false.

(** grammar.rs:2624-2629 fn parse_GraphRef *)
Definition parse_GraphRef : rule :=
  mkrule K_GraphRef None
    (Seq (Expect K_GRAPH)
     (Call K_iri))
    false.

(** grammar.rs:2631-2662 fn parse_GraphRefAll *)
Definition parse_GraphRefAll : rule :=
  mkrule K_GraphRefAll None
    (Match (Arm [K_GRAPH] (Call K_GraphRef)
      (Arm [K_DEFAULT] (Expect K_DEFAULT)
      (Arm [K_NAMED] (Expect K_NAMED)
      (Arm [K_ALL] (Expect K_ALL)
      (ArmEnd (DErr [K_GRAPH; K_DEFAULT; K_NAMED; K_ALL])))))))
    false.

(** grammar.rs:2664-2693 fn parse_GraphOrDefault *)
Definition parse_GraphOrDefault : rule :=
  mkrule K_GraphOrDefault None
    (Match (Arm [K_DEFAULT] (Expect K_DEFAULT)
      (Arm [K_IRIREF; K_PNAME_NS; K_GRAPH; K_PNAME_LN] (Seq (If [K_GRAPH] (Expect K_GRAPH))
         (Call K_iri))
      (ArmEnd (DErr [K_DEFAULT; K_IRIREF; K_PNAME_NS; K_GRAPH; K_PNAME_LN])))))
    false.

(** grammar.rs:2695-2701 fn parse_QuadData *)
Definition parse_QuadData : rule :=
  mkrule K_QuadData None
    (Seq (Expect K_LCurly)
     (Seq (Call K_Quads)
     (Expect K_RCurly)))
    false.

(** grammar.rs:2703-2709 fn parse_QuadPattern *)
Definition parse_QuadPattern : rule :=
  mkrule K_QuadPattern None
    (Seq (Expect K_LCurly)
     (Seq (Call K_Quads)
     (Expect K_RCurly)))
    false.

(** grammar.rs:2711-2716 fn parse_DeleteClause *)
Definition parse_DeleteClause : rule :=
  mkrule K_DeleteClause None
    (Seq (Expect K_DELETE)
     (Call K_QuadPattern))
    false.

(** grammar.rs:2718-2723 fn parse_InsertClause *)
Definition parse_InsertClause : rule :=
  mkrule K_InsertClause None
    (Seq (Expect K_INSERT)
     (Call K_QuadPattern))
    false.

(** grammar.rs:2725-2752 fn parse_UsingClause *)
Definition parse_UsingClause : rule :=
  mkrule K_UsingClause None
    (Seq (Expect K_USING)
     (Match (Arm [K_IRIREF; K_PNAME_NS; K_PNAME_LN] (Call K_iri)
      (Arm [K_NAMED] (Seq (Expect K_NAMED)
         (Call K_iri))
      (ArmEnd (DErr [K_IRIREF; K_PNAME_NS; K_PNAME_LN; K_NAMED]))))))
    false.

(** grammar.rs:2754-2861 fn parse_Quads *)
Definition parse_Quads : rule :=
  mkrule K_Quads (Some [K_IRIREF; K_PNAME_NS; K_STRING_LITERAL1; K_STRING_LITERAL2; K_LParen; K_INTEGER; K_GRAPH; K_NIL; K_LBrack; K_DoubleLess; K_DoubleLessLParen; K_VAR1; K_VAR2; K_DECIMAL; K_DOUBLE; K_INTEGER_POSITIVE; K_DECIMAL_POSITIVE; K_DOUBLE_POSITIVE; K_INTEGER_NEGATIVE; K_DECIMAL_NEGATIVE; K_DOUBLE_NEGATIVE; K_True; K_False; K_STRING_LITERAL_LONG1; K_STRING_LITERAL_LONG2; K_PNAME_LN; K_BLANK_NODE_LABEL; K_ANON])
    (Seq (If [K_IRIREF; K_PNAME_NS; K_STRING_LITERAL1; K_STRING_LITERAL2; K_LParen; K_INTEGER; K_NIL; K_LBrack; K_DoubleLess; K_DoubleLessLParen; K_VAR1; K_VAR2; K_DECIMAL; K_DOUBLE; K_INTEGER_POSITIVE; K_DECIMAL_POSITIVE; K_DOUBLE_POSITIVE; K_INTEGER_NEGATIVE; K_DECIMAL_NEGATIVE; K_DOUBLE_NEGATIVE; K_True; K_False; K_STRING_LITERAL_LONG1; K_STRING_LITERAL_LONG2; K_PNAME_LN; K_BLANK_NODE_LABEL; K_ANON] (Call K_TriplesTemplate))
     (While [K_GRAPH] (Seq (Call K_QuadsNotTriples)
       (Seq (If [K_Dot] (Expect K_Dot))
       (If [K_IRIREF; K_PNAME_NS; K_STRING_LITERAL1; K_STRING_LITERAL2; K_LParen; K_INTEGER; K_NIL; K_LBrack; K_DoubleLess; K_DoubleLessLParen; K_VAR1; K_VAR2; K_DECIMAL; K_DOUBLE; K_INTEGER_POSITIVE; K_DECIMAL_POSITIVE; K_DOUBLE_POSITIVE; K_INTEGER_NEGATIVE; K_DECIMAL_NEGATIVE; K_DOUBLE_NEGATIVE; K_True; K_False; K_STRING_LITERAL_LONG1; K_STRING_LITERAL_LONG2; K_PNAME_LN; K_BLANK_NODE_LABEL; K_ANON] (Call K_TriplesTemplate))))))
    false.

(** grammar.rs:2863-2901 fn parse_QuadsNotTriples *)
Definition parse_QuadsNotTriples : rule :=
  mkrule K_QuadsNotTriples None
    (Seq (Expect K_GRAPH)
     (Seq (Call K_VarOrIri)
     (Seq (Expect K_LCurly)
     (Seq (If [K_IRIREF; K_PNAME_NS; K_STRING_LITERAL1; K_STRING_LITERAL2; K_LParen; K_INTEGER; K_NIL; K_LBrack; K_DoubleLess; K_DoubleLessLParen; K_VAR1; K_VAR2; K_DECIMAL; K_DOUBLE; K_INTEGER_POSITIVE; K_DECIMAL_POSITIVE; K_DOUBLE_POSITIVE; K_INTEGER_NEGATIVE; K_DECIMAL_NEGATIVE; K_DOUBLE_NEGATIVE; K_True; K_False; K_STRING_LITERAL_LONG1; K_STRING_LITERAL_LONG2; K_PNAME_LN; K_BLANK_NODE_LABEL; K_ANON] (Call K_TriplesTemplate))
     (Expect K_RCurly)))))
    false.

(** grammar.rs:2903-2979 fn parse_TriplesSameSubject *)
Definition parse_TriplesSameSubject : rule :=
  mkrule K_TriplesSameSubject None
    (Match (Arm [K_IRIREF; K_PNAME_NS; K_STRING_LITERAL1; K_STRING_LITERAL2; K_INTEGER; K_NIL; K_DoubleLessLParen; K_VAR1; K_VAR2; K_DECIMAL; K_DOUBLE; K_INTEGER_POSITIVE; K_DECIMAL_POSITIVE; K_DOUBLE_POSITIVE; K_INTEGER_NEGATIVE; K_DECIMAL_NEGATIVE; K_DOUBLE_NEGATIVE; K_True; K_False; K_STRING_LITERAL_LONG1; K_STRING_LITERAL_LONG2; K_PNAME_LN; K_BLANK_NODE_LABEL; K_ANON] (Seq (Call K_VarOrTerm)
         (Call K_PropertyListNotEmpty))
      (Arm [K_LParen; K_LBrack] (Seq (Call K_TriplesNode)
         (Call K_PropertyList))
      (Arm [K_DoubleLess] (Call K_ReifiedTripleBlock)
      (ArmEnd (DErr [K_IRIREF; K_PNAME_NS; K_STRING_LITERAL1; K_STRING_LITERAL2; K_INTEGER; K_NIL; K_DoubleLessLParen; K_VAR1; K_VAR2; K_DECIMAL; K_DOUBLE; K_INTEGER_POSITIVE; K_DECIMAL_POSITIVE; K_DOUBLE_POSITIVE; K_INTEGER_NEGATIVE; K_DECIMAL_NEGATIVE; K_DOUBLE_NEGATIVE; K_True; K_False; K_STRING_LITERAL_LONG1; K_STRING_LITERAL_LONG2; K_PNAME_LN; K_BLANK_NODE_LABEL; K_ANON; K_LParen; K_LBrack; K_DoubleLess]))))))
    false.

(** grammar.rs:2981-3106 fn parse_GroupGraphPatternSub *)
Definition parse_GroupGraphPatternSub : rule :=
  mkrule K_GroupGraphPatternSub (Some [K_IRIREF; K_PNAME_NS; K_STRING_LITERAL1; K_STRING_LITERAL2; K_LParen; K_LCurly; K_INTEGER; K_VALUES; K_GRAPH; K_OPTIONAL; K_SERVICE; K_BIND; K_NIL; K_MINUS; K_FILTER; K_LBrack; K_DoubleLess; K_DoubleLessLParen; K_VAR1; K_VAR2; K_DECIMAL; K_DOUBLE; K_INTEGER_POSITIVE; K_DECIMAL_POSITIVE; K_DOUBLE_POSITIVE; K_INTEGER_NEGATIVE; K_DECIMAL_NEGATIVE; K_DOUBLE_NEGATIVE; K_True; K_False; K_STRING_LITERAL_LONG1; K_STRING_LITERAL_LONG2; K_PNAME_LN; K_BLANK_NODE_LABEL; K_ANON])
    (Seq (If [K_IRIREF; K_PNAME_NS; K_STRING_LITERAL1; K_STRING_LITERAL2; K_LParen; K_INTEGER; K_NIL; K_LBrack; K_DoubleLess; K_DoubleLessLParen; K_VAR1; K_VAR2; K_DECIMAL; K_DOUBLE; K_INTEGER_POSITIVE; K_DECIMAL_POSITIVE; K_DOUBLE_POSITIVE; K_INTEGER_NEGATIVE; K_DECIMAL_NEGATIVE; K_DOUBLE_NEGATIVE; K_True; K_False; K_STRING_LITERAL_LONG1; K_STRING_LITERAL_LONG2; K_PNAME_LN; K_BLANK_NODE_LABEL; K_ANON] (Call K_TriplesBlock))
     (While [K_LCurly; K_VALUES; K_GRAPH; K_OPTIONAL; K_SERVICE; K_BIND; K_MINUS; K_FILTER] (Seq (Call K_GraphPatternNotTriples)
       (Seq (If [K_Dot] (Expect K_Dot))
       (If [K_IRIREF; K_PNAME_NS; K_STRING_LITERAL1; K_STRING_LITERAL2; K_LParen; K_INTEGER; K_NIL; K_LBrack; K_DoubleLess; K_DoubleLessLParen; K_VAR1; K_VAR2; K_DECIMAL; K_DOUBLE; K_INTEGER_POSITIVE; K_DECIMAL_POSITIVE; K_DOUBLE_POSITIVE; K_INTEGER_NEGATIVE; K_DECIMAL_NEGATIVE; K_DOUBLE_NEGATIVE; K_True; K_False; K_STRING_LITERAL_LONG1; K_STRING_LITERAL_LONG2; K_PNAME_LN; K_BLANK_NODE_LABEL; K_ANON] (Call K_TriplesBlock))))))
    false.

(** grammar.rs:3108-3146 fn parse_TriplesBlock *)
Definition parse_TriplesBlock : rule :=
  mkrule K_TriplesBlock None
    (Seq (Call K_TriplesSameSubjectPath)
     (If [K_Dot] (Seq (Expect K_Dot)
       (If [K_IRIREF; K_PNAME_NS; K_STRING_LITERAL1; K_STRING_LITERAL2; K_LParen; K_INTEGER; K_NIL; K_LBrack; K_DoubleLess; K_DoubleLessLParen; K_VAR1; K_VAR2; K_DECIMAL; K_DOUBLE; K_INTEGER_POSITIVE; K_DECIMAL_POSITIVE; K_DOUBLE_POSITIVE; K_INTEGER_NEGATIVE; K_DECIMAL_NEGATIVE; K_DOUBLE_NEGATIVE; K_True; K_False; K_STRING_LITERAL_LONG1; K_STRING_LITERAL_LONG2; K_PNAME_LN; K_BLANK_NODE_LABEL; K_ANON] (Call K_TriplesBlock)))))
    false.

(** grammar.rs:3148-3195 fn parse_GraphPatternNotTriples *)
Definition parse_GraphPatternNotTriples : rule :=
  mkrule K_GraphPatternNotTriples None
    (Match (Arm [K_LCurly] (Call K_GroupOrUnionGraphPattern)
      (Arm [K_OPTIONAL] (Call K_OptionalGraphPattern)
      (Arm [K_MINUS] (Call K_MinusGraphPattern)
      (Arm [K_GRAPH] (Call K_GraphGraphPattern)
      (Arm [K_SERVICE] (Call K_ServiceGraphPattern)
      (Arm [K_FILTER] (Call K_Filter)
      (Arm [K_BIND] (Call K_Bind)
      (Arm [K_VALUES] (Call K_InlineData)
      (ArmEnd (DErr [K_LCurly; K_OPTIONAL; K_MINUS; K_GRAPH; K_SERVICE; K_FILTER; K_BIND; K_VALUES])))))))))))
    false.

(** grammar.rs:3197-3273 fn parse_TriplesSameSubjectPath *)
Definition parse_TriplesSameSubjectPath : rule :=
  mkrule K_TriplesSameSubjectPath None
    (Match (Arm [K_IRIREF; K_PNAME_NS; K_STRING_LITERAL1; K_STRING_LITERAL2; K_INTEGER; K_NIL; K_DoubleLessLParen; K_VAR1; K_VAR2; K_DECIMAL; K_DOUBLE; K_INTEGER_POSITIVE; K_DECIMAL_POSITIVE; K_DOUBLE_POSITIVE; K_INTEGER_NEGATIVE; K_DECIMAL_NEGATIVE; K_DOUBLE_NEGATIVE; K_True; K_False; K_STRING_LITERAL_LONG1; K_STRING_LITERAL_LONG2; K_PNAME_LN; K_BLANK_NODE_LABEL; K_ANON] (Seq (Call K_VarOrTerm)
         (Call K_PropertyListPathNotEmpty))
      (Arm [K_LParen; K_LBrack] (Seq (Call K_TriplesNodePath)
         (Call K_PropertyListPath))
      (Arm [K_DoubleLess] (Call K_ReifiedTripleBlockPath)
      (ArmEnd (DErr [K_IRIREF; K_PNAME_NS; K_STRING_LITERAL1; K_STRING_LITERAL2; K_INTEGER; K_NIL; K_DoubleLessLParen; K_VAR1; K_VAR2; K_DECIMAL; K_DOUBLE; K_INTEGER_POSITIVE; K_DECIMAL_POSITIVE; K_DOUBLE_POSITIVE; K_INTEGER_NEGATIVE; K_DECIMAL_NEGATIVE; K_DOUBLE_NEGATIVE; K_True; K_False; K_STRING_LITERAL_LONG1; K_STRING_LITERAL_LONG2; K_PNAME_LN; K_BLANK_NODE_LABEL; K_ANON; K_LParen; K_LBrack; K_DoubleLess]))))))
    false.

(** grammar.rs:3275-3280 fn parse_ReifiedTripleBlock *)
Definition parse_ReifiedTripleBlock : rule :=
  mkrule K_ReifiedTripleBlock None
    (Seq (Call K_ReifiedTriple)
     (Call K_PropertyList))
    false.

(** grammar.rs:3282-3293 fn parse_ReifiedTriple *)
Definition parse_ReifiedTriple : rule :=
  mkrule K_ReifiedTriple None
    (Seq (Expect K_DoubleLess)
     (Seq (Call K_ReifiedTripleSubject)
     (Seq (Call K_Verb)
     (Seq (Call K_ReifiedTripleObject)
     (Seq (If [K_Tilde] (Call K_Reifier))
     (Expect K_DoubleMore))))))
    false.

(** grammar.rs:3295-3318 fn parse_PropertyList *)
Definition parse_PropertyList : rule :=
  mkrule K_PropertyList (Some [K_IRIREF; K_PNAME_NS; K_a; K_VAR1; K_VAR2; K_PNAME_LN])
    (If [K_IRIREF; K_PNAME_NS; K_a; K_VAR1; K_VAR2; K_PNAME_LN] (Call K_PropertyListNotEmpty))
    false.

(** grammar.rs:3320-3325 fn parse_ReifiedTripleBlockPath *)
Definition parse_ReifiedTripleBlockPath : rule :=
  mkrule K_ReifiedTripleBlockPath None
    (Seq (Call K_ReifiedTriple)
     (Call K_PropertyListPath))
    false.

(** grammar.rs:3327-3356 fn parse_PropertyListPath *)
Definition parse_PropertyListPath : rule :=
  mkrule K_PropertyListPath (Some [K_IRIREF; K_PNAME_NS; K_LParen; K_a; K_Zirkumflex; K_ExclamationMark; K_VAR1; K_VAR2; K_PNAME_LN])
    (If [K_IRIREF; K_PNAME_NS; K_LParen; K_a; K_Zirkumflex; K_ExclamationMark; K_VAR1; K_VAR2; K_PNAME_LN] (Call K_PropertyListPathNotEmpty))
    false.

(** grammar.rs:3358-3370 fn parse_GroupOrUnionGraphPattern *)
Definition parse_GroupOrUnionGraphPattern : rule :=
  mkrule K_GroupOrUnionGraphPattern None
    (Seq (Call K_GroupGraphPattern)
     (While [K_UNION] (Seq (Expect K_UNION)
       (Call K_GroupGraphPattern))))
    false.

(** grammar.rs:3372-3377 fn parse_OptionalGraphPattern *)
Definition parse_OptionalGraphPattern : rule :=
  mkrule K_OptionalGraphPattern None
    (Seq (Expect K_OPTIONAL)
     (Call K_GroupGraphPattern))
    false.

(** grammar.rs:3379-3384 fn parse_MinusGraphPattern *)
Definition parse_MinusGraphPattern : rule :=
  mkrule K_MinusGraphPattern None
    (Seq (Expect K_MINUS)
     (Call K_GroupGraphPattern))
    false.

(** grammar.rs:3386-3392 fn parse_GraphGraphPattern *)
Definition parse_GraphGraphPattern : rule :=
  mkrule K_GraphGraphPattern None
    (Seq (Expect K_GRAPH)
     (Seq (Call K_VarOrIri)
     (Call K_GroupGraphPattern)))
    false.

(** grammar.rs:3394-3403 fn parse_ServiceGraphPattern *)
Definition parse_ServiceGraphPattern : rule :=
  mkrule K_ServiceGraphPattern None
    (Seq (Expect K_SERVICE)
     (Seq (If [K_SILENT] (Expect K_SILENT))
     (Seq (Call K_VarOrIri)
     (Call K_GroupGraphPattern))))
    false.

(** grammar.rs:3405-3410 fn parse_Filter *)
Definition parse_Filter : rule :=
  mkrule K_Filter None
    (Seq (Expect K_FILTER)
     (Call K_Constraint))
    false.

(** grammar.rs:3412-3421 fn parse_Bind *)
Definition parse_Bind : rule :=
  mkrule K_Bind None
    (Seq (Expect K_BIND)
     (Seq (Expect K_LParen)
     (Seq (Call K_Expression)
     (Seq (Expect K_AS)
     (Seq (Call K_Var)
     (Expect K_RParen))))))
    false.

(** grammar.rs:3423-3428 fn parse_InlineData *)
Definition parse_InlineData : rule :=
  mkrule K_InlineData None
    (Seq (Expect K_VALUES)
     (Call K_DataBlock))
    false.

(** grammar.rs:3430-3466 fn parse_InlineDataOneVar *)
Definition parse_InlineDataOneVar : rule :=
  mkrule K_InlineDataOneVar None
    (Seq (Call K_Var)
     (Seq (Expect K_LCurly)
     (Seq (While [K_IRIREF; K_PNAME_NS; K_STRING_LITERAL1; K_STRING_LITERAL2; K_INTEGER; K_UNDEF; K_DoubleLessLParen; K_DECIMAL; K_DOUBLE; K_INTEGER_POSITIVE; K_DECIMAL_POSITIVE; K_DOUBLE_POSITIVE; K_INTEGER_NEGATIVE; K_DECIMAL_NEGATIVE; K_DOUBLE_NEGATIVE; K_True; K_False; K_STRING_LITERAL_LONG1; K_STRING_LITERAL_LONG2; K_PNAME_LN] (Call K_DataBlockValue))
     (Expect K_RCurly))))
    false.

(** grammar.rs:3468-3552 fn parse_InlineDataFull *)
Definition parse_InlineDataFull : rule :=
  mkrule K_InlineDataFull None
    (Seq (Match (Arm [K_NIL] (Expect K_NIL)
      (Arm [K_LParen] (Seq (Expect K_LParen)
         (Seq (While [K_VAR1; K_VAR2] (Call K_Var))
         (Expect K_RParen)))
      (ArmEnd (DErr [K_NIL; K_LParen])))))
     (Seq (Expect K_LCurly)
     (Seq (While [K_LParen; K_NIL] (Match (Arm [K_LParen] (Seq (Expect K_LParen)
           (Seq (While [K_IRIREF; K_PNAME_NS; K_STRING_LITERAL1; K_STRING_LITERAL2; K_INTEGER; K_UNDEF; K_DoubleLessLParen; K_DECIMAL; K_DOUBLE; K_INTEGER_POSITIVE; K_DECIMAL_POSITIVE; K_DOUBLE_POSITIVE; K_INTEGER_NEGATIVE; K_DECIMAL_NEGATIVE; K_DOUBLE_NEGATIVE; K_True; K_False; K_STRING_LITERAL_LONG1; K_STRING_LITERAL_LONG2; K_PNAME_LN] (Call K_DataBlockValue))
           (Expect K_RParen)))
        (Arm [K_NIL] (Expect K_NIL)
        (ArmEnd (DErr [K_LParen; K_NIL]))))))
     (Expect K_RCurly))))
    false.

(** grammar.rs:3554-3618 fn parse_DataBlockValue *)
Definition parse_DataBlockValue : rule :=
  mkrule K_DataBlockValue None
    (Match (Arm [K_IRIREF; K_PNAME_NS; K_PNAME_LN] (Call K_iri)
      (Arm [K_STRING_LITERAL1; K_STRING_LITERAL2; K_STRING_LITERAL_LONG1; K_STRING_LITERAL_LONG2] (Call K_RDFLiteral)
      (Arm [K_INTEGER; K_DECIMAL; K_DOUBLE; K_INTEGER_POSITIVE; K_DECIMAL_POSITIVE; K_DOUBLE_POSITIVE; K_INTEGER_NEGATIVE; K_DECIMAL_NEGATIVE; K_DOUBLE_NEGATIVE] (Call K_NumericLiteral)
      (Arm [K_True; K_False] (Call K_BooleanLiteral)
      (Arm [K_UNDEF] (Expect K_UNDEF)
      (Arm [K_DoubleLessLParen] (Call K_TripleTermData)
      (ArmEnd (DErr [K_IRIREF; K_PNAME_NS; K_PNAME_LN; K_STRING_LITERAL1; K_STRING_LITERAL2; K_STRING_LITERAL_LONG1; K_STRING_LITERAL_LONG2; K_INTEGER; K_DECIMAL; K_DOUBLE; K_INTEGER_POSITIVE; K_DECIMAL_POSITIVE; K_DOUBLE_POSITIVE; K_INTEGER_NEGATIVE; K_DECIMAL_NEGATIVE; K_DOUBLE_NEGATIVE; K_True; K_False; K_UNDEF; K_DoubleLessLParen])))))))))
    false.

(** grammar.rs:3620-3644 fn parse_RDFLiteral *)
Definition parse_RDFLiteral : rule :=
  mkrule K_RDFLiteral None
    (Seq (Call K_String)
     (If [K_LANG_DIR; K_DoubleZirkumflex] (Match (Arm [K_LANG_DIR] (Expect K_LANG_DIR)
        (Arm [K_DoubleZirkumflex] (Seq (Expect K_DoubleZirkumflex)
           (Call K_iri))
        (ArmEnd (DErr [K_LANG_DIR; K_DoubleZirkumflex])))))))
    false.

(** grammar.rs:3646-3683 fn parse_NumericLiteral *)
Definition parse_NumericLiteral : rule :=
  mkrule K_NumericLiteral None
    (Match (Arm [K_INTEGER; K_DECIMAL; K_DOUBLE] (Call K_NumericLiteralUnsigned)
      (Arm [K_INTEGER_POSITIVE; K_DECIMAL_POSITIVE; K_DOUBLE_POSITIVE] (Call K_NumericLiteralPositive)
      (Arm [K_INTEGER_NEGATIVE; K_DECIMAL_NEGATIVE; K_DOUBLE_NEGATIVE] (Call K_NumericLiteralNegative)
      (ArmEnd (DErr [K_INTEGER; K_DECIMAL; K_DOUBLE; K_INTEGER_POSITIVE; K_DECIMAL_POSITIVE; K_DOUBLE_POSITIVE; K_INTEGER_NEGATIVE; K_DECIMAL_NEGATIVE; K_DOUBLE_NEGATIVE]))))))
    false.

(** grammar.rs:3685-3705 fn parse_BooleanLiteral *)
Definition parse_BooleanLiteral : rule :=
  mkrule K_BooleanLiteral None
    (Match (Arm [K_True] (Expect K_True)
      (Arm [K_False] (Expect K_False)
      (ArmEnd (DErr [K_True; K_False])))))
    false.

(** grammar.rs:3707-3736 fn parse_TripleTermData *)
Definition parse_TripleTermData : rule :=
  mkrule K_TripleTermData None
    (Seq (Expect K_DoubleLessLParen)
     (Seq (Call K_TripleTermDataSubject)
     (Seq (Match (Arm [K_IRIREF; K_PNAME_NS; K_PNAME_LN] (Call K_iri)
      (Arm [K_a] (Expect K_a)
      (ArmEnd (DErr [K_IRIREF; K_PNAME_NS; K_PNAME_LN; K_a])))))
     (Seq (Call K_TripleTermDataObject)
     (Expect K_RParenDoubleMore)))))
    false.

(** grammar.rs:3738-3753 fn parse_Reifier *)
Definition parse_Reifier : rule :=
  mkrule K_Reifier None
    (Seq (Expect K_Tilde)
     (If [K_IRIREF; K_PNAME_NS; K_VAR1; K_VAR2; K_PNAME_LN; K_BLANK_NODE_LABEL; K_ANON] (Call K_VarOrReifierId)))
    false.

(** grammar.rs:3755-3786 fn parse_VarOrReifierId *)
Definition parse_VarOrReifierId : rule :=
  mkrule K_VarOrReifierId None
    (Match (Arm [K_VAR1; K_VAR2] (Call K_Var)
      (Arm [K_IRIREF; K_PNAME_NS; K_PNAME_LN] (Call K_iri)
      (Arm [K_BLANK_NODE_LABEL; K_ANON] (Call K_BlankNode)
      (ArmEnd (DErr [K_VAR1; K_VAR2; K_IRIREF; K_PNAME_NS; K_PNAME_LN; K_BLANK_NODE_LABEL; K_ANON]))))))
    false.

(** grammar.rs:3788-3808 fn parse_BlankNode *)
Definition parse_BlankNode : rule :=
  mkrule K_BlankNode None
    (Match (Arm [K_BLANK_NODE_LABEL] (Expect K_BLANK_NODE_LABEL)
      (Arm [K_ANON] (Expect K_ANON)
      (ArmEnd (DErr [K_BLANK_NODE_LABEL; K_ANON])))))
    false.

(** grammar.rs:3810-3843 fn parse_ArgList *)
Definition parse_ArgList : rule :=
  mkrule K_ArgList None
    (Match (Arm [K_NIL] (Expect K_NIL)
      (Arm [K_LParen] (Seq (Expect K_LParen)
         (Seq (If [K_DISTINCT] (Expect K_DISTINCT))
         (Seq (Call K_Expression)
         (Seq (While [K_Comma] (Seq (Expect K_Comma)
           (Call K_Expression)))
         (Expect K_RParen)))))
      (ArmEnd (DErr [K_NIL; K_LParen])))))
    false.

(** grammar.rs:3845-3875 fn parse_ExpressionList *)
Definition parse_ExpressionList : rule :=
  mkrule K_ExpressionList None
    (Match (Arm [K_NIL] (Expect K_NIL)
      (Arm [K_LParen] (Seq (Expect K_LParen)
         (Seq (Call K_Expression)
         (Seq (While [K_Comma] (Seq (Expect K_Comma)
           (Call K_Expression)))
         (Expect K_RParen))))
      (ArmEnd (DErr [K_NIL; K_LParen])))))
    false.

(** grammar.rs:3877-3915 fn parse_ConstructTriples *)
Definition parse_ConstructTriples : rule :=
  mkrule K_ConstructTriples None
    (Seq (Call K_TriplesSameSubject)
     (If [K_Dot] (Seq (Expect K_Dot)
       (If [K_IRIREF; K_PNAME_NS; K_STRING_LITERAL1; K_STRING_LITERAL2; K_LParen; K_INTEGER; K_NIL; K_LBrack; K_DoubleLess; K_DoubleLessLParen; K_VAR1; K_VAR2; K_DECIMAL; K_DOUBLE; K_INTEGER_POSITIVE; K_DECIMAL_POSITIVE; K_DOUBLE_POSITIVE; K_INTEGER_NEGATIVE; K_DECIMAL_NEGATIVE; K_DOUBLE_NEGATIVE; K_True; K_False; K_STRING_LITERAL_LONG1; K_STRING_LITERAL_LONG2; K_PNAME_LN; K_BLANK_NODE_LABEL; K_ANON] (Call K_ConstructTriples)))))
    false.

(** grammar.rs:3917-3991 fn parse_VarOrTerm *)
Definition parse_VarOrTerm : rule :=
  mkrule K_VarOrTerm None
    (Match (Arm [K_VAR1; K_VAR2] (Call K_Var)
      (Arm [K_IRIREF; K_PNAME_NS; K_PNAME_LN] (Call K_iri)
      (Arm [K_STRING_LITERAL1; K_STRING_LITERAL2; K_STRING_LITERAL_LONG1; K_STRING_LITERAL_LONG2] (Call K_RDFLiteral)
      (Arm [K_INTEGER; K_DECIMAL; K_DOUBLE; K_INTEGER_POSITIVE; K_DECIMAL_POSITIVE; K_DOUBLE_POSITIVE; K_INTEGER_NEGATIVE; K_DECIMAL_NEGATIVE; K_DOUBLE_NEGATIVE] (Call K_NumericLiteral)
      (Arm [K_True; K_False] (Call K_BooleanLiteral)
      (Arm [K_BLANK_NODE_LABEL; K_ANON] (Call K_BlankNode)
      (Arm [K_NIL] (Expect K_NIL)
      (Arm [K_DoubleLessLParen] (Call K_TripleTerm)
      (ArmEnd (DErr [K_VAR1; K_VAR2; K_IRIREF; K_PNAME_NS; K_PNAME_LN; K_STRING_LITERAL1; K_STRING_LITERAL2; K_STRING_LITERAL_LONG1; K_STRING_LITERAL_LONG2; K_INTEGER; K_DECIMAL; K_DOUBLE; K_INTEGER_POSITIVE; K_DECIMAL_POSITIVE; K_DOUBLE_POSITIVE; K_INTEGER_NEGATIVE; K_DECIMAL_NEGATIVE; K_DOUBLE_NEGATIVE; K_True; K_False; K_BLANK_NODE_LABEL; K_ANON; K_NIL; K_DoubleLessLParen])))))))))))
    false.

(** grammar.rs:3993-4016 fn parse_PropertyListNotEmpty *)
Definition parse_PropertyListNotEmpty : rule :=
  mkrule K_PropertyListNotEmpty None
    (Seq (Call K_Verb)
     (Seq (Call K_ObjectList)
     (While [K_Semicolon] (Seq (Expect K_Semicolon)
       (If [K_IRIREF; K_PNAME_NS; K_a; K_VAR1; K_VAR2; K_PNAME_LN] (Seq (Call K_Verb)
         (Call K_ObjectList)))))))
    false.

(** grammar.rs:4018-4038 fn parse_TriplesNode *)
Definition parse_TriplesNode : rule :=
  mkrule K_TriplesNode None
    (Match (Arm [K_LParen] (Call K_Collection)
      (Arm [K_LBrack] (Call K_BlankNodePropertyList)
      (ArmEnd (DErr [K_LParen; K_LBrack])))))
    false.

(** grammar.rs:4040-4071 fn parse_Verb *)
Definition parse_Verb : rule :=
  mkrule K_Verb None
    (Match (Arm [K_IRIREF; K_PNAME_NS; K_VAR1; K_VAR2; K_PNAME_LN] (Call K_VarOrIri)
      (Arm [K_a] (Expect K_a)
      (ArmEnd (DErr [K_IRIREF; K_PNAME_NS; K_VAR1; K_VAR2; K_PNAME_LN; K_a])))))
    false.

(** grammar.rs:4073-4085 fn parse_ObjectList *)
Definition parse_ObjectList : rule :=
  mkrule K_ObjectList None
    (Seq (Call K_Object)
     (While [K_Comma] (Seq (Expect K_Comma)
       (Call K_Object))))
    false.

(** grammar.rs:4087-4092 fn parse_Object *)
Definition parse_Object : rule :=
  mkrule K_Object None
    (Seq (Call K_GraphNode)
     (Call K_Annotation))
    false.

(** grammar.rs:4094-4168 fn parse_GraphNode *)
Definition parse_GraphNode : rule :=
  mkrule K_GraphNode None
    (Match (Arm [K_IRIREF; K_PNAME_NS; K_STRING_LITERAL1; K_STRING_LITERAL2; K_INTEGER; K_NIL; K_DoubleLessLParen; K_VAR1; K_VAR2; K_DECIMAL; K_DOUBLE; K_INTEGER_POSITIVE; K_DECIMAL_POSITIVE; K_DOUBLE_POSITIVE; K_INTEGER_NEGATIVE; K_DECIMAL_NEGATIVE; K_DOUBLE_NEGATIVE; K_True; K_False; K_STRING_LITERAL_LONG1; K_STRING_LITERAL_LONG2; K_PNAME_LN; K_BLANK_NODE_LABEL; K_ANON] (Call K_VarOrTerm)
      (Arm [K_LParen; K_LBrack] (Call K_TriplesNode)
      (Arm [K_DoubleLess] (Call K_ReifiedTriple)
      (ArmEnd (DErr [K_IRIREF; K_PNAME_NS; K_STRING_LITERAL1; K_STRING_LITERAL2; K_INTEGER; K_NIL; K_DoubleLessLParen; K_VAR1; K_VAR2; K_DECIMAL; K_DOUBLE; K_INTEGER_POSITIVE; K_DECIMAL_POSITIVE; K_DOUBLE_POSITIVE; K_INTEGER_NEGATIVE; K_DECIMAL_NEGATIVE; K_DOUBLE_NEGATIVE; K_True; K_False; K_STRING_LITERAL_LONG1; K_STRING_LITERAL_LONG2; K_PNAME_LN; K_BLANK_NODE_LABEL; K_ANON; K_LParen; K_LBrack; K_DoubleLess]))))))
    false.

(** grammar.rs:4170-4199 fn parse_Annotation *)
Definition parse_Annotation : rule :=
  mkrule K_Annotation (Some [K_Tilde; K_LCurlyPipe])
    (While [K_Tilde; K_LCurlyPipe] (Match (Arm [K_Tilde] (Call K_Reifier)
        (Arm [K_LCurlyPipe] (Call K_AnnotationBlock)
        (ArmEnd (DErr [K_Tilde; K_LCurlyPipe]))))))
    false.

(** grammar.rs:4201-4291 fn parse_PropertyListPathNotEmpty *)
Definition parse_PropertyListPathNotEmpty : rule :=
  mkrule K_PropertyListPathNotEmpty None
    (Seq (Match (Arm [K_IRIREF; K_PNAME_NS; K_LParen; K_a; K_Zirkumflex; K_ExclamationMark; K_PNAME_LN] (Call K_VerbPath)
      (Arm [K_VAR1; K_VAR2] (Call K_VerbSimple)
      (ArmEnd (DErr [K_IRIREF; K_PNAME_NS; K_LParen; K_a; K_Zirkumflex; K_ExclamationMark; K_PNAME_LN; K_VAR1; K_VAR2])))))
     (Seq (Call K_ObjectListPath)
     (While [K_Semicolon] (Seq (Expect K_Semicolon)
       (If [K_IRIREF; K_PNAME_NS; K_LParen; K_a; K_Zirkumflex; K_ExclamationMark; K_VAR1; K_VAR2; K_PNAME_LN] (Seq (Match (Arm [K_IRIREF; K_PNAME_NS; K_LParen; K_a; K_Zirkumflex; K_ExclamationMark; K_PNAME_LN] (Call K_VerbPath)
          (Arm [K_VAR1; K_VAR2] (Call K_VerbSimple)
          (ArmEnd (DErr [K_IRIREF; K_PNAME_NS; K_LParen; K_a; K_Zirkumflex; K_ExclamationMark; K_PNAME_LN; K_VAR1; K_VAR2])))))
         (Call K_ObjectListPath)))))))
    false.

(** grammar.rs:4293-4313 fn parse_TriplesNodePath *)
Definition parse_TriplesNodePath : rule :=
  mkrule K_TriplesNodePath None
    (Match (Arm [K_LParen] (Call K_CollectionPath)
      (Arm [K_LBrack] (Call K_BlankNodePropertyListPath)
      (ArmEnd (DErr [K_LParen; K_LBrack])))))
    false.

(** grammar.rs:4315-4319 fn parse_VerbPath *)
Definition parse_VerbPath : rule :=
  mkrule K_VerbPath None
    (Call K_Path)
    false.

(** grammar.rs:4321-4325 fn parse_VerbSimple *)
Definition parse_VerbSimple : rule :=
  mkrule K_VerbSimple None
    (Call K_Var)
    false.

(** grammar.rs:4327-4339 fn parse_ObjectListPath *)
Definition parse_ObjectListPath : rule :=
  mkrule K_ObjectListPath None
    (Seq (Call K_ObjectPath)
     (While [K_Comma] (Seq (Expect K_Comma)
       (Call K_ObjectPath))))
    false.

(** grammar.rs:4341-4345 fn parse_Path *)
Definition parse_Path : rule :=
  mkrule K_Path None
    (Call K_PathAlternative)
    false.

(** grammar.rs:4347-4352 fn parse_ObjectPath *)
Definition parse_ObjectPath : rule :=
  mkrule K_ObjectPath None
    (Seq (Call K_GraphNodePath)
     (Call K_AnnotationPath))
    false.

(** grammar.rs:4354-4428 fn parse_GraphNodePath *)
Definition parse_GraphNodePath : rule :=
  mkrule K_GraphNodePath None
    (Match (Arm [K_IRIREF; K_PNAME_NS; K_STRING_LITERAL1; K_STRING_LITERAL2; K_INTEGER; K_NIL; K_DoubleLessLParen; K_VAR1; K_VAR2; K_DECIMAL; K_DOUBLE; K_INTEGER_POSITIVE; K_DECIMAL_POSITIVE; K_DOUBLE_POSITIVE; K_INTEGER_NEGATIVE; K_DECIMAL_NEGATIVE; K_DOUBLE_NEGATIVE; K_True; K_False; K_STRING_LITERAL_LONG1; K_STRING_LITERAL_LONG2; K_PNAME_LN; K_BLANK_NODE_LABEL; K_ANON] (Call K_VarOrTerm)
      (Arm [K_LParen; K_LBrack] (Call K_TriplesNodePath)
      (Arm [K_DoubleLess] (Call K_ReifiedTriple)
      (ArmEnd (DErr [K_IRIREF; K_PNAME_NS; K_STRING_LITERAL1; K_STRING_LITERAL2; K_INTEGER; K_NIL; K_DoubleLessLParen; K_VAR1; K_VAR2; K_DECIMAL; K_DOUBLE; K_INTEGER_POSITIVE; K_DECIMAL_POSITIVE; K_DOUBLE_POSITIVE; K_INTEGER_NEGATIVE; K_DECIMAL_NEGATIVE; K_DOUBLE_NEGATIVE; K_True; K_False; K_STRING_LITERAL_LONG1; K_STRING_LITERAL_LONG2; K_PNAME_LN; K_BLANK_NODE_LABEL; K_ANON; K_LParen; K_LBrack; K_DoubleLess]))))))
    false.

(** grammar.rs:4430-4459 fn parse_AnnotationPath *)
Definition parse_AnnotationPath : rule :=
  mkrule K_AnnotationPath (Some [K_Tilde; K_LCurlyPipe])
    (While [K_Tilde; K_LCurlyPipe] (Match (Arm [K_Tilde] (Call K_Reifier)
        (Arm [K_LCurlyPipe] (Call K_AnnotationBlockPath)
        (ArmEnd (DErr [K_Tilde; K_LCurlyPipe]))))))
    false.

(** grammar.rs:4461-4473 fn parse_PathAlternative *)
Definition parse_PathAlternative : rule :=
  mkrule K_PathAlternative None
    (Seq (Call K_PathSequence)
     (While [K_Pipe] (Seq (Expect K_Pipe)
       (Call K_PathSequence))))
    false.

(** grammar.rs:4475-4487 fn parse_PathSequence *)
Definition parse_PathSequence : rule :=
  mkrule K_PathSequence None
    (Seq (Call K_PathEltOrInverse)
     (While [K_Slash] (Seq (Expect K_Slash)
       (Call K_PathEltOrInverse))))
    false.

(** grammar.rs:4489-4523 fn parse_PathEltOrInverse *)
Definition parse_PathEltOrInverse : rule :=
  mkrule K_PathEltOrInverse None
    (Match (Arm [K_IRIREF; K_PNAME_NS; K_LParen; K_a; K_ExclamationMark; K_PNAME_LN] (Call K_PathElt)
      (Arm [K_Zirkumflex] (Seq (Expect K_Zirkumflex)
         (Call K_PathElt))
      (ArmEnd (DErr [K_IRIREF; K_PNAME_NS; K_LParen; K_a; K_ExclamationMark; K_PNAME_LN; K_Zirkumflex])))))
    false.

(** grammar.rs:4525-4532 fn parse_PathElt *)
Definition parse_PathElt : rule :=
  mkrule K_PathElt None
    (Seq (Call K_PathPrimary)
     (If [K_Star; K_QuestionMark; K_Plus] (Call K_PathMod)))
    false.

(** grammar.rs:4534-4570 fn parse_PathPrimary *)
Definition parse_PathPrimary : rule :=
  mkrule K_PathPrimary None
    (Match (Arm [K_IRIREF; K_PNAME_NS; K_PNAME_LN] (Call K_iri)
      (Arm [K_a] (Expect K_a)
      (Arm [K_ExclamationMark] (Seq (Expect K_ExclamationMark)
         (Call K_PathNegatedPropertySet))
      (Arm [K_LParen] (Seq (Expect K_LParen)
         (Seq (Call K_Path)
         (Expect K_RParen)))
      (ArmEnd (DErr [K_IRIREF; K_PNAME_NS; K_PNAME_LN; K_a; K_ExclamationMark; K_LParen])))))))
    false.

(** grammar.rs:4572-4599 fn parse_PathMod *)
Definition parse_PathMod : rule :=
  mkrule K_PathMod None
    (Match (Arm [K_QuestionMark] (Expect K_QuestionMark)
      (Arm [K_Star] (Expect K_Star)
      (Arm [K_Plus] (Expect K_Plus)
      (ArmEnd (DErr [K_QuestionMark; K_Star; K_Plus]))))))
    false.

(** grammar.rs:4601-4650 fn parse_PathNegatedPropertySet *)
Definition parse_PathNegatedPropertySet : rule :=
  mkrule K_PathNegatedPropertySet None
    (Match (Arm [K_IRIREF; K_PNAME_NS; K_a; K_Zirkumflex; K_PNAME_LN] (Call K_PathOneInPropertySet)
      (Arm [K_LParen] (Seq (Expect K_LParen)
         (Seq (If [K_IRIREF; K_PNAME_NS; K_a; K_Zirkumflex; K_PNAME_LN] (Seq (Call K_PathOneInPropertySet)
           (While [K_Pipe] (Seq (Expect K_Pipe)
             (Call K_PathOneInPropertySet)))))
         (Expect K_RParen)))
      (ArmEnd (DErr [K_IRIREF; K_PNAME_NS; K_a; K_Zirkumflex; K_PNAME_LN; K_LParen])))))
    false.

(** grammar.rs:4652-4703 fn parse_PathOneInPropertySet *)
Definition parse_PathOneInPropertySet : rule :=
  mkrule K_PathOneInPropertySet None
    (Match (Arm [K_IRIREF; K_PNAME_NS; K_PNAME_LN] (Call K_iri)
      (Arm [K_a] (Expect K_a)
      (Arm [K_Zirkumflex] (Seq (Expect K_Zirkumflex)
         (Match (Arm [K_IRIREF; K_PNAME_NS; K_PNAME_LN] (Call K_iri)
          (Arm [K_a] (Expect K_a)
          (ArmEnd (DErr [K_IRIREF; K_PNAME_NS; K_PNAME_LN; K_a]))))))
      (ArmEnd (DErr [K_IRIREF; K_PNAME_NS; K_PNAME_LN; K_a; K_Zirkumflex]))))))
    false.

(** grammar.rs:4705-4748 fn parse_Collection *)
Definition parse_Collection : rule :=
  mkrule K_Collection None
    (Seq (Expect K_LParen)
     (Seq (Call K_GraphNode)
     (Seq (While [K_IRIREF; K_PNAME_NS; K_STRING_LITERAL1; K_STRING_LITERAL2; K_LParen; K_INTEGER; K_NIL; K_LBrack; K_DoubleLess; K_DoubleLessLParen; K_VAR1; K_VAR2; K_DECIMAL; K_DOUBLE; K_INTEGER_POSITIVE; K_DECIMAL_POSITIVE; K_DOUBLE_POSITIVE; K_INTEGER_NEGATIVE; K_DECIMAL_NEGATIVE; K_DOUBLE_NEGATIVE; K_True; K_False; K_STRING_LITERAL_LONG1; K_STRING_LITERAL_LONG2; K_PNAME_LN; K_BLANK_NODE_LABEL; K_ANON] (Call K_GraphNode))
     (Expect K_RParen))))
    false.

(** grammar.rs:4750-4756 fn parse_BlankNodePropertyList *)
Definition parse_BlankNodePropertyList : rule :=
  mkrule K_BlankNodePropertyList None
    (Seq (Expect K_LBrack)
     (Seq (Call K_PropertyListNotEmpty)
     (Expect K_RBrack)))
    false.

(** grammar.rs:4758-4801 fn parse_CollectionPath *)
Definition parse_CollectionPath : rule :=
  mkrule K_CollectionPath None
    (Seq (Expect K_LParen)
     (Seq (Call K_GraphNodePath)
     (Seq (While [K_IRIREF; K_PNAME_NS; K_STRING_LITERAL1; K_STRING_LITERAL2; K_LParen; K_INTEGER; K_NIL; K_LBrack; K_DoubleLess; K_DoubleLessLParen; K_VAR1; K_VAR2; K_DECIMAL; K_DOUBLE; K_INTEGER_POSITIVE; K_DECIMAL_POSITIVE; K_DOUBLE_POSITIVE; K_INTEGER_NEGATIVE; K_DECIMAL_NEGATIVE; K_DOUBLE_NEGATIVE; K_True; K_False; K_STRING_LITERAL_LONG1; K_STRING_LITERAL_LONG2; K_PNAME_LN; K_BLANK_NODE_LABEL; K_ANON] (Call K_GraphNodePath))
     (Expect K_RParen))))
    false.

(** grammar.rs:4803-4809 fn parse_BlankNodePropertyListPath *)
Definition parse_BlankNodePropertyListPath : rule :=
  mkrule K_BlankNodePropertyListPath None
    (Seq (Expect K_LBrack)
     (Seq (Call K_PropertyListPathNotEmpty)
     (Expect K_RBrack)))
    false.

(** grammar.rs:4811-4817 fn parse_AnnotationBlockPath *)
Definition parse_AnnotationBlockPath : rule :=
  mkrule K_AnnotationBlockPath None
    (Seq (Expect K_LCurlyPipe)
     (Seq (Call K_PropertyListPathNotEmpty)
     (Expect K_PipeRCurly)))
    false.

(** grammar.rs:4819-4825 fn parse_AnnotationBlock *)
Definition parse_AnnotationBlock : rule :=
  mkrule K_AnnotationBlock None
    (Seq (Expect K_LCurlyPipe)
     (Seq (Call K_PropertyListNotEmpty)
     (Expect K_PipeRCurly)))
    false.

(** grammar.rs:4827-4835 fn parse_TripleTerm *)
Definition parse_TripleTerm : rule :=
  mkrule K_TripleTerm None
    (Seq (Expect K_DoubleLessLParen)
     (Seq (Call K_TripleTermSubject)
     (Seq (Call K_Verb)
     (Seq (Call K_TripleTermObject)
     (Expect K_RParenDoubleMore)))))
    false.

(** grammar.rs:4837-4911 fn parse_ReifiedTripleSubject *)
Definition parse_ReifiedTripleSubject : rule :=
  mkrule K_ReifiedTripleSubject None
    (Match (Arm [K_VAR1; K_VAR2] (Call K_Var)
      (Arm [K_IRIREF; K_PNAME_NS; K_PNAME_LN] (Call K_iri)
      (Arm [K_STRING_LITERAL1; K_STRING_LITERAL2; K_STRING_LITERAL_LONG1; K_STRING_LITERAL_LONG2] (Call K_RDFLiteral)
      (Arm [K_INTEGER; K_DECIMAL; K_DOUBLE; K_INTEGER_POSITIVE; K_DECIMAL_POSITIVE; K_DOUBLE_POSITIVE; K_INTEGER_NEGATIVE; K_DECIMAL_NEGATIVE; K_DOUBLE_NEGATIVE] (Call K_NumericLiteral)
      (Arm [K_True; K_False] (Call K_BooleanLiteral)
      (Arm [K_BLANK_NODE_LABEL; K_ANON] (Call K_BlankNode)
      (Arm [K_DoubleLess] (Call K_ReifiedTriple)
      (Arm [K_DoubleLessLParen] (Call K_TripleTerm)
      (ArmEnd (DErr [K_VAR1; K_VAR2; K_IRIREF; K_PNAME_NS; K_PNAME_LN; K_STRING_LITERAL1; K_STRING_LITERAL2; K_STRING_LITERAL_LONG1; K_STRING_LITERAL_LONG2; K_INTEGER; K_DECIMAL; K_DOUBLE; K_INTEGER_POSITIVE; K_DECIMAL_POSITIVE; K_DOUBLE_POSITIVE; K_INTEGER_NEGATIVE; K_DECIMAL_NEGATIVE; K_DOUBLE_NEGATIVE; K_True; K_False; K_BLANK_NODE_LABEL; K_ANON; K_DoubleLess; K_DoubleLessLParen])))))))))))
    false.

(** grammar.rs:4913-4987 fn parse_ReifiedTripleObject *)
Definition parse_ReifiedTripleObject : rule :=
  mkrule K_ReifiedTripleObject None
    (Match (Arm [K_VAR1; K_VAR2] (Call K_Var)
      (Arm [K_IRIREF; K_PNAME_NS; K_PNAME_LN] (Call K_iri)
      (Arm [K_STRING_LITERAL1; K_STRING_LITERAL2; K_STRING_LITERAL_LONG1; K_STRING_LITERAL_LONG2] (Call K_RDFLiteral)
      (Arm [K_INTEGER; K_DECIMAL; K_DOUBLE; K_INTEGER_POSITIVE; K_DECIMAL_POSITIVE; K_DOUBLE_POSITIVE; K_INTEGER_NEGATIVE; K_DECIMAL_NEGATIVE; K_DOUBLE_NEGATIVE] (Call K_NumericLiteral)
      (Arm [K_True; K_False] (Call K_BooleanLiteral)
      (Arm [K_BLANK_NODE_LABEL; K_ANON] (Call K_BlankNode)
      (Arm [K_DoubleLess] (Call K_ReifiedTriple)
      (Arm [K_DoubleLessLParen] (Call K_TripleTerm)
      (ArmEnd (DErr [K_VAR1; K_VAR2; K_IRIREF; K_PNAME_NS; K_PNAME_LN; K_STRING_LITERAL1; K_STRING_LITERAL2; K_STRING_LITERAL_LONG1; K_STRING_LITERAL_LONG2; K_INTEGER; K_DECIMAL; K_DOUBLE; K_INTEGER_POSITIVE; K_DECIMAL_POSITIVE; K_DOUBLE_POSITIVE; K_INTEGER_NEGATIVE; K_DECIMAL_NEGATIVE; K_DOUBLE_NEGATIVE; K_True; K_False; K_BLANK_NODE_LABEL; K_ANON; K_DoubleLess; K_DoubleLessLParen])))))))))))
    false.

(** grammar.rs:4989-5059 fn parse_TripleTermSubject *)
Definition parse_TripleTermSubject : rule :=
  mkrule K_TripleTermSubject None
    (Match (Arm [K_VAR1; K_VAR2] (Call K_Var)
      (Arm [K_IRIREF; K_PNAME_NS; K_PNAME_LN] (Call K_iri)
      (Arm [K_STRING_LITERAL1; K_STRING_LITERAL2; K_STRING_LITERAL_LONG1; K_STRING_LITERAL_LONG2] (Call K_RDFLiteral)
      (Arm [K_INTEGER; K_DECIMAL; K_DOUBLE; K_INTEGER_POSITIVE; K_DECIMAL_POSITIVE; K_DOUBLE_POSITIVE; K_INTEGER_NEGATIVE; K_DECIMAL_NEGATIVE; K_DOUBLE_NEGATIVE] (Call K_NumericLiteral)
      (Arm [K_True; K_False] (Call K_BooleanLiteral)
      (Arm [K_BLANK_NODE_LABEL; K_ANON] (Call K_BlankNode)
      (Arm [K_DoubleLessLParen] (Call K_TripleTerm)
      (ArmEnd (DErr [K_VAR1; K_VAR2; K_IRIREF; K_PNAME_NS; K_PNAME_LN; K_STRING_LITERAL1; K_STRING_LITERAL2; K_STRING_LITERAL_LONG1; K_STRING_LITERAL_LONG2; K_INTEGER; K_DECIMAL; K_DOUBLE; K_INTEGER_POSITIVE; K_DECIMAL_POSITIVE; K_DOUBLE_POSITIVE; K_INTEGER_NEGATIVE; K_DECIMAL_NEGATIVE; K_DOUBLE_NEGATIVE; K_True; K_False; K_BLANK_NODE_LABEL; K_ANON; K_DoubleLessLParen]))))))))))
    false.

(** grammar.rs:5061-5131 fn parse_TripleTermObject *)
Definition parse_TripleTermObject : rule :=
  mkrule K_TripleTermObject None
    (Match (Arm [K_VAR1; K_VAR2] (Call K_Var)
      (Arm [K_IRIREF; K_PNAME_NS; K_PNAME_LN] (Call K_iri)
      (Arm [K_STRING_LITERAL1; K_STRING_LITERAL2; K_STRING_LITERAL_LONG1; K_STRING_LITERAL_LONG2] (Call K_RDFLiteral)
      (Arm [K_INTEGER; K_DECIMAL; K_DOUBLE; K_INTEGER_POSITIVE; K_DECIMAL_POSITIVE; K_DOUBLE_POSITIVE; K_INTEGER_NEGATIVE; K_DECIMAL_NEGATIVE; K_DOUBLE_NEGATIVE] (Call K_NumericLiteral)
      (Arm [K_True; K_False] (Call K_BooleanLiteral)
      (Arm [K_BLANK_NODE_LABEL; K_ANON] (Call K_BlankNode)
      (Arm [K_DoubleLessLParen] (Call K_TripleTerm)
      (ArmEnd (DErr [K_VAR1; K_VAR2; K_IRIREF; K_PNAME_NS; K_PNAME_LN; K_STRING_LITERAL1; K_STRING_LITERAL2; K_STRING_LITERAL_LONG1; K_STRING_LITERAL_LONG2; K_INTEGER; K_DECIMAL; K_DOUBLE; K_INTEGER_POSITIVE; K_DECIMAL_POSITIVE; K_DOUBLE_POSITIVE; K_INTEGER_NEGATIVE; K_DECIMAL_NEGATIVE; K_DOUBLE_NEGATIVE; K_True; K_False; K_BLANK_NODE_LABEL; K_ANON; K_DoubleLessLParen]))))))))))
    false.

(** grammar.rs:5133-5137 fn parse_TripleTermDataSubject *)
Definition parse_TripleTermDataSubject : rule :=
  mkrule K_TripleTermDataSubject None
    (Call K_iri)
    false.

(** grammar.rs:5139-5199 fn parse_TripleTermDataObject *)
Definition parse_TripleTermDataObject : rule :=
  mkrule K_TripleTermDataObject None
    (Match (Arm [K_IRIREF; K_PNAME_NS; K_PNAME_LN] (Call K_iri)
      (Arm [K_STRING_LITERAL1; K_STRING_LITERAL2; K_STRING_LITERAL_LONG1; K_STRING_LITERAL_LONG2] (Call K_RDFLiteral)
      (Arm [K_INTEGER; K_DECIMAL; K_DOUBLE; K_INTEGER_POSITIVE; K_DECIMAL_POSITIVE; K_DOUBLE_POSITIVE; K_INTEGER_NEGATIVE; K_DECIMAL_NEGATIVE; K_DOUBLE_NEGATIVE] (Call K_NumericLiteral)
      (Arm [K_True; K_False] (Call K_BooleanLiteral)
      (Arm [K_DoubleLessLParen] (Call K_TripleTermData)
      (ArmEnd (DErr [K_IRIREF; K_PNAME_NS; K_PNAME_LN; K_STRING_LITERAL1; K_STRING_LITERAL2; K_STRING_LITERAL_LONG1; K_STRING_LITERAL_LONG2; K_INTEGER; K_DECIMAL; K_DOUBLE; K_INTEGER_POSITIVE; K_DECIMAL_POSITIVE; K_DOUBLE_POSITIVE; K_INTEGER_NEGATIVE; K_DECIMAL_NEGATIVE; K_DOUBLE_NEGATIVE; K_True; K_False; K_DoubleLessLParen]))))))))
    false.

(** grammar.rs:5201-5213 fn parse_ConditionalOrExpression *)
Definition parse_ConditionalOrExpression : rule :=
  mkrule K_ConditionalOrExpression None
    (Seq (Call K_ConditionalAndExpression)
     (While [K_DoublePipe] (Seq (Expect K_DoublePipe)
       (Call K_ConditionalAndExpression))))
    false.

(** grammar.rs:5215-5227 fn parse_ConditionalAndExpression *)
Definition parse_ConditionalAndExpression : rule :=
  mkrule K_ConditionalAndExpression None
    (Seq (Call K_ValueLogical)
     (While [K_DoubleAnd] (Seq (Expect K_DoubleAnd)
       (Call K_ValueLogical))))
    false.

(** grammar.rs:5229-5233 fn parse_ValueLogical *)
Definition parse_ValueLogical : rule :=
  mkrule K_ValueLogical None
    (Call K_RelationalExpression)
    false.

(** grammar.rs:5235-5303 fn parse_RelationalExpression *)
Definition parse_RelationalExpression : rule :=
  mkrule K_RelationalExpression None
    (Seq (Call K_NumericExpression)
     (If [K_Equals; K_ExclamationMarkEquals; K_Less; K_More; K_LessEquals; K_MoreEquals; K_IN; K_NOT] (Match (Arm [K_Equals] (Seq (Expect K_Equals)
           (Call K_NumericExpression))
        (Arm [K_ExclamationMarkEquals] (Seq (Expect K_ExclamationMarkEquals)
           (Call K_NumericExpression))
        (Arm [K_Less] (Seq (Expect K_Less)
           (Call K_NumericExpression))
        (Arm [K_More] (Seq (Expect K_More)
           (Call K_NumericExpression))
        (Arm [K_LessEquals] (Seq (Expect K_LessEquals)
           (Call K_NumericExpression))
        (Arm [K_MoreEquals] (Seq (Expect K_MoreEquals)
           (Call K_NumericExpression))
        (Arm [K_IN] (Seq (Expect K_IN)
           (Call K_ExpressionList))
        (Arm [K_NOT] (Seq (Expect K_NOT)
           (Seq (Expect K_IN)
           (Call K_ExpressionList)))
        (ArmEnd (DErr [K_Equals; K_ExclamationMarkEquals; K_Less; K_More; K_LessEquals; K_MoreEquals; K_IN; K_NOT])))))))))))))
    false.

(** grammar.rs:5305-5309 fn parse_NumericExpression *)
Definition parse_NumericExpression : rule :=
  mkrule K_NumericExpression None
    (Call K_AdditiveExpression)
    false.

(** grammar.rs:5311-5420 fn parse_AdditiveExpression *)
Definition parse_AdditiveExpression : rule :=
  mkrule K_AdditiveExpression None
    (Seq (Call K_MultiplicativeExpression)
     (While [K_Plus; K_Minus; K_INTEGER_POSITIVE; K_DECIMAL_POSITIVE; K_DOUBLE_POSITIVE; K_INTEGER_NEGATIVE; K_DECIMAL_NEGATIVE; K_DOUBLE_NEGATIVE] (Match (Arm [K_Plus] (Seq (Expect K_Plus)
           (Call K_MultiplicativeExpression))
        (Arm [K_Minus] (Seq (Expect K_Minus)
           (Call K_MultiplicativeExpression))
        (Arm [K_INTEGER_POSITIVE; K_DECIMAL_POSITIVE; K_DOUBLE_POSITIVE; K_INTEGER_NEGATIVE; K_DECIMAL_NEGATIVE; K_DOUBLE_NEGATIVE] (Seq (Match (Arm [K_INTEGER_POSITIVE; K_DECIMAL_POSITIVE; K_DOUBLE_POSITIVE] (Call K_NumericLiteralPositive)
            (Arm [K_INTEGER_NEGATIVE; K_DECIMAL_NEGATIVE; K_DOUBLE_NEGATIVE] (Call K_NumericLiteralNegative)
            (ArmEnd (DErr [K_INTEGER_POSITIVE; K_DECIMAL_POSITIVE; K_DOUBLE_POSITIVE; K_INTEGER_NEGATIVE; K_DECIMAL_NEGATIVE; K_DOUBLE_NEGATIVE])))))
           (While [K_Star; K_Slash] (Match (Arm [K_Star] (Seq (Expect K_Star)
                 (Call K_UnaryExpression))
              (Arm [K_Slash] (Seq (Expect K_Slash)
                 (Call K_UnaryExpression))
              (ArmEnd (DErr [K_Star; K_Slash])))))))
        (ArmEnd (DErr [K_Plus; K_Minus; K_INTEGER_POSITIVE; K_DECIMAL_POSITIVE; K_DOUBLE_POSITIVE; K_INTEGER_NEGATIVE; K_DECIMAL_NEGATIVE; K_DOUBLE_NEGATIVE]))))))))
    false.

(** grammar.rs:5422-5451 fn parse_MultiplicativeExpression *)
Definition parse_MultiplicativeExpression : rule :=
  mkrule K_MultiplicativeExpression None
    (Seq (Call K_UnaryExpression)
     (While [K_Star; K_Slash] (Match (Arm [K_Star] (Seq (Expect K_Star)
           (Call K_UnaryExpression))
        (Arm [K_Slash] (Seq (Expect K_Slash)
           (Call K_UnaryExpression))
        (ArmEnd (DErr [K_Star; K_Slash])))))))
    false.

(** grammar.rs:5453-5480 fn parse_NumericLiteralPositive *)
Definition parse_NumericLiteralPositive : rule :=
  mkrule K_NumericLiteralPositive None
    (Match (Arm [K_INTEGER_POSITIVE] (Expect K_INTEGER_POSITIVE)
      (Arm [K_DECIMAL_POSITIVE] (Expect K_DECIMAL_POSITIVE)
      (Arm [K_DOUBLE_POSITIVE] (Expect K_DOUBLE_POSITIVE)
      (ArmEnd (DErr [K_INTEGER_POSITIVE; K_DECIMAL_POSITIVE; K_DOUBLE_POSITIVE]))))))
    false.

(** grammar.rs:5482-5509 fn parse_NumericLiteralNegative *)
Definition parse_NumericLiteralNegative : rule :=
  mkrule K_NumericLiteralNegative None
    (Match (Arm [K_INTEGER_NEGATIVE] (Expect K_INTEGER_NEGATIVE)
      (Arm [K_DECIMAL_NEGATIVE] (Expect K_DECIMAL_NEGATIVE)
      (Arm [K_DOUBLE_NEGATIVE] (Expect K_DOUBLE_NEGATIVE)
      (ArmEnd (DErr [K_INTEGER_NEGATIVE; K_DECIMAL_NEGATIVE; K_DOUBLE_NEGATIVE]))))))
    false.

(** grammar.rs:5511-5727 fn parse_UnaryExpression *)
Definition parse_UnaryExpression : rule :=
  mkrule K_UnaryExpression None
    (Match (Arm [K_ExclamationMark] (Seq (Expect K_ExclamationMark)
         (Call K_UnaryExpression))
      (Arm [K_Plus] (Seq (Expect K_Plus)
         (Call K_PrimaryExpression))
      (Arm [K_Minus] (Seq (Expect K_Minus)
         (Call K_PrimaryExpression))
      (Arm [K_IRIREF; K_PNAME_NS; K_STRING_LITERAL1; K_STRING_LITERAL2; K_LParen; K_INTEGER; K_DoubleLessLParen; K_VAR1; K_VAR2; K_NOT; K_STR; K_LANG; K_LANGMATCHES; K_LANGDIR; K_DATATYPE; K_BOUND; K_IRI; K_URI; K_BNODE; K_RAND; K_ABS; K_CEIL; K_FLOOR; K_ROUND; K_CONCAT; K_STRLEN; K_UCASE; K_LCASE; K_ENCODE_FOR_URI; K_CONTAINS; K_STRSTARTS; K_STRENDS; K_STRBEFORE; K_STRAFTER; K_YEAR; K_MONTH; K_DAY; K_HOURS; K_MINUTES; K_SECONDS; K_TIMEZONE; K_TZ; K_NOW; K_UUID; K_STRUUID; K_MD5; K_SHA1; K_SHA256; K_SHA384; K_SHA512; K_COALESCE; K_IF; K_STRLANG; K_STRLANGDIR; K_STRDT; K_sameTerm; K_isIRI; K_isURI; K_isBLANK; K_isLITERAL; K_isNUMERIC; K_hasLANG; K_hasLANGDIR; K_isTRIPLE; K_TRIPLE; K_SUBJECT; K_PREDICATE; K_OBJECT; K_REGEX; K_SUBSTR; K_REPLACE; K_EXISTS; K_COUNT; K_SUM; K_MIN; K_MAX; K_AVG; K_SAMPLE; K_GROUP_CONCAT; K_DECIMAL; K_DOUBLE; K_INTEGER_POSITIVE; K_DECIMAL_POSITIVE; K_DOUBLE_POSITIVE; K_INTEGER_NEGATIVE; K_DECIMAL_NEGATIVE; K_DOUBLE_NEGATIVE; K_True; K_False; K_STRING_LITERAL_LONG1; K_STRING_LITERAL_LONG2; K_PNAME_LN] (Call K_PrimaryExpression)
      (ArmEnd (DErr [K_ExclamationMark; K_Plus; K_Minus; K_IRIREF; K_PNAME_NS; K_STRING_LITERAL1; K_STRING_LITERAL2; K_LParen; K_INTEGER; K_DoubleLessLParen; K_VAR1; K_VAR2; K_NOT; K_STR; K_LANG; K_LANGMATCHES; K_LANGDIR; K_DATATYPE; K_BOUND; K_IRI; K_URI; K_BNODE; K_RAND; K_ABS; K_CEIL; K_FLOOR; K_ROUND; K_CONCAT; K_STRLEN; K_UCASE; K_LCASE; K_ENCODE_FOR_URI; K_CONTAINS; K_STRSTARTS; K_STRENDS; K_STRBEFORE; K_STRAFTER; K_YEAR; K_MONTH; K_DAY; K_HOURS; K_MINUTES; K_SECONDS; K_TIMEZONE; K_TZ; K_NOW; K_UUID; K_STRUUID; K_MD5; K_SHA1; K_SHA256; K_SHA384; K_SHA512; K_COALESCE; K_IF; K_STRLANG; K_STRLANGDIR; K_STRDT; K_sameTerm; K_isIRI; K_isURI; K_isBLANK; K_isLITERAL; K_isNUMERIC; K_hasLANG; K_hasLANGDIR; K_isTRIPLE; K_TRIPLE; K_SUBJECT; K_PREDICATE; K_OBJECT; K_REGEX; K_SUBSTR; K_REPLACE; K_EXISTS; K_COUNT; K_SUM; K_MIN; K_MAX; K_AVG; K_SAMPLE; K_GROUP_CONCAT; K_DECIMAL; K_DOUBLE; K_INTEGER_POSITIVE; K_DECIMAL_POSITIVE; K_DOUBLE_POSITIVE; K_INTEGER_NEGATIVE; K_DECIMAL_NEGATIVE; K_DOUBLE_NEGATIVE; K_True; K_False; K_STRING_LITERAL_LONG1; K_STRING_LITERAL_LONG2; K_PNAME_LN])))))))
    false.

(** grammar.rs:5729-5940 fn parse_PrimaryExpression *)
Definition parse_PrimaryExpression : rule :=
  mkrule K_PrimaryExpression None
    (Match (Arm [K_LParen] (Call K_BrackettedExpression)
      (Arm [K_NOT; K_STR; K_LANG; K_LANGMATCHES; K_LANGDIR; K_DATATYPE; K_BOUND; K_IRI; K_URI; K_BNODE; K_RAND; K_ABS; K_CEIL; K_FLOOR; K_ROUND; K_CONCAT; K_STRLEN; K_UCASE; K_LCASE; K_ENCODE_FOR_URI; K_CONTAINS; K_STRSTARTS; K_STRENDS; K_STRBEFORE; K_STRAFTER; K_YEAR; K_MONTH; K_DAY; K_HOURS; K_MINUTES; K_SECONDS; K_TIMEZONE; K_TZ; K_NOW; K_UUID; K_STRUUID; K_MD5; K_SHA1; K_SHA256; K_SHA384; K_SHA512; K_COALESCE; K_IF; K_STRLANG; K_STRLANGDIR; K_STRDT; K_sameTerm; K_isIRI; K_isURI; K_isBLANK; K_isLITERAL; K_isNUMERIC; K_hasLANG; K_hasLANGDIR; K_isTRIPLE; K_TRIPLE; K_SUBJECT; K_PREDICATE; K_OBJECT; K_REGEX; K_SUBSTR; K_REPLACE; K_EXISTS; K_COUNT; K_SUM; K_MIN; K_MAX; K_AVG; K_SAMPLE; K_GROUP_CONCAT] (Call K_BuiltInCall)
      (Arm [K_IRIREF; K_PNAME_NS; K_PNAME_LN] (Call K_iriOrFunction)
      (Arm [K_STRING_LITERAL1; K_STRING_LITERAL2; K_STRING_LITERAL_LONG1; K_STRING_LITERAL_LONG2] (Call K_RDFLiteral)
      (Arm [K_INTEGER; K_DECIMAL; K_DOUBLE; K_INTEGER_POSITIVE; K_DECIMAL_POSITIVE; K_DOUBLE_POSITIVE; K_INTEGER_NEGATIVE; K_DECIMAL_NEGATIVE; K_DOUBLE_NEGATIVE] (Call K_NumericLiteral)
      (Arm [K_True; K_False] (Call K_BooleanLiteral)
      (Arm [K_VAR1; K_VAR2] (Call K_Var)
      (Arm [K_DoubleLessLParen] (Call K_ExprTripleTerm)
      (ArmEnd (DErr [K_LParen; K_NOT; K_STR; K_LANG; K_LANGMATCHES; K_LANGDIR; K_DATATYPE; K_BOUND; K_IRI; K_URI; K_BNODE; K_RAND; K_ABS; K_CEIL; K_FLOOR; K_ROUND; K_CONCAT; K_STRLEN; K_UCASE; K_LCASE; K_ENCODE_FOR_URI; K_CONTAINS; K_STRSTARTS; K_STRENDS; K_STRBEFORE; K_STRAFTER; K_YEAR; K_MONTH; K_DAY; K_HOURS; K_MINUTES; K_SECONDS; K_TIMEZONE; K_TZ; K_NOW; K_UUID; K_STRUUID; K_MD5; K_SHA1; K_SHA256; K_SHA384; K_SHA512; K_COALESCE; K_IF; K_STRLANG; K_STRLANGDIR; K_STRDT; K_sameTerm; K_isIRI; K_isURI; K_isBLANK; K_isLITERAL; K_isNUMERIC; K_hasLANG; K_hasLANGDIR; K_isTRIPLE; K_TRIPLE; K_SUBJECT; K_PREDICATE; K_OBJECT; K_REGEX; K_SUBSTR; K_REPLACE; K_EXISTS; K_COUNT; K_SUM; K_MIN; K_MAX; K_AVG; K_SAMPLE; K_GROUP_CONCAT; K_IRIREF; K_PNAME_NS; K_PNAME_LN; K_STRING_LITERAL1; K_STRING_LITERAL2; K_STRING_LITERAL_LONG1; K_STRING_LITERAL_LONG2; K_INTEGER; K_DECIMAL; K_DOUBLE; K_INTEGER_POSITIVE; K_DECIMAL_POSITIVE; K_DOUBLE_POSITIVE; K_INTEGER_NEGATIVE; K_DECIMAL_NEGATIVE; K_DOUBLE_NEGATIVE; K_True; K_False; K_VAR1; K_VAR2; K_DoubleLessLParen])))))))))))
    false.

(** grammar.rs:5942-5949 fn parse_iriOrFunction *)
Definition parse_iriOrFunction : rule :=
  mkrule K_iriOrFunction None
    (Seq (Call K_iri)
     (If [K_LParen; K_NIL] (Call K_ArgList)))
    false.

(** grammar.rs:5951-5959 fn parse_ExprTripleTerm *)
Definition parse_ExprTripleTerm : rule :=
  mkrule K_ExprTripleTerm None
    (Seq (Expect K_DoubleLessLParen)
     (Seq (Call K_ExprTripleTermSubject)
     (Seq (Call K_Verb)
     (Seq (Call K_ExprTripleTermObject)
     (Expect K_RParenDoubleMore)))))
    false.

(** grammar.rs:5961-5987 fn parse_ExprTripleTermSubject *)
Definition parse_ExprTripleTermSubject : rule :=
  mkrule K_ExprTripleTermSubject None
    (Match (Arm [K_IRIREF; K_PNAME_NS; K_PNAME_LN] (Call K_iri)
      (Arm [K_VAR1; K_VAR2] (Call K_Var)
      (ArmEnd (DErr [K_IRIREF; K_PNAME_NS; K_PNAME_LN; K_VAR1; K_VAR2])))))
    false.

(** grammar.rs:5989-6054 fn parse_ExprTripleTermObject *)
Definition parse_ExprTripleTermObject : rule :=
  mkrule K_ExprTripleTermObject None
    (Match (Arm [K_IRIREF; K_PNAME_NS; K_PNAME_LN] (Call K_iri)
      (Arm [K_STRING_LITERAL1; K_STRING_LITERAL2; K_STRING_LITERAL_LONG1; K_STRING_LITERAL_LONG2] (Call K_RDFLiteral)
      (Arm [K_INTEGER; K_DECIMAL; K_DOUBLE; K_INTEGER_POSITIVE; K_DECIMAL_POSITIVE; K_DOUBLE_POSITIVE; K_INTEGER_NEGATIVE; K_DECIMAL_NEGATIVE; K_DOUBLE_NEGATIVE] (Call K_NumericLiteral)
      (Arm [K_True; K_False] (Call K_BooleanLiteral)
      (Arm [K_VAR1; K_VAR2] (Call K_Var)
      (Arm [K_DoubleLessLParen] (Call K_ExprTripleTerm)
      (ArmEnd (DErr [K_IRIREF; K_PNAME_NS; K_PNAME_LN; K_STRING_LITERAL1; K_STRING_LITERAL2; K_STRING_LITERAL_LONG1; K_STRING_LITERAL_LONG2; K_INTEGER; K_DECIMAL; K_DOUBLE; K_INTEGER_POSITIVE; K_DECIMAL_POSITIVE; K_DOUBLE_POSITIVE; K_INTEGER_NEGATIVE; K_DECIMAL_NEGATIVE; K_DOUBLE_NEGATIVE; K_True; K_False; K_VAR1; K_VAR2; K_DoubleLessLParen])))))))))
    false.

(** grammar.rs:6056-6354 fn parse_Aggregate *)
Definition parse_Aggregate : rule :=
  mkrule K_Aggregate None
    (Match (Arm [K_COUNT] (Seq (Expect K_COUNT)
         (Seq (Expect K_LParen)
         (Seq (If [K_DISTINCT] (Expect K_DISTINCT))
         (Seq (Match (Arm [K_Star] (Expect K_Star)
          (Arm [K_IRIREF; K_PNAME_NS; K_STRING_LITERAL1; K_STRING_LITERAL2; K_LParen; K_INTEGER; K_Plus; K_ExclamationMark; K_DoubleLessLParen; K_VAR1; K_VAR2; K_NOT; K_Minus; K_STR; K_LANG; K_LANGMATCHES; K_LANGDIR; K_DATATYPE; K_BOUND; K_IRI; K_URI; K_BNODE; K_RAND; K_ABS; K_CEIL; K_FLOOR; K_ROUND; K_CONCAT; K_STRLEN; K_UCASE; K_LCASE; K_ENCODE_FOR_URI; K_CONTAINS; K_STRSTARTS; K_STRENDS; K_STRBEFORE; K_STRAFTER; K_YEAR; K_MONTH; K_DAY; K_HOURS; K_MINUTES; K_SECONDS; K_TIMEZONE; K_TZ; K_NOW; K_UUID; K_STRUUID; K_MD5; K_SHA1; K_SHA256; K_SHA384; K_SHA512; K_COALESCE; K_IF; K_STRLANG; K_STRLANGDIR; K_STRDT; K_sameTerm; K_isIRI; K_isURI; K_isBLANK; K_isLITERAL; K_isNUMERIC; K_hasLANG; K_hasLANGDIR; K_isTRIPLE; K_TRIPLE; K_SUBJECT; K_PREDICATE; K_OBJECT; K_REGEX; K_SUBSTR; K_REPLACE; K_EXISTS; K_COUNT; K_SUM; K_MIN; K_MAX; K_AVG; K_SAMPLE; K_GROUP_CONCAT; K_DECIMAL; K_DOUBLE; K_INTEGER_POSITIVE; K_DECIMAL_POSITIVE; K_DOUBLE_POSITIVE; K_INTEGER_NEGATIVE; K_DECIMAL_NEGATIVE; K_DOUBLE_NEGATIVE; K_True; K_False; K_STRING_LITERAL_LONG1; K_STRING_LITERAL_LONG2; K_PNAME_LN] (Call K_Expression)
          (ArmEnd (DErr [K_Star; K_IRIREF; K_PNAME_NS; K_STRING_LITERAL1; K_STRING_LITERAL2; K_LParen; K_INTEGER; K_Plus; K_ExclamationMark; K_DoubleLessLParen; K_VAR1; K_VAR2; K_NOT; K_Minus; K_STR; K_LANG; K_LANGMATCHES; K_LANGDIR; K_DATATYPE; K_BOUND; K_IRI; K_URI; K_BNODE; K_RAND; K_ABS; K_CEIL; K_FLOOR; K_ROUND; K_CONCAT; K_STRLEN; K_UCASE; K_LCASE; K_ENCODE_FOR_URI; K_CONTAINS; K_STRSTARTS; K_STRENDS; K_STRBEFORE; K_STRAFTER; K_YEAR; K_MONTH; K_DAY; K_HOURS; K_MINUTES; K_SECONDS; K_TIMEZONE; K_TZ; K_NOW; K_UUID; K_STRUUID; K_MD5; K_SHA1; K_SHA256; K_SHA384; K_SHA512; K_COALESCE; K_IF; K_STRLANG; K_STRLANGDIR; K_STRDT; K_sameTerm; K_isIRI; K_isURI; K_isBLANK; K_isLITERAL; K_isNUMERIC; K_hasLANG; K_hasLANGDIR; K_isTRIPLE; K_TRIPLE; K_SUBJECT; K_PREDICATE; K_OBJECT; K_REGEX; K_SUBSTR; K_REPLACE; K_EXISTS; K_COUNT; K_SUM; K_MIN; K_MAX; K_AVG; K_SAMPLE; K_GROUP_CONCAT; K_DECIMAL; K_DOUBLE; K_INTEGER_POSITIVE; K_DECIMAL_POSITIVE; K_DOUBLE_POSITIVE; K_INTEGER_NEGATIVE; K_DECIMAL_NEGATIVE; K_DOUBLE_NEGATIVE; K_True; K_False; K_STRING_LITERAL_LONG1; K_STRING_LITERAL_LONG2; K_PNAME_LN])))))
         (Expect K_RParen)))))
      (Arm [K_SUM] (Seq (Expect K_SUM)
         (Seq (Expect K_LParen)
         (Seq (If [K_DISTINCT] (Expect K_DISTINCT))
         (Seq (Call K_Expression)
         (Expect K_RParen)))))
      (Arm [K_MIN] (Seq (Expect K_MIN)
         (Seq (Expect K_LParen)
         (Seq (If [K_DISTINCT] (Expect K_DISTINCT))
         (Seq (Call K_Expression)
         (Expect K_RParen)))))
      (Arm [K_MAX] (Seq (Expect K_MAX)
         (Seq (Expect K_LParen)
         (Seq (If [K_DISTINCT] (Expect K_DISTINCT))
         (Seq (Call K_Expression)
         (Expect K_RParen)))))
      (Arm [K_AVG] (Seq (Expect K_AVG)
         (Seq (Expect K_LParen)
         (Seq (If [K_DISTINCT] (Expect K_DISTINCT))
         (Seq (Call K_Expression)
         (Expect K_RParen)))))
      (Arm [K_SAMPLE] (Seq (Expect K_SAMPLE)
         (Seq (Expect K_LParen)
         (Seq (If [K_DISTINCT] (Expect K_DISTINCT))
         (Seq (Call K_Expression)
         (Expect K_RParen)))))
      (Arm [K_GROUP_CONCAT] (Seq (Expect K_GROUP_CONCAT)
         (Seq (Expect K_LParen)
         (Seq (If [K_DISTINCT] (Expect K_DISTINCT))
         (Seq (Call K_Expression)
         (Seq (If [K_Semicolon] (Seq (Expect K_Semicolon)
           (Seq (Expect K_SEPARATOR)
           (Seq (Expect K_Equals)
           (Call K_String)))))
         (Expect K_RParen))))))
      (ArmEnd (DErr [K_COUNT; K_SUM; K_MIN; K_MAX; K_AVG; K_SAMPLE; K_GROUP_CONCAT]))))))))))
    false.

(** grammar.rs:6356-6369 fn parse_SubstringExpression *)
Definition parse_SubstringExpression : rule :=
  mkrule K_SubstringExpression None
    (Seq (Expect K_SUBSTR)
     (Seq (Expect K_LParen)
     (Seq (Call K_Expression)
     (Seq (Expect K_Comma)
     (Seq (Call K_Expression)
     (Seq (If [K_Comma] (Seq (Expect K_Comma)
       (Call K_Expression)))
     (Expect K_RParen)))))))
    false.

(** grammar.rs:6371-6386 fn parse_StrReplaceExpression *)
Definition parse_StrReplaceExpression : rule :=
  mkrule K_StrReplaceExpression None
    (Seq (Expect K_REPLACE)
     (Seq (Expect K_LParen)
     (Seq (Call K_Expression)
     (Seq (Expect K_Comma)
     (Seq (Call K_Expression)
     (Seq (Expect K_Comma)
     (Seq (Call K_Expression)
     (Seq (If [K_Comma] (Seq (Expect K_Comma)
       (Call K_Expression)))
     (Expect K_RParen)))))))))
    false.

(** grammar.rs:6388-6401 fn parse_RegexExpression *)
Definition parse_RegexExpression : rule :=
  mkrule K_RegexExpression None
    (Seq (Expect K_REGEX)
     (Seq (Expect K_LParen)
     (Seq (Call K_Expression)
     (Seq (Expect K_Comma)
     (Seq (Call K_Expression)
     (Seq (If [K_Comma] (Seq (Expect K_Comma)
       (Call K_Expression)))
     (Expect K_RParen)))))))
    false.

(** grammar.rs:6403-6408 fn parse_ExistsFunc *)
Definition parse_ExistsFunc : rule :=
  mkrule K_ExistsFunc None
    (Seq (Expect K_EXISTS)
     (Call K_GroupGraphPattern))
    false.

(** grammar.rs:6410-6416 fn parse_NotExistsFunc *)
Definition parse_NotExistsFunc : rule :=
  mkrule K_NotExistsFunc None
    (Seq (Expect K_NOT)
     (Seq (Expect K_EXISTS)
     (Call K_GroupGraphPattern)))
    false.

(** grammar.rs:6418-6449 fn parse_String *)
Definition parse_String : rule :=
  mkrule K_String None
    (Match (Arm [K_STRING_LITERAL1] (Expect K_STRING_LITERAL1)
      (Arm [K_STRING_LITERAL2] (Expect K_STRING_LITERAL2)
      (Arm [K_STRING_LITERAL_LONG1] (Expect K_STRING_LITERAL_LONG1)
      (Arm [K_STRING_LITERAL_LONG2] (Expect K_STRING_LITERAL_LONG2)
      (ArmEnd (DErr [K_STRING_LITERAL1; K_STRING_LITERAL2; K_STRING_LITERAL_LONG1; K_STRING_LITERAL_LONG2])))))))
    false.

(** grammar.rs:6451-6478 fn parse_NumericLiteralUnsigned *)
Definition parse_NumericLiteralUnsigned : rule :=
  mkrule K_NumericLiteralUnsigned None
    (Match (Arm [K_INTEGER] (Expect K_INTEGER)
      (Arm [K_DECIMAL] (Expect K_DECIMAL)
      (Arm [K_DOUBLE] (Expect K_DOUBLE)
      (ArmEnd (DErr [K_INTEGER; K_DECIMAL; K_DOUBLE]))))))
    false.

(** grammar.rs:6480-6500 fn parse_PrefixedName *)
Definition parse_PrefixedName : rule :=
  mkrule K_PrefixedName None
    (Match (Arm [K_PNAME_LN] (Expect K_PNAME_LN)
      (Arm [K_PNAME_NS] (Expect K_PNAME_NS)
      (ArmEnd (DErr [K_PNAME_LN; K_PNAME_NS])))))
    false.

(** the functions by the node kind they close with *)
Definition rule_of (k : kind) : option rule :=
  match k with
  | K_QueryUnit => Some parse_QueryUnit
  | K_Query => Some parse_Query
  | K_Prologue => Some parse_Prologue
  | K_SelectQuery => Some parse_SelectQuery
  | K_ConstructQuery => Some parse_ConstructQuery
  | K_DescribeQuery => Some parse_DescribeQuery
  | K_AskQuery => Some parse_AskQuery
  | K_ValuesClause => Some parse_ValuesClause
  | K_UpdateUnit => Some parse_UpdateUnit
  | K_Update => Some parse_Update
  | K_BaseDecl => Some parse_BaseDecl
  | K_PrefixDecl => Some parse_PrefixDecl
  | K_VersionDecl => Some parse_VersionDecl
  | K_VersionSpecifier => Some parse_VersionSpecifier
  | K_SelectClause => Some parse_SelectClause
  | K_DatasetClause => Some parse_DatasetClause
  | K_WhereClause => Some parse_WhereClause
  | K_SolutionModifier => Some parse_SolutionModifier
  | K_SubSelect => Some parse_SubSelect
  | K_Var => Some parse_Var
  | K_Expression => Some parse_Expression
  | K_ConstructTemplate => Some parse_ConstructTemplate
  | K_TriplesTemplate => Some parse_TriplesTemplate
  | K_VarOrIri => Some parse_VarOrIri
  | K_DefaultGraphClause => Some parse_DefaultGraphClause
  | K_NamedGraphClause => Some parse_NamedGraphClause
  | K_SourceSelector => Some parse_SourceSelector
  | K_iri => Some parse_iri
  | K_GroupGraphPattern => Some parse_GroupGraphPattern
  | K_GroupClause => Some parse_GroupClause
  | K_HavingClause => Some parse_HavingClause
  | K_OrderClause => Some parse_OrderClause
  | K_LimitOffsetClauses => Some parse_LimitOffsetClauses
  | K_GroupCondition => Some parse_GroupCondition
  | K_BuiltInCall => Some parse_BuiltInCall
  | K_FunctionCall => Some parse_FunctionCall
  | K_HavingCondition => Some parse_HavingCondition
  | K_Constraint => Some parse_Constraint
  | K_OrderCondition => Some parse_OrderCondition
  | K_BrackettedExpression => Some parse_BrackettedExpression
  | K_LimitClause => Some parse_LimitClause
  | K_OffsetClause => Some parse_OffsetClause
  | K_DataBlock => Some parse_DataBlock
  | K_UpdateOne => Some parse_UpdateOne
  | K_Load => Some parse_Load
  | K_Clear => Some parse_Clear
  | K_Drop => Some parse_Drop
  | K_Add => Some parse_Add
  | K_Move => Some parse_Move
  | K_Copy => Some parse_Copy
  | K_Create => Some parse_Create
  | K_DeleteWhere => Some parse_DeleteWhere
  | K_Modify => Some parse_Modify
  | K_InsertData => Some parse_InsertData
  | K_DeleteData => Some parse_DeleteData
  | K_GraphRef => Some parse_GraphRef
  | K_GraphRefAll => Some parse_GraphRefAll
  | K_GraphOrDefault => Some parse_GraphOrDefault
  | K_QuadData => Some parse_QuadData
  | K_QuadPattern => Some parse_QuadPattern
  | K_DeleteClause => Some parse_DeleteClause
  | K_InsertClause => Some parse_InsertClause
  | K_UsingClause => Some parse_UsingClause
  | K_Quads => Some parse_Quads
  | K_QuadsNotTriples => Some parse_QuadsNotTriples
  | K_TriplesSameSubject => Some parse_TriplesSameSubject
  | K_GroupGraphPatternSub => Some parse_GroupGraphPatternSub
  | K_TriplesBlock => Some parse_TriplesBlock
  | K_GraphPatternNotTriples => Some parse_GraphPatternNotTriples
  | K_TriplesSameSubjectPath => Some parse_TriplesSameSubjectPath
  | K_ReifiedTripleBlock => Some parse_ReifiedTripleBlock
  | K_ReifiedTriple => Some parse_ReifiedTriple
  | K_PropertyList => Some parse_PropertyList
  | K_ReifiedTripleBlockPath => Some parse_ReifiedTripleBlockPath
  | K_PropertyListPath => Some parse_PropertyListPath
  | K_GroupOrUnionGraphPattern => Some parse_GroupOrUnionGraphPattern
  | K_OptionalGraphPattern => Some parse_OptionalGraphPattern
  | K_MinusGraphPattern => Some parse_MinusGraphPattern
  | K_GraphGraphPattern => Some parse_GraphGraphPattern
  | K_ServiceGraphPattern => Some parse_ServiceGraphPattern
  | K_Filter => Some parse_Filter
  | K_Bind => Some parse_Bind
  | K_InlineData => Some parse_InlineData
  | K_InlineDataOneVar => Some parse_InlineDataOneVar
  | K_InlineDataFull => Some parse_InlineDataFull
  | K_DataBlockValue => Some parse_DataBlockValue
  | K_RDFLiteral => Some parse_RDFLiteral
  | K_NumericLiteral => Some parse_NumericLiteral
  | K_BooleanLiteral => Some parse_BooleanLiteral
  | K_TripleTermData => Some parse_TripleTermData
  | K_Reifier => Some parse_Reifier
  | K_VarOrReifierId => Some parse_VarOrReifierId
  | K_BlankNode => Some parse_BlankNode
  | K_ArgList => Some parse_ArgList
  | K_ExpressionList => Some parse_ExpressionList
  | K_ConstructTriples => Some parse_ConstructTriples
  | K_VarOrTerm => Some parse_VarOrTerm
  | K_PropertyListNotEmpty => Some parse_PropertyListNotEmpty
  | K_TriplesNode => Some parse_TriplesNode
  | K_Verb => Some parse_Verb
  | K_ObjectList => Some parse_ObjectList
  | K_Object => Some parse_Object
  | K_GraphNode => Some parse_GraphNode
  | K_Annotation => Some parse_Annotation
  | K_PropertyListPathNotEmpty => Some parse_PropertyListPathNotEmpty
  | K_TriplesNodePath => Some parse_TriplesNodePath
  | K_VerbPath => Some parse_VerbPath
  | K_VerbSimple => Some parse_VerbSimple
  | K_ObjectListPath => Some parse_ObjectListPath
  | K_Path => Some parse_Path
  | K_ObjectPath => Some parse_ObjectPath
  | K_GraphNodePath => Some parse_GraphNodePath
  | K_AnnotationPath => Some parse_AnnotationPath
  | K_PathAlternative => Some parse_PathAlternative
  | K_PathSequence => Some parse_PathSequence
  | K_PathEltOrInverse => Some parse_PathEltOrInverse
  | K_PathElt => Some parse_PathElt
  | K_PathPrimary => Some parse_PathPrimary
  | K_PathMod => Some parse_PathMod
  | K_PathNegatedPropertySet => Some parse_PathNegatedPropertySet
  | K_PathOneInPropertySet => Some parse_PathOneInPropertySet
  | K_Collection => Some parse_Collection
  | K_BlankNodePropertyList => Some parse_BlankNodePropertyList
  | K_CollectionPath => Some parse_CollectionPath
  | K_BlankNodePropertyListPath => Some parse_BlankNodePropertyListPath
  | K_AnnotationBlockPath => Some parse_AnnotationBlockPath
  | K_AnnotationBlock => Some parse_AnnotationBlock
  | K_TripleTerm => Some parse_TripleTerm
  | K_ReifiedTripleSubject => Some parse_ReifiedTripleSubject
  | K_ReifiedTripleObject => Some parse_ReifiedTripleObject
  | K_TripleTermSubject => Some parse_TripleTermSubject
  | K_TripleTermObject => Some parse_TripleTermObject
  | K_TripleTermDataSubject => Some parse_TripleTermDataSubject
  | K_TripleTermDataObject => Some parse_TripleTermDataObject
  | K_ConditionalOrExpression => Some parse_ConditionalOrExpression
  | K_ConditionalAndExpression => Some parse_ConditionalAndExpression
  | K_ValueLogical => Some parse_ValueLogical
  | K_RelationalExpression => Some parse_RelationalExpression
  | K_NumericExpression => Some parse_NumericExpression
  | K_AdditiveExpression => Some parse_AdditiveExpression
  | K_MultiplicativeExpression => Some parse_MultiplicativeExpression
  | K_NumericLiteralPositive => Some parse_NumericLiteralPositive
  | K_NumericLiteralNegative => Some parse_NumericLiteralNegative
  | K_UnaryExpression => Some parse_UnaryExpression
  | K_PrimaryExpression => Some parse_PrimaryExpression
  | K_iriOrFunction => Some parse_iriOrFunction
  | K_ExprTripleTerm => Some parse_ExprTripleTerm
  | K_ExprTripleTermSubject => Some parse_ExprTripleTermSubject
  | K_ExprTripleTermObject => Some parse_ExprTripleTermObject
  | K_Aggregate => Some parse_Aggregate
  | K_SubstringExpression => Some parse_SubstringExpression
  | K_StrReplaceExpression => Some parse_StrReplaceExpression
  | K_RegexExpression => Some parse_RegexExpression
  | K_ExistsFunc => Some parse_ExistsFunc
  | K_NotExistsFunc => Some parse_NotExistsFunc
  | K_String => Some parse_String
  | K_NumericLiteralUnsigned => Some parse_NumericLiteralUnsigned
  | K_PrefixedName => Some parse_PrefixedName
  | _ => None
  end.

Definition rule_kinds : list kind :=
  [K_QueryUnit; K_Query; K_Prologue; K_SelectQuery; K_ConstructQuery; K_DescribeQuery; K_AskQuery; K_ValuesClause; K_UpdateUnit; K_Update; K_BaseDecl; K_PrefixDecl; K_VersionDecl; K_VersionSpecifier; K_SelectClause; K_DatasetClause; K_WhereClause; K_SolutionModifier; K_SubSelect; K_Var; K_Expression; K_ConstructTemplate; K_TriplesTemplate; K_VarOrIri; K_DefaultGraphClause; K_NamedGraphClause; K_SourceSelector; K_iri; K_GroupGraphPattern; K_GroupClause; K_HavingClause; K_OrderClause; K_LimitOffsetClauses; K_GroupCondition; K_BuiltInCall; K_FunctionCall; K_HavingCondition; K_Constraint; K_OrderCondition; K_BrackettedExpression; K_LimitClause; K_OffsetClause; K_DataBlock; K_UpdateOne; K_Load; K_Clear; K_Drop; K_Add; K_Move; K_Copy; K_Create; K_DeleteWhere; K_Modify; K_InsertData; K_DeleteData; K_GraphRef; K_GraphRefAll; K_GraphOrDefault; K_QuadData; K_QuadPattern; K_DeleteClause; K_InsertClause; K_UsingClause; K_Quads; K_QuadsNotTriples; K_TriplesSameSubject; K_GroupGraphPatternSub; K_TriplesBlock; K_GraphPatternNotTriples; K_TriplesSameSubjectPath; K_ReifiedTripleBlock; K_ReifiedTriple; K_PropertyList; K_ReifiedTripleBlockPath; K_PropertyListPath; K_GroupOrUnionGraphPattern; K_OptionalGraphPattern; K_MinusGraphPattern; K_GraphGraphPattern; K_ServiceGraphPattern; K_Filter; K_Bind; K_InlineData; K_InlineDataOneVar; K_InlineDataFull; K_DataBlockValue; K_RDFLiteral; K_NumericLiteral; K_BooleanLiteral; K_TripleTermData; K_Reifier; K_VarOrReifierId; K_BlankNode; K_ArgList; K_ExpressionList; K_ConstructTriples; K_VarOrTerm; K_PropertyListNotEmpty; K_TriplesNode; K_Verb; K_ObjectList; K_Object; K_GraphNode; K_Annotation; K_PropertyListPathNotEmpty; K_TriplesNodePath; K_VerbPath; K_VerbSimple; K_ObjectListPath; K_Path; K_ObjectPath; K_GraphNodePath; K_AnnotationPath; K_PathAlternative; K_PathSequence; K_PathEltOrInverse; K_PathElt; K_PathPrimary; K_PathMod; K_PathNegatedPropertySet; K_PathOneInPropertySet; K_Collection; K_BlankNodePropertyList; K_CollectionPath; K_BlankNodePropertyListPath; K_AnnotationBlockPath; K_AnnotationBlock; K_TripleTerm; K_ReifiedTripleSubject; K_ReifiedTripleObject; K_TripleTermSubject; K_TripleTermObject; K_TripleTermDataSubject; K_TripleTermDataObject; K_ConditionalOrExpression; K_ConditionalAndExpression; K_ValueLogical; K_RelationalExpression; K_NumericExpression; K_AdditiveExpression; K_MultiplicativeExpression; K_NumericLiteralPositive; K_NumericLiteralNegative; K_UnaryExpression; K_PrimaryExpression; K_iriOrFunction; K_ExprTripleTerm; K_ExprTripleTermSubject; K_ExprTripleTermObject; K_Aggregate; K_SubstringExpression; K_StrReplaceExpression; K_RegexExpression; K_ExistsFunc; K_NotExistsFunc; K_String; K_NumericLiteralUnsigned; K_PrefixedName].
