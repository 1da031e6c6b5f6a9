(** Generated by tools/format2coq.py from src/server/message_handler/formatting/core.rs and utils.rs. *)
From Coq Require Import List.
Import ListNotations.
From Verif Require Import Kinds.

(** core.rs:1070-1174  enum Seperator, fn get_separator *)
Inductive separator := LineBreak | Space | Empty | Unknown.
Definition get_separator (k : kind) : separator :=
  match k with
  | K_Query | K_Prologue | K_SolutionModifier | K_LimitOffsetClauses => LineBreak
  | K_ExpressionList | K_GroupGraphPattern | K_GroupGraphPatternSub | K_GroupOrUnionGraphPattern | K_TriplesTemplate | K_BrackettedExpression | K_ConstructTemplate | K_QuadData | K_ObjectList | K_ObjectListPath | K_SubstringExpression | K_RegexExpression | K_ArgList | K_OrderCondition | K_Aggregate | K_BuiltInCall | K_FunctionCall | K_PathSequence | K_PathEltOrInverse | K_PathElt | K_PathPrimary | K_PNAME_NS | K_BlankNodePropertyListPath | K_BlankNodePropertyList | K_TriplesBlock | K_Quads | K_ConstructTriples | K_ConstructQuery | K_SelectQuery | K_SubSelect | K_AskQuery | K_DescribeQuery | K_Modify | K_Update | K_UpdateOne | K_SelectClause | K_GroupCondition | K_PropertyListPathNotEmpty | K_PropertyListNotEmpty | K_QuadPattern | K_QuadsNotTriples | K_Bind => Empty
  | K_BaseDecl | K_PrefixDecl | K_WhereClause | K_DatasetClause | K_MinusGraphPattern | K_DefaultGraphClause | K_NamedGraphClause | K_TriplesSameSubject | K_OptionalGraphPattern | K_ServiceGraphPattern | K_InlineData | K_InlineDataOneVar | K_ValuesClause | K_DataBlock | K_GroupClause | K_HavingClause | K_OrderClause | K_LimitClause | K_OffsetClause | K_ExistsFunc | K_Filter | K_Load | K_Clear | K_Drop | K_Add | K_Move | K_Copy | K_Create | K_InsertData | K_DeleteData | K_DeleteWhere | K_GraphRef | K_GraphRefAll | K_GraphOrDefault | K_DeleteClause | K_InsertClause | K_UsingClause | K_Path | K_TriplesSameSubjectPath | K_PathAlternative | K_RelationalExpression | K_ConditionalAndExpression | K_ConditionalOrExpression | K_MultiplicativeExpression | K_AdditiveExpression => Space
  | _ => Unknown
  end.
(** utils.rs:4-114  KEYWORDS *)
Definition KEYWORDS : list kind := [
  K_BASE; K_PREFIX; K_SELECT; K_DISTINCT; K_REDUCED; K_FROM; K_NAMED; K_WHERE; K_UNION; K_OPTIONAL; K_MINUS; K_GRAPH; K_SERVICE; K_SILENT; K_FILTER; K_BIND; K_VALUES; K_AS; K_GROUP; K_BY; K_HAVING; K_ORDER; K_DESC; K_ASC; K_LIMIT; K_OFFSET; K_CONSTRUCT; K_DESCRIBE; K_ASK; K_STR; K_LANG; K_STR; K_LANG; K_LANGMATCHES; K_DATATYPE; K_BOUND; K_IRI; K_URI; K_BNODE; K_RAND; K_ABS; K_CEIL; K_FLOOR; K_ROUND; K_CONCAT; K_STRLEN; K_UCASE; K_LCASE; K_ENCODE_FOR_URI; K_CONTAINS; K_STRSTARTS; K_STRENDS; K_STRBEFORE; K_STRAFTER; K_YEAR; K_MONTH; K_DAY; K_HOURS; K_MINUTES; K_SECONDS; K_TIMEZONE; K_TZ; K_NOW; K_UUID; K_STRUUID; K_MD5; K_SHA1; K_SHA256; K_SHA384; K_SHA512; K_COALESCE; K_IF; K_STRLANG; K_STRDT; K_sameTerm; K_isIRI; K_isURI; K_isBLANK; K_isLITERAL; K_isNUMERIC; K_COUNT; K_SUM; K_MIN; K_MAX; K_AVG; K_SAMPLE; K_GROUP_CONCAT; K_SEPARATOR; K_SUBSTR; K_REGEX; K_EXISTS; K_IN; K_NOT; K_LOAD; K_INTO; K_CLEAR; K_ALL; K_NAMED; K_DEFAULT; K_DROP; K_ADD; K_TO; K_MOVE; K_COPY; K_INSERT; K_DATA; K_WITH; K_USING; K_CREATE
].
