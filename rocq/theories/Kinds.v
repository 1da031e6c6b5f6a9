(** Generated by tools/grammar2coq.py from
    crates/sparql-parser/src/syntax_kind/generated.rs (enum SyntaxKind, declaration order).
    [kind_id] is the discriminant (#[repr(u16)], Eof = 0). *)
From Coq Require Import NArith List Bool.
Import ListNotations.

Inductive kind :=
| K_Eof
| K_Error
| K_WHITESPACE
| K_Comment
| K_BASE
| K_IRIREF
| K_PREFIX
| K_PNAME_NS
| K_SELECT
| K_DISTINCT
| K_REDUCED
| K_LParen
| K_AS
| K_RParen
| K_Star
| K_CONSTRUCT
| K_WHERE
| K_LCurly
| K_RCurly
| K_LCurlyPipe
| K_PipeRCurly
| K_DESCRIBE
| K_ASK
| K_FROM
| K_NAMED
| K_GROUP
| K_BY
| K_HAVING
| K_ORDER
| K_ASC
| K_DESC
| K_LIMIT
| K_OFFSET
| K_VALUES
| K_Semicolon
| K_LOAD
| K_SILENT
| K_INTO
| K_CLEAR
| K_DROP
| K_CREATE
| K_ADD
| K_TO
| K_MOVE
| K_COPY
| K_INSERT
| K_DATA
| K_INSERT_DATA
| K_DELETE_DATA
| K_DELETE_WHERE
| K_DELETE
| K_WITH
| K_USING
| K_DEFAULT
| K_GRAPH
| K_ALL
| K_Dot
| K_Tilde
| K_OPTIONAL
| K_SERVICE
| K_BIND
| K_NIL
| K_UNDEF
| K_MINUS
| K_UNION
| K_FILTER
| K_Comma
| K_a
| K_Pipe
| K_Slash
| K_Zirkumflex
| K_QuestionMark
| K_Plus
| K_ExclamationMark
| K_LBrack
| K_RBrack
| K_VAR1
| K_VAR2
| K_LANG_DIR
| K_DoublePipe
| K_DoubleAnd
| K_Equals
| K_ExclamationMarkEquals
| K_Less
| K_More
| K_LessEquals
| K_MoreEquals
| K_DoubleLess
| K_DoubleLessLParen
| K_DoubleMore
| K_RParenDoubleMore
| K_IN
| K_NOT
| K_Minus
| K_STR
| K_LANG
| K_LANGMATCHES
| K_DATATYPE
| K_BOUND
| K_IRI
| K_URI
| K_BNODE
| K_RAND
| K_ABS
| K_CEIL
| K_FLOOR
| K_ROUND
| K_CONCAT
| K_STRLEN
| K_UCASE
| K_LCASE
| K_ENCODE_FOR_URI
| K_CONTAINS
| K_STRSTARTS
| K_STRENDS
| K_STRBEFORE
| K_STRAFTER
| K_YEAR
| K_MONTH
| K_DAY
| K_HOURS
| K_MINUTES
| K_SECONDS
| K_TIMEZONE
| K_TZ
| K_NOW
| K_UUID
| K_STRUUID
| K_MD5
| K_SHA1
| K_SHA256
| K_SHA384
| K_SHA512
| K_COALESCE
| K_IF
| K_STRLANG
| K_STRDT
| K_sameTerm
| K_isIRI
| K_isURI
| K_isBLANK
| K_isLITERAL
| K_isNUMERIC
| K_REGEX
| K_SUBSTR
| K_REPLACE
| K_EXISTS
| K_COUNT
| K_SUM
| K_MIN
| K_MAX
| K_AVG
| K_SAMPLE
| K_GROUP_CONCAT
| K_SEPARATOR
| K_VERSION
| K_STRLANGDIR
| K_hasLANG
| K_hasLANGDIR
| K_isTRIPLE
| K_TRIPLE
| K_SUBJECT
| K_PREDICATE
| K_OBJECT
| K_LANGDIR
| K_DoubleZirkumflex
| K_INTEGER
| K_DECIMAL
| K_DOUBLE
| K_INTEGER_POSITIVE
| K_DECIMAL_POSITIVE
| K_DOUBLE_POSITIVE
| K_INTEGER_NEGATIVE
| K_DECIMAL_NEGATIVE
| K_DOUBLE_NEGATIVE
| K_True
| K_False
| K_STRING_LITERAL1
| K_STRING_LITERAL2
| K_STRING_LITERAL_LONG1
| K_STRING_LITERAL_LONG2
| K_PNAME_LN
| K_BLANK_NODE_LABEL
| K_ANON
| K_QueryUnit
| K_Query
| K_Prologue
| K_SelectQuery
| K_ConstructQuery
| K_DescribeQuery
| K_AskQuery
| K_ValuesClause
| K_UpdateUnit
| K_Update
| K_BaseDecl
| K_PrefixDecl
| K_VersionDecl
| K_VersionSpecifier
| K_SelectClause
| K_DatasetClause
| K_WhereClause
| K_SolutionModifier
| K_SubSelect
| K_Var
| K_Expression
| K_ConstructTemplate
| K_TriplesTemplate
| K_VarOrIri
| K_DefaultGraphClause
| K_NamedGraphClause
| K_SourceSelector
| K_iri
| K_GroupGraphPattern
| K_GroupClause
| K_HavingClause
| K_OrderClause
| K_LimitOffsetClauses
| K_GroupCondition
| K_BuiltInCall
| K_FunctionCall
| K_HavingCondition
| K_Constraint
| K_OrderCondition
| K_BrackettedExpression
| K_LimitClause
| K_OffsetClause
| K_DataBlock
| K_UpdateOne
| K_Load
| K_Clear
| K_Drop
| K_Add
| K_Move
| K_Copy
| K_Create
| K_InsertData
| K_DeleteData
| K_DeleteWhere
| K_Modify
| K_GraphRef
| K_GraphRefAll
| K_GraphOrDefault
| K_QuadData
| K_QuadPattern
| K_DeleteClause
| K_InsertClause
| K_UsingClause
| K_Quads
| K_QuadsNotTriples
| K_TriplesSameSubject
| K_GroupGraphPatternSub
| K_TriplesBlock
| K_ReifiedTripleBlock
| K_ReifiedTripleBlockPath
| K_Reifier
| K_VarOrReifierId
| K_AnnotationPath
| K_AnnotationBlockPath
| K_Annotation
| K_AnnotationBlock
| K_GraphPatternNotTriples
| K_TriplesSameSubjectPath
| K_GroupOrUnionGraphPattern
| K_OptionalGraphPattern
| K_MinusGraphPattern
| K_GraphGraphPattern
| K_ServiceGraphPattern
| K_Filter
| K_Bind
| K_InlineData
| K_InlineDataOneVar
| K_InlineDataFull
| K_DataBlockValue
| K_RDFLiteral
| K_NumericLiteral
| K_BooleanLiteral
| K_ArgList
| K_ExpressionList
| K_ConstructTriples
| K_VarOrTerm
| K_ReifiedTriple
| K_ReifiedTripleSubject
| K_ReifiedTripleObject
| K_TripleTerm
| K_TripleTermSubject
| K_TripleTermObject
| K_TripleTermData
| K_TripleTermDataSubject
| K_TripleTermDataObject
| K_PropertyListNotEmpty
| K_TriplesNode
| K_PropertyList
| K_Verb
| K_ObjectList
| K_Object
| K_GraphNode
| K_PropertyListPathNotEmpty
| K_TriplesNodePath
| K_PropertyListPath
| K_VerbPath
| K_VerbSimple
| K_ObjectListPath
| K_Path
| K_ObjectPath
| K_GraphNodePath
| K_PathAlternative
| K_PathSequence
| K_PathEltOrInverse
| K_PathElt
| K_PathPrimary
| K_PathMod
| K_PathNegatedPropertySet
| K_PathOneInPropertySet
| K_Integer
| K_Collection
| K_BlankNodePropertyList
| K_CollectionPath
| K_BlankNodePropertyListPath
| K_GraphTerm
| K_BlankNode
| K_ConditionalOrExpression
| K_ConditionalAndExpression
| K_ValueLogical
| K_RelationalExpression
| K_NumericExpression
| K_AdditiveExpression
| K_MultiplicativeExpression
| K_NumericLiteralPositive
| K_NumericLiteralNegative
| K_UnaryExpression
| K_PrimaryExpression
| K_ExprTripleTerm
| K_ExprTripleTermSubject
| K_ExprTripleTermObject
| K_iriOrFunction
| K_Aggregate
| K_SubstringExpression
| K_StrReplaceExpression
| K_RegexExpression
| K_ExistsFunc
| K_NotExistsFunc
| K_String
| K_NumericLiteralUnsigned
| K_PrefixedName
.

Definition kind_id (k : kind) : N :=
  match k with
  | K_Eof => 0%N
  | K_Error => 1%N
  | K_WHITESPACE => 2%N
  | K_Comment => 3%N
  | K_BASE => 4%N
  | K_IRIREF => 5%N
  | K_PREFIX => 6%N
  | K_PNAME_NS => 7%N
  | K_SELECT => 8%N
  | K_DISTINCT => 9%N
  | K_REDUCED => 10%N
  | K_LParen => 11%N
  | K_AS => 12%N
  | K_RParen => 13%N
  | K_Star => 14%N
  | K_CONSTRUCT => 15%N
  | K_WHERE => 16%N
  | K_LCurly => 17%N
  | K_RCurly => 18%N
  | K_LCurlyPipe => 19%N
  | K_PipeRCurly => 20%N
  | K_DESCRIBE => 21%N
  | K_ASK => 22%N
  | K_FROM => 23%N
  | K_NAMED => 24%N
  | K_GROUP => 25%N
  | K_BY => 26%N
  | K_HAVING => 27%N
  | K_ORDER => 28%N
  | K_ASC => 29%N
  | K_DESC => 30%N
  | K_LIMIT => 31%N
  | K_OFFSET => 32%N
  | K_VALUES => 33%N
  | K_Semicolon => 34%N
  | K_LOAD => 35%N
  | K_SILENT => 36%N
  | K_INTO => 37%N
  | K_CLEAR => 38%N
  | K_DROP => 39%N
  | K_CREATE => 40%N
  | K_ADD => 41%N
  | K_TO => 42%N
  | K_MOVE => 43%N
  | K_COPY => 44%N
  | K_INSERT => 45%N
  | K_DATA => 46%N
  | K_INSERT_DATA => 47%N
  | K_DELETE_DATA => 48%N
  | K_DELETE_WHERE => 49%N
  | K_DELETE => 50%N
  | K_WITH => 51%N
  | K_USING => 52%N
  | K_DEFAULT => 53%N
  | K_GRAPH => 54%N
  | K_ALL => 55%N
  | K_Dot => 56%N
  | K_Tilde => 57%N
  | K_OPTIONAL => 58%N
  | K_SERVICE => 59%N
  | K_BIND => 60%N
  | K_NIL => 61%N
  | K_UNDEF => 62%N
  | K_MINUS => 63%N
  | K_UNION => 64%N
  | K_FILTER => 65%N
  | K_Comma => 66%N
  | K_a => 67%N
  | K_Pipe => 68%N
  | K_Slash => 69%N
  | K_Zirkumflex => 70%N
  | K_QuestionMark => 71%N
  | K_Plus => 72%N
  | K_ExclamationMark => 73%N
  | K_LBrack => 74%N
  | K_RBrack => 75%N
  | K_VAR1 => 76%N
  | K_VAR2 => 77%N
  | K_LANG_DIR => 78%N
  | K_DoublePipe => 79%N
  | K_DoubleAnd => 80%N
  | K_Equals => 81%N
  | K_ExclamationMarkEquals => 82%N
  | K_Less => 83%N
  | K_More => 84%N
  | K_LessEquals => 85%N
  | K_MoreEquals => 86%N
  | K_DoubleLess => 87%N
  | K_DoubleLessLParen => 88%N
  | K_DoubleMore => 89%N
  | K_RParenDoubleMore => 90%N
  | K_IN => 91%N
  | K_NOT => 92%N
  | K_Minus => 93%N
  | K_STR => 94%N
  | K_LANG => 95%N
  | K_LANGMATCHES => 96%N
  | K_DATATYPE => 97%N
  | K_BOUND => 98%N
  | K_IRI => 99%N
  | K_URI => 100%N
  | K_BNODE => 101%N
  | K_RAND => 102%N
  | K_ABS => 103%N
  | K_CEIL => 104%N
  | K_FLOOR => 105%N
  | K_ROUND => 106%N
  | K_CONCAT => 107%N
  | K_STRLEN => 108%N
  | K_UCASE => 109%N
  | K_LCASE => 110%N
  | K_ENCODE_FOR_URI => 111%N
  | K_CONTAINS => 112%N
  | K_STRSTARTS => 113%N
  | K_STRENDS => 114%N
  | K_STRBEFORE => 115%N
  | K_STRAFTER => 116%N
  | K_YEAR => 117%N
  | K_MONTH => 118%N
  | K_DAY => 119%N
  | K_HOURS => 120%N
  | K_MINUTES => 121%N
  | K_SECONDS => 122%N
  | K_TIMEZONE => 123%N
  | K_TZ => 124%N
  | K_NOW => 125%N
  | K_UUID => 126%N
  | K_STRUUID => 127%N
  | K_MD5 => 128%N
  | K_SHA1 => 129%N
  | K_SHA256 => 130%N
  | K_SHA384 => 131%N
  | K_SHA512 => 132%N
  | K_COALESCE => 133%N
  | K_IF => 134%N
  | K_STRLANG => 135%N
  | K_STRDT => 136%N
  | K_sameTerm => 137%N
  | K_isIRI => 138%N
  | K_isURI => 139%N
  | K_isBLANK => 140%N
  | K_isLITERAL => 141%N
  | K_isNUMERIC => 142%N
  | K_REGEX => 143%N
  | K_SUBSTR => 144%N
  | K_REPLACE => 145%N
  | K_EXISTS => 146%N
  | K_COUNT => 147%N
  | K_SUM => 148%N
  | K_MIN => 149%N
  | K_MAX => 150%N
  | K_AVG => 151%N
  | K_SAMPLE => 152%N
  | K_GROUP_CONCAT => 153%N
  | K_SEPARATOR => 154%N
  | K_VERSION => 155%N
  | K_STRLANGDIR => 156%N
  | K_hasLANG => 157%N
  | K_hasLANGDIR => 158%N
  | K_isTRIPLE => 159%N
  | K_TRIPLE => 160%N
  | K_SUBJECT => 161%N
  | K_PREDICATE => 162%N
  | K_OBJECT => 163%N
  | K_LANGDIR => 164%N
  | K_DoubleZirkumflex => 165%N
  | K_INTEGER => 166%N
  | K_DECIMAL => 167%N
  | K_DOUBLE => 168%N
  | K_INTEGER_POSITIVE => 169%N
  | K_DECIMAL_POSITIVE => 170%N
  | K_DOUBLE_POSITIVE => 171%N
  | K_INTEGER_NEGATIVE => 172%N
  | K_DECIMAL_NEGATIVE => 173%N
  | K_DOUBLE_NEGATIVE => 174%N
  | K_True => 175%N
  | K_False => 176%N
  | K_STRING_LITERAL1 => 177%N
  | K_STRING_LITERAL2 => 178%N
  | K_STRING_LITERAL_LONG1 => 179%N
  | K_STRING_LITERAL_LONG2 => 180%N
  | K_PNAME_LN => 181%N
  | K_BLANK_NODE_LABEL => 182%N
  | K_ANON => 183%N
  | K_QueryUnit => 184%N
  | K_Query => 185%N
  | K_Prologue => 186%N
  | K_SelectQuery => 187%N
  | K_ConstructQuery => 188%N
  | K_DescribeQuery => 189%N
  | K_AskQuery => 190%N
  | K_ValuesClause => 191%N
  | K_UpdateUnit => 192%N
  | K_Update => 193%N
  | K_BaseDecl => 194%N
  | K_PrefixDecl => 195%N
  | K_VersionDecl => 196%N
  | K_VersionSpecifier => 197%N
  | K_SelectClause => 198%N
  | K_DatasetClause => 199%N
  | K_WhereClause => 200%N
  | K_SolutionModifier => 201%N
  | K_SubSelect => 202%N
  | K_Var => 203%N
  | K_Expression => 204%N
  | K_ConstructTemplate => 205%N
  | K_TriplesTemplate => 206%N
  | K_VarOrIri => 207%N
  | K_DefaultGraphClause => 208%N
  | K_NamedGraphClause => 209%N
  | K_SourceSelector => 210%N
  | K_iri => 211%N
  | K_GroupGraphPattern => 212%N
  | K_GroupClause => 213%N
  | K_HavingClause => 214%N
  | K_OrderClause => 215%N
  | K_LimitOffsetClauses => 216%N
  | K_GroupCondition => 217%N
  | K_BuiltInCall => 218%N
  | K_FunctionCall => 219%N
  | K_HavingCondition => 220%N
  | K_Constraint => 221%N
  | K_OrderCondition => 222%N
  | K_BrackettedExpression => 223%N
  | K_LimitClause => 224%N
  | K_OffsetClause => 225%N
  | K_DataBlock => 226%N
  | K_UpdateOne => 227%N
  | K_Load => 228%N
  | K_Clear => 229%N
  | K_Drop => 230%N
  | K_Add => 231%N
  | K_Move => 232%N
  | K_Copy => 233%N
  | K_Create => 234%N
  | K_InsertData => 235%N
  | K_DeleteData => 236%N
  | K_DeleteWhere => 237%N
  | K_Modify => 238%N
  | K_GraphRef => 239%N
  | K_GraphRefAll => 240%N
  | K_GraphOrDefault => 241%N
  | K_QuadData => 242%N
  | K_QuadPattern => 243%N
  | K_DeleteClause => 244%N
  | K_InsertClause => 245%N
  | K_UsingClause => 246%N
  | K_Quads => 247%N
  | K_QuadsNotTriples => 248%N
  | K_TriplesSameSubject => 249%N
  | K_GroupGraphPatternSub => 250%N
  | K_TriplesBlock => 251%N
  | K_ReifiedTripleBlock => 252%N
  | K_ReifiedTripleBlockPath => 253%N
  | K_Reifier => 254%N
  | K_VarOrReifierId => 255%N
  | K_AnnotationPath => 256%N
  | K_AnnotationBlockPath => 257%N
  | K_Annotation => 258%N
  | K_AnnotationBlock => 259%N
  | K_GraphPatternNotTriples => 260%N
  | K_TriplesSameSubjectPath => 261%N
  | K_GroupOrUnionGraphPattern => 262%N
  | K_OptionalGraphPattern => 263%N
  | K_MinusGraphPattern => 264%N
  | K_GraphGraphPattern => 265%N
  | K_ServiceGraphPattern => 266%N
  | K_Filter => 267%N
  | K_Bind => 268%N
  | K_InlineData => 269%N
  | K_InlineDataOneVar => 270%N
  | K_InlineDataFull => 271%N
  | K_DataBlockValue => 272%N
  | K_RDFLiteral => 273%N
  | K_NumericLiteral => 274%N
  | K_BooleanLiteral => 275%N
  | K_ArgList => 276%N
  | K_ExpressionList => 277%N
  | K_ConstructTriples => 278%N
  | K_VarOrTerm => 279%N
  | K_ReifiedTriple => 280%N
  | K_ReifiedTripleSubject => 281%N
  | K_ReifiedTripleObject => 282%N
  | K_TripleTerm => 283%N
  | K_TripleTermSubject => 284%N
  | K_TripleTermObject => 285%N
  | K_TripleTermData => 286%N
  | K_TripleTermDataSubject => 287%N
  | K_TripleTermDataObject => 288%N
  | K_PropertyListNotEmpty => 289%N
  | K_TriplesNode => 290%N
  | K_PropertyList => 291%N
  | K_Verb => 292%N
  | K_ObjectList => 293%N
  | K_Object => 294%N
  | K_GraphNode => 295%N
  | K_PropertyListPathNotEmpty => 296%N
  | K_TriplesNodePath => 297%N
  | K_PropertyListPath => 298%N
  | K_VerbPath => 299%N
  | K_VerbSimple => 300%N
  | K_ObjectListPath => 301%N
  | K_Path => 302%N
  | K_ObjectPath => 303%N
  | K_GraphNodePath => 304%N
  | K_PathAlternative => 305%N
  | K_PathSequence => 306%N
  | K_PathEltOrInverse => 307%N
  | K_PathElt => 308%N
  | K_PathPrimary => 309%N
  | K_PathMod => 310%N
  | K_PathNegatedPropertySet => 311%N
  | K_PathOneInPropertySet => 312%N
  | K_Integer => 313%N
  | K_Collection => 314%N
  | K_BlankNodePropertyList => 315%N
  | K_CollectionPath => 316%N
  | K_BlankNodePropertyListPath => 317%N
  | K_GraphTerm => 318%N
  | K_BlankNode => 319%N
  | K_ConditionalOrExpression => 320%N
  | K_ConditionalAndExpression => 321%N
  | K_ValueLogical => 322%N
  | K_RelationalExpression => 323%N
  | K_NumericExpression => 324%N
  | K_AdditiveExpression => 325%N
  | K_MultiplicativeExpression => 326%N
  | K_NumericLiteralPositive => 327%N
  | K_NumericLiteralNegative => 328%N
  | K_UnaryExpression => 329%N
  | K_PrimaryExpression => 330%N
  | K_ExprTripleTerm => 331%N
  | K_ExprTripleTermSubject => 332%N
  | K_ExprTripleTermObject => 333%N
  | K_iriOrFunction => 334%N
  | K_Aggregate => 335%N
  | K_SubstringExpression => 336%N
  | K_StrReplaceExpression => 337%N
  | K_RegexExpression => 338%N
  | K_ExistsFunc => 339%N
  | K_NotExistsFunc => 340%N
  | K_String => 341%N
  | K_NumericLiteralUnsigned => 342%N
  | K_PrefixedName => 343%N
  end.

Definition all_kinds : list kind :=
  [ K_Eof;
    K_Error;
    K_WHITESPACE;
    K_Comment;
    K_BASE;
    K_IRIREF;
    K_PREFIX;
    K_PNAME_NS;
    K_SELECT;
    K_DISTINCT;
    K_REDUCED;
    K_LParen;
    K_AS;
    K_RParen;
    K_Star;
    K_CONSTRUCT;
    K_WHERE;
    K_LCurly;
    K_RCurly;
    K_LCurlyPipe;
    K_PipeRCurly;
    K_DESCRIBE;
    K_ASK;
    K_FROM;
    K_NAMED;
    K_GROUP;
    K_BY;
    K_HAVING;
    K_ORDER;
    K_ASC;
    K_DESC;
    K_LIMIT;
    K_OFFSET;
    K_VALUES;
    K_Semicolon;
    K_LOAD;
    K_SILENT;
    K_INTO;
    K_CLEAR;
    K_DROP;
    K_CREATE;
    K_ADD;
    K_TO;
    K_MOVE;
    K_COPY;
    K_INSERT;
    K_DATA;
    K_INSERT_DATA;
    K_DELETE_DATA;
    K_DELETE_WHERE;
    K_DELETE;
    K_WITH;
    K_USING;
    K_DEFAULT;
    K_GRAPH;
    K_ALL;
    K_Dot;
    K_Tilde;
    K_OPTIONAL;
    K_SERVICE;
    K_BIND;
    K_NIL;
    K_UNDEF;
    K_MINUS;
    K_UNION;
    K_FILTER;
    K_Comma;
    K_a;
    K_Pipe;
    K_Slash;
    K_Zirkumflex;
    K_QuestionMark;
    K_Plus;
    K_ExclamationMark;
    K_LBrack;
    K_RBrack;
    K_VAR1;
    K_VAR2;
    K_LANG_DIR;
    K_DoublePipe;
    K_DoubleAnd;
    K_Equals;
    K_ExclamationMarkEquals;
    K_Less;
    K_More;
    K_LessEquals;
    K_MoreEquals;
    K_DoubleLess;
    K_DoubleLessLParen;
    K_DoubleMore;
    K_RParenDoubleMore;
    K_IN;
    K_NOT;
    K_Minus;
    K_STR;
    K_LANG;
    K_LANGMATCHES;
    K_DATATYPE;
    K_BOUND;
    K_IRI;
    K_URI;
    K_BNODE;
    K_RAND;
    K_ABS;
    K_CEIL;
    K_FLOOR;
    K_ROUND;
    K_CONCAT;
    K_STRLEN;
    K_UCASE;
    K_LCASE;
    K_ENCODE_FOR_URI;
    K_CONTAINS;
    K_STRSTARTS;
    K_STRENDS;
    K_STRBEFORE;
    K_STRAFTER;
    K_YEAR;
    K_MONTH;
    K_DAY;
    K_HOURS;
    K_MINUTES;
    K_SECONDS;
    K_TIMEZONE;
    K_TZ;
    K_NOW;
    K_UUID;
    K_STRUUID;
    K_MD5;
    K_SHA1;
    K_SHA256;
    K_SHA384;
    K_SHA512;
    K_COALESCE;
    K_IF;
    K_STRLANG;
    K_STRDT;
    K_sameTerm;
    K_isIRI;
    K_isURI;
    K_isBLANK;
    K_isLITERAL;
    K_isNUMERIC;
    K_REGEX;
    K_SUBSTR;
    K_REPLACE;
    K_EXISTS;
    K_COUNT;
    K_SUM;
    K_MIN;
    K_MAX;
    K_AVG;
    K_SAMPLE;
    K_GROUP_CONCAT;
    K_SEPARATOR;
    K_VERSION;
    K_STRLANGDIR;
    K_hasLANG;
    K_hasLANGDIR;
    K_isTRIPLE;
    K_TRIPLE;
    K_SUBJECT;
    K_PREDICATE;
    K_OBJECT;
    K_LANGDIR;
    K_DoubleZirkumflex;
    K_INTEGER;
    K_DECIMAL;
    K_DOUBLE;
    K_INTEGER_POSITIVE;
    K_DECIMAL_POSITIVE;
    K_DOUBLE_POSITIVE;
    K_INTEGER_NEGATIVE;
    K_DECIMAL_NEGATIVE;
    K_DOUBLE_NEGATIVE;
    K_True;
    K_False;
    K_STRING_LITERAL1;
    K_STRING_LITERAL2;
    K_STRING_LITERAL_LONG1;
    K_STRING_LITERAL_LONG2;
    K_PNAME_LN;
    K_BLANK_NODE_LABEL;
    K_ANON;
    K_QueryUnit;
    K_Query;
    K_Prologue;
    K_SelectQuery;
    K_ConstructQuery;
    K_DescribeQuery;
    K_AskQuery;
    K_ValuesClause;
    K_UpdateUnit;
    K_Update;
    K_BaseDecl;
    K_PrefixDecl;
    K_VersionDecl;
    K_VersionSpecifier;
    K_SelectClause;
    K_DatasetClause;
    K_WhereClause;
    K_SolutionModifier;
    K_SubSelect;
    K_Var;
    K_Expression;
    K_ConstructTemplate;
    K_TriplesTemplate;
    K_VarOrIri;
    K_DefaultGraphClause;
    K_NamedGraphClause;
    K_SourceSelector;
    K_iri;
    K_GroupGraphPattern;
    K_GroupClause;
    K_HavingClause;
    K_OrderClause;
    K_LimitOffsetClauses;
    K_GroupCondition;
    K_BuiltInCall;
    K_FunctionCall;
    K_HavingCondition;
    K_Constraint;
    K_OrderCondition;
    K_BrackettedExpression;
    K_LimitClause;
    K_OffsetClause;
    K_DataBlock;
    K_UpdateOne;
    K_Load;
    K_Clear;
    K_Drop;
    K_Add;
    K_Move;
    K_Copy;
    K_Create;
    K_InsertData;
    K_DeleteData;
    K_DeleteWhere;
    K_Modify;
    K_GraphRef;
    K_GraphRefAll;
    K_GraphOrDefault;
    K_QuadData;
    K_QuadPattern;
    K_DeleteClause;
    K_InsertClause;
    K_UsingClause;
    K_Quads;
    K_QuadsNotTriples;
    K_TriplesSameSubject;
    K_GroupGraphPatternSub;
    K_TriplesBlock;
    K_ReifiedTripleBlock;
    K_ReifiedTripleBlockPath;
    K_Reifier;
    K_VarOrReifierId;
    K_AnnotationPath;
    K_AnnotationBlockPath;
    K_Annotation;
    K_AnnotationBlock;
    K_GraphPatternNotTriples;
    K_TriplesSameSubjectPath;
    K_GroupOrUnionGraphPattern;
    K_OptionalGraphPattern;
    K_MinusGraphPattern;
    K_GraphGraphPattern;
    K_ServiceGraphPattern;
    K_Filter;
    K_Bind;
    K_InlineData;
    K_InlineDataOneVar;
    K_InlineDataFull;
    K_DataBlockValue;
    K_RDFLiteral;
    K_NumericLiteral;
    K_BooleanLiteral;
    K_ArgList;
    K_ExpressionList;
    K_ConstructTriples;
    K_VarOrTerm;
    K_ReifiedTriple;
    K_ReifiedTripleSubject;
    K_ReifiedTripleObject;
    K_TripleTerm;
    K_TripleTermSubject;
    K_TripleTermObject;
    K_TripleTermData;
    K_TripleTermDataSubject;
    K_TripleTermDataObject;
    K_PropertyListNotEmpty;
    K_TriplesNode;
    K_PropertyList;
    K_Verb;
    K_ObjectList;
    K_Object;
    K_GraphNode;
    K_PropertyListPathNotEmpty;
    K_TriplesNodePath;
    K_PropertyListPath;
    K_VerbPath;
    K_VerbSimple;
    K_ObjectListPath;
    K_Path;
    K_ObjectPath;
    K_GraphNodePath;
    K_PathAlternative;
    K_PathSequence;
    K_PathEltOrInverse;
    K_PathElt;
    K_PathPrimary;
    K_PathMod;
    K_PathNegatedPropertySet;
    K_PathOneInPropertySet;
    K_Integer;
    K_Collection;
    K_BlankNodePropertyList;
    K_CollectionPath;
    K_BlankNodePropertyListPath;
    K_GraphTerm;
    K_BlankNode;
    K_ConditionalOrExpression;
    K_ConditionalAndExpression;
    K_ValueLogical;
    K_RelationalExpression;
    K_NumericExpression;
    K_AdditiveExpression;
    K_MultiplicativeExpression;
    K_NumericLiteralPositive;
    K_NumericLiteralNegative;
    K_UnaryExpression;
    K_PrimaryExpression;
    K_ExprTripleTerm;
    K_ExprTripleTermSubject;
    K_ExprTripleTermObject;
    K_iriOrFunction;
    K_Aggregate;
    K_SubstringExpression;
    K_StrReplaceExpression;
    K_RegexExpression;
    K_ExistsFunc;
    K_NotExistsFunc;
    K_String;
    K_NumericLiteralUnsigned;
    K_PrefixedName ].

(** derived PartialEq of SyntaxKind *)
Definition kind_eqb (a b : kind) : bool := N.eqb (kind_id a) (kind_id b).
(** slice::contains *)
Definition kind_in (k : kind) (l : list kind) : bool := existsb (kind_eqb k) l.
(** syntax_kind.rs:10-14, parser/mod.rs:24-26 is_trivia *)
Definition is_trivia (k : kind) : bool :=
  match k with K_WHITESPACE | K_Comment => true | _ => false end.
