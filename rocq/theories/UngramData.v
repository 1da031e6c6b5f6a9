(** Generated by tools/grammar2coq.py from crates/sparql-parser/sparql12.ungram: the
    grammar the parser is shipped with.  n-ary sequences and alternatives are nested to
    the right; token spellings are mapped to kinds by the table of generator/mod.rs
    (generate_token_kind). *)
From Verif Require Import Kinds GrammarSpec.

(** sparql12.ungram:1 *)
Definition G_QueryUnit : gexp :=
  GNode K_Query.

(** sparql12.ungram:2 *)
Definition G_Query : gexp :=
  GSeq (GNode K_Prologue) (GSeq (GAlt (GNode K_SelectQuery) (GAlt (GNode K_ConstructQuery) (GAlt (GNode K_DescribeQuery) (GNode K_AskQuery)))) (GNode K_ValuesClause)).

(** sparql12.ungram:3 *)
Definition G_UpdateUnit : gexp :=
  GNode K_Update.

(** sparql12.ungram:4 *)
Definition G_Prologue : gexp :=
  GRep (GAlt (GNode K_BaseDecl) (GAlt (GNode K_PrefixDecl) (GNode K_VersionDecl))).

(** sparql12.ungram:5 *)
Definition G_BaseDecl : gexp :=
  GSeq (GTok K_BASE) (GTok K_IRIREF).

(** sparql12.ungram:6 *)
Definition G_PrefixDecl : gexp :=
  GSeq (GTok K_PREFIX) (GSeq (GTok K_PNAME_NS) (GTok K_IRIREF)).

(** sparql12.ungram:7 *)
Definition G_VersionDecl : gexp :=
  GSeq (GTok K_VERSION) (GNode K_VersionSpecifier).

(** sparql12.ungram:8 *)
Definition G_VersionSpecifier : gexp :=
  GAlt (GTok K_STRING_LITERAL1) (GTok K_STRING_LITERAL2).

(** sparql12.ungram:9 *)
Definition G_SelectQuery : gexp :=
  GSeq (GNode K_SelectClause) (GSeq (GRep (GNode K_DatasetClause)) (GSeq (GNode K_WhereClause) (GNode K_SolutionModifier))).

(** sparql12.ungram:10 *)
Definition G_SubSelect : gexp :=
  GSeq (GNode K_SelectClause) (GSeq (GNode K_WhereClause) (GSeq (GNode K_SolutionModifier) (GNode K_ValuesClause))).

(** sparql12.ungram:11 *)
Definition G_SelectClause : gexp :=
  GSeq (GTok K_SELECT) (GSeq (GOpt (GAlt (GTok K_DISTINCT) (GTok K_REDUCED))) (GAlt (GSeq (GAlt (GNode K_Var) (GSeq (GTok K_LParen) (GSeq (GNode K_Expression) (GSeq (GTok K_AS) (GSeq (GNode K_Var) (GTok K_RParen)))))) (GRep (GAlt (GNode K_Var) (GSeq (GTok K_LParen) (GSeq (GNode K_Expression) (GSeq (GTok K_AS) (GSeq (GNode K_Var) (GTok K_RParen)))))))) (GTok K_Star))).

(** sparql12.ungram:12 *)
Definition G_ConstructQuery : gexp :=
  GSeq (GTok K_CONSTRUCT) (GAlt (GSeq (GNode K_ConstructTemplate) (GSeq (GRep (GNode K_DatasetClause)) (GSeq (GNode K_WhereClause) (GNode K_SolutionModifier)))) (GSeq (GRep (GNode K_DatasetClause)) (GSeq (GTok K_WHERE) (GSeq (GTok K_LCurly) (GSeq (GOpt (GNode K_TriplesTemplate)) (GSeq (GTok K_RCurly) (GNode K_SolutionModifier))))))).

(** sparql12.ungram:13 *)
Definition G_DescribeQuery : gexp :=
  GSeq (GTok K_DESCRIBE) (GSeq (GAlt (GSeq (GNode K_VarOrIri) (GRep (GNode K_VarOrIri))) (GTok K_Star)) (GSeq (GRep (GNode K_DatasetClause)) (GSeq (GOpt (GNode K_WhereClause)) (GNode K_SolutionModifier)))).

(** sparql12.ungram:14 *)
Definition G_AskQuery : gexp :=
  GSeq (GTok K_ASK) (GSeq (GRep (GNode K_DatasetClause)) (GSeq (GNode K_WhereClause) (GNode K_SolutionModifier))).

(** sparql12.ungram:15 *)
Definition G_DatasetClause : gexp :=
  GSeq (GTok K_FROM) (GAlt (GNode K_DefaultGraphClause) (GNode K_NamedGraphClause)).

(** sparql12.ungram:16 *)
Definition G_DefaultGraphClause : gexp :=
  GNode K_SourceSelector.

(** sparql12.ungram:17 *)
Definition G_NamedGraphClause : gexp :=
  GSeq (GTok K_NAMED) (GNode K_SourceSelector).

(** sparql12.ungram:18 *)
Definition G_SourceSelector : gexp :=
  GNode K_iri.

(** sparql12.ungram:19 *)
Definition G_WhereClause : gexp :=
  GSeq (GOpt (GTok K_WHERE)) (GNode K_GroupGraphPattern).

(** sparql12.ungram:20 *)
Definition G_SolutionModifier : gexp :=
  GSeq (GOpt (GNode K_GroupClause)) (GSeq (GOpt (GNode K_HavingClause)) (GSeq (GOpt (GNode K_OrderClause)) (GOpt (GNode K_LimitOffsetClauses)))).

(** sparql12.ungram:21 *)
Definition G_GroupClause : gexp :=
  GSeq (GTok K_GROUP) (GSeq (GTok K_BY) (GSeq (GNode K_GroupCondition) (GRep (GNode K_GroupCondition)))).

(** sparql12.ungram:22 *)
Definition G_GroupCondition : gexp :=
  GAlt (GNode K_BuiltInCall) (GAlt (GNode K_FunctionCall) (GAlt (GSeq (GTok K_LParen) (GSeq (GNode K_Expression) (GSeq (GOpt (GSeq (GTok K_AS) (GNode K_Var))) (GTok K_RParen)))) (GNode K_Var))).

(** sparql12.ungram:23 *)
Definition G_HavingClause : gexp :=
  GSeq (GTok K_HAVING) (GSeq (GNode K_HavingCondition) (GRep (GNode K_HavingCondition))).

(** sparql12.ungram:24 *)
Definition G_HavingCondition : gexp :=
  GNode K_Constraint.

(** sparql12.ungram:25 *)
Definition G_OrderClause : gexp :=
  GSeq (GTok K_ORDER) (GSeq (GTok K_BY) (GSeq (GNode K_OrderCondition) (GRep (GNode K_OrderCondition)))).

(** sparql12.ungram:26 *)
Definition G_OrderCondition : gexp :=
  GAlt (GSeq (GAlt (GTok K_ASC) (GTok K_DESC)) (GNode K_BrackettedExpression)) (GAlt (GNode K_Constraint) (GNode K_Var)).

(** sparql12.ungram:27 *)
Definition G_LimitOffsetClauses : gexp :=
  GAlt (GSeq (GNode K_LimitClause) (GOpt (GNode K_OffsetClause))) (GSeq (GNode K_OffsetClause) (GOpt (GNode K_LimitClause))).

(** sparql12.ungram:28 *)
Definition G_LimitClause : gexp :=
  GSeq (GTok K_LIMIT) (GTok K_INTEGER).

(** sparql12.ungram:29 *)
Definition G_OffsetClause : gexp :=
  GSeq (GTok K_OFFSET) (GTok K_INTEGER).

(** sparql12.ungram:30 *)
Definition G_ValuesClause : gexp :=
  GOpt (GSeq (GTok K_VALUES) (GNode K_DataBlock)).

(** sparql12.ungram:31 *)
Definition G_Update : gexp :=
  GSeq (GNode K_Prologue) (GOpt (GSeq (GNode K_UpdateOne) (GOpt (GSeq (GTok K_Semicolon) (GNode K_Update))))).

(** sparql12.ungram:32 *)
Definition G_UpdateOne : gexp :=
  GAlt (GNode K_Load) (GAlt (GNode K_Clear) (GAlt (GNode K_Drop) (GAlt (GNode K_Add) (GAlt (GNode K_Move) (GAlt (GNode K_Copy) (GAlt (GNode K_Create) (GAlt (GNode K_DeleteWhere) (GAlt (GNode K_Modify) (GAlt (GNode K_InsertData) (GNode K_DeleteData)))))))))).

(** sparql12.ungram:33 *)
Definition G_Load : gexp :=
  GSeq (GTok K_LOAD) (GSeq (GOpt (GTok K_SILENT)) (GSeq (GNode K_iri) (GOpt (GSeq (GTok K_INTO) (GNode K_GraphRef))))).

(** sparql12.ungram:34 *)
Definition G_Clear : gexp :=
  GSeq (GTok K_CLEAR) (GSeq (GOpt (GTok K_SILENT)) (GNode K_GraphRefAll)).

(** sparql12.ungram:35 *)
Definition G_Drop : gexp :=
  GSeq (GTok K_DROP) (GSeq (GOpt (GTok K_SILENT)) (GNode K_GraphRefAll)).

(** sparql12.ungram:36 *)
Definition G_Create : gexp :=
  GSeq (GTok K_CREATE) (GSeq (GOpt (GTok K_SILENT)) (GNode K_GraphRef)).

(** sparql12.ungram:37 *)
Definition G_Add : gexp :=
  GSeq (GTok K_ADD) (GSeq (GOpt (GTok K_SILENT)) (GSeq (GNode K_GraphOrDefault) (GSeq (GTok K_TO) (GNode K_GraphOrDefault)))).

(** sparql12.ungram:38 *)
Definition G_Move : gexp :=
  GSeq (GTok K_MOVE) (GSeq (GOpt (GTok K_SILENT)) (GSeq (GNode K_GraphOrDefault) (GSeq (GTok K_TO) (GNode K_GraphOrDefault)))).

(** sparql12.ungram:39 *)
Definition G_Copy : gexp :=
  GSeq (GTok K_COPY) (GSeq (GOpt (GTok K_SILENT)) (GSeq (GNode K_GraphOrDefault) (GSeq (GTok K_TO) (GNode K_GraphOrDefault)))).

(** sparql12.ungram:40 *)
Definition G_InsertData : gexp :=
  GSeq (GTok K_INSERT_DATA) (GNode K_QuadData).

(** sparql12.ungram:41 *)
Definition G_DeleteData : gexp :=
  GSeq (GTok K_DELETE_DATA) (GNode K_QuadData).

(** sparql12.ungram:42 *)
Definition G_DeleteWhere : gexp :=
  GSeq (GTok K_DELETE_WHERE) (GNode K_QuadPattern).

(** sparql12.ungram:43 *)
Definition G_Modify : gexp :=
  GSeq (GOpt (GSeq (GTok K_WITH) (GNode K_iri))) (GSeq (GAlt (GSeq (GNode K_DeleteClause) (GOpt (GNode K_InsertClause))) (GNode K_InsertClause)) (GSeq (GRep (GNode K_UsingClause)) (GSeq (GTok K_WHERE) (GNode K_GroupGraphPattern)))).

(** sparql12.ungram:44 *)
Definition G_DeleteClause : gexp :=
  GSeq (GTok K_DELETE) (GNode K_QuadPattern).

(** sparql12.ungram:45 *)
Definition G_InsertClause : gexp :=
  GSeq (GTok K_INSERT) (GNode K_QuadPattern).

(** sparql12.ungram:46 *)
Definition G_UsingClause : gexp :=
  GSeq (GTok K_USING) (GAlt (GNode K_iri) (GSeq (GTok K_NAMED) (GNode K_iri))).

(** sparql12.ungram:47 *)
Definition G_GraphOrDefault : gexp :=
  GAlt (GTok K_DEFAULT) (GSeq (GOpt (GTok K_GRAPH)) (GNode K_iri)).

(** sparql12.ungram:48 *)
Definition G_GraphRef : gexp :=
  GSeq (GTok K_GRAPH) (GNode K_iri).

(** sparql12.ungram:49 *)
Definition G_GraphRefAll : gexp :=
  GAlt (GNode K_GraphRef) (GAlt (GTok K_DEFAULT) (GAlt (GTok K_NAMED) (GTok K_ALL))).

(** sparql12.ungram:50 *)
Definition G_QuadPattern : gexp :=
  GSeq (GTok K_LCurly) (GSeq (GNode K_Quads) (GTok K_RCurly)).

(** sparql12.ungram:51 *)
Definition G_QuadData : gexp :=
  GSeq (GTok K_LCurly) (GSeq (GNode K_Quads) (GTok K_RCurly)).

(** sparql12.ungram:52 *)
Definition G_Quads : gexp :=
  GSeq (GOpt (GNode K_TriplesTemplate)) (GRep (GSeq (GNode K_QuadsNotTriples) (GSeq (GOpt (GTok K_Dot)) (GOpt (GNode K_TriplesTemplate))))).

(** sparql12.ungram:53 *)
Definition G_QuadsNotTriples : gexp :=
  GSeq (GTok K_GRAPH) (GSeq (GNode K_VarOrIri) (GSeq (GTok K_LCurly) (GSeq (GOpt (GNode K_TriplesTemplate)) (GTok K_RCurly)))).

(** sparql12.ungram:54 *)
Definition G_TriplesTemplate : gexp :=
  GSeq (GNode K_TriplesSameSubject) (GOpt (GSeq (GTok K_Dot) (GOpt (GNode K_TriplesTemplate)))).

(** sparql12.ungram:55 *)
Definition G_GroupGraphPattern : gexp :=
  GSeq (GTok K_LCurly) (GSeq (GAlt (GNode K_SubSelect) (GNode K_GroupGraphPatternSub)) (GTok K_RCurly)).

(** sparql12.ungram:56 *)
Definition G_GroupGraphPatternSub : gexp :=
  GSeq (GOpt (GNode K_TriplesBlock)) (GRep (GSeq (GNode K_GraphPatternNotTriples) (GSeq (GOpt (GTok K_Dot)) (GOpt (GNode K_TriplesBlock))))).

(** sparql12.ungram:57 *)
Definition G_TriplesBlock : gexp :=
  GSeq (GNode K_TriplesSameSubjectPath) (GOpt (GSeq (GTok K_Dot) (GOpt (GNode K_TriplesBlock)))).

(** sparql12.ungram:58 *)
Definition G_ReifiedTripleBlock : gexp :=
  GSeq (GNode K_ReifiedTriple) (GNode K_PropertyList).

(** sparql12.ungram:59 *)
Definition G_ReifiedTripleBlockPath : gexp :=
  GSeq (GNode K_ReifiedTriple) (GNode K_PropertyListPath).

(** sparql12.ungram:60 *)
Definition G_GraphPatternNotTriples : gexp :=
  GAlt (GNode K_GroupOrUnionGraphPattern) (GAlt (GNode K_OptionalGraphPattern) (GAlt (GNode K_MinusGraphPattern) (GAlt (GNode K_GraphGraphPattern) (GAlt (GNode K_ServiceGraphPattern) (GAlt (GNode K_Filter) (GAlt (GNode K_Bind) (GNode K_InlineData))))))).

(** sparql12.ungram:61 *)
Definition G_OptionalGraphPattern : gexp :=
  GSeq (GTok K_OPTIONAL) (GNode K_GroupGraphPattern).

(** sparql12.ungram:62 *)
Definition G_GraphGraphPattern : gexp :=
  GSeq (GTok K_GRAPH) (GSeq (GNode K_VarOrIri) (GNode K_GroupGraphPattern)).

(** sparql12.ungram:63 *)
Definition G_ServiceGraphPattern : gexp :=
  GSeq (GTok K_SERVICE) (GSeq (GOpt (GTok K_SILENT)) (GSeq (GNode K_VarOrIri) (GNode K_GroupGraphPattern))).

(** sparql12.ungram:64 *)
Definition G_Bind : gexp :=
  GSeq (GTok K_BIND) (GSeq (GTok K_LParen) (GSeq (GNode K_Expression) (GSeq (GTok K_AS) (GSeq (GNode K_Var) (GTok K_RParen))))).

(** sparql12.ungram:65 *)
Definition G_InlineData : gexp :=
  GSeq (GTok K_VALUES) (GNode K_DataBlock).

(** sparql12.ungram:66 *)
Definition G_DataBlock : gexp :=
  GAlt (GNode K_InlineDataOneVar) (GNode K_InlineDataFull).

(** sparql12.ungram:67 *)
Definition G_InlineDataOneVar : gexp :=
  GSeq (GNode K_Var) (GSeq (GTok K_LCurly) (GSeq (GRep (GNode K_DataBlockValue)) (GTok K_RCurly))).

(** sparql12.ungram:68 *)
Definition G_InlineDataFull : gexp :=
  GSeq (GAlt (GTok K_NIL) (GSeq (GTok K_LParen) (GSeq (GRep (GNode K_Var)) (GTok K_RParen)))) (GSeq (GTok K_LCurly) (GSeq (GRep (GAlt (GSeq (GTok K_LParen) (GSeq (GRep (GNode K_DataBlockValue)) (GTok K_RParen))) (GTok K_NIL))) (GTok K_RCurly))).

(** sparql12.ungram:69 *)
Definition G_DataBlockValue : gexp :=
  GAlt (GNode K_iri) (GAlt (GNode K_RDFLiteral) (GAlt (GNode K_NumericLiteral) (GAlt (GNode K_BooleanLiteral) (GAlt (GTok K_UNDEF) (GNode K_TripleTermData))))).

(** sparql12.ungram:70 *)
Definition G_Reifier : gexp :=
  GSeq (GTok K_Tilde) (GOpt (GNode K_VarOrReifierId)).

(** sparql12.ungram:71 *)
Definition G_VarOrReifierId : gexp :=
  GAlt (GNode K_Var) (GAlt (GNode K_iri) (GNode K_BlankNode)).

(** sparql12.ungram:72 *)
Definition G_MinusGraphPattern : gexp :=
  GSeq (GTok K_MINUS) (GNode K_GroupGraphPattern).

(** sparql12.ungram:73 *)
Definition G_GroupOrUnionGraphPattern : gexp :=
  GSeq (GNode K_GroupGraphPattern) (GRep (GSeq (GTok K_UNION) (GNode K_GroupGraphPattern))).

(** sparql12.ungram:74 *)
Definition G_Filter : gexp :=
  GSeq (GTok K_FILTER) (GNode K_Constraint).

(** sparql12.ungram:75 *)
Definition G_Constraint : gexp :=
  GAlt (GNode K_BrackettedExpression) (GAlt (GNode K_BuiltInCall) (GNode K_FunctionCall)).

(** sparql12.ungram:76 *)
Definition G_FunctionCall : gexp :=
  GSeq (GNode K_iri) (GNode K_ArgList).

(** sparql12.ungram:77 *)
Definition G_ArgList : gexp :=
  GAlt (GTok K_NIL) (GSeq (GTok K_LParen) (GSeq (GOpt (GTok K_DISTINCT)) (GSeq (GNode K_Expression) (GSeq (GRep (GSeq (GTok K_Comma) (GNode K_Expression))) (GTok K_RParen))))).

(** sparql12.ungram:78 *)
Definition G_ExpressionList : gexp :=
  GAlt (GTok K_NIL) (GSeq (GTok K_LParen) (GSeq (GNode K_Expression) (GSeq (GRep (GSeq (GTok K_Comma) (GNode K_Expression))) (GTok K_RParen)))).

(** sparql12.ungram:79 *)
Definition G_ConstructTemplate : gexp :=
  GSeq (GTok K_LCurly) (GSeq (GOpt (GNode K_ConstructTriples)) (GTok K_RCurly)).

(** sparql12.ungram:80 *)
Definition G_ConstructTriples : gexp :=
  GSeq (GNode K_TriplesSameSubject) (GOpt (GSeq (GTok K_Dot) (GOpt (GNode K_ConstructTriples)))).

(** sparql12.ungram:81 *)
Definition G_TriplesSameSubject : gexp :=
  GAlt (GSeq (GNode K_VarOrTerm) (GNode K_PropertyListNotEmpty)) (GAlt (GSeq (GNode K_TriplesNode) (GNode K_PropertyList)) (GNode K_ReifiedTripleBlock)).

(** sparql12.ungram:82 *)
Definition G_PropertyList : gexp :=
  GOpt (GNode K_PropertyListNotEmpty).

(** sparql12.ungram:83 *)
Definition G_PropertyListNotEmpty : gexp :=
  GSeq (GNode K_Verb) (GSeq (GNode K_ObjectList) (GRep (GSeq (GTok K_Semicolon) (GOpt (GSeq (GNode K_Verb) (GNode K_ObjectList)))))).

(** sparql12.ungram:84 *)
Definition G_Verb : gexp :=
  GAlt (GNode K_VarOrIri) (GTok K_a).

(** sparql12.ungram:85 *)
Definition G_ObjectList : gexp :=
  GSeq (GNode K_Object) (GRep (GSeq (GTok K_Comma) (GNode K_Object))).

(** sparql12.ungram:86 *)
Definition G_Object : gexp :=
  GSeq (GNode K_GraphNode) (GNode K_Annotation).

(** sparql12.ungram:87 *)
Definition G_TriplesSameSubjectPath : gexp :=
  GAlt (GSeq (GNode K_VarOrTerm) (GNode K_PropertyListPathNotEmpty)) (GAlt (GSeq (GNode K_TriplesNodePath) (GNode K_PropertyListPath)) (GNode K_ReifiedTripleBlockPath)).

(** sparql12.ungram:88 *)
Definition G_PropertyListPath : gexp :=
  GOpt (GNode K_PropertyListPathNotEmpty).

(** sparql12.ungram:89 *)
Definition G_PropertyListPathNotEmpty : gexp :=
  GSeq (GAlt (GNode K_VerbPath) (GNode K_VerbSimple)) (GSeq (GNode K_ObjectListPath) (GRep (GSeq (GTok K_Semicolon) (GOpt (GSeq (GAlt (GNode K_VerbPath) (GNode K_VerbSimple)) (GNode K_ObjectListPath)))))).

(** sparql12.ungram:90 *)
Definition G_VerbPath : gexp :=
  GNode K_Path.

(** sparql12.ungram:91 *)
Definition G_VerbSimple : gexp :=
  GNode K_Var.

(** sparql12.ungram:92 *)
Definition G_ObjectListPath : gexp :=
  GSeq (GNode K_ObjectPath) (GRep (GSeq (GTok K_Comma) (GNode K_ObjectPath))).

(** sparql12.ungram:93 *)
Definition G_ObjectPath : gexp :=
  GSeq (GNode K_GraphNodePath) (GNode K_AnnotationPath).

(** sparql12.ungram:94 *)
Definition G_Path : gexp :=
  GNode K_PathAlternative.

(** sparql12.ungram:95 *)
Definition G_PathAlternative : gexp :=
  GSeq (GNode K_PathSequence) (GRep (GSeq (GTok K_Pipe) (GNode K_PathSequence))).

(** sparql12.ungram:96 *)
Definition G_PathSequence : gexp :=
  GSeq (GNode K_PathEltOrInverse) (GRep (GSeq (GTok K_Slash) (GNode K_PathEltOrInverse))).

(** sparql12.ungram:97 *)
Definition G_PathElt : gexp :=
  GSeq (GNode K_PathPrimary) (GOpt (GNode K_PathMod)).

(** sparql12.ungram:98 *)
Definition G_PathEltOrInverse : gexp :=
  GAlt (GNode K_PathElt) (GSeq (GTok K_Zirkumflex) (GNode K_PathElt)).

(** sparql12.ungram:99 *)
Definition G_PathMod : gexp :=
  GAlt (GTok K_QuestionMark) (GAlt (GTok K_Star) (GTok K_Plus)).

(** sparql12.ungram:100 *)
Definition G_PathPrimary : gexp :=
  GAlt (GNode K_iri) (GAlt (GTok K_a) (GAlt (GSeq (GTok K_ExclamationMark) (GNode K_PathNegatedPropertySet)) (GSeq (GTok K_LParen) (GSeq (GNode K_Path) (GTok K_RParen))))).

(** sparql12.ungram:101 *)
Definition G_PathNegatedPropertySet : gexp :=
  GAlt (GNode K_PathOneInPropertySet) (GSeq (GTok K_LParen) (GSeq (GOpt (GSeq (GNode K_PathOneInPropertySet) (GRep (GSeq (GTok K_Pipe) (GNode K_PathOneInPropertySet))))) (GTok K_RParen))).

(** sparql12.ungram:102 *)
Definition G_PathOneInPropertySet : gexp :=
  GAlt (GNode K_iri) (GAlt (GTok K_a) (GSeq (GTok K_Zirkumflex) (GAlt (GNode K_iri) (GTok K_a)))).

(** sparql12.ungram:103 *)
Definition G_TriplesNode : gexp :=
  GAlt (GNode K_Collection) (GNode K_BlankNodePropertyList).

(** sparql12.ungram:104 *)
Definition G_BlankNodePropertyList : gexp :=
  GSeq (GTok K_LBrack) (GSeq (GNode K_PropertyListNotEmpty) (GTok K_RBrack)).

(** sparql12.ungram:105 *)
Definition G_TriplesNodePath : gexp :=
  GAlt (GNode K_CollectionPath) (GNode K_BlankNodePropertyListPath).

(** sparql12.ungram:106 *)
Definition G_BlankNodePropertyListPath : gexp :=
  GSeq (GTok K_LBrack) (GSeq (GNode K_PropertyListPathNotEmpty) (GTok K_RBrack)).

(** sparql12.ungram:107 *)
Definition G_Collection : gexp :=
  GSeq (GTok K_LParen) (GSeq (GNode K_GraphNode) (GSeq (GRep (GNode K_GraphNode)) (GTok K_RParen))).

(** sparql12.ungram:108 *)
Definition G_CollectionPath : gexp :=
  GSeq (GTok K_LParen) (GSeq (GNode K_GraphNodePath) (GSeq (GRep (GNode K_GraphNodePath)) (GTok K_RParen))).

(** sparql12.ungram:109 *)
Definition G_AnnotationPath : gexp :=
  GRep (GAlt (GNode K_Reifier) (GNode K_AnnotationBlockPath)).

(** sparql12.ungram:110 *)
Definition G_AnnotationBlockPath : gexp :=
  GSeq (GTok K_LCurlyPipe) (GSeq (GNode K_PropertyListPathNotEmpty) (GTok K_PipeRCurly)).

(** sparql12.ungram:111 *)
Definition G_Annotation : gexp :=
  GRep (GAlt (GNode K_Reifier) (GNode K_AnnotationBlock)).

(** sparql12.ungram:112 *)
Definition G_AnnotationBlock : gexp :=
  GSeq (GTok K_LCurlyPipe) (GSeq (GNode K_PropertyListNotEmpty) (GTok K_PipeRCurly)).

(** sparql12.ungram:113 *)
Definition G_GraphNode : gexp :=
  GAlt (GNode K_VarOrTerm) (GAlt (GNode K_TriplesNode) (GNode K_ReifiedTriple)).

(** sparql12.ungram:114 *)
Definition G_GraphNodePath : gexp :=
  GAlt (GNode K_VarOrTerm) (GAlt (GNode K_TriplesNodePath) (GNode K_ReifiedTriple)).

(** sparql12.ungram:115 *)
Definition G_VarOrTerm : gexp :=
  GAlt (GNode K_Var) (GAlt (GNode K_iri) (GAlt (GNode K_RDFLiteral) (GAlt (GNode K_NumericLiteral) (GAlt (GNode K_BooleanLiteral) (GAlt (GNode K_BlankNode) (GAlt (GTok K_NIL) (GNode K_TripleTerm))))))).

(** sparql12.ungram:116 *)
Definition G_ReifiedTriple : gexp :=
  GSeq (GTok K_DoubleLess) (GSeq (GNode K_ReifiedTripleSubject) (GSeq (GNode K_Verb) (GSeq (GNode K_ReifiedTripleObject) (GSeq (GOpt (GNode K_Reifier)) (GTok K_DoubleMore))))).

(** sparql12.ungram:117 *)
Definition G_ReifiedTripleSubject : gexp :=
  GAlt (GNode K_Var) (GAlt (GNode K_iri) (GAlt (GNode K_RDFLiteral) (GAlt (GNode K_NumericLiteral) (GAlt (GNode K_BooleanLiteral) (GAlt (GNode K_BlankNode) (GAlt (GNode K_ReifiedTriple) (GNode K_TripleTerm))))))).

(** sparql12.ungram:118 *)
Definition G_ReifiedTripleObject : gexp :=
  GAlt (GNode K_Var) (GAlt (GNode K_iri) (GAlt (GNode K_RDFLiteral) (GAlt (GNode K_NumericLiteral) (GAlt (GNode K_BooleanLiteral) (GAlt (GNode K_BlankNode) (GAlt (GNode K_ReifiedTriple) (GNode K_TripleTerm))))))).

(** sparql12.ungram:119 *)
Definition G_TripleTerm : gexp :=
  GSeq (GTok K_DoubleLessLParen) (GSeq (GNode K_TripleTermSubject) (GSeq (GNode K_Verb) (GSeq (GNode K_TripleTermObject) (GTok K_RParenDoubleMore)))).

(** sparql12.ungram:120 *)
Definition G_TripleTermSubject : gexp :=
  GAlt (GNode K_Var) (GAlt (GNode K_iri) (GAlt (GNode K_RDFLiteral) (GAlt (GNode K_NumericLiteral) (GAlt (GNode K_BooleanLiteral) (GAlt (GNode K_BlankNode) (GNode K_TripleTerm)))))).

(** sparql12.ungram:121 *)
Definition G_TripleTermObject : gexp :=
  GAlt (GNode K_Var) (GAlt (GNode K_iri) (GAlt (GNode K_RDFLiteral) (GAlt (GNode K_NumericLiteral) (GAlt (GNode K_BooleanLiteral) (GAlt (GNode K_BlankNode) (GNode K_TripleTerm)))))).

(** sparql12.ungram:122 *)
Definition G_TripleTermData : gexp :=
  GSeq (GTok K_DoubleLessLParen) (GSeq (GNode K_TripleTermDataSubject) (GSeq (GAlt (GNode K_iri) (GTok K_a)) (GSeq (GNode K_TripleTermDataObject) (GTok K_RParenDoubleMore)))).

(** sparql12.ungram:123 *)
Definition G_TripleTermDataSubject : gexp :=
  GNode K_iri.

(** sparql12.ungram:124 *)
Definition G_TripleTermDataObject : gexp :=
  GAlt (GNode K_iri) (GAlt (GNode K_RDFLiteral) (GAlt (GNode K_NumericLiteral) (GAlt (GNode K_BooleanLiteral) (GNode K_TripleTermData)))).

(** sparql12.ungram:125 *)
Definition G_VarOrIri : gexp :=
  GAlt (GNode K_Var) (GNode K_iri).

(** sparql12.ungram:126 *)
Definition G_Var : gexp :=
  GAlt (GTok K_VAR1) (GTok K_VAR2).

(** sparql12.ungram:127 *)
Definition G_Expression : gexp :=
  GNode K_ConditionalOrExpression.

(** sparql12.ungram:128 *)
Definition G_ConditionalOrExpression : gexp :=
  GSeq (GNode K_ConditionalAndExpression) (GRep (GSeq (GTok K_DoublePipe) (GNode K_ConditionalAndExpression))).

(** sparql12.ungram:129 *)
Definition G_ConditionalAndExpression : gexp :=
  GSeq (GNode K_ValueLogical) (GRep (GSeq (GTok K_DoubleAnd) (GNode K_ValueLogical))).

(** sparql12.ungram:130 *)
Definition G_ValueLogical : gexp :=
  GNode K_RelationalExpression.

(** sparql12.ungram:131 *)
Definition G_RelationalExpression : gexp :=
  GSeq (GNode K_NumericExpression) (GOpt (GAlt (GSeq (GTok K_Equals) (GNode K_NumericExpression)) (GAlt (GSeq (GTok K_ExclamationMarkEquals) (GNode K_NumericExpression)) (GAlt (GSeq (GTok K_Less) (GNode K_NumericExpression)) (GAlt (GSeq (GTok K_More) (GNode K_NumericExpression)) (GAlt (GSeq (GTok K_LessEquals) (GNode K_NumericExpression)) (GAlt (GSeq (GTok K_MoreEquals) (GNode K_NumericExpression)) (GAlt (GSeq (GTok K_IN) (GNode K_ExpressionList)) (GSeq (GTok K_NOT) (GSeq (GTok K_IN) (GNode K_ExpressionList))))))))))).

(** sparql12.ungram:132 *)
Definition G_NumericExpression : gexp :=
  GNode K_AdditiveExpression.

(** sparql12.ungram:133 *)
Definition G_AdditiveExpression : gexp :=
  GSeq (GNode K_MultiplicativeExpression) (GRep (GAlt (GSeq (GTok K_Plus) (GNode K_MultiplicativeExpression)) (GAlt (GSeq (GTok K_Minus) (GNode K_MultiplicativeExpression)) (GSeq (GAlt (GNode K_NumericLiteralPositive) (GNode K_NumericLiteralNegative)) (GRep (GAlt (GSeq (GTok K_Star) (GNode K_UnaryExpression)) (GSeq (GTok K_Slash) (GNode K_UnaryExpression)))))))).

(** sparql12.ungram:134 *)
Definition G_MultiplicativeExpression : gexp :=
  GSeq (GNode K_UnaryExpression) (GRep (GAlt (GSeq (GTok K_Star) (GNode K_UnaryExpression)) (GSeq (GTok K_Slash) (GNode K_UnaryExpression)))).

(** sparql12.ungram:135 *)
Definition G_UnaryExpression : gexp :=
  GAlt (GSeq (GTok K_ExclamationMark) (GNode K_UnaryExpression)) (GAlt (GSeq (GTok K_Plus) (GNode K_PrimaryExpression)) (GAlt (GSeq (GTok K_Minus) (GNode K_PrimaryExpression)) (GNode K_PrimaryExpression))).

(** sparql12.ungram:136 *)
Definition G_PrimaryExpression : gexp :=
  GAlt (GNode K_BrackettedExpression) (GAlt (GNode K_BuiltInCall) (GAlt (GNode K_iriOrFunction) (GAlt (GNode K_RDFLiteral) (GAlt (GNode K_NumericLiteral) (GAlt (GNode K_BooleanLiteral) (GAlt (GNode K_Var) (GNode K_ExprTripleTerm))))))).

(** sparql12.ungram:137 *)
Definition G_ExprTripleTerm : gexp :=
  GSeq (GTok K_DoubleLessLParen) (GSeq (GNode K_ExprTripleTermSubject) (GSeq (GNode K_Verb) (GSeq (GNode K_ExprTripleTermObject) (GTok K_RParenDoubleMore)))).

(** sparql12.ungram:138 *)
Definition G_ExprTripleTermSubject : gexp :=
  GAlt (GNode K_iri) (GNode K_Var).

(** sparql12.ungram:139 *)
Definition G_ExprTripleTermObject : gexp :=
  GAlt (GNode K_iri) (GAlt (GNode K_RDFLiteral) (GAlt (GNode K_NumericLiteral) (GAlt (GNode K_BooleanLiteral) (GAlt (GNode K_Var) (GNode K_ExprTripleTerm))))).

(** sparql12.ungram:140 *)
Definition G_BrackettedExpression : gexp :=
  GSeq (GTok K_LParen) (GSeq (GNode K_Expression) (GTok K_RParen)).

(** sparql12.ungram:141 *)
Definition G_BuiltInCall : gexp :=
  GAlt (GNode K_Aggregate) (GAlt (GSeq (GTok K_STR) (GSeq (GTok K_LParen) (GSeq (GNode K_Expression) (GTok K_RParen)))) (GAlt (GSeq (GTok K_LANG) (GSeq (GTok K_LParen) (GSeq (GNode K_Expression) (GTok K_RParen)))) (GAlt (GSeq (GTok K_LANGMATCHES) (GSeq (GTok K_LParen) (GSeq (GNode K_Expression) (GSeq (GTok K_Comma) (GSeq (GNode K_Expression) (GTok K_RParen)))))) (GAlt (GSeq (GTok K_LANGDIR) (GSeq (GTok K_LParen) (GSeq (GNode K_Expression) (GTok K_RParen)))) (GAlt (GSeq (GTok K_DATATYPE) (GSeq (GTok K_LParen) (GSeq (GNode K_Expression) (GTok K_RParen)))) (GAlt (GSeq (GTok K_BOUND) (GSeq (GTok K_LParen) (GSeq (GNode K_Var) (GTok K_RParen)))) (GAlt (GSeq (GTok K_IRI) (GSeq (GTok K_LParen) (GSeq (GNode K_Expression) (GTok K_RParen)))) (GAlt (GSeq (GTok K_URI) (GSeq (GTok K_LParen) (GSeq (GNode K_Expression) (GTok K_RParen)))) (GAlt (GSeq (GTok K_BNODE) (GAlt (GSeq (GTok K_LParen) (GSeq (GNode K_Expression) (GTok K_RParen))) (GTok K_NIL))) (GAlt (GSeq (GTok K_RAND) (GTok K_NIL)) (GAlt (GSeq (GTok K_ABS) (GSeq (GTok K_LParen) (GSeq (GNode K_Expression) (GTok K_RParen)))) (GAlt (GSeq (GTok K_CEIL) (GSeq (GTok K_LParen) (GSeq (GNode K_Expression) (GTok K_RParen)))) (GAlt (GSeq (GTok K_FLOOR) (GSeq (GTok K_LParen) (GSeq (GNode K_Expression) (GTok K_RParen)))) (GAlt (GSeq (GTok K_ROUND) (GSeq (GTok K_LParen) (GSeq (GNode K_Expression) (GTok K_RParen)))) (GAlt (GSeq (GTok K_CONCAT) (GNode K_ExpressionList)) (GAlt (GNode K_SubstringExpression) (GAlt (GSeq (GTok K_STRLEN) (GSeq (GTok K_LParen) (GSeq (GNode K_Expression) (GTok K_RParen)))) (GAlt (GNode K_StrReplaceExpression) (GAlt (GSeq (GTok K_UCASE) (GSeq (GTok K_LParen) (GSeq (GNode K_Expression) (GTok K_RParen)))) (GAlt (GSeq (GTok K_LCASE) (GSeq (GTok K_LParen) (GSeq (GNode K_Expression) (GTok K_RParen)))) (GAlt (GSeq (GTok K_ENCODE_FOR_URI) (GSeq (GTok K_LParen) (GSeq (GNode K_Expression) (GTok K_RParen)))) (GAlt (GSeq (GTok K_CONTAINS) (GSeq (GTok K_LParen) (GSeq (GNode K_Expression) (GSeq (GTok K_Comma) (GSeq (GNode K_Expression) (GTok K_RParen)))))) (GAlt (GSeq (GTok K_STRSTARTS) (GSeq (GTok K_LParen) (GSeq (GNode K_Expression) (GSeq (GTok K_Comma) (GSeq (GNode K_Expression) (GTok K_RParen)))))) (GAlt (GSeq (GTok K_STRENDS) (GSeq (GTok K_LParen) (GSeq (GNode K_Expression) (GSeq (GTok K_Comma) (GSeq (GNode K_Expression) (GTok K_RParen)))))) (GAlt (GSeq (GTok K_STRBEFORE) (GSeq (GTok K_LParen) (GSeq (GNode K_Expression) (GSeq (GTok K_Comma) (GSeq (GNode K_Expression) (GTok K_RParen)))))) (GAlt (GSeq (GTok K_STRAFTER) (GSeq (GTok K_LParen) (GSeq (GNode K_Expression) (GSeq (GTok K_Comma) (GSeq (GNode K_Expression) (GTok K_RParen)))))) (GAlt (GSeq (GTok K_YEAR) (GSeq (GTok K_LParen) (GSeq (GNode K_Expression) (GTok K_RParen)))) (GAlt (GSeq (GTok K_MONTH) (GSeq (GTok K_LParen) (GSeq (GNode K_Expression) (GTok K_RParen)))) (GAlt (GSeq (GTok K_DAY) (GSeq (GTok K_LParen) (GSeq (GNode K_Expression) (GTok K_RParen)))) (GAlt (GSeq (GTok K_HOURS) (GSeq (GTok K_LParen) (GSeq (GNode K_Expression) (GTok K_RParen)))) (GAlt (GSeq (GTok K_MINUTES) (GSeq (GTok K_LParen) (GSeq (GNode K_Expression) (GTok K_RParen)))) (GAlt (GSeq (GTok K_SECONDS) (GSeq (GTok K_LParen) (GSeq (GNode K_Expression) (GTok K_RParen)))) (GAlt (GSeq (GTok K_TIMEZONE) (GSeq (GTok K_LParen) (GSeq (GNode K_Expression) (GTok K_RParen)))) (GAlt (GSeq (GTok K_TZ) (GSeq (GTok K_LParen) (GSeq (GNode K_Expression) (GTok K_RParen)))) (GAlt (GSeq (GTok K_NOW) (GTok K_NIL)) (GAlt (GSeq (GTok K_UUID) (GTok K_NIL)) (GAlt (GSeq (GTok K_STRUUID) (GTok K_NIL)) (GAlt (GSeq (GTok K_MD5) (GSeq (GTok K_LParen) (GSeq (GNode K_Expression) (GTok K_RParen)))) (GAlt (GSeq (GTok K_SHA1) (GSeq (GTok K_LParen) (GSeq (GNode K_Expression) (GTok K_RParen)))) (GAlt (GSeq (GTok K_SHA256) (GSeq (GTok K_LParen) (GSeq (GNode K_Expression) (GTok K_RParen)))) (GAlt (GSeq (GTok K_SHA384) (GSeq (GTok K_LParen) (GSeq (GNode K_Expression) (GTok K_RParen)))) (GAlt (GSeq (GTok K_SHA512) (GSeq (GTok K_LParen) (GSeq (GNode K_Expression) (GTok K_RParen)))) (GAlt (GSeq (GTok K_COALESCE) (GNode K_ExpressionList)) (GAlt (GSeq (GTok K_IF) (GSeq (GTok K_LParen) (GSeq (GNode K_Expression) (GSeq (GTok K_Comma) (GSeq (GNode K_Expression) (GSeq (GTok K_Comma) (GSeq (GNode K_Expression) (GTok K_RParen)))))))) (GAlt (GSeq (GTok K_STRLANG) (GSeq (GTok K_LParen) (GSeq (GNode K_Expression) (GSeq (GTok K_Comma) (GSeq (GNode K_Expression) (GTok K_RParen)))))) (GAlt (GSeq (GTok K_STRLANGDIR) (GSeq (GTok K_LParen) (GSeq (GNode K_Expression) (GSeq (GTok K_Comma) (GSeq (GNode K_Expression) (GSeq (GTok K_Comma) (GSeq (GNode K_Expression) (GTok K_RParen)))))))) (GAlt (GSeq (GTok K_STRDT) (GSeq (GTok K_LParen) (GSeq (GNode K_Expression) (GSeq (GTok K_Comma) (GSeq (GNode K_Expression) (GTok K_RParen)))))) (GAlt (GSeq (GTok K_sameTerm) (GSeq (GTok K_LParen) (GSeq (GNode K_Expression) (GSeq (GTok K_Comma) (GSeq (GNode K_Expression) (GTok K_RParen)))))) (GAlt (GSeq (GTok K_isIRI) (GSeq (GTok K_LParen) (GSeq (GNode K_Expression) (GTok K_RParen)))) (GAlt (GSeq (GTok K_isURI) (GSeq (GTok K_LParen) (GSeq (GNode K_Expression) (GTok K_RParen)))) (GAlt (GSeq (GTok K_isBLANK) (GSeq (GTok K_LParen) (GSeq (GNode K_Expression) (GTok K_RParen)))) (GAlt (GSeq (GTok K_isLITERAL) (GSeq (GTok K_LParen) (GSeq (GNode K_Expression) (GTok K_RParen)))) (GAlt (GSeq (GTok K_isNUMERIC) (GSeq (GTok K_LParen) (GSeq (GNode K_Expression) (GTok K_RParen)))) (GAlt (GSeq (GTok K_hasLANG) (GSeq (GTok K_LParen) (GSeq (GNode K_Expression) (GTok K_RParen)))) (GAlt (GSeq (GTok K_hasLANGDIR) (GSeq (GTok K_LParen) (GSeq (GNode K_Expression) (GTok K_RParen)))) (GAlt (GNode K_RegexExpression) (GAlt (GNode K_ExistsFunc) (GAlt (GNode K_NotExistsFunc) (GAlt (GSeq (GTok K_isTRIPLE) (GSeq (GTok K_LParen) (GSeq (GNode K_Expression) (GTok K_RParen)))) (GAlt (GSeq (GTok K_TRIPLE) (GSeq (GTok K_LParen) (GSeq (GNode K_Expression) (GSeq (GTok K_Comma) (GSeq (GNode K_Expression) (GSeq (GTok K_Comma) (GSeq (GNode K_Expression) (GTok K_RParen)))))))) (GAlt (GSeq (GTok K_SUBJECT) (GSeq (GTok K_LParen) (GSeq (GNode K_Expression) (GTok K_RParen)))) (GAlt (GSeq (GTok K_PREDICATE) (GSeq (GTok K_LParen) (GSeq (GNode K_Expression) (GTok K_RParen)))) (GSeq (GTok K_OBJECT) (GSeq (GTok K_LParen) (GSeq (GNode K_Expression) (GTok K_RParen)))))))))))))))))))))))))))))))))))))))))))))))))))))))))))))))))).

(** sparql12.ungram:142 *)
Definition G_RegexExpression : gexp :=
  GSeq (GTok K_REGEX) (GSeq (GTok K_LParen) (GSeq (GNode K_Expression) (GSeq (GTok K_Comma) (GSeq (GNode K_Expression) (GSeq (GOpt (GSeq (GTok K_Comma) (GNode K_Expression))) (GTok K_RParen)))))).

(** sparql12.ungram:143 *)
Definition G_SubstringExpression : gexp :=
  GSeq (GTok K_SUBSTR) (GSeq (GTok K_LParen) (GSeq (GNode K_Expression) (GSeq (GTok K_Comma) (GSeq (GNode K_Expression) (GSeq (GOpt (GSeq (GTok K_Comma) (GNode K_Expression))) (GTok K_RParen)))))).

(** sparql12.ungram:144 *)
Definition G_StrReplaceExpression : gexp :=
  GSeq (GTok K_REPLACE) (GSeq (GTok K_LParen) (GSeq (GNode K_Expression) (GSeq (GTok K_Comma) (GSeq (GNode K_Expression) (GSeq (GTok K_Comma) (GSeq (GNode K_Expression) (GSeq (GOpt (GSeq (GTok K_Comma) (GNode K_Expression))) (GTok K_RParen)))))))).

(** sparql12.ungram:145 *)
Definition G_ExistsFunc : gexp :=
  GSeq (GTok K_EXISTS) (GNode K_GroupGraphPattern).

(** sparql12.ungram:146 *)
Definition G_NotExistsFunc : gexp :=
  GSeq (GTok K_NOT) (GSeq (GTok K_EXISTS) (GNode K_GroupGraphPattern)).

(** sparql12.ungram:147 *)
Definition G_Aggregate : gexp :=
  GAlt (GSeq (GTok K_COUNT) (GSeq (GTok K_LParen) (GSeq (GOpt (GTok K_DISTINCT)) (GSeq (GAlt (GTok K_Star) (GNode K_Expression)) (GTok K_RParen))))) (GAlt (GSeq (GTok K_SUM) (GSeq (GTok K_LParen) (GSeq (GOpt (GTok K_DISTINCT)) (GSeq (GNode K_Expression) (GTok K_RParen))))) (GAlt (GSeq (GTok K_MIN) (GSeq (GTok K_LParen) (GSeq (GOpt (GTok K_DISTINCT)) (GSeq (GNode K_Expression) (GTok K_RParen))))) (GAlt (GSeq (GTok K_MAX) (GSeq (GTok K_LParen) (GSeq (GOpt (GTok K_DISTINCT)) (GSeq (GNode K_Expression) (GTok K_RParen))))) (GAlt (GSeq (GTok K_AVG) (GSeq (GTok K_LParen) (GSeq (GOpt (GTok K_DISTINCT)) (GSeq (GNode K_Expression) (GTok K_RParen))))) (GAlt (GSeq (GTok K_SAMPLE) (GSeq (GTok K_LParen) (GSeq (GOpt (GTok K_DISTINCT)) (GSeq (GNode K_Expression) (GTok K_RParen))))) (GSeq (GTok K_GROUP_CONCAT) (GSeq (GTok K_LParen) (GSeq (GOpt (GTok K_DISTINCT)) (GSeq (GNode K_Expression) (GSeq (GOpt (GSeq (GTok K_Semicolon) (GSeq (GTok K_SEPARATOR) (GSeq (GTok K_Equals) (GNode K_String))))) (GTok K_RParen))))))))))).

(** sparql12.ungram:148 *)
Definition G_iriOrFunction : gexp :=
  GSeq (GNode K_iri) (GOpt (GNode K_ArgList)).

(** sparql12.ungram:149 *)
Definition G_RDFLiteral : gexp :=
  GSeq (GNode K_String) (GOpt (GAlt (GTok K_LANG_DIR) (GSeq (GTok K_DoubleZirkumflex) (GNode K_iri)))).

(** sparql12.ungram:150 *)
Definition G_NumericLiteral : gexp :=
  GAlt (GNode K_NumericLiteralUnsigned) (GAlt (GNode K_NumericLiteralPositive) (GNode K_NumericLiteralNegative)).

(** sparql12.ungram:151 *)
Definition G_NumericLiteralUnsigned : gexp :=
  GAlt (GTok K_INTEGER) (GAlt (GTok K_DECIMAL) (GTok K_DOUBLE)).

(** sparql12.ungram:152 *)
Definition G_NumericLiteralPositive : gexp :=
  GAlt (GTok K_INTEGER_POSITIVE) (GAlt (GTok K_DECIMAL_POSITIVE) (GTok K_DOUBLE_POSITIVE)).

(** sparql12.ungram:153 *)
Definition G_NumericLiteralNegative : gexp :=
  GAlt (GTok K_INTEGER_NEGATIVE) (GAlt (GTok K_DECIMAL_NEGATIVE) (GTok K_DOUBLE_NEGATIVE)).

(** sparql12.ungram:154 *)
Definition G_BooleanLiteral : gexp :=
  GAlt (GTok K_True) (GTok K_False).

(** sparql12.ungram:155 *)
Definition G_String : gexp :=
  GAlt (GTok K_STRING_LITERAL1) (GAlt (GTok K_STRING_LITERAL2) (GAlt (GTok K_STRING_LITERAL_LONG1) (GTok K_STRING_LITERAL_LONG2))).

(** sparql12.ungram:156 *)
Definition G_iri : gexp :=
  GAlt (GTok K_IRIREF) (GNode K_PrefixedName).

(** sparql12.ungram:157 *)
Definition G_PrefixedName : gexp :=
  GAlt (GTok K_PNAME_LN) (GTok K_PNAME_NS).

(** sparql12.ungram:158 *)
Definition G_BlankNode : gexp :=
  GAlt (GTok K_BLANK_NODE_LABEL) (GTok K_ANON).

Definition sparql_grammar (k : kind) : option gexp :=
  match k with
  | K_QueryUnit => Some G_QueryUnit
  | K_Query => Some G_Query
  | K_UpdateUnit => Some G_UpdateUnit
  | K_Prologue => Some G_Prologue
  | K_BaseDecl => Some G_BaseDecl
  | K_PrefixDecl => Some G_PrefixDecl
  | K_VersionDecl => Some G_VersionDecl
  | K_VersionSpecifier => Some G_VersionSpecifier
  | K_SelectQuery => Some G_SelectQuery
  | K_SubSelect => Some G_SubSelect
  | K_SelectClause => Some G_SelectClause
  | K_ConstructQuery => Some G_ConstructQuery
  | K_DescribeQuery => Some G_DescribeQuery
  | K_AskQuery => Some G_AskQuery
  | K_DatasetClause => Some G_DatasetClause
  | K_DefaultGraphClause => Some G_DefaultGraphClause
  | K_NamedGraphClause => Some G_NamedGraphClause
  | K_SourceSelector => Some G_SourceSelector
  | K_WhereClause => Some G_WhereClause
  | K_SolutionModifier => Some G_SolutionModifier
  | K_GroupClause => Some G_GroupClause
  | K_GroupCondition => Some G_GroupCondition
  | K_HavingClause => Some G_HavingClause
  | K_HavingCondition => Some G_HavingCondition
  | K_OrderClause => Some G_OrderClause
  | K_OrderCondition => Some G_OrderCondition
  | K_LimitOffsetClauses => Some G_LimitOffsetClauses
  | K_LimitClause => Some G_LimitClause
  | K_OffsetClause => Some G_OffsetClause
  | K_ValuesClause => Some G_ValuesClause
  | K_Update => Some G_Update
  | K_UpdateOne => Some G_UpdateOne
  | K_Load => Some G_Load
  | K_Clear => Some G_Clear
  | K_Drop => Some G_Drop
  | K_Create => Some G_Create
  | K_Add => Some G_Add
  | K_Move => Some G_Move
  | K_Copy => Some G_Copy
  | K_InsertData => Some G_InsertData
  | K_DeleteData => Some G_DeleteData
  | K_DeleteWhere => Some G_DeleteWhere
  | K_Modify => Some G_Modify
  | K_DeleteClause => Some G_DeleteClause
  | K_InsertClause => Some G_InsertClause
  | K_UsingClause => Some G_UsingClause
  | K_GraphOrDefault => Some G_GraphOrDefault
  | K_GraphRef => Some G_GraphRef
  | K_GraphRefAll => Some G_GraphRefAll
  | K_QuadPattern => Some G_QuadPattern
  | K_QuadData => Some G_QuadData
  | K_Quads => Some G_Quads
  | K_QuadsNotTriples => Some G_QuadsNotTriples
  | K_TriplesTemplate => Some G_TriplesTemplate
  | K_GroupGraphPattern => Some G_GroupGraphPattern
  | K_GroupGraphPatternSub => Some G_GroupGraphPatternSub
  | K_TriplesBlock => Some G_TriplesBlock
  | K_ReifiedTripleBlock => Some G_ReifiedTripleBlock
  | K_ReifiedTripleBlockPath => Some G_ReifiedTripleBlockPath
  | K_GraphPatternNotTriples => Some G_GraphPatternNotTriples
  | K_OptionalGraphPattern => Some G_OptionalGraphPattern
  | K_GraphGraphPattern => Some G_GraphGraphPattern
  | K_ServiceGraphPattern => Some G_ServiceGraphPattern
  | K_Bind => Some G_Bind
  | K_InlineData => Some G_InlineData
  | K_DataBlock => Some G_DataBlock
  | K_InlineDataOneVar => Some G_InlineDataOneVar
  | K_InlineDataFull => Some G_InlineDataFull
  | K_DataBlockValue => Some G_DataBlockValue
  | K_Reifier => Some G_Reifier
  | K_VarOrReifierId => Some G_VarOrReifierId
  | K_MinusGraphPattern => Some G_MinusGraphPattern
  | K_GroupOrUnionGraphPattern => Some G_GroupOrUnionGraphPattern
  | K_Filter => Some G_Filter
  | K_Constraint => Some G_Constraint
  | K_FunctionCall => Some G_FunctionCall
  | K_ArgList => Some G_ArgList
  | K_ExpressionList => Some G_ExpressionList
  | K_ConstructTemplate => Some G_ConstructTemplate
  | K_ConstructTriples => Some G_ConstructTriples
  | K_TriplesSameSubject => Some G_TriplesSameSubject
  | K_PropertyList => Some G_PropertyList
  | K_PropertyListNotEmpty => Some G_PropertyListNotEmpty
  | K_Verb => Some G_Verb
  | K_ObjectList => Some G_ObjectList
  | K_Object => Some G_Object
  | K_TriplesSameSubjectPath => Some G_TriplesSameSubjectPath
  | K_PropertyListPath => Some G_PropertyListPath
  | K_PropertyListPathNotEmpty => Some G_PropertyListPathNotEmpty
  | K_VerbPath => Some G_VerbPath
  | K_VerbSimple => Some G_VerbSimple
  | K_ObjectListPath => Some G_ObjectListPath
  | K_ObjectPath => Some G_ObjectPath
  | K_Path => Some G_Path
  | K_PathAlternative => Some G_PathAlternative
  | K_PathSequence => Some G_PathSequence
  | K_PathElt => Some G_PathElt
  | K_PathEltOrInverse => Some G_PathEltOrInverse
  | K_PathMod => Some G_PathMod
  | K_PathPrimary => Some G_PathPrimary
  | K_PathNegatedPropertySet => Some G_PathNegatedPropertySet
  | K_PathOneInPropertySet => Some G_PathOneInPropertySet
  | K_TriplesNode => Some G_TriplesNode
  | K_BlankNodePropertyList => Some G_BlankNodePropertyList
  | K_TriplesNodePath => Some G_TriplesNodePath
  | K_BlankNodePropertyListPath => Some G_BlankNodePropertyListPath
  | K_Collection => Some G_Collection
  | K_CollectionPath => Some G_CollectionPath
  | K_AnnotationPath => Some G_AnnotationPath
  | K_AnnotationBlockPath => Some G_AnnotationBlockPath
  | K_Annotation => Some G_Annotation
  | K_AnnotationBlock => Some G_AnnotationBlock
  | K_GraphNode => Some G_GraphNode
  | K_GraphNodePath => Some G_GraphNodePath
  | K_VarOrTerm => Some G_VarOrTerm
  | K_ReifiedTriple => Some G_ReifiedTriple
  | K_ReifiedTripleSubject => Some G_ReifiedTripleSubject
  | K_ReifiedTripleObject => Some G_ReifiedTripleObject
  | K_TripleTerm => Some G_TripleTerm
  | K_TripleTermSubject => Some G_TripleTermSubject
  | K_TripleTermObject => Some G_TripleTermObject
  | K_TripleTermData => Some G_TripleTermData
  | K_TripleTermDataSubject => Some G_TripleTermDataSubject
  | K_TripleTermDataObject => Some G_TripleTermDataObject
  | K_VarOrIri => Some G_VarOrIri
  | K_Var => Some G_Var
  | K_Expression => Some G_Expression
  | K_ConditionalOrExpression => Some G_ConditionalOrExpression
  | K_ConditionalAndExpression => Some G_ConditionalAndExpression
  | K_ValueLogical => Some G_ValueLogical
  | K_RelationalExpression => Some G_RelationalExpression
  | K_NumericExpression => Some G_NumericExpression
  | K_AdditiveExpression => Some G_AdditiveExpression
  | K_MultiplicativeExpression => Some G_MultiplicativeExpression
  | K_UnaryExpression => Some G_UnaryExpression
  | K_PrimaryExpression => Some G_PrimaryExpression
  | K_ExprTripleTerm => Some G_ExprTripleTerm
  | K_ExprTripleTermSubject => Some G_ExprTripleTermSubject
  | K_ExprTripleTermObject => Some G_ExprTripleTermObject
  | K_BrackettedExpression => Some G_BrackettedExpression
  | K_BuiltInCall => Some G_BuiltInCall
  | K_RegexExpression => Some G_RegexExpression
  | K_SubstringExpression => Some G_SubstringExpression
  | K_StrReplaceExpression => Some G_StrReplaceExpression
  | K_ExistsFunc => Some G_ExistsFunc
  | K_NotExistsFunc => Some G_NotExistsFunc
  | K_Aggregate => Some G_Aggregate
  | K_iriOrFunction => Some G_iriOrFunction
  | K_RDFLiteral => Some G_RDFLiteral
  | K_NumericLiteral => Some G_NumericLiteral
  | K_NumericLiteralUnsigned => Some G_NumericLiteralUnsigned
  | K_NumericLiteralPositive => Some G_NumericLiteralPositive
  | K_NumericLiteralNegative => Some G_NumericLiteralNegative
  | K_BooleanLiteral => Some G_BooleanLiteral
  | K_String => Some G_String
  | K_iri => Some G_iri
  | K_PrefixedName => Some G_PrefixedName
  | K_BlankNode => Some G_BlankNode
  | _ => None
  end.
