(** Specification vocabulary for the parser: what a user sees of a parse. *)
From Coq Require Import List.
Import ListNotations.
From Verif Require Import Kinds GrammarSpec ParserSyntax GrammarData ParserModel.

(** tokens that are neither whitespace nor comments, and their kinds *)
Definition ntrivia (t : ltoken) : bool := negb (trivia t).
Definition kinds_of (ts : list ltoken) : list kind := map (fun t => tk (ltok t)) (filter ntrivia ts).

(** all tokens of a syntax tree, left to right *)
Fixpoint gtokens (g : green) : list token :=
  match g with
  | GToken t => [t]
  | GNodeT _ cs => flat_map gtokens cs
  end.
Definition gtokenss (gs : list green) : list token := flat_map gtokens gs.
(** the text of a tree *)
Definition gtext (g : green) : list nat := flat_map ttext (gtokens g).

(** the shape of the tree once whitespace and comments are removed *)
Fixpoint gstrip (g : green) : list tree :=
  match g with
  | GToken t => if is_trivia (tk t) then [] else [Leaf (tk t)]
  | GNodeT k cs => [Node k (flat_map gstrip cs)]
  end.
Definition gstrips (gs : list green) : list tree := flat_map gstrip gs.

(** [below g n]: [n] is a node of the tree [g] other than its root *)
Inductive below : green -> green -> Prop :=
| below_child : forall k cs c, In c cs -> below (GNodeT k cs) c
| below_deeper : forall k cs c n, In c cs -> below c n -> below (GNodeT k cs) n.

(** an error node: a node (not a token) of kind Error *)
Definition has_error_node (g : green) : Prop := exists cs, below g (GNodeT K_Error cs).

(** the two entry points *)
Definition entry_point (k : kind) : Prop := k = K_QueryUnit \/ k = K_UpdateUnit.

(** The outcome of parsing the tokens [toks] starting at [entry]: what the parser does
    once it is given enough steps. *)
Definition parses_to (entry : kind) (toks : list ltoken) (r : res (option (green * list parse_error))) : Prop :=
  exists N, forall gas, N <= gas -> parse_tokens rule_of gas entry toks = r.
(** it returns the tree [g] and the errors [errs] *)
Definition returns (entry : kind) (toks : list ltoken) (g : green) (errs : list parse_error) : Prop :=
  parses_to entry toks (Ok (Some (g, errs))).

(** token lists the lexer can produce: no end-of-file token, and the tokens tile the text *)
Definition no_eof (toks : list ltoken) : Prop := forall t, In t toks -> tk (ltok t) <> K_Eof.
Fixpoint tiles (from : nat) (toks : list ltoken) : Prop :=
  match toks with
  | [] => True
  | t :: r => lstart t = from /\ lend t = from + length (ttext (ltok t)) /\ tiles (lend t) r
  end.
Definition text_of (toks : list ltoken) : list nat := flat_map (fun t => ttext (ltok t)) toks.

(** the documented SPARQL grammar, and its sentences *)
Definition sentence (G : kind -> option gexp) (entry : kind) (w : list kind) : Prop := matches G (GNode entry) w.

(** the keywords that start a query form, and those that start an update operation
    (SPARQL 1.1 grammar, rules [2] Query and [30] Update1; the lexer merges "INSERT DATA",
    "DELETE DATA" and "DELETE WHERE" into one token each) *)
Definition query_word (k : kind) : Prop := In k [K_SELECT; K_CONSTRUCT; K_DESCRIBE; K_ASK].
Definition update_word (k : kind) : Prop :=
  In k [K_LOAD; K_CLEAR; K_DROP; K_ADD; K_MOVE; K_COPY; K_CREATE; K_INSERT_DATA; K_DELETE_DATA;
        K_DELETE_WHERE; K_DELETE; K_INSERT].
