(** What formatting may change: the layout, not the tokens. *)
From Coq Require Import String List Arith NArith Bool.
Import ListNotations.
From Verif Require Import Kinds TextModel LexerModel LexerSpec.

(** characters between tokens: tab, line feed, form feed, carriage return, space *)
Definition blank (c : char) : Prop := In c [9; 10; 12; 13; 32]%N.
Definition blanks (t : text) : Prop := Forall blank t.
(** White_Space of Unicode *)
Definition white (c : char) : Prop :=
  (9 <= c <= 13 \/ c = 32 \/ c = 133 \/ c = 160 \/ c = 5760 \/ 8192 <= c <= 8202 \/ c = 8232 \/ c = 8233 \/ c = 8239 \/ c = 8287 \/ c = 12288)%N.

(** letters up to case, as Unicode has it: the long s U+017F is an S *)
Definition fold_char (c : char) : char := if N.eqb c 0x17F then 83%N else upper c.
Definition same_letters (t u : text) : Prop := map fold_char t = map fold_char u.
(** kinds spelled in any case: the keywords *)
Definition any_case : list kind := map fst keywords.
Definition signed_numbers : list kind :=
  [K_INTEGER_POSITIVE; K_DECIMAL_POSITIVE; K_DOUBLE_POSITIVE; K_INTEGER_NEGATIVE; K_DECIMAL_NEGATIVE; K_DOUBLE_NEGATIVE].
(** two keywords in one token *)
Definition two_words : list kind := [K_DELETE_WHERE; K_DELETE_DATA; K_INSERT_DATA].

(** [respelled k w w']: the token [w] of kind [k] may be written [w'] *)
Inductive respelled (k : kind) : text -> text -> Prop :=
| unchanged : forall w, respelled k w w
| other_case : forall w w', In k any_case -> same_letters w w' -> respelled k w w'
| after_sign : forall sign w b, In k signed_numbers -> blanks b -> respelled k (sign :: w) (sign :: b ++ w)
| brackets : forall w, k = K_ANON -> Forall white w -> respelled k (91%N :: w ++ [93%N]) [91; 93]%N
| words : forall x b y x' b' y', In k two_words -> same_letters x x' -> same_letters y y' ->
    b <> [] -> Forall white b -> b' <> [] -> Forall white b' -> respelled k (x ++ b ++ y) (x' ++ b' ++ y').

(** [relaid ls out]: [out] holds the tokens [ls] in order, respelled, with any blanks between them *)
Inductive relaid : list lexeme -> text -> Prop :=
| at_end : forall b, blanks b -> relaid [] b
| skip_blanks : forall w ls out, relaid ls out -> relaid ((K_WHITESPACE, w) :: ls) out
| next_token : forall k w b w' ls out, k <> K_WHITESPACE -> blanks b -> respelled k w w' -> relaid ls out ->
    relaid ((k, w) :: ls) (b ++ w' ++ out).
