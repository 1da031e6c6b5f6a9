(** The lexer: /repo/crates/sparql-parser/src/parser/mod.rs:323-337 with the logos token definitions of
    syntax_kind/generated.rs.  logos is a library; what is modelled is its documented behaviour: at every
    place the longest match of all token definitions is taken; where nothing matches an error token of at
    least one character is produced.  How long error tokens are is left open ([err]), and so is every
    choice between definitions matching the same longest text (there never is one, see LexerProps). *)
From Coq Require Import List Arith NArith Bool.
Import ListNotations.
From Verif Require Import Kinds TextModel LexerRegex LexerData.

(** regex \b in ASCII mode, after a word character: no ASCII word character follows *)
Definition word_char (c : char) : bool :=
  ((48 <=? c) && (c <=? 57) || (65 <=? c) && (c <=? 90) || N.eqb c 95 || (97 <=? c) && (c <=? 122))%N.
Definition at_boundary (rest : text) : bool := match rest with [] => true | c :: _ => negb (word_char c) end.

(** the longest prefix of [t] accepted; [n] characters are read already *)
Fixpoint longest_from (wb : bool) (l : list re) (t : text) (n : nat) (best : option nat) : option nat :=
  let best := if existsb nullable l && (negb wb || at_boundary t) then Some n else best in
  match l, t with
  | [], _ | _, [] => best
  | _, c :: t => longest_from wb (pd_set c l) t (S n) best
  end.
Definition longest (r : re) (wb : bool) (t : text) : option nat := longest_from wb [r] t 0 None.

(** logos: the longest match of all definitions *)
Fixpoint longest_rule (rules : list (kind * re * bool)) (t : text) : option (kind * nat) :=
  match rules with
  | [] => None
  | (k, r, wb) :: rules =>
    match longest r wb t, longest_rule rules t with
    | Some n, Some (k', n') => if n' <=? n then Some (k, n) else Some (k', n')
    | Some n, None => Some (k, n)
    | None, x => x
    end
  end.

(** a token: kind and text *)
Definition lexeme := (kind * text)%type.
(** parser/mod.rs:323-337  lex; [err t] is one less than the length of the error token at [t] *)
Fixpoint lex_n (rules : list (kind * re * bool)) (err : text -> nat) (n : nat) (t : text) : list lexeme :=
  match n, t with
  | _, [] | 0, _ => []
  | S n, _ =>
    match longest_rule rules t with
    | Some (k, S m) => (k, firstn (S m) t) :: lex_n rules err n (skipn (S m) t)
    | _ => (K_Error, firstn (S (err t)) t) :: lex_n rules err n (skipn (S (err t)) t)
    end
  end.
Definition lex (err : text -> nat) (t : text) : list lexeme := lex_n lexer_rules err (length t) t.
