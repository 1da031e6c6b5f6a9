(** From a text to its formatted text: lexing, parsing, formatting, applying the edits.
    /repo/src/server/message_handler/formatting/mod.rs:95-146 (format_raw, format_with_settings). *)
From Coq Require Import String List Arith NArith Bool.
Import ListNotations.
From Verif Require Import Kinds ParserModel ParserSpec GrammarData TextModel Utf8Model LexerModel LexerSpec LexerProps FormatData FormatModel.

(** The parser's tree with the characters of the tokens instead of their bytes: the i-th leaf gets the i-th lexeme
    (the leaves are the tokens in order, C12). *)
Fixpoint graft (g : green) (ls : list lexeme) : tree * list lexeme :=
  match g with
  | GToken _ => match ls with (k, w) :: r => (Tok k w, r) | [] => (Tok K_Error [], []) end
  | GNodeT k cs =>
    let '(ts, r) := (fix go (cs : list green) (ls : list lexeme) : list tree * list lexeme :=
        match cs with
        | [] => ([], ls)
        | c :: cs => let '(t, ls) := graft c ls in let '(ts, ls) := go cs ls in (t :: ts, ls)
        end) cs ls in
    (Node k ts, r)
  end.
(** mod.rs:44-54 format_document with contract_triples off, after ll_sparql_parser::parse *)
Definition format_lexed (gas : nat) (width : text -> nat) (s : fsettings) (o : foptions) (t : text) (ls : list lexeme) : option (fout (list text_edit)) :=
  match parse rule_of gas (with_spans 0 ls) with
  | Ok (Some (g, _)) => Some (format_document width s o t (fst (graft g ls)))
  | _ => None
  end.
