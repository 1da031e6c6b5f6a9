(** N-Triples responses: /repo/crates/ntriples-parser/src/lib.rs.  The tokenizer is generated by the
    logos crate from the regular expressions in lexer.rs and is not modelled here: a token list is
    what it yields, [None] where no expression matches. *)
From Coq Require Import List Arith NArith Bool.
Import ListNotations.
From Verif Require Import Utf8Model.

(** lexer.rs:3-20 *)
Inductive nt_token :=
| NComment
| NDot
| NIri (bs : list byte)
| NBlank (bs : list byte)
| NLiteral (bs : list byte).
(** a token with its byte span *)
Record nt_lexed := mknt { nt_tok : option nt_token; nt_start : nat; nt_end : nat }.

(** lib.rs:8  Triple *)
Definition triple := (list byte * list byte * list byte)%type.
(** lib.rs:10-13  ParseError; the message is one of three texts *)
Inductive nt_message := ExpectedNode_FoundLiteral | ExpectedNode_FoundBlank.
Record nt_error := mknterr { ne_start : nat; ne_end : nat; ne_message : nt_message }.

(** lib.rs:15-67  parse: [counter] 0 subject, 1 predicate, 2 object, 3 dot *)
Fixpoint nt_loop (toks : list nt_lexed) (counter : nat) (subject predicate : list byte)
                 (triples : list triple) (errors : list nt_error) {struct toks} : option (list triple * list nt_error) :=
  match toks with
  | [] => if counter =? 0 then Some (triples, errors) else None                        (* lib.rs:63-66 *)
  | t :: r =>
    let err m := errors ++ [mknterr (nt_start t) (nt_end t) m] in
    match nt_tok t with
    | None => None                                                                     (* lib.rs:23 [token?] *)
    | Some NComment => nt_loop r counter subject predicate triples errors              (* lib.rs:25-27 *)
    | Some k =>
      match counter, k with
      | 0, NIri bs | 0, NBlank bs => nt_loop r 1 bs predicate triples errors
      | 0, NLiteral bs => nt_loop r 1 bs predicate triples (err ExpectedNode_FoundLiteral)
      | 1, NIri bs => nt_loop r 2 subject bs triples errors
      | 1, NLiteral bs => nt_loop r 2 subject bs triples (err ExpectedNode_FoundLiteral)
      | 1, NBlank bs => nt_loop r 2 subject bs triples (err ExpectedNode_FoundBlank)
      | 2, NLiteral bs | 2, NIri bs | 2, NBlank bs => nt_loop r 3 subject predicate (triples ++ [(subject, predicate, bs)]) errors
      | 3, NDot => nt_loop r 0 subject predicate triples errors
      | _, _ => None
      end
    end
  end.
Definition nt_parse (toks : list nt_lexed) : option (list triple * list nt_error) := nt_loop toks 0 [] [] [] [].
