(** The parse tree request.  /repo/src/server/message_handler/parse_tree.rs (below: pt).

    Simplifications: the kind of an element is a [kind], not its name as a string; the text of a token is its text, not
    the Debug rendering of it (quotes and escapes); the time the parser took is left out. *)
From Coq Require Import String List Arith NArith Bool.
Import ListNotations.
From Verif Require Import ServerModel Kinds ParserModel TextModel FormatModel TreeModel VarModel.

(** lsp/messages/parse_tree.rs: ParseTreeElement *)
Inductive element :=
| EToken (k : kind) (r : range) (w : text)
| ENode (k : kind) (r : range) (es : list element).

(** Rust: [&text[a..b]]: panics when a > b or a bound is not a character boundary *)
Definition slice (t : text) (a b : nat) : option text :=
  if b <? a then None
  else match split_byte t a with Some (_, r) => match split_byte r (b - a) with Some (m, _) => Some m | None => None end | None => None end.

(** pt:41-44 *)
Record cursor := mkcursor { byte_offset : nat; cposition : pos }.
(** pt:46-52 *)
Definition cursor_new : cursor := mkcursor 0 (mkpos 0 0).
(** pt:57-69 one character *)
Definition cursor_step (c : cursor) (chr : char) : cursor :=
  mkcursor (byte_offset c + len_utf8 chr)
    (if N.eqb chr NL then mkpos (S (line (cposition c))) 0 else mkpos (line (cposition c)) (character (cposition c) + len_utf16 chr)).
(** pt:56-71 advance_to: the position and the cursor that has moved there *)
Definition advance_to (t : text) (c : cursor) (target : nat) : vout (pos * cursor) :=
  match slice t (byte_offset c) target with
  | Some m => let c' := fold_left cursor_step m c in VDone (cposition c', c')
  | None => VPanic
  end.

(** pt:74-116 build_element; [p] is where [y] is in the tree [x].  The loop over the children is lazy, so that the filter
    and the cursor are interleaved as here. *)
Fixpoint build_element (x : tree) (t : text) (skip : bool) (p : path) (y : tree) (c : cursor) : vout (element * cursor) :=
  match y with
  | Tok k w =>                                            (* pt:91-103 *)
    let! (s, c) := advance_to t c (start_at x p) in
    let! (e, c) := advance_to t c (end_at x p) in
    VDone (EToken k (mkrange s e) w, c)
  | Node k cs =>
    let! (s, c) := advance_to t c (start_at x p) in       (* pt:80-81 *)
    let! (es, c) :=
      (fix children (i : nat) (cs : list tree) (c : cursor) : vout (list element * cursor) :=
         match cs with
         | [] => VDone ([], c)
         | z :: cs =>
           if negb skip || negb (is_trivia (tkind z))     (* pt:84 *)
           then let! (e, c) := build_element x t skip (p ++ [i]) z c in
                let! (es, c) := children (S i) cs c in
                VDone (e :: es, c)
           else children (S i) cs c
         end) 0 cs c in
    let! (e, c) := advance_to t c (end_at x p) in         (* pt:109 *)
    VDone (ENode k (mkrange s e) es, c)
  end.
(** pt:17-36 the tree that is sent; [skip] is the parameter skipTrivia, false if it is missing *)
Definition parse_tree_reply (x : tree) (t : text) (skip : option bool) : vout element :=
  let! (e, _) := build_element x t (match skip with Some b => b | None => false end) [] x cursor_new in VDone e.
