(** The rowan tree of the parser, seen by the request handlers.  A node or token of a tree is named by its
    path from the root (the indices of the children to go to); rowan compares nodes by identity, which is the
    same since no node of a parsed document but the root is empty (C12). *)
From Coq Require Import String List Arith NArith Bool.
Import ListNotations.
From Verif Require Import Kinds ParserModel TextModel LexerSpec FormatData FormatModel.

Definition path := list nat.
Fixpoint path_eqb (p q : path) : bool :=
  match p, q with
  | [], [] => true
  | i :: p, j :: q => (i =? j) && path_eqb p q
  | _, _ => false
  end.

(** the node or token at a path *)
Fixpoint at_path (t : tree) (p : path) : option tree :=
  match p with
  | [] => Some t
  | i :: p => match t with
              | Node _ cs => match nth_error cs i with Some c => at_path c p | None => None end
              | Tok _ _ => None
              end
  end.
Definition kind_at (t : tree) (p : path) : option kind := option_map tkind (at_path t p).
(** rowan: SyntaxNode::text().to_string(); empty if there is nothing at [p] *)
Definition text_at (t : tree) (p : path) : text := match at_path t p with Some x => tree_text x | None => [] end.
(** rowan: text_range().start() and .end(), in bytes *)
Fixpoint start_at (t : tree) (p : path) : nat :=
  match p with
  | [] => 0
  | i :: p => match t with
              | Node _ cs => byte_len (flat_map tree_text (firstn i cs)) + match nth_error cs i with Some c => start_at c p | None => 0 end
              | Tok _ _ => 0
              end
  end.
Definition end_at (t : tree) (p : path) : nat := start_at t p + byte_len (text_at t p).

(** children with their indices *)
Section indexed.
Context {A B : Type} (f : nat -> A -> B).
Fixpoint imap (i : nat) (l : list A) : list B := match l with [] => [] | x :: l => f i x :: imap (S i) l end.
End indexed.

(** rowan: descendants(), the node itself first, in preorder; nodes only *)
Fixpoint node_paths (t : tree) : list path :=
  match t with
  | Tok _ _ => []
  | Node _ cs => [] :: concat (imap (fun i c => map (cons i) (node_paths c)) 0 cs)
  end.
(** the tokens, in document order *)
Fixpoint leaf_paths (t : tree) : list path :=
  match t with
  | Tok _ _ => [[]]
  | Node _ cs => concat (imap (fun i c => map (cons i) (leaf_paths c)) 0 cs)
  end.
(** rowan: parent(); the root has none *)
Definition parent (p : path) : option path := match p with [] => None | _ => Some (removelast p) end.
(** rowan: ancestors(), the node itself first *)
Fixpoint prefixes (p : path) : list path := match p with [] => [[]] | i :: p => [] :: map (cons i) (prefixes p) end.
Definition ancestors (p : path) : list path := rev (prefixes p).
(** rowan: token_at_offset(offset).left_biased(): the token that contains the offset or ends there (tokens are
    not empty, so it is the first one that does not end before) *)
Definition token_at (t : tree) (offset : nat) : option path := find (fun p => offset <=? end_at t p) (leaf_paths t).
