(** What C41-C44 say, apart from the model's helpers: which occurrences denote the same variable. *)
From Coq Require Import String List Arith NArith Bool Relations Sorted.
Import ListNotations.
From Verif Require Import Kinds TextModel LexerSpec FormatData FormatModel TreeModel VarModel.

Definition variable (t : tree) (p : path) : Prop := exists cs, at_path t p = Some (Node K_Var cs).
Definition sub_select (t : tree) (p : path) : Prop := exists cs, at_path t p = Some (Node K_SubSelect cs).

(** the scope a node belongs to: the innermost sub-select around it, the whole document if there is none *)
Inductive in_scope (t : tree) : path -> path -> Prop :=
| inside s r : sub_select t s -> (forall s' r', s ++ r = s' ++ r' -> sub_select t s' -> length s' <= length s) -> in_scope t (s ++ r) s
| outermost p : (forall s r, p = s ++ r -> ~ sub_select t s) -> in_scope t p [].

(** a sub-select lets a variable through: one of its visible variables has that name *)
Definition exports (t : tree) (name : text) (s : path) : Prop :=
  exists x v, at_path t s = Some x /\ In v (visible x) /\ name_at t (s ++ v) = name.
(** a sub-select that lets it through shares it with the scope around it *)
Inductive shares (t : tree) (name : text) : path -> path -> Prop :=
| shares_up q i s : sub_select t (q ++ [i]) -> exports t name (q ++ [i]) -> in_scope t q s -> shares t name (q ++ [i]) s.
Definition same_variable (t : tree) (a b : path) : Prop :=
  variable t a /\ variable t b /\ name_at t a = name_at t b /\
  exists sa sb, in_scope t a sa /\ in_scope t b sb /\ clos_refl_sym_trans _ (shares t (name_at t a)) sa sb.

(** document order of nodes none of which contains another: lexicographic *)
Inductive doc_before : path -> path -> Prop :=
| before_here i j p q : i < j -> doc_before (i :: p) (j :: q)
| before_below i p q : doc_before p q -> doc_before (i :: p) (i :: q)
| before_inner i p : doc_before [] (i :: p).

(** how many characters of the document precede a node *)
Fixpoint chars_before (t : tree) (p : path) : nat :=
  match p with
  | [] => 0
  | i :: p => match t with
              | Node _ cs => length (flat_map tree_text (firstn i cs)) + match nth_error cs i with Some c => chars_before c p | None => 0 end
              | Tok _ _ => 0
              end
  end.
(** where a node is, in characters *)
Definition char_range (t : tree) (p : path) : nat * nat := (chars_before t p, chars_before t p + length (text_at t p)).

(** the tree with the variables at the selected paths replaced by the token [w] *)
Fixpoint renamed_tree (w : text) (sel : path -> bool) (t : tree) : tree :=
  match t with
  | Tok k u => Tok k u
  | Node k cs => if kind_eqb k K_Var && sel [] then Node k [Tok K_VAR1 w]
                 else Node k (imap (fun i c => renamed_tree w (fun p => sel (i :: p)) c) 0 cs)
  end.
Definition member (l : list path) (p : path) : bool := existsb (path_eqb p) l.
