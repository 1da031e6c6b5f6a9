(** Specification: EBNF expressions, the words they denote and their syntax trees.
    Independent of the parser. *)
From Coq Require Import List.
Import ListNotations.
From Verif Require Import Kinds.

Inductive gexp :=
| GEps
| GTok (k : kind)
| GNode (r : kind)
| GSeq (a b : gexp)
| GAlt (a b : gexp)
| GOpt (a : gexp)
| GRep (a : gexp).

(** [matches G e w]: the word [w] is derivable from [e] in the grammar [G] *)
Inductive matches (G : kind -> option gexp) : gexp -> list kind -> Prop :=
| m_eps : matches G GEps []
| m_tok : forall k, matches G (GTok k) [k]
| m_node : forall r e w, G r = Some e -> matches G e w -> matches G (GNode r) w
| m_seq : forall a b u v, matches G a u -> matches G b v -> matches G (GSeq a b) (u ++ v)
| m_alt_l : forall a b w, matches G a w -> matches G (GAlt a b) w
| m_alt_r : forall a b w, matches G b w -> matches G (GAlt a b) w
| m_opt_none : forall a, matches G (GOpt a) []
| m_opt_some : forall a w, matches G a w -> matches G (GOpt a) w
| m_rep_nil : forall a, matches G (GRep a) []
| m_rep_cons : forall a u v, matches G a u -> matches G (GRep a) v -> matches G (GRep a) (u ++ v).

(** syntax trees: [Node r ts] is an occurrence of rule [r], [Leaf k] of a token *)
Inductive tree :=
| Leaf (k : kind)
| Node (r : kind) (ts : list tree).

Fixpoint leaves (t : tree) : list kind :=
  match t with
  | Leaf k => [k]
  | Node _ ts => flat_map leaves ts
  end.

(** [derives G e ts]: the forest [ts] is a derivation of [e]; an occurrence of a rule
    that derives nothing leaves no node behind *)
Inductive derives (G : kind -> option gexp) : gexp -> list tree -> Prop :=
| d_eps : derives G GEps []
| d_tok : forall k, derives G (GTok k) [Leaf k]
| d_node : forall r e ts, G r = Some e -> derives G e ts -> ts <> [] -> derives G (GNode r) [Node r ts]
| d_node_empty : forall r e, G r = Some e -> derives G e [] -> derives G (GNode r) []
| d_seq : forall a b u v, derives G a u -> derives G b v -> derives G (GSeq a b) (u ++ v)
| d_alt_l : forall a b ts, derives G a ts -> derives G (GAlt a b) ts
| d_alt_r : forall a b ts, derives G b ts -> derives G (GAlt a b) ts
| d_opt_none : forall a, derives G (GOpt a) []
| d_opt_some : forall a ts, derives G a ts -> derives G (GOpt a) ts
| d_rep_nil : forall a, derives G (GRep a) []
| d_rep_cons : forall a u v, derives G a u -> derives G (GRep a) v -> derives G (GRep a) (u ++ v).
