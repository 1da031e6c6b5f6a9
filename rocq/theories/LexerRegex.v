(** Regular expressions over Unicode scalar values, as used by the logos attributes of
    /repo/crates/sparql-parser/src/syntax_kind/generated.rs, and their matching by sets of partial
    derivatives.  What a regular expression means is [matches]. *)
From Coq Require Import List Arith NArith Bool.
Import ListNotations.
From Verif Require Import TextModel.

(** a class is a list of inclusive code point ranges *)
Inductive re := Eps | Cls (rs : list (N * N)) | Cat (a b : re) | Alt (a b : re) | Star (a : re).
Definition Chr (c : N) : re := Cls [(c, c)].
Definition in_class (c : char) (rs : list (N * N)) : bool := existsb (fun r => (fst r <=? c)%N && (c <=? snd r)%N) rs.

Inductive matches : re -> text -> Prop :=
| m_eps : matches Eps []
| m_cls : forall c rs, in_class c rs = true -> matches (Cls rs) [c]
| m_cat : forall a b u v, matches a u -> matches b v -> matches (Cat a b) (u ++ v)
| m_alt_l : forall a b u, matches a u -> matches (Alt a b) u
| m_alt_r : forall a b u, matches b u -> matches (Alt a b) u
| m_star_nil : forall a, matches (Star a) []
| m_star : forall a u v, matches a u -> matches (Star a) v -> matches (Star a) (u ++ v).

Fixpoint nullable (r : re) : bool :=
  match r with
  | Eps | Star _ => true
  | Cls _ => false
  | Cat a b => nullable a && nullable b
  | Alt a b => nullable a || nullable b
  end.
Definition cat (a b : re) : re := match a with Eps => b | _ => Cat a b end.
(** what is left to match after the character [c] *)
Fixpoint pd (c : char) (r : re) : list re :=
  match r with
  | Eps => []
  | Cls rs => if in_class c rs then [Eps] else []
  | Cat a b => map (fun x => cat x b) (pd c a) ++ (if nullable a then pd c b else [])
  | Alt a b => pd c a ++ pd c b
  | Star a => map (fun x => cat x (Star a)) (pd c a)
  end.
Fixpoint class_eqb (a b : list (N * N)) : bool :=
  match a, b with
  | [], [] => true
  | (x, y) :: a, (x', y') :: b => N.eqb x x' && N.eqb y y' && class_eqb a b
  | _, _ => false
  end.
Fixpoint re_eqb (a b : re) : bool :=
  match a, b with
  | Eps, Eps => true
  | Cls x, Cls y => class_eqb x y
  | Cat a b, Cat a' b' | Alt a b, Alt a' b' => re_eqb a a' && re_eqb b b'
  | Star a, Star b => re_eqb a b
  | _, _ => false
  end.
Fixpoint re_dedup (l : list re) : list re :=
  match l with
  | [] => []
  | r :: l => let l := re_dedup l in if existsb (re_eqb r) l then l else r :: l
  end.
Definition pd_set (c : char) (l : list re) : list re := re_dedup (flat_map (pd c) l).
