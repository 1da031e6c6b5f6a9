(** Equality and finite sets of kinds. *)
From Coq Require Import List Arith NArith Bool Lia.
Import ListNotations.
From Verif Require Import Kinds.

Lemma kind_of_id k : nth (N.to_nat (kind_id k)) all_kinds K_Eof = k.
Proof. destruct k; reflexivity. Qed.
Lemma kind_eqb_spec a b : reflect (a = b) (kind_eqb a b).
Proof.
  unfold kind_eqb. destruct (N.eqb_spec (kind_id a) (kind_id b)) as [E|E]; constructor.
  - rewrite <- (kind_of_id a), <- (kind_of_id b), E. reflexivity.
  - intros ->. now apply E.
Qed.
Lemma kind_eqb_eq a b : kind_eqb a b = true <-> a = b.
Proof. destruct (kind_eqb_spec a b); split; congruence. Qed.
Lemma kind_eqb_refl a : kind_eqb a a = true.
Proof. now apply kind_eqb_eq. Qed.
Definition kind_eq_dec (a b : kind) : {a = b} + {a <> b}.
Proof. destruct (kind_eqb_spec a b); [left|right]; assumption. Defined.

Lemma kind_in_In k l : kind_in k l = true <-> In k l.
Proof.
  unfold kind_in. rewrite existsb_exists. split.
  - intros (x & Hx & E). apply kind_eqb_eq in E. now subst.
  - intros H. exists k. split; [assumption|apply kind_eqb_refl].
Qed.
Lemma kind_in_false k l : kind_in k l = false <-> ~ In k l.
Proof. rewrite <- kind_in_In. destruct (kind_in k l); split; congruence. Qed.

Definition subset (a b : list kind) : bool := forallb (fun k => kind_in k b) a.
Definition disjoint (a b : list kind) : bool := forallb (fun k => negb (kind_in k b)) a.
Lemma subset_In a b : subset a b = true -> forall k, In k a -> In k b.
Proof. unfold subset. rewrite forallb_forall. intros H k Hk. now apply kind_in_In, H. Qed.
Lemma disjoint_In a b : disjoint a b = true -> forall k, In k a -> ~ In k b.
Proof.
  unfold disjoint. rewrite forallb_forall. intros H k Hk Hb. apply H in Hk.
  apply kind_in_In in Hb. rewrite Hb in Hk. discriminate.
Qed.

Lemma in_all_kinds k : In k all_kinds.
Proof.
  apply nth_error_In with (n := N.to_nat (kind_id k)). destruct k; reflexivity.
Qed.
(** a boolean property that holds of the listed kinds holds of every kind *)
Lemma all_kinds_forallb (P : kind -> bool) : forallb P all_kinds = true -> forall k, P k = true.
Proof. intros H k. rewrite forallb_forall in H. apply H, in_all_kinds. Qed.

(** tables *)
Fixpoint lookup {A} (d : A) (t : list (kind * A)) (k : kind) : A :=
  match t with
  | [] => d
  | (k', a) :: r => if kind_eqb k k' then a else lookup d r k
  end.
