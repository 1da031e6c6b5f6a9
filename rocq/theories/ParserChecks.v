(** The decidable side conditions of ParserTerm.v hold of the transcribed grammar. *)
From Coq Require Import List Arith Bool Lia.
Import ListNotations.
From Verif Require Import Kinds KindFacts ParserSyntax GrammarData ParserModel ParserTree ParserTerm.

(** check a boolean condition on every rule *)
Definition all_rules (P : kind -> rule -> bool) : bool :=
  forallb (fun r => match rule_of r with Some R => P r R | None => true end) all_kinds.
Lemma all_rules_spec P : all_rules P = true -> forall r R, rule_of r = Some R -> P r R = true.
Proof.
  intros H r R E. unfold all_rules in H. pose proof (all_kinds_forallb _ H r) as K. cbn in K. now rewrite E in K.
Qed.

(** depth table: iterate [T r := 1 + depth of the body] (rules with an escape look first) *)
Definition depth_step (t : list (kind * nat)) : list (kind * nat) :=
  map (fun r => (r, match rule_of r with
                    | Some R => match r_escape R with Some _ => 1 | None => S (sz (lookup 1 t) (r_body R)) end
                    | None => 1 end)) rule_kinds.
Fixpoint iter {A} (n : nat) (f : A -> A) (x : A) : A := match n with 0 => x | S n => iter n f (f x) end.
Definition depth_table : list (kind * nat) := Eval vm_compute in iter 40 depth_step [].
Definition depth_of (r : kind) : nat := lookup 1 depth_table r.
Definition max_depth : nat := 120.

Lemma depth_ok : forall r R, rule_of r = Some R -> rule_szok depth_of max_depth r R = true.
Proof. apply all_rules_spec. vm_compute. reflexivity. Qed.
Lemma calls_rule_ok : forall r R, rule_of r = Some R -> calls_ok rule_of (r_body R) = true.
Proof. apply (all_rules_spec (fun _ R => calls_ok rule_of (r_body R))). vm_compute. reflexivity. Qed.
Lemma rule_kind_ok : forall r R, rule_of r = Some R -> r_kind R = r.
Proof.
  intros r R H. apply kind_eqb_eq. revert r R H. apply (all_rules_spec (fun r R => kind_eqb (r_kind R) r)). vm_compute. reflexivity.
Qed.
