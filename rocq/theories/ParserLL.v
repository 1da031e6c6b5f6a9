(** Static analysis of the transcribed grammar: what each statement denotes, nullable,
    FIRST, FOLLOW, the LL(1) conditions and the look budget.  Definitions only used in
    proofs; every table is checked, not trusted. *)
From Coq Require Import List Arith Bool.
Import ListNotations.
From Verif Require Import Kinds KindFacts ParserSyntax GrammarSpec GrammarData UngramData ParserModel ParserChecks.

(** the grammar expression a statement recognises when nothing goes wrong *)
Fixpoint denote (s : stmt) : gexp :=
  match s with
  | Skip | Sync _ => GEps
  | Seq a b => GSeq (denote a) (denote b)
  | Expect k => GTok k
  | Call r => GNode r
  | If _ s => GOpt (denote s)
  | While _ s => GRep (denote s)
  | Match a => denote_arms a
  end
with denote_arms (a : arms) : gexp :=
  match a with
  | Arm _ s (ArmEnd _) => denote s
  | Arm _ s a => GAlt (denote s) (denote_arms a)
  | ArmEnd _ => GEps
  end.
Definition denoted (r : kind) : option gexp :=
  match rule_of r with Some R => Some (denote (r_body R)) | None => None end.

(** normal form of expressions: sequences and alternatives to the right, no epsilon *)
Fixpoint gseq (a b : gexp) : gexp :=
  match a with
  | GEps => b
  | GSeq x y => GSeq x (gseq y b)
  | _ => match b with GEps => a | _ => GSeq a b end
  end.
Fixpoint galt (a b : gexp) : gexp :=
  match a with
  | GAlt x y => GAlt x (galt y b)
  | _ => GAlt a b
  end.
Fixpoint norm (e : gexp) : gexp :=
  match e with
  | GSeq a b => gseq (norm a) (norm b)
  | GAlt a b => galt (norm a) (norm b)
  | GOpt a => GOpt (norm a)
  | GRep a => GRep (norm a)
  | _ => e
  end.
Fixpoint gexp_eqb (a b : gexp) : bool :=
  match a, b with
  | GEps, GEps => true
  | GTok k, GTok k' | GNode k, GNode k' => kind_eqb k k'
  | GSeq a b, GSeq c d | GAlt a b, GAlt c d => gexp_eqb a c && gexp_eqb b d
  | GOpt a, GOpt b | GRep a, GRep b => gexp_eqb a b
  | _, _ => false
  end.
(** grammar.rs and the .ungram file agree on every rule *)
Definition grammar_agrees (r : kind) : bool :=
  match denoted r, sparql_grammar r with
  | Some a, Some b => gexp_eqb (norm a) (norm b)
  | None, None => true
  | _, _ => false
  end.

Definition union (a b : list kind) : list kind :=
  fold_right (fun k l => if kind_in k l then l else k :: l) b a.

Section Tables.
  Context (NT : kind -> bool) (FT : kind -> list kind).
  Fixpoint nul (e : gexp) : bool :=
    match e with
    | GEps | GOpt _ | GRep _ => true
    | GTok _ => false
    | GNode r => NT r
    | GSeq a b => nul a && nul b
    | GAlt a b => nul a || nul b
    end.
  Fixpoint first (e : gexp) : list kind :=
    match e with
    | GEps => []
    | GTok k => [k]
    | GNode r => FT r
    | GSeq a b => if nul a then union (first a) (first b) else first a
    | GAlt a b => union (first a) (first b)
    | GOpt a | GRep a => first a
    end.
  (** what may follow something that stands before [e] and the follow set [F] *)
  Definition ahead (e : gexp) (F : list kind) : list kind :=
    if nul e then union (first e) F else first e.
  Fixpoint fol (e : gexp) (F : list kind) : list (kind * list kind) :=
    match e with
    | GEps | GTok _ => []
    | GNode r => [(r, F)]
    | GSeq a b => fol a (ahead b F) ++ fol b F
    | GAlt a b => fol a F ++ fol b F
    | GOpt a => fol a F
    | GRep a => fol a (union (first a) F)
    end.

  Context (FO : kind -> list kind).
  (** LL(1) conditions of a statement followed by [F] *)
  Fixpoint chk (s : stmt) (F : list kind) : bool :=
    match s with
    | Skip | Expect _ => true
    | Seq a b => chk a (ahead (denote b) F) && chk b F
    | Call r => subset F (FO r)
    | If fs s => subset (first (denote s)) fs && disjoint F fs && chk s F
    | Sync fs => subset F (K_Eof :: fs)
    | While fs s => subset (first (denote s)) fs && disjoint F fs && negb (nul (denote s))
                    && chk s (union (first (denote s)) F)
    | Match a => chk_arms a F []
    end
  with chk_arms (a : arms) (F prev : list kind) : bool :=
    match a with
    | Arm fs s a =>
      subset (first (denote s)) fs && disjoint (first (denote s)) prev && chk s F
      && (if nul (denote s)
          then match a with
               | ArmEnd DSkip => disjoint F fs && disjoint F prev && negb (kind_in K_Eof F)
               | _ => false
               end
          else true)
      && match a with ArmEnd _ => true | _ => chk_arms a F (fs ++ prev) end
    | ArmEnd _ => false
    end.
  Definition chk_rule (r : kind) (R : rule) : bool :=
    chk (r_body R) (FO r)
    && match r_escape R with
       | Some fs => subset (first (denote (r_body R))) fs && NT r
       | None => true
       end
    && Bool.eqb (NT r) (nul (denote (r_body R)))
    && subset (first (denote (r_body R))) (FT r)
    && (negb (r_unit R) || subset (FO r) [K_Eof])
    && negb (kind_eqb (r_kind R) K_Error).

  (** look budget of error-free runs: looks when nothing is read ([z]), before the first
      token read ([p]), after the last one ([q]) *)
  Record budget := mkbudget { z : nat; p : nat; q : nat }.
  Context (BT : kind -> budget).
  Fixpoint bud (s : stmt) : budget :=
    match s with
    | Skip => mkbudget 0 0 0
    | Seq a b => let ba := bud a in let bb := bud b in
                 mkbudget (if nul (denote a) && nul (denote b) then z ba + z bb else 0)
                          (Nat.max (p ba) (if nul (denote a) then z ba + p bb else 0))
                          (Nat.max (q bb) (if nul (denote b) then q ba + z bb else 0))
    | Expect _ => mkbudget 0 1 0
    | Call r => BT r
    | If _ s => let b := bud s in mkbudget 1 (S (p b)) (q b)
    | Sync _ => mkbudget 1 0 0
    | While _ s => let b := bud s in mkbudget 1 (S (p b)) (S (q b))
    | Match a => let b := bud_arms a in mkbudget (if nul (denote_arms a) then S (z b) else 0) (S (p b)) (q b)
    end
  with bud_arms (a : arms) : budget :=
    match a with
    | Arm _ s a => let b := bud s in let c := bud_arms a in
                   mkbudget (Nat.max (z b) (z c)) (Nat.max (p b) (p c)) (Nat.max (q b) (q c))
    | ArmEnd _ => mkbudget 0 0 0
    end.
  Definition bud_rule (R : rule) : budget :=
    let b := bud (r_body R) in
    let e := match r_escape R with Some _ => 1 | None => 0 end in
    let u := if r_unit R then 1 else 0 in
    mkbudget (if nul (denote (r_body R)) then e + z b + u else 0) (e + p b) (q b + u).
  (** between two tokens there is always a look left *)
  Fixpoint bok (s : stmt) : bool :=
    match s with
    | Seq a b => let ba := bud a in let bb := bud b in
                 bok a && bok b && (q ba + Nat.max (z bb) (p bb) <=? 1024)
    | If _ s => bok s
    | While _ s => let b := bud s in bok s && (S (q b + p b) <=? 1024)
    | Match a => bok_arms a
    | _ => true
    end
  with bok_arms (a : arms) : bool :=
    match a with
    | Arm _ s a => bok s && bok_arms a
    | ArmEnd _ => true
    end.
  Definition bok_rule (r : kind) (R : rule) : bool :=
    let b := bud_rule R in
    bok (r_body R) && (z b <=? z (BT r)) && (p b <=? p (BT r)) && (q b <=? q (BT r)) && (q b <=? 1024).
End Tables.

Definition nul_step (t : list (kind * bool)) : list (kind * bool) :=
  map (fun r => (r, match denoted r with Some e => nul (lookup false t) e | None => false end)) rule_kinds.
Definition nul_table : list (kind * bool) := Eval vm_compute in iter 10 nul_step [].
Definition NT : kind -> bool := lookup false nul_table.

Definition first_step (t : list (kind * list kind)) : list (kind * list kind) :=
  map (fun r => (r, match denoted r with Some e => first NT (lookup [] t) e | None => [] end)) rule_kinds.
Definition first_table : list (kind * list kind) := Eval vm_compute in iter 25 first_step [].
Definition FT : kind -> list kind := lookup [] first_table.

Definition fol_step (t : list (kind * list kind)) : list (kind * list kind) :=
  let all := flat_map (fun r => match denoted r with Some e => fol NT FT e (lookup [] t r) | None => [] end) rule_kinds in
  map (fun r => (r, fold_right (fun '(r', s) acc => if kind_eqb r r' then union s acc else acc) (lookup [] t r) all)) rule_kinds.
Definition follow_table : list (kind * list kind) :=
  Eval vm_compute in iter 20 fol_step [(K_QueryUnit, [K_Eof]); (K_UpdateUnit, [K_Eof])].
Definition FO : kind -> list kind := lookup [] follow_table.

Definition bud_step (t : list (kind * budget)) : list (kind * budget) :=
  map (fun r => (r, match rule_of r with Some R => bud_rule NT (lookup (mkbudget 0 0 0) t) R | None => mkbudget 0 0 0 end)) rule_kinds.
Definition bud_table : list (kind * budget) := Eval vm_compute in iter 40 bud_step [].
Definition BT : kind -> budget := lookup (mkbudget 0 0 0) bud_table.

Lemma grammar_agrees_ok : forall r, grammar_agrees r = true.
Proof. apply all_kinds_forallb. vm_compute. reflexivity. Qed.
Lemma chk_rules_ok : forall r R, rule_of r = Some R -> chk_rule NT FT FO r R = true.
Proof. apply all_rules_spec. vm_compute. reflexivity. Qed.
Lemma bok_rules_ok : forall r R, rule_of r = Some R -> bok_rule NT BT r R = true.
Proof. apply all_rules_spec. vm_compute. reflexivity. Qed.
