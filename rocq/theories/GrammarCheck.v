(** A test that a tree is a derivation of the grammar, for the examples. *)
From Coq Require Import List Arith Bool.
Import ListNotations.
From Verif Require Import Kinds KindFacts ParserSpec UngramData LayoutProps LexerModel FormatModel FormatWeave TreeModel TreePlace VarModel ParserProps Replant.
From Verif Require Import GrammarSpec GrammarFacts.

(** what is left of [ts] behind a derivation of [e] *)
Fixpoint rests (n : nat) (e : gexp) (ts : list GrammarSpec.tree) {struct n} : list (list GrammarSpec.tree) :=
  match n with
  | 0 => []
  | S n =>
    match e with
    | GEps => [ts]
    | GTok k => match ts with GrammarSpec.Leaf k' :: r => if kind_eqb k k' then [r] else [] | _ => [] end
    | GNode k =>
      match sparql_grammar k with
      | None => []
      | Some e =>
        match ts with
        | GrammarSpec.Node k' (c :: cs) :: r => if kind_eqb k k' then (if existsb (fun l => match l with [] => true | _ => false end) (rests n e (c :: cs)) then [r] else []) else if existsb (fun l => match l with [] => true | _ => false end) (rests n e []) then [ts] else []
        | _ => if existsb (fun l => match l with [] => true | _ => false end) (rests n e []) then [ts] else []
        end
      end
    | GSeq a b => flat_map (rests n b) (rests n a ts)
    | GAlt a b => rests n a ts ++ rests n b ts
    | GOpt a => rests n a ts ++ [ts]
    | GRep a => flat_map (fun r => if length r <? length ts then rests n (GRep a) r else []) (rests n a ts) ++ [ts]
    end
  end.
Lemma rests_sound n : forall e ts r, In r (rests n e ts) -> exists u, ts = u ++ r /\ GrammarSpec.derives sparql_grammar e u.
Proof.
  induction n as [|n IH]; intros e ts r H; [destruct H|]. destruct e as [|k|k|a b|a b|a|a]; cbn [rests] in H.
  - destruct H as [<-|[]]. exists []. split; [reflexivity|constructor].
  - destruct ts as [|[k'|k' cs] ts]; try destruct H. destruct (kind_eqb_spec k k') as [<-|N]; [|destruct H]. destruct H as [<-|[]]. exists [GrammarSpec.Leaf k]. split; [reflexivity|constructor].
  - destruct (sparql_grammar k) as [e|] eqn:G; [|destruct H].
    assert (Em : In r (if existsb (fun l : list GrammarSpec.tree => match l with [] => true | _ => false end) (rests n e []) then [ts] else []) -> exists u, ts = u ++ r /\ GrammarSpec.derives sparql_grammar (GNode k) u).
    { destruct (existsb _ _) eqn:X; intros []; [|destruct H0]. subst r. apply existsb_exists in X as ([|] & X & Y); [|discriminate]. apply IH in X as (u & E & D). exists []. split; [reflexivity|]. destruct u; [|discriminate]. eapply d_node_empty; eassumption. }
    destruct ts as [|[k'|k' [|c cs]] ts]; try exact (Em H). destruct (kind_eqb_spec k k') as [<-|N]; [|exact (Em H)]. destruct (existsb _ (rests n e (c :: cs))) eqn:X; [|destruct H]. destruct H as [<-|[]]. apply existsb_exists in X as ([|] & X & Y); [|discriminate].
    apply IH in X as (u & E & D). rewrite app_nil_r in E. subst u. exists [GrammarSpec.Node k (c :: cs)]. split; [reflexivity|]. eapply d_node; [exact G|exact D|discriminate].
  - apply in_flat_map in H as (r1 & H1 & H2). apply IH in H1 as (u & -> & D1). apply IH in H2 as (v & -> & D2). exists (u ++ v). split; [rewrite app_assoc; reflexivity|]. constructor; assumption.
  - apply in_app_iff in H as [H|H]; apply IH in H as (u & -> & D); exists u; (split; [reflexivity|]); [apply d_alt_l|apply d_alt_r]; exact D.
  - apply in_app_iff in H as [H|[<-|[]]]; [apply IH in H as (u & -> & D); exists u; split; [reflexivity|]; apply d_opt_some; exact D|]. exists []. split; [reflexivity|constructor].
  - apply in_app_iff in H as [H|[<-|[]]]; [|exists []; split; [reflexivity|constructor]]. apply in_flat_map in H as (r1 & H1 & H2). destruct (_ <? _); [|destruct H2]. apply IH in H1 as (u & -> & D1). apply IH in H2 as (v & -> & D2).
    exists (u ++ v). split; [rewrite app_assoc; reflexivity|]. apply d_rep_cons; assumption.
Qed.
Definition derivation_check (n : nat) (y : GrammarSpec.tree) : bool := existsb (fun l : list GrammarSpec.tree => match l with [] => true | _ => false end) (rests n (GNode K_QueryUnit) [y]).
Lemma derivation_checked n err t x : doc_tree err t x -> derivation_check n (shape (bare same x)) = true -> grammatical err t.
Proof.
  intros D C. unfold derivation_check in C. apply existsb_exists in C as ([|] & H & Y); [|discriminate]. apply rests_sound in H as (u & E & H). rewrite app_nil_r in E. subst u. apply derives_matches in H. cbn [flat_map] in H. rewrite app_nil_r, shape_leaves, (doc_bare_leaves _ _ _ D) in H. exact H.
Qed.
