(** Trees of grammatical documents: the tree is the derivation, and a derivation whose leaves are the tokens is the tree.
    With this an edit of a grammatical document is followed by giving the derivation of the edited one. *)
From Coq Require Import String List Arith NArith Bool Lia.
Import ListNotations.
From Verif Require Import ServerModel Kinds KindFacts ParserSyntax ParserModel GrammarData ParserTree ParserTerm ParserBuild ParserSpec ParserChecks ParserOutcome ParserProps
  TextModel TextSpec TextProofs Utf8Model LexerRegex LexerData LexerModel LexerProofs LexerSpec LexerProps FormatData FormatModel FormatTree FormatText FormatParse FormatWeave
  TreeModel TreePlace TreeShape TreeRename VarModel VarSpec VarRegions VarDoc LexRename VarProps DiagModel DiagSpec AstFacts DiagFacts DiagGroup DiagRest ParseTreeProps LexLayout DiagProps OnTypeProofs OnTypeProps LayoutProps LexInsert PrologueRun PrologueSwap QuickFixModel QuickFixFacts CoverFacts.
From Verif Require GrammarSpec GrammarFacts.
From Verif Require Import UngramData.

(** the tree with the kinds only *)
Fixpoint shape (x : tree) : GrammarSpec.tree := match x with Tok k _ => GrammarSpec.Leaf k | Node k cs => GrammarSpec.Node k (map shape cs) end.
Notation derives := (GrammarSpec.derives sparql_grammar).
(** the significant tokens of [t] are a query of the grammar *)
Definition grammatical (err : text -> nat) (t : text) : Prop := sentence sparql_grammar K_QueryUnit (map lkind (tokens err t)).

Lemma shape_leaves x : GrammarSpec.leaves (shape x) = map lkind (leaves x).
Proof.
  induction x as [k w|k cs IH] using tree_ind'; [reflexivity|]. cbn [shape GrammarSpec.leaves leaves]. induction IH as [|c cs H _ IHl]; [reflexivity|]. cbn [map flat_map]. rewrite map_app, H, IHl. reflexivity.
Qed.
Lemma app_inj_len {A} (a b c d : list A) : length a = length c -> a ++ b = c ++ d -> a = c /\ b = d.
Proof. revert c. induction a as [|x a IH]; intros [|y c] L E; try discriminate; [auto|]. cbn in *. injection E as -> E. injection L as L. destruct (IH c L E) as [-> ->]. auto. Qed.
Lemma shape_unique x : forall y, shape x = shape y -> leaves x = leaves y -> x = y.
Proof.
  induction x as [k w|k cs IH] using tree_ind'; intros [k' w'|k' cs'] Es El; try discriminate; cbn in *.
  - congruence.
  - injection Es as <- Es. f_equal. revert cs' Es El. induction IH as [|c cs H _ IHl]; intros [|c' cs'] Es El; try discriminate; [reflexivity|]. cbn [map flat_map] in *. injection Es as E1 E2.
    assert (length (leaves c) = length (leaves c')) as L by (rewrite <- (map_length lkind (leaves c)), <- (map_length lkind (leaves c')), <- !shape_leaves, E1; reflexivity).
    apply (app_inj_len _ _ _ _ L) in El as [L1 L2]. rewrite (H _ E1 L1), (IHl _ E2 L2). reflexivity.
Qed.
(** the tree the parser's run leaves on tokens without trivia *)
Lemma place_shape t : forall a l, plain_l (a ++ l) -> map lkind a = pleaves t -> exists us, tplace t (a ++ l) = (us, l) /\ map shape us = ptree_tree t.
Proof.
  induction t as [k|k ts IH|e] using ptree_rect'; intros a l P E.
  - destruct a as [|x [|y a]]; try discriminate. cbn [app] in *. unfold tplace, place. rewrite (plain_split _ P). cbn. exists [tok x]. split; [reflexivity|]. cbn in *. injection E as E. unfold tok. cbn [shape]. unfold lkind in E. rewrite E. reflexivity.
  - rewrite (place_node_plain _ _ _ P). cbn [pleaves] in E. assert (exists us, tplaces ts (a ++ l) = (us, l) /\ map shape us = ptrees ts) as (us & E1 & E2).
    { revert a P E. induction IH as [|t ts H _ IHl]; intros a P E; cbn [flat_map] in E.
      - apply map_eq_nil in E as ->. exists []. split; reflexivity.
      - apply map_eq_app in E as (a1 & a2 & -> & E1 & E2). rewrite <- app_assoc in *. destruct (H a1 (a2 ++ l) P E1) as (us & X1 & X2). destruct (IHl a2) as (vs & Y1 & Y2); [apply Forall_app in P; apply P|exact E2|].
        exists (us ++ vs). unfold tplaces, tplace in *. cbn [places]. rewrite X1, Y1. split; [reflexivity|]. rewrite map_app, X2, Y2. reflexivity. }
    rewrite E1. exists [Node k us]. split; [reflexivity|]. cbn [map shape ptree_tree]. rewrite E2. reflexivity.
  - apply map_eq_nil in E as ->. exists []. split; reflexivity.
Qed.
Lemma places_shape ts a : plain_l a -> map lkind a = pleavess ts -> exists us, tplaces ts a = (us, []) /\ map shape us = ptrees ts.
Proof.
  intros P E. destruct (place_shape (PNode K_Error ts) a []) as (us & E1 & E2); [rewrite app_nil_r; exact P|exact E|]. rewrite app_nil_r, (place_node_plain _ _ _ P) in E1. destruct (tplaces ts a) as [cs n]. injection E1 as <- ->. exists cs. split; [reflexivity|]. cbn in E2. injection E2 as E2. exact E2.
Qed.
Lemma prune_pleaves t : pleavess (prune t) = pleaves t.
Proof.
  induction t as [k|k ts IH|e] using ptree_rect'; [reflexivity| |reflexivity]. cbn [prune pleaves]. assert (pleavess (flat_map prune ts) = flat_map pleaves ts) as H.
  { unfold pleavess in *. induction IH as [|t ts H _ IHl]; [reflexivity|]. cbn [flat_map]. rewrite flat_map_app, H, IHl. reflexivity. }
  destruct (flat_map pleaves ts) as [|k0 l] eqn:E; [exact H|]. unfold pleavess in *. cbn [flat_map pleaves]. rewrite app_nil_r. exact H.
Qed.
Lemma prunes_pleavess ts : pleavess (prunes ts) = pleavess ts.
Proof. unfold pleavess, prunes. induction ts as [|t ts IH]; [reflexivity|]. cbn [flat_map]. rewrite flat_map_app, IH. f_equal. apply prune_pleaves. Qed.
(** the parse tree without trivia, its shape and its tokens *)
Lemma bare_shape err t x errs : doc_parse err t x errs -> exists gas ts f, ex_rule rule_of gas (entry_for (lex err t)) (map lkind (tokens err t)) max_fuel = Ok ([PNode (entry_for (lex err t)) ts], [], f) /\
  errs = map (mkerr (with_spans 0 (lex err t))) (perrss 0 (prunes ts)) /\ shape (bare same x) = GrammarSpec.Node (entry_for (lex err t)) (ptrees (prunes ts)).
Proof.
  intros P. destruct (doc_parse_run _ _ _ _ P) as (gas & ts & f & R & Ee & L & Ex). rewrite seen_tokens in R, L. exists gas, ts, f. split; [exact R|]. split; [exact Ee|]. rewrite Ex, bare_placed.
  destruct (places_shape (prunes ts) (sigs (lex err t)) (sigs_plain _)) as (us & E1 & E2); [rewrite prunes_pleavess; symmetry; exact L|]. unfold placed. unfold tplaces in E1. rewrite E1. cbn [map]. rewrite app_nil_r. cbn [shape]. rewrite E2. reflexivity.
Qed.
Lemma bare_leaves x : is_inner x -> leaves (bare same x) = sigs (leaves x).
Proof.
  induction x as [k w|k cs IH] using tree_ind'; intros I; [destruct I as (? & ? & I); discriminate|]. clear I. cbn [bare leaves]. induction IH as [|c cs H _ IHl]; [reflexivity|]. cbn [flat_map]. rewrite flat_map_app, PrologueSwap.sigs_app, IHl. f_equal.
  destruct c as [a b|a b]; [unfold sigs; cbn [leaves filter]; destruct (trivial (a, b)); reflexivity|]. cbn [flat_map]. rewrite app_nil_r. apply H. eexists. eexists. reflexivity.
Qed.
Lemma doc_bare_leaves err t x : doc_tree err t x -> leaves (bare same x) = tokens err t.
Proof. intros D. rewrite bare_leaves by (destruct (doc_root _ _ _ D) as (k & (cs & H) & _); destruct x; cbn in H; injection H as H; [discriminate|]; eexists; eexists; reflexivity). rewrite (doc_leaves _ _ _ D). reflexivity. Qed.

(** ** the tree of a grammatical document is its derivation *)
Lemma doc_kinds err t : kinds_of (with_spans 0 (lex err t)) = map lkind (tokens err t).
Proof. rewrite seen_kinds. apply seen_tokens. Qed.
Lemma query_entry err t : grammatical err t -> entry_for (lex err t) = K_QueryUnit /\ tokens err t <> [].
Proof.
  intros H. split.
  - apply C19_query_recognised. rewrite doc_kinds. exact H.
  - intros E. unfold grammatical in H. rewrite E in H. cbn [map] in H. pose proof (opclasses_sound _ _ H 40) as K. vm_compute in K. intuition discriminate.
Qed.
Theorem derivation_parsed err t y : derives (GrammarSpec.GNode K_QueryUnit) [shape y] -> leaves y = tokens err t -> exists x, doc_parse err t x [] /\ query_doc x /\ bare same x = y.
Proof.
  intros D L. assert (W : flat_map GrammarSpec.leaves [shape y] = kinds_of (with_spans 0 (lex err t))) by (cbn [flat_map]; rewrite app_nil_r, shape_leaves, L, doc_kinds; reflexivity).
  assert (G : grammatical err t). { unfold grammatical, sentence. rewrite <- doc_kinds, <- W. apply GrammarFacts.derives_matches in D. exact D. }
  destruct (query_entry _ _ G) as [En Ne]. pose proof (with_spans_no_eof _ 0 (lex_kinds err t)) as No.
  destruct (C27_tree_is_derivation K_QueryUnit _ _ (or_introl eq_refl) No D W) as (cs & R & _ & S).
  pose proof R as R0. apply parses_to_at in R as [gas R]. assert (P : doc_parse err t (fst (graft (GNodeT K_QueryUnit cs) (lex err t))) []).
  { exists gas, (GNodeT K_QueryUnit cs). split; [|reflexivity]. unfold parse. change (entry_of (with_spans 0 (lex err t))) with (entry_for (lex err t)). rewrite En. exact R. }
  eexists. split; [exact P|]. assert (Q : query_doc (fst (graft (GNodeT K_QueryUnit cs) (lex err t)))).
  { destruct (doc_parse_run _ _ _ _ P) as (? & ? & ? & _ & _ & _ & Ex). rewrite Ex, En. eexists. reflexivity. }
  split; [exact Q|]. apply shape_unique; [|rewrite (doc_bare_leaves _ _ _ (doc_parse_tree _ _ _ _ P)); symmetry; exact L].
  destruct S as [S|[S _]]; [|discriminate]. injection S as S. rewrite S. destruct (bare_shape _ _ _ _ P) as (g1 & ts1 & f1 & R1 & _ & ->). rewrite En in *. f_equal.
  destruct (returns_run _ _ _ _ (or_introl eq_refl) No R0) as (g2 & ts2 & cs2 & f2 & R2 & Eg & _ & _ & _ & St). injection Eg as <-. rewrite doc_kinds in R2. pose proof (LayoutProps.run_same _ _ _ _ _ _ _ _ R1 R2) as <-. symmetry. exact St.
Qed.
Theorem grammatical_parsed err t : grammatical err t -> exists x, doc_parse err t x [] /\ query_doc x /\ derives (GrammarSpec.GNode K_QueryUnit) [shape (bare same x)].
Proof.
  intros G. destruct (query_entry _ _ G) as [En Ne]. unfold grammatical in G. rewrite <- doc_kinds in G. destruct (sentence_derivation _ _ G) as (ts & D & W). pose proof (with_spans_no_eof _ 0 (lex_kinds err t)) as No.
  destruct (C27_tree_is_derivation K_QueryUnit _ _ (or_introl eq_refl) No D W) as (cs & R & _ & S).
  pose proof R as R0. apply parses_to_at in R as [gas R]. assert (P : doc_parse err t (fst (graft (GNodeT K_QueryUnit cs) (lex err t))) []).
  { exists gas, (GNodeT K_QueryUnit cs). split; [|reflexivity]. unfold parse. change (entry_of (with_spans 0 (lex err t))) with (entry_for (lex err t)). rewrite En. exact R. }
  eexists. split; [exact P|]. split. { destruct (doc_parse_run _ _ _ _ P) as (? & ? & ? & _ & _ & _ & Ex). rewrite Ex, En. eexists. reflexivity. }
  destruct S as [S|[S _]]; [|subst ts; rewrite doc_kinds in W; cbn in W; symmetry in W; apply map_eq_nil in W; contradiction]. rewrite S in D. destruct (bare_shape _ _ _ _ P) as (g1 & ts1 & f1 & R1 & _ & ->). rewrite En in *.
  destruct (returns_run _ _ _ _ (or_introl eq_refl) No R0) as (g2 & ts2 & cs2 & f2 & R2 & Eg & _ & _ & _ & St). injection Eg as <-. rewrite doc_kinds in R2. pose proof (LayoutProps.run_same _ _ _ _ _ _ _ _ R1 R2) as <-. rewrite <- St. exact D.
Qed.

(** ** replacing a node *)
Definition upd {A} (l : list A) (i : nat) (c : A) : list A := firstn i l ++ c :: skipn (S i) l.
Fixpoint put_at (x : tree) (p : path) (z : tree) : tree :=
  match p with
  | [] => z
  | i :: p => match x with Node k cs => match nth_error cs i with Some c => Node k (upd cs i (put_at c p z)) | None => x end | Tok _ _ => x end
  end.
Fixpoint gat (x : GrammarSpec.tree) (p : path) : option GrammarSpec.tree :=
  match p with
  | [] => Some x
  | i :: p => match x with GrammarSpec.Node _ cs => match nth_error cs i with Some c => gat c p | None => None end | GrammarSpec.Leaf _ => None end
  end.
Fixpoint gput (x : GrammarSpec.tree) (p : path) (z : GrammarSpec.tree) : GrammarSpec.tree :=
  match p with
  | [] => z
  | i :: p => match x with GrammarSpec.Node k cs => match nth_error cs i with Some c => GrammarSpec.Node k (upd cs i (gput c p z)) | None => x end | GrammarSpec.Leaf _ => x end
  end.
Lemma upd_map {A B} (f : A -> B) l i c : map f (upd l i c) = upd (map f l) i (f c).
Proof. unfold upd. rewrite map_app. cbn [map]. rewrite firstn_map, skipn_map. reflexivity. Qed.
Lemma shape_put p : forall x z, shape (put_at x p z) = gput (shape x) p (shape z).
Proof.
  induction p as [|i p IH]; intros x z; [reflexivity|]. destruct x as [k w|k cs]; [reflexivity|]. cbn [put_at shape gput]. rewrite nth_error_map. destruct (nth_error cs i) as [c|]; cbn [option_map]; [|reflexivity]. cbn [shape]. rewrite upd_map, IH. reflexivity.
Qed.
Lemma shape_at p : forall x y, at_path x p = Some y -> gat (shape x) p = Some (shape y).
Proof.
  induction p as [|i p IH]; intros x y E; [cbn in *; congruence|]. destruct x as [k w|k cs]; [discriminate|]. cbn [at_path] in E. cbn [shape gat]. rewrite nth_error_map. destruct (nth_error cs i) as [c|]; [cbn [option_map]; apply IH, E|discriminate].
Qed.
Lemma upd_app_l {A} (u v : list A) i c : i < length u -> upd (u ++ v) i c = upd u i c ++ v.
Proof. intros H. unfold upd. rewrite firstn_app, skipn_app. replace (i - length u) with 0 by lia. replace (S i - length u) with 0 by lia. cbn [firstn skipn]. rewrite app_nil_r, <- app_assoc. reflexivity. Qed.
Lemma upd_app_r {A} (u v : list A) i c : length u <= i -> upd (u ++ v) i c = u ++ upd v (i - length u) c.
Proof. intros H. unfold upd. rewrite firstn_app, skipn_app. rewrite firstn_all2 by lia. rewrite skipn_all2 by lia. replace (S i - length u) with (S (i - length u)) by lia. rewrite <- app_assoc. reflexivity. Qed.
Lemma derives_put e ts : derives e ts -> forall i c p r us z, nth_error ts i = Some c -> gat c p = Some (GrammarSpec.Node r us) -> (exists vs, z = GrammarSpec.Node r vs) -> derives (GrammarSpec.GNode r) [z] -> derives e (upd ts i (gput c p z)).
Proof.
  induction 1 as [|k|r0 e ts G D IH Ne|r0 e G D IH|a b u v D1 IH1 D2 IH2|a b ts D IH|a b ts D IH|a|a ts D IH|a|a u v D1 IH1 D2 IH2]; intros i c p r us z E A Z Dz.
  - destruct i; discriminate.
  - destruct i as [|i]; [|destruct i; discriminate]. injection E as <-. destruct p as [|j p]; discriminate.
  - destruct i as [|i]; [|destruct i; discriminate]. injection E as <-. unfold upd. cbn [firstn skipn app]. destruct p as [|j p].
    + cbn [gat] in A. injection A as -> _. exact Dz.
    + cbn [gat gput] in *. destruct (nth_error ts j) as [c|] eqn:Ej; [|discriminate]. eapply GrammarSpec.d_node; [exact G|eapply IH; eassumption|]. unfold upd. destruct (firstn j ts); discriminate.
  - destruct i; discriminate.
  - destruct (lt_dec i (length u)) as [L|L].
    + rewrite upd_app_l by exact L. rewrite nth_error_app1 in E by exact L. apply GrammarSpec.d_seq; [eapply IH1; eassumption|exact D2].
    + rewrite upd_app_r by lia. rewrite nth_error_app2 in E by lia. apply GrammarSpec.d_seq; [exact D1|eapply IH2; eassumption].
  - apply GrammarSpec.d_alt_l. eapply IH; eassumption.
  - apply GrammarSpec.d_alt_r. eapply IH; eassumption.
  - destruct i; discriminate.
  - apply GrammarSpec.d_opt_some. eapply IH; eassumption.
  - destruct i; discriminate.
  - destruct (lt_dec i (length u)) as [L|L].
    + rewrite upd_app_l by exact L. rewrite nth_error_app1 in E by exact L. apply GrammarSpec.d_rep_cons; [eapply IH1; eassumption|exact D2].
    + rewrite upd_app_r by lia. rewrite nth_error_app2 in E by lia. apply GrammarSpec.d_rep_cons; [exact D1|eapply IH2; eassumption].
Qed.
Lemma derives_replaced e x p k cs cs' : derives e [shape x] -> at_path x p = Some (Node k cs) -> derives (GrammarSpec.GNode k) [shape (Node k cs')] -> derives e [shape (put_at x p (Node k cs'))].
Proof.
  intros D A D'. rewrite shape_put. apply shape_at in A. pose proof (derives_put _ _ D 0 (shape x) p k _ (shape (Node k cs')) eq_refl A) as H. unfold upd in H. cbn [firstn skipn app] in H. apply H; [eexists; reflexivity|exact D'].
Qed.
(** the derivation of a node of a derivation *)
Lemma derives_at e ts : derives e ts -> forall i c p r us, nth_error ts i = Some c -> gat c p = Some (GrammarSpec.Node r us) -> derives (GrammarSpec.GNode r) [GrammarSpec.Node r us].
Proof.
  induction 1 as [|k|r0 e ts G D IH Ne|r0 e G D IH|a b u v D1 IH1 D2 IH2|a b ts D IH|a b ts D IH|a|a ts D IH|a|a u v D1 IH1 D2 IH2]; intros i c p r us E A; try (destruct i; discriminate); try (eapply IH; eassumption).
  - destruct i as [|i]; [|destruct i; discriminate]. injection E as <-. destruct p as [|j p]; discriminate.
  - destruct i as [|i]; [|destruct i; discriminate]. injection E as <-. destruct p as [|j p].
    + cbn [gat] in A. injection A as -> ->. eapply GrammarSpec.d_node; eassumption.
    + cbn [gat] in *. destruct (nth_error ts j) as [c|] eqn:Ej; [|discriminate]. eapply IH; eassumption.
  - destruct (lt_dec i (length u)) as [L|L]; [rewrite nth_error_app1 in E by exact L; eapply IH1; eassumption|rewrite nth_error_app2 in E by lia; eapply IH2; eassumption].
  - destruct (lt_dec i (length u)) as [L|L]; [rewrite nth_error_app1 in E by exact L; eapply IH1; eassumption|rewrite nth_error_app2 in E by lia; eapply IH2; eassumption].
Qed.
Lemma derives_node e x p k cs : derives e [shape x] -> at_path x p = Some (Node k cs) -> derives (GrammarSpec.GNode k) [shape (Node k cs)].
Proof. intros D A. apply shape_at in A. exact (derives_at _ _ D 0 _ p k _ eq_refl A). Qed.
Lemma put_leaves p : forall x y z, at_path x p = Some y -> leaves (put_at x p z) = leaves_before x p ++ leaves z ++ leaves_behind x p.
Proof.
  induction p as [|i p IH]; intros x y z E; cbn [put_at leaves_before leaves_behind].
  - cbn [app]. rewrite app_nil_r. reflexivity.
  - destruct x as [k w|k cs]; [discriminate|]. cbn [at_path] in E. destruct (nth_error cs i) as [c|] eqn:Ei; [|discriminate]. cbn [leaves]. unfold upd. rewrite flat_map_app. cbn [flat_map]. rewrite (IH _ _ _ E), <- !app_assoc. reflexivity.
Qed.
Lemma bare_at q : forall x y, at_path x q = Some y -> is_inner x -> is_inner y -> exists q', at_path (bare same x) q' = Some (bare same y) /\ leaves_before (bare same x) q' = sigs (leaves_before x q) /\ leaves_behind (bare same x) q' = sigs (leaves_behind x q).
Proof.
  induction q as [|i q IH]; intros x y E Ix Iy; [injection E as <-; exists []; cbn; auto|]. destruct x as [k w|k cs]; [discriminate|]. cbn [at_path] in E. destruct (nth_error cs i) as [c|] eqn:Ei; [|discriminate].
  assert (Ic : is_inner c) by (destruct c as [a b|a b]; [destruct q; [injection E as <-; exact Iy|discriminate]|eexists; eexists; reflexivity]).
  destruct (IH c y E Ic Iy) as (q' & A & B & C). apply nth_error_split in Ei as (l1 & l2 & -> & Ll).
    set (g := fun c : tree => match c with Tok a b => if trivial (a, b) then [] else [tok (same (a, b))] | Node _ _ => [bare same c] end).
  assert (Ec : g c = [bare same c]) by (destruct Ic as (a & b & ->); reflexivity).
  assert (Lv : forall m, flat_map leaves (flat_map g m) = sigs (flat_map leaves m)).
  { intros m. pose proof (bare_leaves (Node k m) ltac:(eexists; eexists; reflexivity)) as X. cbn [bare leaves] in X. exact X. }
  exists (length (flat_map g l1) :: q'). subst i.
  assert (N : nth_error (flat_map g l1 ++ bare same c :: flat_map g l2) (length (flat_map g l1)) = Some (bare same c)) by (rewrite nth_error_app2, Nat.sub_diag by lia; reflexivity).
  assert (N0 : nth_error (l1 ++ c :: l2) (length l1) = Some c) by (rewrite nth_error_app2, Nat.sub_diag by lia; reflexivity).
  assert (F : forall A (a b : list A) z, firstn (length a) (a ++ z :: b) = a /\ skipn (S (length a)) (a ++ z :: b) = b).
  { intros A0 a b z. split; [apply firstn_exact|]. change (z :: b) with ([z] ++ b). rewrite app_assoc. replace (S (length a)) with (length (a ++ [z])) by (rewrite app_length; cbn; lia). apply skipn_exact. }
  assert (Eb : bare same (Node k (l1 ++ c :: l2)) = Node k (flat_map g (l1 ++ c :: l2))) by reflexivity. rewrite Eb, flat_map_app. cbn [flat_map]. rewrite Ec. cbn [app at_path leaves_before leaves_behind]. rewrite N, N0, A, B, C. rewrite !(proj1 (F _ _ _ _)), !(proj2 (F _ _ _ _)), !PrologueSwap.sigs_app, !Lv. auto.
Qed.
(** the general case: part of a grammatical document is exchanged for another part of the same kind *)
Theorem replanted err t t' x errs q k cs cs' : doc_parse err t x errs -> grammatical err t -> at_path x q = Some (Node k cs) -> derives (GrammarSpec.GNode k) [shape (Node k cs')] ->
  tokens err t' = sigs (leaves_before x q) ++ leaves (Node k cs') ++ sigs (leaves_behind x q) ->
  exists x' q', doc_parse err t' x' [] /\ query_doc x' /\ at_path (bare same x) q' = Some (bare same (Node k cs)) /\ bare same x' = put_at (bare same x) q' (Node k cs').
Proof.
  intros P G A D' T. destruct (grammatical_parsed _ _ G) as (x0 & P0 & Q & D).
  assert (x0 = x) as ->. { destruct (doc_parse_run _ _ _ _ P) as (g & ts & f & R & _ & _ & Ex). destruct (doc_parse_run _ _ _ _ P0) as (g' & ts' & f' & R' & _ & _ & Ex'). pose proof (LayoutProps.run_same _ _ _ _ _ _ _ _ R R') as <-. congruence. }
  assert (Ix : is_inner x) by (destruct Q as [l Q]; destruct x; [discriminate|eexists; eexists; reflexivity]).
  destruct (bare_at q x _ A Ix ltac:(eexists; eexists; reflexivity)) as (q' & A' & B & C). destruct (bare_node k cs) as [l El]. rewrite El in A'.
  pose proof (derives_replaced _ _ _ _ _ _ D A' D') as D2. destruct (derivation_parsed err t' _ D2) as (x' & P' & Q' & E'); [rewrite (put_leaves _ _ _ _ A'), B, C, T; reflexivity|].
  exists x', q'. rewrite El. auto.
Qed.
