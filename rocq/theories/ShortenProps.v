(** C63: the quick fix that shortens an IRI. *)
From Coq Require Import String List Arith NArith Bool Lia Sorted Permutation.
Import ListNotations.
From Verif Require Import ServerModel Kinds KindFacts ParserSyntax ParserModel GrammarData ParserTree ParserTerm ParserBuild ParserSpec ParserChecks ParserOutcome ParserProps
  TextModel TextSpec TextProofs Utf8Model LexerRegex LexerData LexerModel LexerProofs LexerSpec LexerProps FormatData FormatModel FormatTree FormatText FormatParse FormatWeave
  TreeModel TreePlace TreeItems TreeShape TreeRename VarModel VarSpec VarRegions VarDoc LexRename VarProps DiagModel DiagSpec AstFacts DiagFacts DiagGroup DiagRest ParseTreeProps LexLayout DiagProps OnTypeProofs OnTypeProps LayoutProps LexInsert PrologueRun PrologueSwap QuickFixModel QuickFixFacts CoverFacts RemoveFacts UngramData Replant LexMiddle QuickFixProps RemoveProps ShortenFacts GrammarCheck.
From Verif Require GrammarSpec GrammarFacts.

(** ** the specification *)
(** all the edits made at once: in the order of their places, where none overlaps the next *)
Definition all_edited (t : text) (es : list text_edit) (t' : text) : Prop :=
  exists es' cs, Permutation es es' /\ Forall2 (edit_denotes t) es' cs /\ StronglySorted before cs /\ t' = splice 0 t cs.
(** the namespaces a document declares, in order (of the tree without white space and comments) *)
Definition declaration_of (d : tree) : list (text * text) :=
  match d with Node k [Tok _ _; Tok kp p; Tok ki i] => if kind_eqb k K_PrefixDecl && kind_eqb kp K_PNAME_NS && kind_eqb ki K_IRIREF then [(removelast p, removelast (tl i))] else [] | _ => [] end.
Definition namespaces (b : tree) : list (text * text) :=
  match b with Node _ (Node K_Query (Node K_Prologue ds :: _) :: _) => flat_map declaration_of ds | _ => [] end.
(** the IRI a prefixed name stands for: the last declaration of the prefix counts *)
Definition expands (ns : list (text * text)) (name u : text) : Prop :=
  exists p l a b n, name = p ++ COLON :: l /\ ~ In COLON p /\ ns = a ++ (p, n) :: b /\ (forall m, ~ In (p, m) b) /\ u = n ++ l.

(** ** declarations *)
Lemma any_declared err t x w ds : doc_tree err t x -> (forall d, In d ds -> node_at x d K_PrefixDecl) -> exists b, declared_among x w ds = VDone b /\ (b = true <-> exists d, In d ds /\ declares x d w).
Proof.
  intros D. induction ds as [|d ds IH]; intros H; [exists false; split; [reflexivity|]; split; [discriminate|intros (? & [] & _)]|]. cbn [declared_among].
  destruct IH as (b & Eb & Hb); [intros e He; apply H; right; exact He|]. assert (Hd : node_at x d K_PrefixDecl) by (apply H; left; reflexivity).
  destruct (declared_spec _ _ _ _ D Hd) as [(v & -> & Hv)|[-> Hu]]; cbn [vbind].
  - destruct (text_eqb v w) eqn:T.
    + apply DiagRest.text_eqb_iff in T as ->. exists true. split; [reflexivity|]. split; [intros _; exists d; split; [left; reflexivity|exact Hv]|reflexivity].
    + exists b. split; [exact Eb|]. rewrite Hb. split; [intros (e & He & K); exists e; split; [right; exact He|exact K]|]. intros (e & [<-|He] & K); [|eauto]. pose proof (declares_fun _ _ _ _ _ _ D Hv K) as ->.
      rewrite (proj2 (DiagRest.text_eqb_iff w w) eq_refl) in T. discriminate.
  - exists b. split; [exact Eb|]. rewrite Hb. split; [intros (e & He & K); exists e; split; [right; exact He|exact K]|]. intros (e & [<-|He] & K); [exfalso; exact (proj2 Hu _ K)|eauto].
Qed.
Lemma declared_iff err t x w : doc_tree err t x -> query_doc x -> exists b, namespace_is_declared x w = VDone b /\ (b = true <-> exists d, declares x d w).
Proof.
  intros D Q. unfold namespace_is_declared.
  assert (No : prologue x = None -> exists b, VDone false = VDone b /\ (b = true <-> exists d, declares x d w)).
  { intros E. exists false. split; [reflexivity|]. split; [discriminate|]. intros (d & [H _]). apply (declarations_iff _ _ _ _ D Q) in H as (pr & E' & _). congruence. }
  destruct (first_child x []) as [q|] eqn:F; [|apply No; unfold prologue; rewrite F; reflexivity].
  destruct (prologue x) as [pr|] eqn:E.
  - pose proof (proj1 (prologue_iff _ _ _ _ D Q) E) as Hp. unfold prologue in E. rewrite F in E. apply first_child_by_kind_some in E as (i & k & -> & Hk & S). apply kind_eqb_eq in S. subst k.
    assert (first_child x q = Some (q ++ [i])) as ->.
    { destruct (first_child x q) as [c|] eqn:G; [|exfalso; eapply (first_child_none x q i); eassumption]. apply first_child_spec in G as (j & k & -> & Hj & L). specialize (L i K_Prologue Hk). do 2 f_equal. f_equal.
      destruct (Nat.eq_dec j i) as [->|N]; [reflexivity|exfalso]. assert (j < i) as Hlt by lia.
      apply first_child_spec in F as (m & kq & -> & Hm & _). cbn [app] in *. destruct (unit_kids _ _ _ _ _ D Q Hm) as [->| ->].
      - destruct Hm as [cs Em]. destruct Hk as [d1 E1]. destruct Hj as [d2 E2]. pose proof E1 as E1'. pose proof E2 as E2'. change [m; i] with ([m] ++ [i]) in E1'. change [m; j] with ([m] ++ [j]) in E2'. rewrite (AstFacts.at_child _ _ _ _ i Em) in E1'. rewrite (AstFacts.at_child _ _ _ _ j Em) in E2'.
        eapply (doc_order _ _ _ _ _ _ any_sub (item_eqb (Sub K_Prologue))); [exact D|exact Em|vm_compute; reflexivity|exact Hlt|exact E2'|exact E1'|left; reflexivity|left; reflexivity|reflexivity|reflexivity].
      - change [m; i] with ([m] ++ [i]) in Hk. destruct (doc_parent_in _ _ _ _ _ _ [K_Query; K_Update] D Hk) as (k' & Hk' & Hin); [discriminate|vm_compute; reflexivity|]. pose proof (node_at_fun _ _ _ _ Hm Hk') as <-. destruct Hin as [Hin|[Hin|[]]]; discriminate. }
    rewrite (kind_is_node _ _ K_Prologue _ Hk), kind_eqb_refl. destruct (any_declared err t x w (prefix_declarations x (q ++ [i])) D) as (b & Eb & Hb).
    { intros d Hd. apply (declarations_iff _ _ _ _ D Q). exists (q ++ [i]). split; [apply (prologue_iff _ _ _ _ D Q), Hk|exact Hd]. }
    exists b. split; [exact Eb|]. rewrite Hb. split; [intros (d & _ & K); eauto|]. intros (d & K). exists d. split; [|exact K]. destruct K as [K _]. apply (declarations_iff _ _ _ _ D Q) in K as (pr & E' & Hd).
    apply (prologue_iff _ _ _ _ D Q) in Hk. rewrite Hk in E'. injection E' as <-. exact Hd.
  - destruct (first_child x q) as [c|] eqn:G; [|apply No; reflexivity]. destruct (kind_is x c K_Prologue) eqn:K; [|apply No; reflexivity]. exfalso. apply first_child_spec in G as (j & k & -> & Hj & L). apply (kind_is_iff _ _ _ _ Hj) in K. subst k.
    apply (prologue_iff _ _ _ _ D Q) in Hj. congruence.
Qed.

(** ** the namespaces of a document behind the edits *)
Definition closed (S : list kind) : bool := forallb (fun r => match sparql_grammar r with Some e => forallb (fun k => kind_in k S) (nodes_in e) | None => true end) S.
Lemma derives_sub S e ts : derives e ts -> closed S = true -> forallb (fun k => kind_in k S) (nodes_in e) = true -> forall i c p r us, nth_error ts i = Some c -> gat c p = Some (GrammarSpec.Node r us) -> In r S.
Proof.
  intros D C. induction D as [|k|r0 e ts G D IH Ne|r0 e G D IH|a b u v D1 IH1 D2 IH2|a b ts D IH|a b ts D IH|a|a ts D IH|a|a u v D1 IH1 D2 IH2]; cbn [nodes_in]; intros N i c p r us E A; rewrite ?forallb_app in N; try (destruct i; discriminate); try (eapply IH; eassumption).
  - destruct i as [|i]; [|destruct i; discriminate]. injection E as <-. destruct p as [|j p]; discriminate.
  - destruct i as [|i]; [|destruct i; discriminate]. injection E as <-. cbn [forallb] in N. apply andb_true_iff in N as [N _]. apply kind_in_In in N. destruct p as [|j p]; cbn [gat] in A.
    + injection A as <- _. exact N.
    + destruct (nth_error ts j) as [c'|] eqn:Ej; [|discriminate]. unfold closed in C. rewrite forallb_forall in C. specialize (C _ N). rewrite G in C. eapply IH; [exact C|exact Ej|exact A].
  - apply andb_true_iff in N as [N1 N2]. destruct (lt_dec i (length u)) as [L|L]; [rewrite nth_error_app1 in E by exact L; eapply IH1; eassumption|rewrite nth_error_app2 in E by lia; eapply IH2; eassumption].
  - apply andb_true_iff in N as [N1 N2]. eapply IH; eassumption.
  - apply andb_true_iff in N as [N1 N2]. eapply IH; eassumption.
  - destruct (lt_dec i (length u)) as [L|L]; [rewrite nth_error_app1 in E by exact L; eapply IH1; eassumption|rewrite nth_error_app2 in E by lia; eapply IH2; eassumption].
Qed.
Definition prologue_rules : list kind := [K_Prologue; K_BaseDecl; K_PrefixDecl; K_VersionDecl; K_VersionSpecifier].
Lemma namespaces_put b q k cs z : derives (GrammarSpec.GNode K_QueryUnit) [shape b] -> at_path b q = Some (Node k cs) -> q <> [] -> ~ In k (K_Query :: prologue_rules) -> namespaces (put_at b q (Node k z)) = namespaces b.
Proof.
  intros D A Nq Nk. destruct b as [|u l]; [destruct q; [congruence|discriminate]|]. destruct q as [|i q]; [congruence|]. cbn [at_path put_at] in *. destruct (nth_error l i) as [c|] eqn:Ei; [|discriminate].
  destruct i as [|i].
  2: { destruct l as [|c0 l]; [discriminate|]. unfold upd. cbn [firstn app]. cbn [namespaces]. destruct c0 as [|k0 [|[|k1 ds] ?]]; reflexivity. }
  destruct l as [|c0 l]; [discriminate|]. injection Ei as ->. unfold upd. cbn [firstn skipn app]. destruct q as [|j q].
  - injection A as ->. cbn [put_at namespaces]. destruct k; try reflexivity. exfalso. apply Nk. left. reflexivity.
  - destruct c as [|k0 l0]; [discriminate|]. cbn [at_path put_at] in *. destruct (nth_error l0 j) as [c|] eqn:Ej; [|discriminate]. destruct k0; try reflexivity.
    destruct j as [|j].
    2: { destruct l0 as [|c1 l0]; [discriminate|]. unfold upd. cbn [firstn app]. destruct c1; reflexivity. }
    destruct l0 as [|c1 l0]; [discriminate|]. injection Ej as ->. unfold upd. cbn [firstn skipn app]. destruct q as [|m q].
    + injection A as ->. cbn [put_at namespaces]. destruct k; try reflexivity. exfalso. apply Nk. right. left. reflexivity.
    + destruct c as [|k1 l1]; [discriminate|]. cbn [put_at]. destruct (nth_error l1 m) as [c2|] eqn:Em; [|reflexivity]. cbn [namespaces]. destruct k1; try reflexivity. exfalso. apply Nk. right.
      assert (Dp : derives (GrammarSpec.GNode K_Prologue) [shape (Node K_Prologue l1)]) by (apply (derives_node _ (Node u (Node K_Query (Node K_Prologue l1 :: l0) :: l)) [0; 0] _ _ D); reflexivity).
      refine (derives_sub prologue_rules _ _ Dp _ _ 0 (shape (Node K_Prologue l1)) (m :: q) k (map shape cs) eq_refl _); [vm_compute; reflexivity|reflexivity|].
      refine (shape_at (m :: q) (Node K_Prologue l1) (Node k cs) _). exact A.
Qed.
Lemma namespaces_decl p ns b : (exists l, b = Node K_QueryUnit l) -> namespaces (with_decl (decl_tree p ns) b) = (p, ns) :: namespaces b.
Proof.
  intros [l ->]. assert (Ed : declaration_of (decl_tree p ns) = [(p, ns)]) by (unfold decl_tree, iri_text; cbn [declaration_of tl]; rewrite !removelast_last; reflexivity).
  destruct l as [|[k w|k cs] l]; cbn [with_decl].
  - cbn [namespaces flat_map]. rewrite Ed. reflexivity.
  - cbn [namespaces flat_map]. rewrite Ed. reflexivity.
  - destruct (kind_eqb_spec k K_Query) as [->|N].
    + destruct cs as [|[k1 w1|k1 ds] cs]; [cbn [namespaces flat_map]; rewrite Ed; reflexivity|cbn [namespaces flat_map]; rewrite Ed; reflexivity|]. destruct (kind_eqb_spec k1 K_Prologue) as [->|N1].
      * cbn [namespaces flat_map]. rewrite Ed. reflexivity.
      * cbn [namespaces flat_map]. rewrite Ed. destruct k1; try reflexivity. congruence.
    + cbn [namespaces flat_map]. rewrite Ed. destruct k; try reflexivity. congruence.
Qed.

(** ** the characters of the namespace *)
Definition iri_classes : list (N * N) := [(0x21, 0x21); (0x23, 0x3B); (0x3D, 0x3D); (0x3F, 0x5B); (0x5D, 0x5D); (0x5F, 0x5F); (0x61, 0x7A); (0x7E, 0x10FFFF)]%N.
Lemma iri_chars err t u : In (K_IRIREF, iri_text u) (lex err t) -> forallb iri_char u = true.
Proof.
  intros Hin. destruct (lex_rule _ _ _ _ Hin) as (r & wb & Hr & M); [discriminate|].
  assert (wb = false) as -> by (destruct wb; [|reflexivity]; assert (forallb (fun x => negb (kind_eqb (fst (fst x)) K_IRIREF && snd x)) lexer_rules = true) as W by (vm_compute; reflexivity); rewrite forallb_forall in W; specialize (W _ Hr); discriminate W).
  pose proof (rule_token _ _ _ Hr M) as O. specialize (O err). apply (proj1 (C34_exact_terminals K_IRIREF _ err (iri_text u) (or_introl eq_refl) eq_refl)) in O. unfold iri_text, LexerSpec.seq in O. cbn [fold_right] in O.
  apply cat_split in O as (a & b & E & Ma & Mb). apply cat_split in Mb as (c & d & -> & Mc & Md).
  assert (a = [60%N]) as -> by (apply chr_inv; exact Ma). assert (d = [62%N]) as -> by (apply chr_inv; exact Md).
  cbn [app] in E. injection E as E. apply app_inj_tail in E as [-> _]. apply forallb_forall. intros e He. apply (star_one (Cls iri_classes) iri_classes c eq_refl) in Mc. rewrite forallb_forall in Mc. specialize (Mc _ He).
  unfold iri_char. cbn [existsb]. unfold iri_classes in Mc. rewrite !in_class_cons, in_class_nil in Mc. rewrite !andb_true_iff, negb_true_iff, !orb_false_iff, !N.eqb_neq, !N.ltb_lt. lia.
Qed.

Lemma sub_leaves y : forall z l, sub y z -> In l (leaves z) -> In l (leaves y).
Proof. intros z l [p E] H. destruct (leaves_around _ _ _ E) as (-> & _). apply in_app_iff. right. apply in_app_iff. left. exact H. Qed.
Lemma namespaces_declared err t x p m : doc_tree err t x -> In (p, m) (namespaces (bare same x)) -> exists e, declares x e p.
Proof.
  intros D H. assert (exists k kp ki a w i, sub (bare same x) (Node k [a; Tok kp w; Tok ki i]) /\ k = K_PrefixDecl /\ kp = K_PNAME_NS /\ p = removelast w) as (k & kp & ki & a & w & i & S & -> & -> & ->).
  { unfold namespaces in H. destruct (bare same x) as [|u [|[|kq [|[|kp ds] l0]] l]]; try destruct H; [destruct kq; destruct H..|]. destruct kq; try destruct H. destruct kp; try destruct H. apply in_flat_map in H as (d & Hd & H).
    unfold declaration_of in H. destruct d as [|k [|[? ?|] [|[kp w|] [|[ki i|] [|]]]]]; try destruct H. destruct (kind_eqb k K_PrefixDecl && kind_eqb kp K_PNAME_NS && kind_eqb ki K_IRIREF) eqn:K; [|destruct H]. destruct H as [H|[]]. injection H as <- _.
    apply andb_true_iff in K as [K K3]. apply andb_true_iff in K as [K1 K2]. apply kind_eqb_eq in K1, K2. do 6 eexists. split; [|split; [exact K1|split; [exact K2|reflexivity]]].
    apply In_nth_error in Hd as [j Ej]. exists [0; 0; j]. cbn [at_path nth_error]. rewrite Ej. reflexivity. }
  assert (In (K_PNAME_NS, w) (lex err t)) as Hl.
  { assert (In (K_PNAME_NS, w) (leaves (bare same x))) as Hin by (eapply sub_leaves; [exact S|]; cbn [leaves flat_map]; apply in_app_iff; right; left; reflexivity). rewrite (doc_bare_leaves _ _ _ D) in Hin. apply filter_In in Hin. apply Hin. }
  destruct (AstFacts.lex_ns_text _ _ _ Hl) as (v & -> & Nv). rewrite removelast_last. apply declares_iff. apply declared_bare. exists [a; Tok K_PNAME_NS (v ++ [COLON]); Tok ki i], (v ++ [COLON]). split; [exact S|]. split; [right; left; reflexivity|]. exists []. auto.
Qed.
(** ** C63 *)
Lemma edits_two t e c w : edit_denotes t e c -> ci c < cj c -> all_edited t [e; mkedit origin w] (w ++ splice 0 t [c]).
Proof.
  intros H L. exists [mkedit origin w; e], [mkcedit 0 0 w; c]. split; [apply perm_swap|]. split; [constructor; [split; [cbn; lia|]; auto|constructor; [exact H|constructor]]|].
  split; [constructor; [constructor; [constructor|constructor]|constructor; [|constructor]]|].
  - unfold before. cbn [ci cj]. lia.
  - cbn [splice ci cj cnew firstn skipn Nat.sub app]. reflexivity.
Qed.
Lemma edits_one t e c : edit_denotes t e c -> all_edited t [e] (splice 0 t [c]).
Proof. intros H. exists [e], [c]. split; [apply Permutation_refl|]. split; [constructor; [exact H|constructor]|]. split; [constructor; constructor|reflexivity]. Qed.
Lemma moved_nil err t t' n errs' : errors_moved err t t' n [] errs' -> errs' = [].
Proof. intros H. inversion H. reflexivity. Qed.
(** the tree of the document behind the edits: a prefixed name in the place of the IRI at [q'] and, unless the prefix was declared, a declaration in front *)
Definition shortened (b : bool) (p ns : text) (y : tree) (q' : path) (k : kind) (cu : text) : tree :=
  let y' := put_at y q' (Node K_iri [Node K_PrefixedName [Tok k cu]]) in if b then y' else with_decl (decl_tree p ns) y'.
Theorem C63_shorten_iri_partial : forall err t x errs shorten order ds d,
  doc_parse err t x errs -> any_order order -> diagnostics shorten order x errs t = Reply ds -> In d ds -> d_code d = UncompactedUri ->
  exists q u p ns cu b es, iriref x q u /\ located x t q (d_range d) /\ shorten u = Some (p, ns, cu) /\ (b = true <-> exists e, declares x e p) /\
  shorten_uri x d = Reply (Some es) /\ es = mkedit (d_range d) cu :: (if b then [] else [mkedit origin (declaration_text p ns)]) /\
  forall l k, grammatical err t -> u = ns ++ l -> cu = p ++ COLON :: l -> ~ In COLON p -> is_name k -> one_token k cu ->
    blank_before x q -> not_fused (leaves_before x q) -> ends_name (flat_map snd (leaves_behind x q)) ->
  exists t' x' q', all_edited t es t' /\ doc_parse err t' x' [] /\
    at_path (bare same x) q' = Some (Node K_iri [Tok K_IRIREF (iri_text u)]) /\ bare same x' = shortened b p ns (bare same x) q' k cu /\
    namespaces (bare same x') = (if b then [] else [(p, ns)]) ++ namespaces (bare same x) /\
    (b = false -> expands (namespaces (bare same x')) cu u).
Proof.
  intros err t x errs shorten order ds d P O E Hd Hc. pose proof (doc_parse_tree _ _ _ _ P) as D. pose proof (reply_query _ _ _ _ _ _ _ P E) as Q.
  destruct (C54_uncompacted_iris_partial _ _ _ _ _ _ _ P O E) as (L & _ & HL & F).
  assert (In d (of_code UncompactedUri ds)) as Hd' by (apply in_of_code; auto). destruct (forall2_in _ _ _ _ F Hd') as ([q dat] & Hq & Ed & Lo). cbn [fst snd] in *. apply HL in Hq as (Hs & u & p & ns & cu & U & Es & Edat). subst dat.
  destruct (declared_iff _ _ _ p D Q) as (b & Eb & Hb). exists q, u, p, ns, cu, b, (mkedit (d_range d) cu :: (if b then [] else [mkedit origin (declaration_text p ns)])).
  split; [exact U|]. split; [exact Lo|]. split; [exact Es|]. split; [exact Hb|]. split; [unfold shorten_uri; rewrite Ed, Eb; reflexivity|]. split; [reflexivity|].
  intros l k G Eu Ecu Np Kn One Bl NF En. destruct U as [[cs Eq] (i & Ei)].
  assert (cs = [Tok K_IRIREF (iri_text u)]) as ->.
  { pose proof Ei as Ei'. rewrite (AstFacts.at_child _ _ _ _ _ Eq) in Ei'. destruct (doc_iri _ _ _ _ _ D Eq) as [(w & ->)|[(k' & w & -> & Hk)|(kw & w & ->)]]; destruct i as [|[|i]]; try discriminate Ei'. injection Ei' as ->. reflexivity. }
  set (y := Node K_iri [Tok K_IRIREF (iri_text u)]) in *. assert (Ty : tree_text y = iri_text u) by (cbn; rewrite app_nil_r; reflexivity).
  pose proof (node_split _ _ _ _ _ D Eq) as Sp. pose proof (node_denotes _ _ _ _ _ D Eq (d_range d) cu Lo) as De. pose proof (node_splice _ _ _ _ _ D Eq cu) as Spl.
  set (UU := flat_map snd (leaves_before x q)) in *. set (VV := flat_map snd (leaves_behind x q)) in *.
  pose proof (grammatical_tokens _ _ G) as Fq.
  assert (Lx : lex err (UU ++ cu ++ VV) = leaves_before x q ++ (k, cu) :: leaves_behind x q).
  { refine (eq_trans (node_relex err t x q y D Eq K_IRIREF (iri_text u) [] (cu ++ VV) eq_refl _ Fq NF Bl (name_opens k cu VV Kn One)) _); [cbn; lia|]. f_equal. rewrite (name_then err k cu VV Kn One En). f_equal.
    apply (lex_suffix err t (leaves_before x q ++ leaves y)). rewrite <- app_assoc. exact Sp. }
  assert (Tk : tokens err (UU ++ cu ++ VV) = sigs (leaves_before x q) ++ leaves (Node K_iri [Node K_PrefixedName [Tok k cu]]) ++ sigs (leaves_behind x q)).
  { change (tokens err (UU ++ cu ++ VV)) with (sigs (lex err (UU ++ cu ++ VV))). refine (eq_trans (f_equal sigs Lx) _). rewrite PrologueSwap.sigs_app. f_equal. unfold sigs at 1. cbn [filter]. replace (trivial (k, cu)) with false by (destruct Kn; subst k; reflexivity). reflexivity. }
  assert (Dk : derives (GrammarSpec.GNode K_iri) [shape (Node K_iri [Node K_PrefixedName [Tok k cu]])]).
  { cbn [shape map]. eapply GrammarSpec.d_node; [reflexivity| |discriminate]. unfold G_iri. apply GrammarSpec.d_alt_r. eapply GrammarSpec.d_node; [reflexivity| |discriminate]. unfold G_PrefixedName. destruct Kn; subst k; [apply GrammarSpec.d_alt_l|apply GrammarSpec.d_alt_r]; constructor. }
  destruct (replanted _ _ _ _ _ _ _ _ _ P G Eq Dk Tk) as (x1 & q' & P1 & Q1 & Aq & B1).
  pose proof (grammatical_parsed _ _ G) as (x0 & P0 & _ & D0). destruct (doc_parse_fun _ _ _ _ _ _ P P0) as [<- ->].
  assert (Nq : q' <> []) by (intros ->; cbn [at_path] in Aq; destruct (bare_root _ Q) as [l0 El]; rewrite El in Aq; discriminate).
  assert (Ns : namespaces (put_at (bare same x) q' (Node K_iri [Node K_PrefixedName [Tok k cu]])) = namespaces (bare same x)).
  { refine (namespaces_put _ _ _ _ _ D0 Aq Nq _). cbn. intuition discriminate. }
  assert (Iu : In (K_IRIREF, iri_text u) (lex err t)) by (rewrite Sp; apply in_app_iff; right; left; reflexivity).
  assert (Ni : forallb iri_char ns = true) by (apply iri_chars in Iu; rewrite Eu, forallb_app in Iu; apply andb_true_iff in Iu; apply Iu).
  destruct b.
  - exists (UU ++ cu ++ VV), x1, q'. split; [rewrite <- Spl; apply edits_one, De|]. split; [exact P1|]. split; [exact Aq|]. split; [exact B1|]. split; [rewrite B1; exact Ns|discriminate].
  - assert (Lab : one_token K_PNAME_NS (p ++ [COLON])).
    { eapply (label_of_name (fun _ => 0) cu k cu p l); [rewrite One; left; reflexivity|destruct Kn; auto|exact Ecu|exact Np]. }
    destruct (put_query err (UU ++ cu ++ VV) (declaration_text p ns ++ UU ++ cu ++ VV) x1 [] _ _ P1 Q1 (decl_tree_ok p ns) (tokens_decl err p ns _ Lab (iri_one_token ns Ni))) as (x' & errs' & P' & Q' & B' & M').
    apply moved_nil in M'. subst errs'. exists (declaration_text p ns ++ UU ++ cu ++ VV), x', q'. split; [rewrite <- Spl; apply edits_two; [exact De|cbn [ci cj]; rewrite app_length, Ty; unfold iri_text; cbn [length]; lia]|].
    split; [exact P'|]. split; [exact Aq|]. rewrite B', B1. split; [reflexivity|]. rewrite namespaces_decl by (destruct (bare_root _ Q1) as [l1 E1]; rewrite B1 in E1; eauto). rewrite Ns. split; [reflexivity|]. intros _.
    exists p, l, [], (namespaces (bare same x)), ns. split; [exact Ecu|]. split; [exact Np|]. split; [reflexivity|]. split; [|exact Eu]. intros m Hm.
    apply (namespaces_declared _ _ _ _ _ D) in Hm. apply Hb in Hm. discriminate.
Qed.

(** ** a case, and what is not claimed *)
Local Open Scope string_scope.
Local Open Scope list_scope.
(** the prefix map { e: http://e.org/ } *)
Definition short_e (u : text) : option (text * text * text) :=
  let ns := chars "http://e.org/" in if text_eqb (firstn (length ns) u) ns then Some (chars "e", ns, chars "e:" ++ skipn (length ns) u) else None.
(** the document behind the quick fix for its first IRI to shorten *)
Definition shortened_text (t : text) : option text :=
  match diagnostics short_e same_order (tree_of t) (errors_of t) t with
  | Reply ds => match of_code UncompactedUri ds with
                | d :: _ => match shorten_uri (tree_of t) d with Reply (Some es) => match apply_text_edits t es with Done u => Some u | _ => None end | _ => None end
                | [] => None
                end
  | _ => None
  end.
Definition C63_query : text := chars "SELECT * { ?x <http://e.org/p>/<q> ?y }" ++ [NL].
Example C63_witness : doc_parse (fun _ => 0) C63_query (tree_of C63_query) (errors_of C63_query) /\ any_order same_order /\ grammatical (fun _ => 0) C63_query /\
  (exists ds d, diagnostics short_e same_order (tree_of C63_query) (errors_of C63_query) C63_query = Reply ds /\ In d ds /\ d_code d = UncompactedUri) /\
  (exists q, iriref (tree_of C63_query) q (chars "http://e.org/p") /\ short_e (chars "http://e.org/p") = Some (chars "e", chars "http://e.org/", chars "e:p") /\ one_token K_PNAME_LN (chars "e:p") /\
     blank_before (tree_of C63_query) q /\ not_fused (leaves_before (tree_of C63_query) q) /\ ends_name (flat_map snd (leaves_behind (tree_of C63_query) q))) /\
  shortened_text C63_query = Some (chars "PREFIX e: <http://e.org/>" ++ [NL] ++ chars "SELECT * { ?x e:p/<q> ?y }" ++ [NL]) /\
  shortened_text (chars "PREFIX e: <http://e.org/> SELECT * { ?x <http://e.org/p> ?y }" ++ [NL]) = Some (chars "PREFIX e: <http://e.org/> SELECT * { ?x e:p ?y }" ++ [NL]).
Proof.
  assert (P : doc_parse (fun _ => 0) C63_query (tree_of C63_query) (errors_of C63_query)) by (apply parses_doc; vm_compute; reflexivity).
  split; [exact P|]. split; [exact same_order_ok|]. split; [apply (derivation_checked 60 _ _ _ (doc_parse_tree _ _ _ _ P)); vm_compute; reflexivity|]. split; [do 2 eexists; split; [vm_compute; reflexivity|]; split; [left; reflexivity|reflexivity]|].
  split; [|split; vm_compute; reflexivity]. exists [0; 0; 2; 0; 2; 0; 0; 2; 0; 0; 0; 0; 0; 0; 0; 0]. split; [split; [eexists; vm_compute; reflexivity|exists 0; vm_compute; reflexivity]|]. split; [vm_compute; reflexivity|].
  split; [intros err; apply is_token; [discriminate|vm_compute; reflexivity]|]. split.
  { intros a c H. match type of H with ?u = _ => assert (u = chars "SELECT * { ?x" ++ chars " ") as K by (vm_compute; reflexivity) end. rewrite K in H. apply app_inj_tail in H as [_ <-]. reflexivity. }
  split; [|vm_compute; tauto]. vm_compute. repeat (split; [intros ? Hq; discriminate Hq|]). exact I.
Qed.
Lemma grammatical_text t : parses t = true -> derivation_check 60 (shape (bare same (tree_of t))) = true -> doc_parse (fun _ => 0) t (tree_of t) (errors_of t) /\ grammatical (fun _ => 0) t.
Proof. intros H C. pose proof (parses_doc _ H) as P. split; [exact P|]. exact (derivation_checked 60 _ _ _ (doc_parse_tree _ _ _ _ P) C). Qed.
(** only the prefix is looked up: if the document declares it for another namespace, the name stands for another IRI *)
Definition other_before : text := chars "PREFIX e: <http://f.org/> SELECT * { ?x <http://e.org/p> ?y }" ++ [NL].
Definition other_after : text := chars "PREFIX e: <http://f.org/> SELECT * { ?x e:p ?y }" ++ [NL].
Theorem C63_other_namespace_refuted : (doc_parse (fun _ => 0) other_before (tree_of other_before) (errors_of other_before) /\ grammatical (fun _ => 0) other_before) /\ shortened_text other_before = Some other_after /\
  doc_parse (fun _ => 0) other_after (tree_of other_after) (errors_of other_after) /\ expands (namespaces (bare same (tree_of other_after))) (chars "e:p") (chars "http://f.org/p").
Proof.
  split; [apply grammatical_text; vm_compute; reflexivity|]. split; [vm_compute; reflexivity|]. split; [apply parses_doc; vm_compute; reflexivity|]. exists (chars "e"), (chars "p"), [], [], (chars "http://f.org/").
  split; [reflexivity|]. split; [vm_compute; intuition discriminate|]. split; [vm_compute; reflexivity|]. split; [intros m []|reflexivity].
Qed.
(** without white space before the IRI the name runs into the token before it; not every rest of an IRI is a local name *)
Definition glued : text := chars "SELECT * { ?x a<http://e.org/C> }" ++ [NL].
Definition no_local : text := chars "SELECT * { ?x <http://e.org/a?b> ?y }" ++ [NL].
Theorem C63_not_a_name_refuted : (doc_parse (fun _ => 0) glued (tree_of glued) (errors_of glued) /\ grammatical (fun _ => 0) glued) /\ (exists t', shortened_text glued = Some t' /\ doc_parse (fun _ => 0) t' (tree_of t') (errors_of t') /\ errors_of t' <> []) /\
  (doc_parse (fun _ => 0) no_local (tree_of no_local) (errors_of no_local) /\ grammatical (fun _ => 0) no_local) /\ (exists t', shortened_text no_local = Some t' /\ doc_parse (fun _ => 0) t' (tree_of t') (errors_of t') /\ errors_of t' <> []).
Proof.
  split; [apply grammatical_text; vm_compute; reflexivity|]. split; [eexists; split; [vm_compute; reflexivity|]; split; [apply parses_doc; vm_compute; reflexivity|vm_compute; discriminate]|].
  split; [apply grammatical_text; vm_compute; reflexivity|]. eexists; split; [vm_compute; reflexivity|]; split; [apply parses_doc; vm_compute; reflexivity|vm_compute; discriminate].
Qed.
(** the diagnostic comes from the client: without data, or with other data, it is refused *)
Theorem C63_refused : forall x d, (d_data d = NoData -> shorten_uri x d = Refused InvalidRequest) /\ (forall p, d_data d = DString p -> shorten_uri x d = Refused ParseError).
Proof. intros x d. split; [intros E|intros p E]; unfold shorten_uri; rewrite E; reflexivity. Qed.
