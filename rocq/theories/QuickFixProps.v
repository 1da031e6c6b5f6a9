(** Quick fixes: C61 (declare a prefix). *)
From Coq Require Import String List Arith NArith Bool Lia Sorted.
Import ListNotations.
From Verif Require Import ServerModel Kinds KindFacts ParserSyntax ParserModel GrammarData ParserTree ParserTerm ParserBuild ParserSpec ParserChecks ParserOutcome ParserProps
  TextModel TextSpec TextProofs Utf8Model LexerRegex LexerData LexerModel LexerProofs LexerSpec LexerProps FormatData FormatModel FormatTree FormatText FormatParse FormatWeave
  TreeModel TreePlace TreeShape TreeRename VarModel VarSpec VarRegions VarDoc LexRename VarProps DiagModel DiagSpec AstFacts DiagFacts LexLayout DiagProps OnTypeProofs OnTypeProps LayoutProps LexInsert PrologueRun QuickFixModel QuickFixFacts.

Lemma edited_front t w : edited t (mkedit origin w) (w ++ t).
Proof. exists (mkcedit 0 0 w). split; [split; [cbn; lia|]; auto|]. reflexivity. Qed.
(** the diagnostics [ds] say of the prefix [w] what the code [c] stands for *)
Definition says (c : code) (w : text) (ds : list diag) : Prop := exists d, In d ds /\ d_code d = c /\ d_data d = DString w.
(** the characters of an IRI ([139] IRIREF of the SPARQL grammar): none of the less-than, greater-than, double quote, braces, bar, caret, backquote, backslash and U+0000-U+0020 *)
Definition iri_char (c : char) : bool := (32 <? c)%N && (c <? 0x110000)%N && negb (existsb (N.eqb c) [60; 62; 34; 123; 125; 124; 94; 96; 92]%N).
Lemma iri_class c : iri_char c = true -> in_class c [(0x21, 0x21); (0x23, 0x3B); (0x3D, 0x3D); (0x3F, 0x5B); (0x5D, 0x5D); (0x5F, 0x5F); (0x61, 0x7A); (0x7E, 0x10FFFF)]%N = true.
Proof.
  unfold iri_char, in_class. cbn [existsb fst snd]. intros H. apply andb_true_iff in H as [H N]. apply andb_true_iff in H as [A B]. apply negb_true_iff in N. rewrite !orb_false_iff in N. rewrite !N.eqb_neq in N. apply N.ltb_lt in A, B.
  rewrite !orb_true_iff, !andb_true_iff, !N.leb_le. lia.
Qed.
Lemma iri_one_token ns : forallb iri_char ns = true -> one_token K_IRIREF (iri_text ns).
Proof.
  intros F err. refine (proj2 (C34_exact_terminals K_IRIREF _ err (iri_text ns) _ eq_refl) _); [left; reflexivity|]. unfold iri_text.
  assert (M : matches (Star (Cls [(0x21, 0x21); (0x23, 0x3B); (0x3D, 0x3D); (0x3F, 0x5B); (0x5D, 0x5D); (0x5F, 0x5F); (0x61, 0x7A); (0x7E, 0x10FFFF)]%N)) ns).
  { induction ns as [|c ns IH]; [constructor|]. cbn [forallb] in F. apply andb_true_iff in F as [F1 F2]. change (c :: ns) with ([c] ++ ns). constructor; [constructor; apply iri_class, F1|apply IH, F2]. }
  unfold LexerSpec.seq. cbn [fold_right]. change (60%N :: ns ++ [62%N]) with ([60%N] ++ ns ++ [62%N]). constructor; [vm_compute; change [60%N] with ([60%N] ++ []); repeat constructor|]. constructor; [exact M|]. vm_compute. change [62%N] with ([62%N] ++ []). repeat constructor.
Qed.
(** ** C61: the quick fix for an undeclared prefix *)
Lemma put_query err t t' x errs dl y : doc_parse err t x errs -> query_doc x -> declaration dl y -> tokens err t' = dl ++ tokens err t ->
  exists x' errs', doc_parse err t' x' errs' /\ query_doc x' /\ bare same x' = with_decl y (bare same x) /\ errors_moved err t t' (length dl) errs errs'.
Proof.
  intros P Q H T. destruct (declaration_put _ _ _ _ _ _ _ P Q H T) as (x' & errs' & P' & B & M). exists x', errs'. split; [exact P'|]. split; [|auto].
  pose proof (doc_parse_tree _ _ _ _ P') as D'. destruct (doc_root _ _ _ D') as (k & [cs E] & _). cbn in E. injection E as ->. destruct Q as [ds E]. cbn in E. injection E as ->.
  assert (k = K_QueryUnit) as -> by (cbn [bare with_decl] in B; destruct (flat_map _ ds) as [|[? ?|q qs] rest] in B; [| |destruct (kind_eqb q K_Query); [destruct qs as [|[? ?|q' ?] ?]; [| |destruct (kind_eqb q' K_Prologue)]|]]; injection B as -> _; reflexivity).
  eexists. reflexivity.
Qed.
Lemma bare_root x : query_doc x -> exists cs, bare same x = Node K_QueryUnit cs.
Proof. intros [cs E]. cbn in E. injection E as ->. cbn [bare]. eauto. Qed.
Theorem C61_declare_prefix : forall err t x errs shorten order ds d find,
  doc_parse err t x errs -> any_order order -> diagnostics shorten order x errs t = Reply ds -> In d ds -> d_code d = UndeclaredPrefix ->
  exists p, d_data d = DString p /\
  (find p = None -> declare_prefix find (d_data d) = Reply None) /\
  (forall ns, find p = Some ns -> forallb iri_char ns = true -> exists e t' x' errs' ds',
    declare_prefix find (d_data d) = Reply (Some [e]) /\ edited t e t' /\
    doc_parse err t' x' errs' /\ diagnostics shorten order x' errs' t' = Reply ds' /\
    bare same x' = with_decl (decl_tree p ns) (bare same x) /\ errors_moved err t t' 3 errs errs' /\
    (forall w, says UndeclaredPrefix w ds' <-> w <> p /\ says UndeclaredPrefix w ds) /\
    (forall w, says UnusedPrefix w ds' <-> says UnusedPrefix w ds)).
Proof.
  intros err t x errs shorten order ds d find P O E Hd Hc. pose proof (doc_parse_tree _ _ _ _ P) as D. pose proof (reply_query _ _ _ _ _ _ _ P E) as Q.
  pose proof (C46_undeclared_prefixes_partial _ _ _ _ _ _ _ P O E) as (l & _ & Hl & F).
  assert (In d (of_code UndeclaredPrefix ds)) as Hd' by (apply in_of_code; auto). destruct (forall2_in _ _ _ _ F Hd') as ([q dat] & Hq & Ed & _). cbn [fst snd] in *. apply Hl in Hq as (Hs & p & U & Edat & Nd). subst dat.
  exists p. split; [exact Ed|]. split; [intros Ef; rewrite Ed; cbn; rewrite Ef; reflexivity|]. intros ns Ef Hns. pose proof (iri_one_token ns Hns) as Hn.
  pose proof (label_of_use _ _ _ _ _ D U) as Hp. destruct (put_query err t (declaration_text p ns ++ t) x errs _ _ P Q (decl_tree_ok p ns) (tokens_decl err p ns t Hp Hn)) as (x' & errs' & P' & Q' & B & M).
  destruct (all_parts _ _ _ _ shorten order P' O Q') as (ds' & E' & _). pose proof (doc_parse_tree _ _ _ _ P') as D'.
  exists (mkedit origin (declaration_text p ns)), (declaration_text p ns ++ t), x', errs', ds'. split; [rewrite Ed; cbn; rewrite Ef; reflexivity|]. split; [apply edited_front|]. split; [exact P'|]. split; [exact E'|]. split; [exact B|]. split; [exact M|].
  assert (Np : ~ In COLON p) by (destruct U as [_ (r & _ & N)]; exact N). destruct (bare_root _ Q) as [cs Ecs].
  assert (Us : forall w, used x' w <-> used x w).
  { intros w. rewrite <- (used_bare _ w (doc_plain_names _ _ _ D')), <- (used_bare _ w (doc_plain_names _ _ _ D)), B. eapply put_used; exact Ecs. }
  assert (Ss : forall w, used_in_select x' w <-> used_in_select x w).
  { intros w. rewrite <- (used_in_select_bare _ w (doc_plain_names _ _ _ D')), <- (used_in_select_bare _ w (doc_plain_names _ _ _ D)), B. eapply put_used_in_select; exact Ecs. }
  assert (Ds : forall w, declared x' w <-> w = p \/ declared x w).
  { intros w. rewrite <- (declared_bare x'), <- (declared_bare x), B. eapply put_declared; [exact Ecs|exact Np]. }
  assert (Up : used x p) by (apply uses_iff; eauto).
  split; intros w; unfold says.
  - rewrite (said_undeclared _ _ _ _ _ _ _ P' O E'), (said_undeclared _ _ _ _ _ _ _ P O E). unfold missing. rewrite Ss, Ds. tauto.
  - rewrite (said_unused _ _ _ _ _ _ _ P' O E'), (said_unused _ _ _ _ _ _ _ P O E). unfold idle. rewrite Us, Ds. split; [|tauto]. intros [[->|H] N]; [contradiction|auto].
Qed.
(** ** a case, and what is not claimed *)
Local Open Scope string_scope.
Local Open Scope list_scope.
Definition known_namespaces (p : text) : option text := if text_eqb p (chars "e") then Some (chars "http://e.org/") else if text_eqb p (chars "f") then Some (chars "http://f.org/a b") else None.
(** the document behind the quick fix for its first undeclared prefix *)
Definition fixed (t : text) : option text :=
  match diagnostics short same_order (tree_of t) (errors_of t) t with
  | Reply ds => match of_code UndeclaredPrefix ds with
                | d :: _ => match declare_prefix known_namespaces (d_data d) with Reply (Some [mkedit r w]) => match apply_content_changes t [mkchange (Some r) w] with Done u => Some u | _ => None end | _ => None end
                | [] => None
                end
  | _ => None
  end.
Definition C61_query : text := chars "SELECT * { ?x e:p g:q }".
Example C61_witness : doc_parse (fun _ => 0) C61_query (tree_of C61_query) (errors_of C61_query) /\ any_order same_order /\
  (exists ds d, diagnostics short same_order (tree_of C61_query) (errors_of C61_query) C61_query = Reply ds /\ In d ds /\ d_code d = UndeclaredPrefix /\ d_data d = DString (chars "e")) /\
  forallb iri_char (chars "http://e.org/") = true /\
  fixed C61_query = Some (chars "PREFIX e: <http://e.org/>" ++ [NL] ++ C61_query).
Proof. split; [apply parses_doc; vm_compute; reflexivity|]. split; [exact same_order_ok|]. split; [|split; vm_compute; reflexivity]. do 2 eexists. split; [vm_compute; reflexivity|]. split; [left; reflexivity|split; reflexivity]. Qed.
(** the namespace is not checked: with a blank in it, a query without mistakes but the undeclared prefix is no longer one *)
Theorem C61_namespace_not_checked_refuted : exists t t', doc_parse (fun _ => 0) t (tree_of t) (errors_of t) /\ errors_of t = [] /\ fixed t = Some t' /\ doc_parse (fun _ => 0) t' (tree_of t') (errors_of t') /\ errors_of t' <> [].
Proof.
  exists (chars "SELECT * { ?x f:p ?y }"). eexists. split; [apply parses_doc; vm_compute; reflexivity|]. split; [vm_compute; reflexivity|]. split; [vm_compute; reflexivity|]. split; [apply parses_doc; vm_compute; reflexivity|vm_compute; discriminate].
Qed.
