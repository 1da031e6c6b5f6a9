(** Quick fixes: C62 (remove an unused or repeated declaration). *)
From Coq Require Import String List Arith NArith Bool Lia Sorted.
Import ListNotations.
From Verif Require Import ServerModel Kinds KindFacts ParserSyntax ParserModel GrammarData ParserTree ParserTerm ParserBuild ParserSpec ParserChecks ParserOutcome ParserProps
  TextModel TextSpec TextProofs Utf8Model LexerRegex LexerData LexerModel LexerProofs LexerSpec LexerProps FormatData FormatModel FormatTree FormatText FormatParse FormatWeave
  TreeModel TreePlace TreeShape TreeRename VarModel VarSpec VarRegions VarDoc LexRename VarProps DiagModel DiagSpec AstFacts DiagFacts DiagGroup DiagRest ParseTreeProps LexLayout DiagProps OnTypeProofs OnTypeProps LayoutProps LexInsert PrologueRun PrologueSwap QuickFixModel QuickFixFacts CoverFacts RemoveFacts DeclCount QuickFixProps.

(** the declaration at [q] is complete: none of its tokens is missing and there is none too many *)
Definition complete (x : tree) (q : path) : Prop := exists y, at_path x q = Some y /\ declaration (sigs (leaves y)) (bare same y).
(** the text before [q] is empty or ends with white space *)
Definition blank_before (x : tree) (q : path) : Prop := forall a c, flat_map snd (leaves_before x q) = a ++ [c] -> ws_char c = true.

Lemma before_length x : forall p y, at_path x p = Some y -> length (flat_map snd (leaves_before x p)) = chars_before x p.
Proof.
  induction x as [k w|k cs IH] using tree_ind'; intros [|i p] y E; cbn [at_path] in E; try discriminate; try reflexivity.
  destruct (nth_error cs i) as [c|] eqn:C; [|discriminate]. cbn [leaves_before chars_before]. rewrite C, flat_map_app, app_length. f_equal; [|exact (nth_error_Forall _ _ _ _ IH C _ _ E)].
  clear. induction (firstn i cs) as [|d l IHl]; [reflexivity|]. cbn [flat_map]. rewrite flat_map_app, !app_length, IHl, leaves_text. reflexivity.
Qed.
Lemma leads_leaf err t x p k cs : doc_tree err t x -> p <> [] -> at_path x p = Some (Node k cs) -> exists l ls, leaves (Node k cs) = l :: ls /\ trivial l = false.
Proof.
  intros D N E. destruct (doc_node_at _ _ _ _ _ _ D N E) as (us & l & rest & _ & _ & Hl & Hd & Hs & ->). pose proof (tplaces_flat (prunes us) l) as F. cbn [leaves].
  destruct (flat_map leaves (fst (tplaces (prunes us) l))) as [|a ls] eqn:Ea.
  - exfalso. cbn [app] in F. rewrite <- (pleavess_prunes us) in Hs. destruct (TreeItems.tplaces_items (prunes us) l rest Hs) as [_ S2]. rewrite F, Hs, pleavess_prunes in S2. apply (f_equal (@length _)) in S2. rewrite app_length in S2. destruct (pleavess us); [congruence|cbn in S2; lia].
  - exists a, ls. split; [reflexivity|]. cbn [app] in F. rewrite <- F in Hd. cbn in Hd. rewrite trivial_is. exact Hd.
Qed.
Lemma split_trivial L : exists T R, L = T ++ R /\ Forall (fun l => trivial l = true) T /\ match R with l :: _ => trivial l = false | [] => True end.
Proof.
  induction L as [|l L (T & R & -> & F & H)]; [exists [], []; auto|]. destruct (trivial l) eqn:E; [exists (l :: T), R; auto|]. exists [], (l :: T ++ R). split; [reflexivity|]. split; [constructor|exact E].
Qed.
(** what follows a node: white space and comments, then the next token, if there is one *)
Lemma next_token x T : forall l o R, Forall2 (stands x 0) l (placed_at o (T ++ R)) -> Forall (fun l => trivial l = true) T ->
  match R with
  | [] => first_significant x l = None
  | r :: _ => trivial r = false -> exists q, first_significant x l = Some q /\ start_at x q = o + byte_len (flat_map snd T)
  end.
Proof.
  unfold first_significant. induction T as [|[k w] T IH]; intros l o R F FT.
  - cbn [app] in F. destruct R as [|[k w] R]; [inversion F; reflexivity|]. intros Hr. cbn [placed_at] in F. inversion F as [|p e ps es [H1 H2] _]; subst. exists p. cbn [fst snd] in *. cbn [find]. unfold kind_at. rewrite H1. cbn [option_map tkind]. rewrite trivial_is in Hr. unfold lkind in Hr. cbn [fst] in Hr. rewrite Hr. split; [reflexivity|]. cbn [flat_map byte_len]. lia.
  - cbn [app placed_at] in F. inversion F as [|p e ps es [H1 H2] F']; subst. cbn [fst snd] in *. inversion FT as [|? ? T1 T2]; subst. specialize (IH _ _ _ F' T2). assert (Ek : kind_at x p = Some k) by (unfold kind_at; rewrite H1; reflexivity). cbn [find]. rewrite Ek. rewrite trivial_is in T1. unfold lkind in T1. cbn [fst] in T1. rewrite T1. cbn [negb].
    destruct R as [|r R]; [exact IH|]. intros Hr. destruct (IH Hr) as (q & E1 & E2). exists q. split; [exact E1|]. rewrite E2. cbn [flat_map snd]. rewrite byte_len_app. lia.
Qed.
Section removal.
Context (err : text -> nat) (t : text) (x : tree) (q : path) (cs : list tree) (DLs : list (list lexeme)) (ys : list tree).
Context (D : doc_tree err t x) (E : at_path x q = Some (Node K_PrefixDecl cs)).
Context (C : declaration (sigs (leaves (Node K_PrefixDecl cs))) (bare same (Node K_PrefixDecl cs))) (F : Forall2 declaration DLs ys) (Bf : sigs (leaves_before x q) = concat DLs).
Let L1 : list lexeme := leaves_before x q.
Let M : list lexeme := leaves (Node K_PrefixDecl cs).
Let L2 : list lexeme := leaves_behind x q.
Let U : text := flat_map snd L1.
Let Y : text := flat_map snd M.
Lemma decl_split : lex err t = L1 ++ M ++ L2.
Proof. rewrite <- (doc_leaves _ _ _ D). exact (proj1 (leaves_around _ _ _ E)). Qed.
Lemma decl_text : t = U ++ Y ++ flat_map snd L2.
Proof. unfold U, Y. rewrite <- !flat_map_app. refine (eq_trans _ (f_equal (flat_map snd) decl_split)). rewrite <- (doc_leaves _ _ _ D), <- leaves_text. symmetry. exact (doc_text _ _ _ D). Qed.
Lemma decl_inner : q <> [].
Proof. eapply doc_inner; [exact D|exists cs; exact E|discriminate|discriminate]. Qed.
Lemma decl_form : exists a b c, sigs M = [(K_PREFIX, a); (K_PNAME_NS, b); (K_IRIREF, c)] /\ bare same (Node K_PrefixDecl cs) = Node K_PrefixDecl [Tok K_PREFIX a; Tok K_PNAME_NS b; Tok K_IRIREF c].
Proof.
  unfold M. destruct (bare_node K_PrefixDecl cs) as [l El]. pose proof C as C'. rewrite El in C' |- *. remember (sigs (leaves (Node K_PrefixDecl cs))) as dl. remember (Node K_PrefixDecl l) as y. destruct C' as [a b|a b c|k a b K]; try discriminate. eauto.
Qed.
Lemma decl_opens : exists a M', M = (K_PREFIX, a) :: M'.
Proof.
  destruct (leads_leaf _ _ _ _ _ _ D decl_inner E) as (l & ls & El & T). fold M in El. destruct decl_form as (a & b & c & S1 & _). rewrite El in S1. unfold sigs in S1. cbn [filter] in S1. rewrite T in S1. cbn [negb] in S1. injection S1 as -> _. eauto.
Qed.
Lemma known_kind l : In l (L1 ++ M) -> fst l <> K_Error.
Proof.
  intros H K. assert (T : trivial l = false) by (destruct l as [k w]; cbn in K; subst k; reflexivity). apply in_app_iff in H as [H|H].
  - apply (sigs_in _ _ H) in T. fold L1 in Bf. rewrite Bf in T. apply (decls_in _ _ _ F) in T. rewrite K in T. cbn in T. repeat destruct T as [T|T]; try discriminate; destruct T.
  - apply (sigs_in _ _ H) in T. destruct decl_form as (a & b & c & S1 & _). rewrite S1 in T. cbn in T. repeat destruct T as [T|T]; subst; try discriminate; destruct T.
Qed.
Lemma decl_boundary l l' : L1 ++ M ++ L2 = l ++ l' -> (forall y, In y l -> In y (L1 ++ M)) -> ~ (exists u v, flat_map snd l = u ++ [CR] /\ flat_map snd l' = NL :: v).
Proof.
  intros El Hk (u & v & E1 & E2). destruct l as [|[k w] l _] using rev_ind; [destruct u; discriminate|]. pose proof decl_split as Ex. rewrite El, <- app_assoc in Ex. cbn [app] in Ex.
  eapply (crlf_boundary err t l k w l' u v Ex); [|exact E1|exact E2]. apply (known_kind (k, w)). apply Hk. apply in_app_iff. right. left. reflexivity.
Qed.
Lemma decl_parts j c : nth_error cs j = Some c -> byte_len (tree_text c) < byte_len (flat_map tree_text cs).
Proof.
  intros Ej. destruct decl_form as (a & b & u & _ & Eb).
  assert (H : forall k w, In (Tok k w) [Tok K_PREFIX a; Tok K_PNAME_NS b; Tok K_IRIREF u] -> In (Tok k w) cs).
  { intros k w Hin. pose proof (in_bare K_PrefixDecl cs (Tok k w)) as B. rewrite Eb in B. apply B in Hin as (d & Hd & Ed & _). destruct d as [k' w'|k' ds]; [|discriminate]. cbn in Ed. injection Ed as -> ->. exact Hd. }
  assert (G : exists k w, In (Tok k w) cs /\ Tok k w <> c). { destruct c as [k w|k ds]; [|exists K_PREFIX, a; split; [apply H; cbn; tauto|discriminate]]. destruct (kind_eqb_spec k K_PREFIX) as [->|N]; [exists K_PNAME_NS, b|exists K_PREFIX, a]; (split; [apply H; cbn; tauto|]); intros X; injection X; congruence. }
  destruct G as (k & w & Hin & N). assert (Pos : 0 < byte_len w).
  { assert (In (k, w) (lex err t)) as Hl. { rewrite decl_split. apply in_app_iff. right. apply in_app_iff. left. unfold M. cbn [leaves]. apply in_flat_map. exists (Tok k w). split; [exact Hin|left; reflexivity]. } exact (lexeme_bytes _ _ _ Hl). }
  apply nth_error_split in Ej as (pre & post & -> & _). rewrite flat_map_app, byte_len_app. cbn [flat_map]. rewrite byte_len_app.
  assert (S : forall l, In (Tok k w) l -> byte_len w <= byte_len (flat_map tree_text l)). { induction l as [|d l IH]; [intros []|]. intros [H0|H0]; cbn [flat_map]; rewrite byte_len_app; [subst d; cbn [tree_text]; lia|specialize (IH H0); lia]. }
  apply in_app_iff in Hin as [Hin|[Hin|Hin]]; [apply S in Hin; lia|congruence|apply S in Hin; lia].
Qed.
Lemma decl_bytes : start_at x q = byte_len U.
Proof.
  destruct (doc_place _ _ _ _ _ D E) as (u & v & Et & B & _ & Eu & _). rewrite <- B. f_equal. pose proof decl_text as T. rewrite Eu, <- (before_length _ _ _ E). fold L1. fold U. rewrite T at 1. apply firstn_exact.
Qed.
Lemma removed r T R : cr_only_in_crlf t -> located x t q r -> L2 = T ++ R -> Forall (fun l => trivial l = true) T -> match R with l :: _ => trivial l = false | [] => True end ->
  removal_range x t r = VDone (mkrange (position_after U) (position_after (U ++ Y ++ match R with [] => [] | _ => flat_map snd T end))).
Proof.
  intros Hcr (_ & _ & Hs & He) EL FT HR. pose proof decl_text as Et. assert (Ty : text_at x q = Y) by (unfold text_at; rewrite E; apply leaves_text).
  rewrite <- (before_length _ _ _ E) in Hs, He. fold L1 in Hs, He. fold U in Hs, He. rewrite Ty in He.
  assert (F1 : firstn (length U) t = U) by (rewrite Et; apply firstn_exact). assert (F2 : firstn (length U + length Y) t = U ++ Y) by (rewrite Et, app_assoc, <- app_length; apply firstn_exact). rewrite F1 in Hs. rewrite F2 in He.
  assert (I1 : byte_index (rstart r) t = Some (byte_len U)). { rewrite Hs. rewrite Et at 1. apply byte_index_of_position; [rewrite <- Et; exact Hcr|]. unfold Y. rewrite <- flat_map_app. apply (decl_boundary L1 (M ++ L2) eq_refl). intros y Hy. apply in_app_iff. auto. }
  assert (I2 : byte_index (rend r) t = Some (byte_len (U ++ Y))). { rewrite He. rewrite Et at 1. rewrite app_assoc. apply byte_index_of_position; [rewrite <- app_assoc, <- Et; exact Hcr|]. unfold U, Y. rewrite <- flat_map_app. apply (decl_boundary (L1 ++ M) L2); [rewrite app_assoc; reflexivity|auto]. }
  unfold removal_range, byte_range. rewrite I1, I2. rewrite (proj2 (Nat.leb_le _ _)) by (rewrite byte_len_app; lia).
  assert (Y0 : byte_len Y = byte_len (flat_map tree_text cs)) by (unfold Y, M; rewrite <- leaves_text; reflexivity).
  assert (Ne : cs <> []) by (intros X0; destruct decl_form as (a & b & c & _ & X); rewrite X0 in X; discriminate).
  pose proof (covering_node x 0 q _ _ E Ne decl_parts) as Cv. cbn [Nat.add] in Cv. rewrite decl_bytes, <- Y0, <- byte_len_app in Cv. cbn [vbind]. rewrite Cv. rewrite (kind_is_node _ _ K_PrefixDecl _ (ex_intro _ cs E)), kind_eqb_refl.
  destruct decl_opens as (a & M' & EM). assert (NM : leaves (Node K_PrefixDecl cs) <> []) by (fold M; rewrite EM; discriminate).
  pose proof (tokens_after_placed _ _ _ E NM) as TA. fold L2 in TA. rewrite EL in TA. pose proof (next_token _ _ _ _ _ TA FT) as NT. destruct R as [|r0 R].
  - rewrite NT. destruct r as [rs re]. cbn [rstart rend] in *. rewrite Hs, He, app_nil_r. reflexivity.
  - destruct (NT HR) as (p & E1 & E2). rewrite E1. fold M in E2. fold L1 in E2. rewrite E2.
    assert (Es : byte_len (flat_map snd (L1 ++ M)) + byte_len (flat_map snd T) = byte_len (U ++ Y ++ flat_map snd T)) by (rewrite flat_map_app, !byte_len_app; unfold U, Y; rewrite Nat.add_assoc; reflexivity). rewrite Es.
    assert (J1 : from_byte_index (byte_len U) t = Some (position_after U)) by (rewrite Et; apply from_byte_index_boundary).
    assert (Et2 : t = (U ++ Y ++ flat_map snd T) ++ flat_map snd (r0 :: R)) by (refine (eq_trans Et _); refine (eq_trans (f_equal (fun z => U ++ Y ++ flat_map snd z) EL) _); rewrite flat_map_app, <- !app_assoc; reflexivity).
    assert (J2 : from_byte_index (byte_len (U ++ Y ++ flat_map snd T)) t = Some (position_after (U ++ Y ++ flat_map snd T))) by (rewrite Et2; apply from_byte_index_boundary).
    rewrite J1, J2. reflexivity.
Qed.
Lemma blank_last : blank_before x q -> L1 = [] \/ exists L0 w, L1 = L0 ++ [(K_WHITESPACE, w)].
Proof.
  intros B. unfold blank_before in B. fold L1 in B. destruct L1 as [|[k w] L0 _] eqn:EL using rev_ind; [auto|]. right. fold L1 in EL. pose proof decl_split as Ex. rewrite EL, <- app_assoc in Ex. cbn [app] in Ex.
  assert (Nk : k <> K_Error) by (apply (known_kind (k, w)); rewrite EL; apply in_app_iff; left; apply in_app_iff; right; left; reflexivity).
  destruct (munched _ _ _ _ _ _ Ex Nk) as (_ & _ & _ & _ & Nw). assert (exists a c, w = a ++ [c] /\ ws_char c = true) as (a & c & Ew & W).
  { destruct w as [|c a _] using rev_ind; [congruence|]. exists a, c. split; [reflexivity|]. apply (B (flat_map snd L0 ++ a) c). rewrite flat_map_app. cbn [flat_map snd]. rewrite app_nil_r, app_assoc. reflexivity. }
  destruct (kind_eqb_spec k K_WHITESPACE) as [->|N1]; [eauto|]. exfalso. destruct (kind_eqb_spec k K_Comment) as [->|N2].
  - destruct (comment_token _ _ _ _ _ Ex) as [_ H]. destruct decl_opens as (u & M' & EM). pose proof decl_split as Ey. rewrite EM in Ey. cbn [app] in Ey. destruct (keyword_head _ _ _ _ _ _ Ey) as (b & r & -> & Hb); [right; left; reflexivity|]. rewrite EM in H. cbn [app flat_map snd] in H.
    unfold letters in Hb. rewrite !in_class_cons, in_class_nil in Hb. lia.
  - destruct (token_end _ _ _ _ _ _ Ex Nk N1 N2) as (b & d & Eb & Wd). rewrite Ew in Eb. apply app_inj_tail in Eb as [_ ->]. congruence.
Qed.
Lemma tokens_left T R : blank_before x q -> L2 = T ++ R -> Forall (fun l => trivial l = true) T -> tokens err (U ++ match R with [] => flat_map snd T | _ => flat_map snd R end) = sigs L1 ++ sigs L2.
Proof.
  intros B EL FT. apply blank_last in B. pose proof decl_split as Ex. destruct R as [|r R].
  - rewrite app_nil_r in EL. rewrite <- EL. exact (relex _ _ _ _ _ _ _ Ex F Bf B).
  - assert (sigs L2 = sigs (r :: R)) as ->. { rewrite EL, PrologueSwap.sigs_app. replace (sigs T) with (@nil lexeme); [reflexivity|]. clear -FT. induction FT as [|l T H _ IH]; [reflexivity|]. unfold sigs. cbn [filter]. rewrite H. exact IH. }
    apply (relex err t L1 (M ++ T) (r :: R) DLs ys); [rewrite <- app_assoc; rewrite <- EL; exact Ex|exact F|exact Bf|exact B].
Qed.
End removal.
(** ** C62: the quick fix for a declaration that is not needed *)
Lemma edited_cut t u v w r : t = u ++ v ++ w -> r = mkrange (position_after u) (position_after (u ++ v)) -> edited t (mkedit r []) (u ++ w).
Proof.
  intros -> ->. exists (mkcedit (length u) (length u + length v) []). split.
  - unfold edit_denotes. cbn [ci cj cnew erange rstart rend new_text]. split; [rewrite !app_length; lia|]. split; [rewrite firstn_exact; reflexivity|]. split; [|reflexivity]. rewrite app_assoc, <- app_length, firstn_exact. reflexivity.
  - cbn [splice ci cj cnew]. rewrite !Nat.sub_0_r, firstn_exact. cbn [app]. f_equal. rewrite app_assoc, <- app_length. symmetry. apply skipn_exact.
Qed.
Lemma label_only x q cs a b c w : at_path x q = Some (Node K_PrefixDecl cs) -> bare same (Node K_PrefixDecl cs) = Node K_PrefixDecl [Tok K_PREFIX a; Tok K_PNAME_NS b; Tok K_IRIREF c] -> declares x q w <-> prefix_part b w.
Proof.
  intros E Eb. pose proof (in_bare K_PrefixDecl cs) as B. rewrite Eb in B. split.
  - intros [_ (i & u & Ei & H)]. rewrite (AstFacts.at_child _ _ _ _ _ E) in Ei. apply nth_error_In in Ei. assert (In (Tok K_PNAME_NS u) [Tok K_PREFIX a; Tok K_PNAME_NS b; Tok K_IRIREF c]) as Hin. { apply B. exists (Tok K_PNAME_NS u). split; [exact Ei|]. split; [reflexivity|]. intros ? ? X. injection X as <- <-. reflexivity. }
    destruct Hin as [X|[X|[X|[]]]]; try discriminate. injection X as <-. exact H.
  - intros H. assert (In (Tok K_PNAME_NS b) [Tok K_PREFIX a; Tok K_PNAME_NS b; Tok K_IRIREF c]) as Hin by (cbn; tauto). apply B in Hin as (d & Hd & Ed & _). destruct d as [k u|k ds]; [|discriminate]. cbn in Ed. injection Ed as <- <-. split; [exists cs; exact E|].
    apply In_nth_error in Hd as [i Ei]. exists i, b. split; [rewrite (AstFacts.at_child _ _ _ _ _ E); exact Ei|exact H].
Qed.
(** the diagnostic is about the declaration at [q] *)
Lemma about_declaration err t x errs shorten order ds d : doc_parse err t x errs -> any_order order -> diagnostics shorten order x errs t = Reply ds -> In d ds -> d_code d = UnusedPrefix \/ d_code d = DuplicatePrefix ->
  exists q, node_at x q K_PrefixDecl /\ located x t q (d_range d) /\
  (unlabelled x q \/ (exists w, declares x q w /\ d_data d = DString w /\ forall u, ~ uses x u w) \/
   (exists w q', declares x q w /\ d_data d = DString w /\ declares x q' w /\ q' <> q)).
Proof.
  intros P O E Hd [Hc|Hc].
  - destruct (C47_unused_prefixes _ _ _ _ _ _ _ P O E) as (l & _ & Hl & F). assert (In d (of_code UnusedPrefix ds)) as Hd' by (apply in_of_code; auto). destruct (forall2_in _ _ _ _ F Hd') as ([q dat] & Hq & Ed & Lo). cbn [fst snd] in *. apply Hl in Hq as [(w & De & Edat & N)|(Un & Edat & N)].
    + exists q. split; [apply De|]. split; [exact Lo|]. right. left. exists w. split; [exact De|]. split; [congruence|exact N].
    + exists q. split; [apply Un|]. split; [exact Lo|]. left. exact Un.
  - destruct (a_duplicate _ _ _ _ _ (answered _ _ _ _ _ _ _ P O E)) as (l & _ & H & F). assert (In d (of_code DuplicatePrefix ds)) as Hd' by (apply in_of_code; auto). destruct (forall2_in _ _ _ _ F Hd') as ([q dat] & Hq & Ed & Lo). cbn [fst snd] in *. apply H in Hq as (_ & w & q' & D1 & Edat & D2 & Bf).
    exists q. split; [apply D1|]. split; [exact Lo|]. right. right. exists w, q'. split; [exact D1|]. split; [congruence|]. split; [exact D2|]. intros ->. clear -Bf. induction q as [|i q IHq]; inversion Bf; subst; [lia|auto].
Qed.
Lemma swapped_query err t t' x errs x' errs' DLs ys rest n : doc_parse err t x errs -> query_doc x -> doc_parse err t' x' errs' -> Forall2 declaration DLs ys -> tokens err t = concat DLs ++ rest -> tokens err t' = concat n ++ rest -> (exists ys', Forall2 declaration n ys') -> query_doc x'.
Proof.
  intros P Q P' F Et Et' [ys' F']. destruct (doc_parse_run _ _ _ _ P) as (? & ts & ? & _ & _ & _ & Ex). destruct (doc_parse_run _ _ _ _ P') as (? & ts' & ? & _ & _ & _ & Ex'). destruct Q as [cs Q]. rewrite Ex in Q. cbn in Q. injection Q as Q _. rewrite Ex'.
  rewrite entry_tokens, Et', (entry_decls _ _ _ F'). rewrite entry_tokens, Et, (entry_decls _ _ _ F) in Q. rewrite Q. eexists. reflexivity.
Qed.
Lemma doc_parse_fun err t x errs x' errs' : doc_parse err t x errs -> doc_parse err t x' errs' -> x = x' /\ errs = errs'.
Proof.
  intros P P'. destruct (doc_parse_run _ _ _ _ P) as (g & ts & f & R & Ee & _ & Ex). destruct (doc_parse_run _ _ _ _ P') as (g' & ts' & f' & R' & Ee' & _ & Ex').
  pose proof (LayoutProps.run_same _ _ _ _ _ _ _ _ R R') as <-. split; congruence.
Qed.
Lemma shifted_len err t t' n m errs errs' n2 m2 : errors_shifted err t t' n m errs errs' -> n = n2 -> m = m2 -> errors_shifted err t t' n2 m2 errs errs'.
Proof. intros H -> ->. exact H. Qed.
(** The quick fix of a diagnostic for an unused or a repeated prefix takes its declaration out of the text.  [DLs] are the complete declarations before it.
    Nothing else changes: the tokens, the tree, the errors; no prefix becomes undeclared, and the declaration is not reported any more. *)
Theorem C62_remove_declaration_partial : forall err t x errs shorten order ds d,
  doc_parse err t x errs -> any_order order -> diagnostics shorten order x errs t = Reply ds -> In d ds -> d_code d = UnusedPrefix \/ d_code d = DuplicatePrefix -> cr_only_in_crlf t ->
  exists q y, at_path x q = Some y /\ node_at x q K_PrefixDecl /\ located x t q (d_range d) /\
  forall DLs ys, complete x q -> Forall2 declaration DLs ys -> sigs (leaves_before x q) = concat DLs -> blank_before x q ->
  exists p e t', declares x q p /\ d_data d = DString p /\
    remove_prefix_declaration x t (d_range d) = VDone [e] /\ edited t e t' /\
    tokens err t = concat DLs ++ sigs (leaves y) ++ sigs (leaves_behind x q) /\ tokens err t' = concat DLs ++ sigs (leaves_behind x q) /\
    (DLs <> [] -> exists x' errs', doc_parse err t' x' errs') /\
    forall x' errs', doc_parse err t' x' errs' -> exists z ds',
      bare same x = with_decls (ys ++ [bare same y]) z /\ bare same x' = with_decls ys z /\
      errors_shifted err t t' (length (concat DLs) + 3) (length (concat DLs)) errs errs' /\
      diagnostics shorten order x' errs' t' = Reply ds' /\
      (forall w, says UndeclaredPrefix w ds' <-> says UndeclaredPrefix w ds) /\
      (forall w, says UnusedPrefix w ds' <-> says UnusedPrefix w ds /\ exists q', q' <> q /\ declares x q' w).
Proof.
  intros err t x errs shorten order ds d P O E Hd Hc Hcr. destruct (about_declaration _ _ _ _ _ _ _ _ P O E Hd Hc) as (q & Nq & Lo & About). destruct Nq as [cs Eq]. exists q, (Node K_PrefixDecl cs). split; [exact Eq|]. split; [exists cs; exact Eq|]. split; [exact Lo|]. intros DLs ys (y & Ey & C) F Bf Bl.
  pose proof (doc_parse_tree _ _ _ _ P) as D. pose proof (reply_query _ _ _ _ _ _ _ P E) as Q. rewrite Eq in Ey. injection Ey as <-. destruct (decl_form cs C) as (a & b & c & Sm & Eb).
  assert (Lab : forall w, declares x q w <-> prefix_part b w) by (intros w; eapply label_only; eassumption).
  pose proof (decl_split err t x q cs D Eq) as Sp.
  assert (exists p, declares x q p /\ d_data d = DString p /\ ((forall u, ~ uses x u p) \/ exists q', declares x q' p /\ q' <> q)) as (p & Dp & Edat & Why).
  { destruct About as [Un|[(w & H1 & H2 & H3)|(w & q' & H1 & H2 & H3 & H4)]]; [|exists w; auto|exists w; split; [exact H1|]; split; [exact H2|right; eauto]]. exfalso.
    destruct Un as [_ Un]. assert (exists w, prefix_part b w) as [w Hw].
    { assert (In (K_PNAME_NS, b) (lex err t)) as Hin. { rewrite Sp. apply in_app_iff. right. apply in_app_iff. left. apply (proj1 (filter_In (fun l => negb (trivial l)) _ _)). change (In (K_PNAME_NS, b) (sigs (leaves (Node K_PrefixDecl cs)))). rewrite Sm. right. left. reflexivity. }
      destruct (AstFacts.lex_ns_text _ _ _ Hin) as (w & -> & N). exists w, []. auto. }
    apply (Un w), Lab, Hw. }
  pose proof (decl_text err t x q cs D Eq) as Et. destruct (split_trivial (leaves_behind x q)) as (T & R & EL & FT & HR).
  pose proof (removed err t x q cs DLs ys D Eq C F Bf (d_range d) T R Hcr Lo EL FT HR) as Rm.
  pose proof (tokens_left err t x q cs DLs ys D Eq C F Bf T R Bl EL FT) as Tk. rewrite Bf in Tk.
  set (U := flat_map snd (leaves_before x q)) in *. set (t' := U ++ match R with [] => flat_map snd T | _ => flat_map snd R end) in *.
  set (Y := flat_map snd (leaves (Node K_PrefixDecl cs))) in *.
  set (e := mkedit (mkrange (position_after U) (position_after (U ++ Y ++ match R with [] => [] | _ => flat_map snd T end))) []) in *.
  assert (Ed : edited t e t').
  { rewrite EL, flat_map_app in Et. unfold e, t'. destruct R as [|r R].
    - rewrite app_nil_r in *. eapply edited_cut; [exact Et|reflexivity].
    - eapply (edited_cut t U (Y ++ flat_map snd T)); [rewrite <- app_assoc; exact Et|reflexivity]. }
  assert (Tt : tokens err t = concat DLs ++ sigs (leaves (Node K_PrefixDecl cs)) ++ sigs (leaves_behind x q)).
  { refine (eq_trans (f_equal sigs Sp) _). rewrite !PrologueSwap.sigs_app, Bf. reflexivity. }
  exists p, e, t'. split; [exact Dp|]. split; [exact Edat|]. split; [unfold remove_prefix_declaration; rewrite Rm; reflexivity|]. split; [exact Ed|]. split; [exact Tt|]. split; [exact Tk|].
  set (M := sigs (leaves (Node K_PrefixDecl cs))) in *. set (y := bare same (Node K_PrefixDecl cs)) in *.
  assert (LM : length M = 3) by (rewrite Sm; reflexivity).
  assert (F1 : Forall2 declaration (DLs ++ [M]) (ys ++ [y])) by (apply Forall2_app; [exact F|constructor; [exact C|constructor]]).
  assert (EC : concat (DLs ++ [M]) = concat DLs ++ M) by (rewrite concat_app; cbn [concat]; rewrite app_nil_r; reflexivity).
  assert (N1 : ys ++ [y] <> []) by (destruct ys; discriminate).
  assert (Swap : DLs <> [] -> exists x' errs' z, doc_parse err t' x' errs' /\ bare same x = with_decls (ys ++ [y]) z /\ bare same x' = with_decls ys z /\ errors_shifted err t t' (length (concat DLs) + 3) (length (concat DLs)) errs errs').
  { intros Nd. assert (Ny : ys <> []) by (destruct F; congruence).
    destruct (decls_swapped err t t' x errs (DLs ++ [M]) (ys ++ [y]) DLs ys (sigs (leaves_behind x q)) P Q F1 F N1 Ny) as (x' & errs' & z & P' & _ & B1 & B2 & Es); [rewrite EC, <- app_assoc; exact Tt|exact Tk|].
    exists x', errs', z. split; [exact P'|]. split; [exact B1|]. split; [exact B2|]. eapply shifted_len; [exact Es| |reflexivity]. rewrite EC, app_length, LM. reflexivity. }
  split; [intros Nd; destruct (Swap Nd) as (x' & errs' & z & P' & _); eauto|].
  intros x' errs' P'.
  assert (Q' : query_doc x') by (eapply (swapped_query err t t' x errs x' errs' (DLs ++ [M]) (ys ++ [y]) (sigs (leaves_behind x q)) DLs); [exact P|exact Q|exact P'|exact F1|rewrite EC, <- app_assoc; exact Tt|exact Tk|exists ys; exact F]).
  assert (exists z, bare same x = with_decls (ys ++ [y]) z /\ bare same x' = with_decls ys z /\ errors_shifted err t t' (length (concat DLs) + 3) (length (concat DLs)) errs errs') as (z & B & B' & Es).
  { destruct DLs as [|dl DLs].
    - inversion F; subst ys. cbn [concat app] in *. destruct (decls_put err t t' x' errs' [M] [y] P' Q' F1) as (x2 & errs2 & P2 & _ & B & Es); [cbn [concat]; rewrite app_nil_r, Tk; exact Tt|].
      destruct (doc_parse_fun _ _ _ _ _ _ P P2) as [<- <-]. exists (bare same x'). split; [exact B|]. split; [reflexivity|]. eapply shifted_len; [apply errors_shifted_sym; exact Es| |reflexivity]. cbn [concat length]. rewrite app_nil_r, LM. reflexivity.
    - destruct Swap as (x2 & errs2 & z & P2 & B & B' & Es); [discriminate|]. destruct (doc_parse_fun _ _ _ _ _ _ P' P2) as [<- <-]. eauto. }
  destruct (all_parts _ _ _ _ shorten order P' O Q') as (ds' & E' & _). pose proof (doc_parse_tree _ _ _ _ P') as D'.
  exists z, ds'. split; [exact B|]. split; [exact B'|]. split; [exact Es|]. split; [exact E'|].
  destruct (bare_root _ Q) as [xs Exs]. assert (exists zs, z = Node K_QueryUnit zs) as [zs Ez] by (eapply (puts_rooted (ys ++ [y])); rewrite <- B; exact Exs). subst z.
  assert (Us : forall w, used x' w <-> used x w).
  { intros w. rewrite <- (used_bare _ w (doc_plain_names _ _ _ D')), <- (used_bare _ w (doc_plain_names _ _ _ D)), B, B', (used_puts _ _ _ _ F), (used_puts _ _ _ _ F1). reflexivity. }
  assert (Ss : forall w, used_in_select x' w <-> used_in_select x w).
  { intros w. rewrite <- (used_in_select_bare _ w (doc_plain_names _ _ _ D')), <- (used_in_select_bare _ w (doc_plain_names _ _ _ D)), B, B', (used_in_select_puts _ _ _ _ F), (used_in_select_puts _ _ _ _ F1). reflexivity. }
  assert (Hx : forall w, hits w x = hits w x' + hits w y).
  { intros w. rewrite <- (hits_bare w x), <- (hits_bare w x'), B, B', !hits_puts by discriminate. rewrite map_app, total_app. cbn [map total]. lia. }
  assert (Hp : hits p y = 1). { rewrite Eb. cbn [hits map total]. replace (hit p _ _) with true; [reflexivity|]. symmetry. apply hit_iff. split; [reflexivity|]. exists b. split; [right; left; reflexivity|apply Lab; exact Dp]. }
  assert (Hn : forall w, w <> p -> hits w y = 0). { intros w N. rewrite Eb. cbn [hits map total]. destruct (hit w _ _) eqn:Eh; [|reflexivity]. exfalso. apply hit_iff in Eh as (_ & u & Hin & Hu). destruct Hin as [X|[X|[X|[]]]]; try discriminate. injection X as <-. apply N. apply Lab in Dp. eapply prefix_part_fun; eassumption. }
  assert (De : forall w, declared x' w <-> exists q', q' <> q /\ declares x q' w).
  { intros w. rewrite <- declares_iff, <- hits_pos. pose proof (Hx w) as Hw. destruct (list_eq_dec N.eq_dec w p) as [->|N].
    - rewrite <- (hits_more p x q Dp). rewrite Hw, Hp. lia.
    - rewrite (Hn w N), Nat.add_0_r in Hw. rewrite <- Hw, hits_pos. split; [|intros (q' & _ & H); eauto]. intros [q' H]. exists q'. split; [|exact H]. intros ->. apply N. apply Lab in H, Dp. eapply prefix_part_fun; eassumption. }
  split; intros w; unfold says.
  - rewrite (said_undeclared _ _ _ _ _ _ _ P' O E'), (said_undeclared _ _ _ _ _ _ _ P O E). unfold missing. rewrite Ss, De. split; intros [Hu Hno]; (split; [exact Hu|]).
    + rewrite <- declares_iff. intros [q' Hq']. apply Hno. destruct (list_eq_dec Nat.eq_dec q' q) as [->|N]; [|eauto]. assert (w = p) as -> by (apply Lab in Hq', Dp; eapply prefix_part_fun; eassumption).
      destruct Why as [Nu|(q2 & H2 & H3)]; [|eauto]. exfalso. apply select_uses_iff in Hu as (u & _ & Hu). exact (Nu u Hu).
    + intros (q' & _ & H). apply Hno. apply declares_iff. eauto.
  - rewrite (said_unused _ _ _ _ _ _ _ P' O E'), (said_unused _ _ _ _ _ _ _ P O E). unfold idle. rewrite Us, De. split.
    + intros [(q' & N & H) Nu]. split; [split; [apply declares_iff; eauto|exact Nu]|eauto].
    + intros [[_ Nu] H]. auto.
Qed.
(** ** a case, and what is not claimed *)
Local Open Scope string_scope.
Local Open Scope list_scope.
(** the document behind the quick fix for its first diagnostic with the code [c] *)
Definition removed_text (c : code) (t : text) : option text :=
  match diagnostics short same_order (tree_of t) (errors_of t) t with
  | Reply ds => match of_code c ds with
                | d :: _ => match remove_prefix_declaration (tree_of t) t (d_range d) with VDone [mkedit r w] => match apply_content_changes t [mkchange (Some r) w] with Done u => Some u | _ => None end | _ => None end
                | [] => None
                end
  | _ => None
  end.
Definition C62_query : text := chars "PREFIX e: <u>" ++ [NL] ++ chars "PREFIX f: <v>" ++ [NL] ++ chars "SELECT * { ?x e:p 1 }".
Definition e_tokens : list lexeme := [(K_PREFIX, chars "PREFIX"); (K_PNAME_NS, chars "e:"); (K_IRIREF, chars "<u>")].
Definition e_tree : tree := Node K_PrefixDecl [Tok K_PREFIX (chars "PREFIX"); Tok K_PNAME_NS (chars "e:"); Tok K_IRIREF (chars "<u>")].
Example C62_witness : doc_parse (fun _ => 0) C62_query (tree_of C62_query) (errors_of C62_query) /\ any_order same_order /\ cr_only_in_crlf C62_query /\
  (exists ds d, diagnostics short same_order (tree_of C62_query) (errors_of C62_query) C62_query = Reply ds /\ In d ds /\ d_code d = UnusedPrefix /\ d_data d = DString (chars "f")) /\
  (exists q, node_at (tree_of C62_query) q K_PrefixDecl /\ declares (tree_of C62_query) q (chars "f") /\ complete (tree_of C62_query) q /\ Forall2 declaration [e_tokens] [e_tree] /\ sigs (leaves_before (tree_of C62_query) q) = concat [e_tokens] /\ blank_before (tree_of C62_query) q) /\
  removed_text UnusedPrefix C62_query = Some (chars "PREFIX e: <u>" ++ [NL] ++ chars "SELECT * { ?x e:p 1 }") /\
  removed_text DuplicatePrefix (chars "PREFIX e: <u> PREFIX e: <u> SELECT * { ?x e:p 1 }") = Some (chars "PREFIX e: <u> SELECT * { ?x e:p 1 }").
Proof.
  split; [apply parses_doc; vm_compute; reflexivity|]. split; [exact same_order_ok|]. split.
  { apply no_cr_crlf. intros H. vm_compute in H. intuition discriminate. }
  split. { do 2 eexists. split; [vm_compute; reflexivity|]. split; [left; reflexivity|split; reflexivity]. }
  split; [|split; vm_compute; reflexivity]. exists [0; 0; 2]. split; [eexists; vm_compute; reflexivity|]. split.
  { split; [eexists; vm_compute; reflexivity|]. exists 2, (chars "f:"). split; [vm_compute; reflexivity|]. exists []. split; [reflexivity|]. vm_compute. intuition discriminate. }
  split. { eexists. split; [vm_compute; reflexivity|]. vm_compute. constructor. }
  split. { constructor; [apply is_prefix|constructor]. }
  split; [vm_compute; reflexivity|]. intros a c H. assert (flat_map snd (leaves_before (tree_of C62_query) [0; 0; 2]) = chars "PREFIX e: <u>" ++ [NL]) as K by (vm_compute; reflexivity). rewrite K in H. apply app_inj_tail in H as [_ <-]. reflexivity.
Qed.
(** what stands between the declaration and the next token is taken out as well, also a comment *)
Theorem C62_comment_lost_refuted : exists t t', doc_parse (fun _ => 0) t (tree_of t) (errors_of t) /\ errors_of t = [] /\ removed_text UnusedPrefix t = Some t' /\ In (K_Comment, chars "# kept?") (lex (fun _ => 0) t) /\ forall w, ~ In (K_Comment, w) (lex (fun _ => 0) t').
Proof.
  exists (chars "PREFIX e: <u> # kept?" ++ [NL] ++ chars "SELECT * { }"). eexists. split; [apply parses_doc; vm_compute; reflexivity|]. split; [vm_compute; reflexivity|]. split; [vm_compute; reflexivity|]. split; [vm_compute; tauto|]. intros w H. vm_compute in H. intuition discriminate.
Qed.
(** the later declaration of a prefix counts, but that one is taken out: the names mean something else *)
Theorem C62_other_namespace_refuted : exists t t', doc_parse (fun _ => 0) t (tree_of t) (errors_of t) /\ errors_of t = [] /\ removed_text DuplicatePrefix t = Some t' /\
  t = chars "PREFIX e: <u> PREFIX e: <v> SELECT * { e:a e:b e:c }" /\ t' = chars "PREFIX e: <u> SELECT * { e:a e:b e:c }".
Proof.
  eexists. eexists. split; [|split; [|split; [|split; reflexivity]]]; [apply parses_doc; vm_compute; reflexivity|vm_compute; reflexivity|vm_compute; reflexivity].
Qed.
(** the diagnostic comes from the client: one whose range ends before it starts crashes the server *)
Theorem C62_inverted_range_refuted : exists t r, doc_parse (fun _ => 0) t (tree_of t) (errors_of t) /\ remove_prefix_declaration (tree_of t) t r = VPanic.
Proof. exists (chars "PREFIX e: <u> SELECT * { }"), (mkrange (mkpos 0 4) (mkpos 0 2)). split; [apply parses_doc; vm_compute; reflexivity|vm_compute; reflexivity]. Qed.
