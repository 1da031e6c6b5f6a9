(** A query becomes a sub-query: its tokens. *)
From Coq Require Import String List Arith NArith Bool Lia Sorted Permutation.
Import ListNotations.
From Verif Require Import ServerModel Kinds KindFacts ParserSyntax ParserModel GrammarData ParserTree ParserTerm ParserBuild ParserSpec ParserChecks ParserOutcome ParserProps
  TextModel TextSpec TextProofs Utf8Model LexerRegex LexerData LexerModel LexerProofs LexerSpec LexerProps FormatData FormatModel FormatTree FormatText FormatParse FormatWeave
  TreeModel TreePlace TreeItems TreeShape TreeRename VarModel VarSpec VarRegions VarDoc LexRename VarProps DiagModel DiagSpec AstFacts DiagFacts DiagGroup DiagRest ParseTreeProps LexLayout DiagProps OnTypeProofs OnTypeProps LayoutProps LexInsert PrologueRun PrologueSwap QuickFixModel QuickFixFacts CoverFacts RemoveFacts UngramData Replant LexMiddle QuickFixProps RemoveProps ShortenFacts GrammarCheck DiagScope ShortenProps SelectModel.
From Verif Require GrammarSpec GrammarFacts.

(** ** the last token of a node is neither white space nor a comment *)
Lemma trails_leaf err t x : doc_tree err t x -> forall y p, p <> [] -> at_path x p = Some y -> is_inner y -> exists ls l, leaves y = ls ++ [l] /\ trivial l = false.
Proof.
  intros D. induction y as [k w|k cs IH] using tree_ind'; intros p Hp E [k' [cs' I]]; [discriminate|]. clear I k' cs'. pose proof (node_ends _ _ _ D _ _ _ Hp E) as W. unfold ends_well in W.
  destruct cs as [|c cs _] using rev_ind; [destruct (leads_leaf _ _ _ _ _ _ D Hp E) as (l & ls & H & _); discriminate|]. rewrite last_of_app in W. cbn [leaves]. rewrite flat_map_app. cbn [flat_map]. rewrite app_nil_r.
  destruct c as [k1 w1|k1 ds].
  - exists (flat_map leaves cs), (k1, w1). split; [reflexivity|]. rewrite trivial_is. exact W.
  - assert (Ec : at_path x (p ++ [length cs]) = Some (Node k1 ds)) by (rewrite (AstFacts.at_child _ _ _ _ _ E), nth_error_app2, Nat.sub_diag by lia; reflexivity).
    assert (H : In (Node k1 ds) (cs ++ [Node k1 ds])) by (apply in_app_iff; right; left; reflexivity).
    destruct (proj1 (Forall_forall _ _) IH _ H (p ++ [length cs]) ltac:(destruct p; discriminate) Ec ltac:(eexists; eexists; reflexivity)) as (ls & l & El & T).
    exists (flat_map leaves cs ++ ls), l. split; [|exact T]. rewrite El, app_assoc. reflexivity.
Qed.
(** ** white space and solid text behind a token *)
Lemma left_spaced err t L k u R w v : lex err t = L ++ (k, u) :: R -> Forall query_token (L ++ [(k, u)]) -> not_fused (L ++ [(k, u)]) -> trivial (k, u) = false -> w <> [] -> forallb ws_char w = true -> opens_solid v ->
  lex err (flat_map snd (L ++ [(k, u)]) ++ w ++ v) = (L ++ [(k, u)]) ++ (K_WHITESPACE, w) :: lex err v.
Proof.
  intros E F NF T Nw Fw O. pose proof (lex_ws err w v Nw Fw (opens_solid_ws _ O)) as Lw.
  assert (Ob : opens_blank (w ++ v)) by (destruct w as [|c w]; [congruence|]; cbn [forallb] in Fw; apply andb_true_iff in Fw as [Fw _]; exact Fw).
  apply Forall_app in F as F2. destruct F2 as [F1 F2]. inversion F2 as [|? ? Fx _]; subst. destruct (query_token_known _ Fx) as (N1 & N2 & N3). cbn [fst] in *.
  pose proof (munch _ _ _ _ _ _ E N1) as Lx.
  refine (eq_trans (lex_insert err t L (k, u) R (w ++ v) E _ _ _ _) _).
  5: { rewrite Lw, <- app_assoc. reflexivity. }
  - eapply Forall_impl; [|exact F]. intros l Hl. apply (query_token_known _ Hl).
  - exact NF.
  - exact Ob.
  - destruct (kind_in k extensible) eqn:X; [|eapply ends_before_blank; [exact Lx|intros H; apply kind_in_In in H; congruence|exact Ob]].
    apply kind_in_In in X. cbn in X. destruct X as [<-|[<-|[<-|[<-|[<-|[<-|[]]]]]]]; try congruence; try discriminate T.
    + split; [|discriminate]. cbn [fst snd]. destruct (munched _ _ _ _ _ _ E N1) as (r & wb & Hin & Mu & _). pose proof (paren_rule _ _ Hin) as [-> ->]. apply chr_inv in Mu. subst u.
      apply (opens_bracket 40 41); [left; reflexivity|exact Hin|exact Nw|exact Fw|]. destruct O as [_ [O|(u' & c & r' & O & O1 & O2 & O3 & O4)]]; [left; exact O|right; exists u', c, r'; auto].
    + split; [|discriminate]. cbn [fst snd]. destruct (munched _ _ _ _ _ _ E N1) as (r & wb & Hin & Mu & _). pose proof (brack_rule _ _ Hin) as [-> ->]. apply chr_inv in Mu. subst u.
      apply (opens_bracket 91 93); [right; reflexivity|exact Hin|exact Nw|exact Fw|]. destruct O as [_ [O|(u' & c & r' & O & O1 & O2 & O3 & O4)]]; [left; exact O|right; exists u', c, r'; auto].
Qed.
(** ** tokens on their own *)
Lemma token_alone err t k w : In (k, w) (lex err t) -> k <> K_Error -> ~ In k extensible -> one_token k w.
Proof.
  intros H N X err'. apply in_split in H as (l1 & l2 & E). pose proof (munch _ _ _ _ _ _ E N) as L. destruct (munched _ _ _ _ _ _ E N) as (_ & _ & _ & _ & Nw).
  destruct (ends_before_blank _ _ _ [] L X I) as [L' _]. cbn [fst snd] in L'. pose proof (lex_one err' k w [] L' Nw) as R. rewrite app_nil_r in R. exact R.
Qed.
Definition never_longer (x : kind * re * bool) : bool := disjoint_re (Cat (Chr 125) (Cat top (Star top))) (snd (fst x)).
Lemma curly_checked : forallb never_longer lexer_rules = true.
Proof. vm_compute. reflexivity. Qed.
Lemma curly_each x : In x lexer_rules -> never_longer x = true.
Proof. exact (proj1 (forallb_forall never_longer lexer_rules) curly_checked x). Qed.
Lemma never_longer_sound x w : never_longer x = true -> matches (Cat (Chr 125) (Cat top (Star top))) w -> matches (snd (fst x)) w -> False.
Proof. unfold never_longer. intros H. eapply disjoint_re_sound. exact H. Qed.
Lemma curly_rule : In (K_RCurly, Chr 125, false) lexer_rules.
Proof. assert (existsb (fun x => kind_eqb (fst (fst x)) K_RCurly && re_eqb (snd (fst x)) (Chr 125) && negb (snd x)) lexer_rules = true) as H by (vm_compute; reflexivity). apply existsb_exists in H as ([[k r] wb] & Hin & H). cbn [fst snd] in H.
  apply andb_true_iff in H as [H Hb]. apply andb_true_iff in H as [Hk Hr]. apply kind_eqb_eq in Hk. apply re_eqb_eq in Hr. subst. destruct wb; [discriminate|exact Hin]. Qed.
Lemma lex_curly err v : lex err (125%N :: v) = (K_RCurly, [125%N]) :: lex err v.
Proof.
  apply (lex_one err K_RCurly [125%N] v); [|discriminate]. apply longest_rule_some. split; [eapply (some_match_intro K_RCurly (Chr 125) false [125%N] v); [exact curly_rule|constructor; reflexivity|discriminate]|].
  intros k' m Hm. destruct (some_match_elim _ _ _ Hm) as (r' & wb' & z & y & Hin' & Ez & Lz & Mz & _). subst m. destruct z as [|c z]; [cbn; lia|]. cbn [app] in Ez. injection Ez as <- Ez. destruct z as [|d z]; [cbn; lia|exfalso].
  refine (never_longer_sound _ _ (curly_each _ Hin') _ Mz). destruct (rule_ok _ _ _ Hin') as [B _]. pose proof (bounded_ok _ _ Mz B) as S. inversion S as [|? ? _ S1]; subst. inversion S1 as [|? ? Sd S2]; subst.
  change (125%N :: d :: z) with ([125%N] ++ [d] ++ z). constructor; [constructor; reflexivity|]. constructor; [|apply top_star, S2]. constructor. cbn. unfold small in Sd. apply N.leb_le in Sd. rewrite Sd. destruct d; reflexivity.
Qed.
(** ** indentation *)
(** every line but the first moves to the right by twice [n] *)
Definition indented (n : nat) (w : text) : text := flat_map (fun c => c :: (if N.eqb c NL then spaces n ++ spaces n else [])) w.
Definition deepen (n : nat) (l : lexeme) : lexeme := (fst l, indented n (snd l)).
Lemma indented_same n w : ~ In NL w -> indented n w = w.
Proof. induction w as [|c w IH]; intros H; [reflexivity|]. unfold indented. cbn [flat_map]. destruct (N.eqb_spec c NL) as [->|_]; [exfalso; apply H; left; reflexivity|]. cbn [app]. f_equal. apply IH. intros J. apply H. right. exact J. Qed.
Lemma indented_app n a b : indented n (a ++ b) = indented n a ++ indented n b.
Proof. apply flat_map_app. Qed.
Lemma tabs_spaces n : tabs (spaces n).
Proof. unfold tabs, spaces. induction n; [reflexivity|exact IHn]. Qed.
Lemma tabs_app a b : tabs a -> tabs b -> tabs (a ++ b).
Proof. unfold tabs. intros. rewrite forallb_app. apply andb_true_iff. auto. Qed.
Lemma indented_respaced n w : respaced w (indented n w).
Proof.
  induction w as [|c w IH]; [constructor|]. unfold indented. cbn [flat_map]. fold (indented n w). destruct (N.eqb_spec c NL) as [->|_]; [|cbn [app]; constructor; exact IH].
  exact (resp_nl [] (spaces n ++ spaces n) w (indented n w) eq_refl (tabs_app _ _ (tabs_spaces n) (tabs_spaces n)) IH).
Qed.
Lemma deepen_text n M : flat_map snd (map (deepen n) M) = indented n (flat_map snd M).
Proof. induction M as [|l M IH]; [reflexivity|]. cbn [map flat_map]. rewrite indented_app, IH. reflexivity. Qed.
Lemma deepen_lay n M R : Forall (fun l => In NL (snd l) -> blank_inside (fst l)) M -> (forall b, lay b R R) -> forall b, lay b (M ++ R) (map (deepen n) M ++ R).
Proof.
  intros F HR. induction F as [|[k w] M H F IH]; intros b; [apply HR|]. cbn [map app]. unfold deepen at 1. cbn [fst snd] in *. destruct (in_dec N.eq_dec NL w) as [J|J].
  - apply lay_inner; [apply H, J|apply indented_respaced|apply IH].
  - rewrite (indented_same _ _ J). apply lay_same, IH.
Qed.
Lemma lay_refl R : forall b, lay b R R.
Proof. induction R as [|[k w] R IH]; intros b; [constructor|apply lay_same, IH]. Qed.
Lemma lex_indented err n M v : lex err (flat_map snd M ++ v) = M ++ lex err v -> Forall (fun l => fst l <> K_Error) (M ++ lex err v) -> Forall (fun l => In NL (snd l) -> blank_inside (fst l)) M ->
  lex err (indented n (flat_map snd M) ++ v) = map (deepen n) M ++ lex err v.
Proof.
  intros E F H. pose proof (lex_lay err (flat_map snd M ++ v) false (map (deepen n) M ++ lex err v)) as L. rewrite E in L. destruct (L F (deepen_lay n M _ H (lay_refl _) false)) as [_ R].
  rewrite flat_map_app, deepen_text in R. refine (eq_trans (f_equal (lex err) _) R). f_equal. symmetry. exact (lex_text err v).
Qed.
(** ** the edits *)
Fixpoint feeds (off : nat) (w : text) : list nat := match w with [] => [] | c :: w => (if N.eqb c NL then [S off] else []) ++ feeds (S off) w end.
Definition put_in (w : text) (i : nat) : cedit := mkcedit i i w.
Lemma feeds_range w : forall off i, In i (feeds off w) -> off < i <= off + length w.
Proof. induction w as [|c w IH]; intros off i H; [destruct H|]. cbn [feeds length] in *. apply in_app_iff in H as [H|H]; [destruct (N.eqb c NL); [destruct H as [<-|[]]; lia|destruct H]|]. apply IH in H. lia. Qed.
Lemma feeds_solid a c off i : c <> NL -> In i (feeds off (a ++ [c])) -> i < off + length (a ++ [c]).
Proof.
  intros N. revert off. induction a as [|d a IH]; intros off H; cbn [app feeds length] in *.
  - destruct (N.eqb_spec c NL); [congruence|]. destruct H.
  - apply in_app_iff in H as [H|H]; [|apply IH in H; lia]. destruct (N.eqb d NL); [|destruct H]. destruct H as [<-|[]]. rewrite app_length. cbn. lia.
Qed.
Lemma feeds_sorted w : forall off, StronglySorted lt (feeds off w).
Proof. induction w as [|c w IH]; intros off; [constructor|]. cbn [feeds]. destruct (N.eqb c NL); [|apply IH]. constructor; [apply IH|]. apply Forall_forall. intros i H. apply feeds_range in H. lia. Qed.
Lemma splice_step off c t cs : Forall (fun e => off < ci e /\ ci e <= cj e) cs -> splice off (c :: t) cs = c :: splice (S off) t cs.
Proof.
  destruct 1 as [|e cs [H1 H2] _]; [reflexivity|]. cbn [splice]. replace (ci e - off) with (S (ci e - S off)) by lia. replace (cj e - off) with (S (cj e - S off)) by lia. reflexivity.
Qed.
Lemma splice_feeds n cl V w : forall off, splice off (w ++ V) (map (put_in (spaces n ++ spaces n)) (feeds off w) ++ [put_in cl (off + length w)]) = indented n w ++ cl ++ V.
Proof.
  induction w as [|c w IH]; intros off.
  - cbn [feeds map app splice put_in ci cj cnew length]. rewrite Nat.add_0_r, Nat.sub_diag. reflexivity.
  - change ((c :: w) ++ V) with (c :: (w ++ V)). rewrite splice_step.
    2: { apply Forall_app. split; [|constructor; [cbn; lia|constructor]]. apply Forall_forall. intros e H. apply in_map_iff in H as (i & <- & H). apply feeds_range in H. cbn. lia. }
    unfold indented. cbn [flat_map feeds length]. fold (indented n w). specialize (IH (S off)). replace (S off + length w) with (off + S (length w)) in IH by lia. destruct (N.eqb c NL); cbn [app map]; [|f_equal; exact IH].
    f_equal. cbn [splice put_in ci cj cnew]. rewrite Nat.sub_diag. cbn [firstn skipn app]. rewrite <- app_assoc. rewrite IH, !app_assoc. reflexivity.
Qed.
Lemma insertion_denotes a b w : exists e, insertion (a ++ b) (byte_len a) w = Some e /\ edit_denotes (a ++ b) e (put_in w (length a)).
Proof.
  unfold insertion. rewrite from_byte_index_boundary. eexists. split; [reflexivity|]. unfold edit_denotes. cbn [put_in ci cj cnew erange rstart rend new_text]. rewrite firstn_exact, app_length. split; [lia|auto].
Qed.
Lemma indent_edits_ok A V ind w2 : forall w1, exists es, indent_edits (A ++ w1 ++ w2 ++ V) ind (map (fun idx => byte_len A + (idx + 1)) (line_feeds (byte_len w1) w2)) = VDone es /\
  Forall2 (edit_denotes (A ++ w1 ++ w2 ++ V)) es (map (put_in ind) (feeds (length (A ++ w1)) w2)).
Proof.
  induction w2 as [|c w2 IH]; intros w1; [exists []; split; [reflexivity|constructor]|]. cbn [line_feeds feeds].
  specialize (IH (w1 ++ [c])). rewrite byte_len_app in IH. replace (A ++ (w1 ++ [c]) ++ w2 ++ V) with (A ++ w1 ++ (c :: w2) ++ V) in IH by (rewrite <- app_assoc; reflexivity). destruct IH as (es & E & F).
  replace (length (A ++ w1 ++ [c])) with (S (length (A ++ w1))) in F by (rewrite !app_length; cbn; lia). destruct (N.eqb_spec c NL) as [->|_]; [|exists es; auto].
  destruct (insertion_denotes (A ++ w1 ++ [NL]) (w2 ++ V) ind) as (e & Ee & De). replace ((A ++ w1 ++ [NL]) ++ w2 ++ V) with (A ++ w1 ++ (NL :: w2) ++ V) in Ee, De by (rewrite <- !app_assoc; reflexivity).
  replace (byte_len (A ++ w1 ++ [NL])) with (byte_len A + (byte_len w1 + 1)) in Ee by (rewrite !byte_len_app; reflexivity). replace (length (A ++ w1 ++ [NL])) with (S (length (A ++ w1))) in De by (rewrite !app_length; cbn; lia).
  exists (e :: es). cbn [app] in Ee, De, E, F |- *. cbn [map app indent_edits]. rewrite Ee, E. split; [reflexivity|]. constructor; [exact De|exact F].
Qed.
Lemma edits_sub A w V n op cl c0 w0 : w = w0 ++ [c0] -> c0 <> NL -> exists first inner last, insertion (A ++ w ++ V) (byte_len A) op = Some first /\ insertion (A ++ w ++ V) (byte_len (A ++ w)) cl = Some last /\
  indent_edits (A ++ w ++ V) (spaces n ++ spaces n) (map (fun idx => byte_len A + (idx + 1)) (line_feeds 0 w)) = VDone inner /\ all_edited (A ++ w ++ V) (last :: inner ++ [first]) (A ++ op ++ indented n w ++ cl ++ V).
Proof.
  intros Ew Nc. destruct (insertion_denotes A (w ++ V) op) as (first & E1 & D1). destruct (insertion_denotes (A ++ w) V cl) as (last & E2 & D2). rewrite <- app_assoc in E2, D2. destruct (indent_edits_ok A V (spaces n ++ spaces n) w []) as (inner & E3 & F3). cbn [app byte_len] in E3, F3. rewrite app_nil_r in F3.
  exists first, inner, last. split; [exact E1|]. split; [exact E2|]. split; [exact E3|].
  exists (first :: inner ++ [last]), (put_in op (length A) :: map (put_in (spaces n ++ spaces n)) (feeds (length A) w) ++ [put_in cl (length A + length w)]). rewrite app_length in D2. split; [|split; [|split]].
  - transitivity (last :: first :: inner); [constructor; symmetry; apply Permutation_cons_append|]. rewrite perm_swap. constructor. apply Permutation_cons_append.
  - constructor; [exact D1|]. apply Forall2_app; [exact F3|]. constructor; [exact D2|constructor].
  - assert (Lw : 0 < length w) by (rewrite Ew, app_length; cbn; lia).
    assert (B : forall i, In i (feeds (length A) w) -> i < length A + length w) by (intros i Hi; rewrite Ew in *; apply feeds_solid; assumption).
    apply SSorted_cons.
    + pose proof (feeds_sorted w (length A)) as S1. clear -S1 B. induction S1 as [|i l S1 IH Hl]; cbn [map app]; [apply SSorted_cons; [apply SSorted_nil|constructor]|].
      apply SSorted_cons; [apply IH; intros j Hj; apply B; right; exact Hj|]. apply Forall_app. split; [|constructor; [|constructor]].
      * apply Forall_forall. intros e He. apply in_map_iff in He as (j & <- & Hj). pose proof (proj1 (Forall_forall _ _) Hl j Hj). unfold before. cbn. lia.
      * specialize (B i (or_introl eq_refl)). unfold before. cbn. lia.
    + apply Forall_app. split; [|constructor; [unfold before; cbn; lia|constructor]]. apply Forall_forall. intros e He. apply in_map_iff in He as (j & <- & Hj). apply feeds_range in Hj. unfold before. cbn. lia.
  - cbn [splice put_in ci cj cnew]. rewrite Nat.sub_0_r, firstn_exact, skipn_exact. f_equal. f_equal. symmetry. apply splice_feeds.
Qed.
(** ** the element at a range *)
Lemma covering_child from to f : forall cs i off j c, nth_error cs j = Some c -> off + byte_len (flat_map tree_text (firstn j cs)) < to \/ j = 0 ->
  off + byte_len (flat_map tree_text (firstn j cs)) <= from -> to <= off + byte_len (flat_map tree_text (firstn j cs)) + byte_len (tree_text c) ->
  (fix go (i off : nat) (cs : list tree) : path :=
      match cs with
      | [] => []
      | c :: cs => let stop := off + byte_len (tree_text c) in
                   if (off <=? from) && (to <=? stop) then i :: f off c else go (S i) stop cs
      end) i off cs = (i + j) :: f (off + byte_len (flat_map tree_text (firstn j cs))) c.
Proof.
  induction cs as [|d cs IH]; intros i off j c E L H1 H2; [destruct j; discriminate|]. destruct j as [|j].
  - injection E as ->. cbn [firstn flat_map byte_len] in *. rewrite ?Nat.add_0_r in *. rewrite (proj2 (Nat.leb_le _ _) H1), (proj2 (Nat.leb_le _ _) H2). cbn [andb]. rewrite ?Nat.add_0_r. reflexivity.
  - destruct L as [L|L]; [|discriminate]. cbn [nth_error] in E. cbn [firstn flat_map] in *. rewrite byte_len_app in *. cbv zeta. rewrite (proj2 (Nat.leb_gt to _)) by lia. rewrite andb_false_r.
    rewrite (IH (S i) (off + byte_len (tree_text d)) j c E) by lia. f_equal; [lia|]. f_equal. lia.
Qed.
Lemma covering_at x : forall off p y a b, at_path x p = Some y -> off + start_at x p <= a -> b <= off + start_at x p + byte_len (tree_text y) -> off + start_at x p < b \/ Forall (eq 0) p ->
  (forall k cs j c, y = Node k cs -> nth_error cs j = Some c -> off + start_at x p + byte_len (flat_map tree_text (firstn j cs)) <= a -> b <= off + start_at x p + byte_len (flat_map tree_text (firstn j cs)) + byte_len (tree_text c) -> False) ->
  covering off a b x = p.
Proof.
  induction x as [k0 w|k0 ds IH] using tree_ind'; intros off [|i p] y a b E H1 H2 L H; cbn [at_path] in E; try discriminate; [reflexivity| |].
  - injection E as <-. cbn [covering start_at] in *. rewrite Nat.add_0_r in *. apply (covering_none a b (fun o c => covering o a b c)). intros j c Ej. exact (H k0 ds j c eq_refl Ej).
  - destruct (nth_error ds i) as [c|] eqn:C; [|discriminate]. cbn [covering start_at] in *. rewrite C in *. set (s := byte_len (flat_map tree_text (firstn i ds))) in *.
    assert (Le : start_at c p + byte_len (tree_text y) <= byte_len (tree_text c)). { destruct (node_slice _ _ _ E) as (u & v & T & B & _). rewrite T. rewrite !byte_len_app, B. lia. }
    refine (eq_trans (covering_child a b (fun o c => covering o a b c) ds 0 off i c C _ _ _) _); fold s; [destruct L as [L|L]; [left; lia|right; inversion L; congruence]|lia|lia|]. cbn [Nat.add]. f_equal.
    apply (nth_error_Forall _ _ _ _ IH C (off + s) p y a b E); [lia|lia|destruct L as [L|L]; [left; lia|right; inversion L; assumption]|]. intros k cs j d Ek Ej J1 J2. apply (H k cs j d Ek Ej); lia.
Qed.
(** nothing before an element: it is first at every level *)
Lemma all_first err t x : doc_tree err t x -> forall p y, at_path x p = Some y -> leaves_before x p = [] -> Forall (eq 0) p.
Proof.
  intros D. assert (G : forall p q z y, at_path x q = Some z -> at_path z p = Some y -> leaves_before z p = [] -> Forall (eq 0) p).
  { induction p as [|i p IH]; intros q z y Eq E H; [constructor|]. destruct z as [k w|k cs]; [discriminate|]. cbn [at_path leaves_before] in *. destruct (nth_error cs i) as [c|] eqn:C; [|discriminate].
    apply app_eq_nil in H as [H1 H2]. destruct i as [|i]; [|exfalso].
    - constructor; [reflexivity|]. refine (IH (q ++ [0]) c y _ E H2). rewrite (AstFacts.at_child _ _ _ _ _ Eq). exact C.
    - destruct cs as [|d cs]; [cbn in C; discriminate C|]. cbn [firstn flat_map] in H1. apply app_eq_nil in H1 as [H1 _]. assert (Ed : at_path x (q ++ [0]) = Some d) by (rewrite (AstFacts.at_child _ _ _ _ _ Eq); reflexivity).
      destruct d as [k' w'|k' ds]; [discriminate H1|]. destruct (leads_leaf _ _ _ _ _ _ D (fun J : q ++ [0] = [] => app_cons_not_nil q [] 0 (eq_sym J)) Ed) as (l & ls & El & _). congruence. }
  intros p y E H. exact (G p [] x y eq_refl E H).
Qed.
(** bytes before an element *)
Lemma before_bytes x : forall p y, at_path x p = Some y -> start_at x p = byte_len (flat_map snd (leaves_before x p)).
Proof.
  induction x as [k w|k cs IH] using tree_ind'; intros [|i p] y E; cbn [at_path] in E; try discriminate; try reflexivity.
  destruct (nth_error cs i) as [c|] eqn:C; [|discriminate]. cbn [leaves_before start_at]. rewrite C, flat_map_app, byte_len_app. f_equal; [|exact (nth_error_Forall _ _ _ _ IH C _ _ E)].
  f_equal. clear. induction (firstn i cs) as [|d l IHl]; [reflexivity|]. cbn [flat_map]. rewrite flat_map_app, IHl, leaves_text. reflexivity.
Qed.
(** ** what opens and closes the new query *)
Lemma spaces_ws n : forallb ws_char (spaces n) = true.
Proof. unfold spaces. induction n; [reflexivity|exact IHn]. Qed.
Lemma tokens_joined err v : opens_blank v -> forall ls, Forall (fun l => one_token (fst l) (snd l) /\ fst l <> K_Error /\ ~ In (fst l) extensible) ls -> tokens err (joined (map snd ls) ++ v) = ls ++ tokens err v.
Proof.
  intros O. induction 1 as [|[k w] ls (H1 & H2 & H3) F IH]; [reflexivity|]. cbn [fst snd] in *. destruct ls as [|l ls].
  - cbn [map joined app]. apply tokens_first; assumption.
  - change (joined (map snd ((k, w) :: l :: ls))) with (w ++ 32%N :: joined (map snd (l :: ls))). rewrite <- app_assoc. change ((32%N :: joined (map snd (l :: ls))) ++ v) with ([32%N] ++ joined (map snd (l :: ls)) ++ v).
    rewrite (tokens_first err k w _ H1 H2 H3) by reflexivity. rewrite (tokens_ws err [32%N] _ eq_refl), IH. reflexivity.
Qed.
Definition open_tokens (ls : list lexeme) : list lexeme := (K_SELECT, chars "SELECT") :: ls ++ [(K_WHERE, chars "WHERE"); (K_LCurly, chars "{"); (K_LCurly, chars "{")].
Lemma tokens_opening err n ls v : Forall (fun l => one_token (fst l) (snd l) /\ fst l <> K_Error /\ ~ In (fst l) extensible) ls -> match v with c :: _ => ws_char c = false | [] => True end ->
  tokens err (opening_text n (joined (map snd ls)) ++ v) = open_tokens ls ++ tokens err v.
Proof.
  intros F Hv. unfold opening_text, open_tokens. set (sel := joined (map snd ls)).
  assert (K : forall k w u, lex (fun _ => 0) w = [(k, w)] -> (forall err, lex err w = [(k, w)]) -> kind_in k (K_Error :: extensible) = false -> opens_blank u -> tokens err (w ++ u) = (k, w) :: tokens err u).
  { intros k w u _ H X Ou. assert (X' : ~ In k (K_Error :: extensible)) by (intros J; apply kind_in_In in J; congruence). apply tokens_first; [exact H|intros ->; apply X'; left; reflexivity|intros J; apply X'; right; exact J|exact Ou]. }
  assert (B : forall u, tokens err (32%N :: u) = tokens err u) by (intros u; exact (tokens_ws err [32%N] u eq_refl)).
  assert (B1 : forall u, tokens err (NL :: spaces n ++ u) = tokens err u) by (intros u; exact (tokens_ws err (NL :: spaces n) u (spaces_ws n))).
  assert (B2 : forall u, tokens err (NL :: (spaces n ++ spaces n) ++ u) = tokens err u) by (intros u; apply (tokens_ws err (NL :: spaces n ++ spaces n) u); cbn [forallb]; rewrite forallb_app, (spaces_ws n); reflexivity).
  rewrite <- !app_assoc. change (chars "SELECT ") with (chars "SELECT" ++ [32%N]). rewrite <- app_assoc. rewrite (K K_SELECT (chars "SELECT") _ eq_refl ltac:(intros; reflexivity) eq_refl) by reflexivity. cbn [app]. rewrite B.
  change (chars " WHERE {") with (32%N :: chars "WHERE" ++ 32%N :: chars "{"). cbn [app]. rewrite <- !app_assoc. unfold sel. rewrite tokens_joined by (reflexivity || exact F). rewrite B.
  rewrite (K K_WHERE (chars "WHERE") _ eq_refl ltac:(intros; reflexivity) eq_refl) by reflexivity. cbn [app]. rewrite B.
  rewrite (K K_LCurly (chars "{") _ eq_refl ltac:(intros; reflexivity) eq_refl) by reflexivity. rewrite B1.
  rewrite (K K_LCurly (chars "{") _ eq_refl ltac:(intros; reflexivity) eq_refl) by reflexivity. rewrite B2. reflexivity.
Qed.
