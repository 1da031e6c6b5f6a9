(** Taking a declaration out of the text: the tokens that are left. *)
From Coq Require Import String List Arith NArith Bool Lia Sorted.
Import ListNotations.
From Verif Require Import ServerModel Kinds KindFacts ParserSyntax ParserModel GrammarData ParserTree ParserTerm ParserBuild ParserSpec ParserChecks ParserOutcome ParserProps
  TextModel TextSpec TextProofs Utf8Model LexerRegex LexerData LexerModel LexerProofs LexerSpec LexerProps FormatData FormatModel FormatTree FormatText FormatParse FormatWeave
  TreeModel TreePlace TreeShape TreeRename VarModel VarSpec VarRegions VarDoc LexRename VarProps DiagModel DiagSpec AstFacts DiagFacts DiagGroup LexLayout DiagProps OnTypeProofs OnTypeProps LayoutProps LexInsert PrologueRun PrologueSwap QuickFixModel QuickFixFacts CoverFacts.

(** ** the characters at the ends of tokens *)
Definition unblank : re := Cls [(0, 8); (11, 11); (14, 31); (33, 1114111)]%N.
Definition ends_solid (x : kind * re * bool) : bool := kind_eqb (fst (fst x)) K_WHITESPACE || kind_eqb (fst (fst x)) K_Comment || included (snd (fst x)) (Cat (Star top) unblank).
Lemma ends_solid_checked : forallb ends_solid lexer_rules = true.
Proof. vm_cast_no_check (eq_refl true). Qed.
Definition letters : list (N * N) := [(65, 90); (97, 122)]%N.
Definition opens_letter (x : kind * re * bool) : bool := negb (kind_in (fst (fst x)) [K_BASE; K_PREFIX; K_VERSION]) || included (snd (fst x)) (Cat (Cls letters) (Star top)).
Lemma opens_letter_checked : forallb opens_letter lexer_rules = true.
Proof. vm_cast_no_check (eq_refl true). Qed.
Lemma munch err t l1 k w l2 : lex err t = l1 ++ (k, w) :: l2 -> k <> K_Error -> longest_rule lexer_rules (w ++ flat_map snd l2) = Some (k, length w).
Proof. intros E N. apply (lex_first err); [|exact N]. eapply lex_suffix, E. Qed.
Lemma munched err t l1 k w l2 : lex err t = l1 ++ (k, w) :: l2 -> k <> K_Error -> exists r wb, In (k, r, wb) lexer_rules /\ matches r w /\ w <> [].
Proof. intros E N. eapply token_rule, munch; eassumption. Qed.
Lemma munch_end err t l1 k w l2 r c v : lex err t = l1 ++ (k, w) :: l2 -> k <> K_Error -> flat_map snd l2 = c :: v -> In (k, r, false) lexer_rules -> matches r (w ++ [c]) -> False.
Proof.
  intros E N Ev Hin M. pose proof (munch _ _ _ _ _ _ E N) as L. apply longest_rule_some in L as [_ L]. rewrite Ev in L. change (w ++ c :: v) with (w ++ [c] ++ v) in L. rewrite app_assoc in L.
  specialize (L k (length (w ++ [c]))). rewrite app_length in L. cbn [length] in L. assert (length w + 1 <= length w); [|lia]. apply L. replace (length w + 1) with (length (w ++ [c])) by (rewrite app_length; reflexivity). eapply some_match_intro; [exact Hin|exact M|discriminate].
Qed.
Lemma unblank_not c : matches unblank [c] -> ws_char c = false.
Proof.
  intros M. inversion M as [|d rs H| | | | |]; subst. rewrite !in_class_cons, in_class_nil in H. destruct (ws_char c) eqn:W; [|reflexivity]. apply blank_in in W. unfold blank_chars in W. cbn [In] in W. exfalso. lia.
Qed.
Lemma rule_ends k r wb : In (k, r, wb) lexer_rules -> kind_eqb k K_WHITESPACE || kind_eqb k K_Comment || included r (Cat (Star top) unblank) = true.
Proof. intros Hin. exact (proj1 (forallb_forall ends_solid lexer_rules) ends_solid_checked _ Hin). Qed.
Lemma unblank_end w : matches (Cat (Star top) unblank) w -> exists a c, w = a ++ [c] /\ ws_char c = false.
Proof. intros M. apply cat_split in M as (a & b & -> & _ & M). inversion M as [|c rs H| | | | |]; subst. exists a, c. split; [reflexivity|]. apply unblank_not. exact M. Qed.
Lemma token_end err t l1 k w l2 : lex err t = l1 ++ (k, w) :: l2 -> k <> K_Error -> k <> K_WHITESPACE -> k <> K_Comment -> exists a c, w = a ++ [c] /\ ws_char c = false.
Proof.
  intros E N N1 N2. destruct (munched _ _ _ _ _ _ E N) as (r & wb & Hin & M & _). pose proof (rule_ends _ _ _ Hin) as C. apply unblank_end. apply (included_sound r); [|exact M].
  apply orb_true_iff in C as [C|C]; [|exact C]. apply orb_true_iff in C as [C|C]; apply kind_eqb_eq in C; congruence.
Qed.
Lemma ws_token err t l1 w l2 : lex err t = l1 ++ (K_WHITESPACE, w) :: l2 -> w <> [] /\ forallb ws_char w = true /\ match flat_map snd l2 with c :: _ => ws_char c = false | [] => True end.
Proof.
  intros E. destruct (munched _ _ _ _ _ _ E) as (r & wb & Hin & M & Ne); [discriminate|]. split; [exact Ne|]. apply ws_rule_re in Hin as Hr. destruct Hr as [-> ->]. split; [apply ws_re_iff, M|].
  destruct (flat_map snd l2) as [|c v] eqn:Ev; [exact I|]. destruct (ws_char c) eqn:W; [|reflexivity]. exfalso. eapply (munch_end _ _ _ _ _ _ _ _ _ E); [discriminate|exact Ev|exact Hin|]. apply ws_re_iff in M as [_ M]. apply ws_re_iff. split; [destruct w; discriminate|]. rewrite forallb_app, M. cbn [forallb]. rewrite W. reflexivity.
Qed.
Lemma comment_token err t l1 w l2 : lex err t = l1 ++ (K_Comment, w) :: l2 -> (exists a, w = 35%N :: a /\ forallb (fun c => in_class c comment_class) a = true) /\ match flat_map snd l2 with c :: _ => c = 10%N \/ c = 13%N \/ (1114111 < c)%N | [] => True end.
Proof.
  intros E. destruct (munched _ _ _ _ _ _ E) as (r & wb & Hin & M & Ne); [discriminate|]. pose proof (comment_only _ _ Hin) as ->. apply comment_iff in M as (a & -> & F). split; [eauto|].
  destruct (flat_map snd l2) as [|c v] eqn:Ev; [exact I|]. destruct (in_class c comment_class) eqn:W.
  - exfalso. eapply (munch_end _ _ _ _ _ _ _ _ _ E); [discriminate|exact Ev|exact comment_in|]. apply comment_iff. exists (a ++ [c]). split; [reflexivity|]. rewrite forallb_app. apply andb_true_intro. split; [exact F|]. cbn [forallb]. rewrite W. reflexivity.
  - destruct (N.eq_dec c 10) as [?|N1]; [auto|]. destruct (N.eq_dec c 13) as [?|N2]; [auto|]. right. right. destruct (N.ltb_spec 1114111 c) as [H|H]; [exact H|]. exfalso. assert (in_class c comment_class = true); [|congruence]. unfold comment_class. rewrite !in_class_cons, in_class_nil. lia.
Qed.
(** a boundary between tokens is not in the middle of a line break *)
Lemma crlf_boundary err t l1 k w l2 u v : lex err t = l1 ++ (k, w) :: l2 -> k <> K_Error -> flat_map snd (l1 ++ [(k, w)]) = u ++ [CR] -> flat_map snd l2 = NL :: v -> False.
Proof.
  intros E N E1 E2. rewrite flat_map_app in E1. cbn [flat_map snd] in E1. rewrite app_nil_r in E1. assert (exists a, w = a ++ [CR]) as [a ->].
  { destruct (munched _ _ _ _ _ _ E N) as (_ & _ & _ & _ & Ne). destruct w as [|c w _] using rev_ind; [congruence|]. rewrite app_assoc in E1. apply app_inj_tail in E1 as [_ ->]. eauto. }
  destruct (kind_eqb_spec k K_WHITESPACE) as [->|N1].
  { destruct (ws_token _ _ _ _ _ E) as (_ & _ & H). rewrite E2 in H. discriminate. }
  destruct (kind_eqb_spec k K_Comment) as [->|N2].
  { destruct (comment_token _ _ _ _ _ E) as ((b & Eb & F) & _). destruct a as [|c a]; [discriminate|]. injection Eb as _ <-. rewrite forallb_app in F. apply andb_true_iff in F as [_ F]. discriminate. }
  destruct (token_end _ _ _ _ _ _ E N N1 N2) as (b & c & Eb & W). apply app_inj_tail in Eb as [_ <-]. discriminate.
Qed.
(** ** the tokens of declarations *)
Definition decl_kinds : list kind := [K_BASE; K_PREFIX; K_VERSION; K_PNAME_NS; K_IRIREF; K_STRING_LITERAL1; K_STRING_LITERAL2].
Lemma decl_in dl y l : declaration dl y -> In l dl -> In (fst l) decl_kinds.
Proof. intros [a b|a b c|k a b [-> | ->]] H; cbn [In] in H; destruct H as [<-|[<-|H]]; try (destruct H as [<-|[]]); try destruct H; cbn; tauto. Qed.
Lemma decls_in DLs ys l : Forall2 declaration DLs ys -> In l (concat DLs) -> In (fst l) decl_kinds.
Proof. induction 1 as [|dl y DLs ys H _ IH]; [intros []|]. cbn [concat]. rewrite in_app_iff. intros [K|K]; [eapply decl_in; eassumption|auto]. Qed.
Lemma decl_first dl y : declaration dl y -> exists k w r, dl = (k, w) :: r /\ In k [K_BASE; K_PREFIX; K_VERSION].
Proof. intros [a b|a b c|k a b _]; eexists _, _, _; (split; [reflexivity|cbn; tauto]). Qed.
(** what follows a string is the next declaration *)
Lemma decls_string DLs ys : Forall2 declaration DLs ys -> forall a k w k' w' b, concat DLs = a ++ (k, w) :: (k', w') :: b -> quote_of k <> None -> In k' [K_BASE; K_PREFIX; K_VERSION].
Proof.
  induction 1 as [|dl y DLs ys H F IH]; intros a k w k' w' b E Q; [destruct a; discriminate|]. cbn [concat] in E.
  assert (H' : exists front kl wl, dl = front ++ [(kl, wl)] /\ Forall (fun l => quote_of (fst l) = None) front). { destruct H as [u v|u v c|kk u v K]; [exists [(K_BASE, u)], K_IRIREF, v|exists [(K_PREFIX, u); (K_PNAME_NS, v)], K_IRIREF, c|exists [(K_VERSION, u)], kk, v]; (split; [reflexivity|]); repeat constructor. }
  destruct H' as (front & kl & wl & -> & Ff). rewrite <- app_assoc in E. cbn [app] in E. apply app_eq_app in E as (m & [[E1 E2]|[E1 E2]]).
  - (* the string in the front *) destruct m as [|x m].
    + cbn [app] in E2. injection E2 as -> -> E2. destruct F as [|dl' y' DLs ys H' F]; [discriminate|]. cbn [concat] in E2. destruct (decl_first _ _ H') as (k2 & w2 & r & -> & K). injection E2 as <- _ _. exact K.
    + cbn [app] in E2. injection E2 as <- _. exfalso. rewrite E1 in Ff. apply Forall_app in Ff as [_ Ff]. inversion Ff as [|? ? X _]; subst. cbn in X. congruence.
  - destruct m as [|x m].
    + cbn [app] in E2. injection E2 as <- <- E2. destruct F as [|dl' y' DLs ys H' F]; [discriminate|]. cbn [concat] in E2. destruct (decl_first _ _ H') as (k2 & w2 & r & -> & K). injection E2 as <- _ _. exact K.
    + cbn [app] in E2. injection E2 as _ E2. eapply IH; [exact E2|exact Q].
Qed.
Lemma rule_opens k r wb : In (k, r, wb) lexer_rules -> negb (kind_in k [K_BASE; K_PREFIX; K_VERSION]) || included r (Cat (Cls letters) (Star top)) = true.
Proof. intros Hin. exact (proj1 (forallb_forall opens_letter lexer_rules) opens_letter_checked _ Hin). Qed.
Lemma keyword_head err t l1 k w l2 : lex err t = l1 ++ (k, w) :: l2 -> In k [K_BASE; K_PREFIX; K_VERSION] -> exists c r, w = c :: r /\ in_class c letters = true.
Proof.
  intros E K. assert (k <> K_Error) as N by (intros ->; cbn in K; destruct K as [K|[K|[K|[]]]]; discriminate). destruct (munched _ _ _ _ _ _ E N) as (r & wb & Hin & M & _). pose proof (rule_opens _ _ _ Hin) as C.
  apply orb_true_iff in C as [C|C]; [rewrite (proj2 (kind_in_In _ _) K) in C; discriminate|]. apply (included_sound _ _ C) in M. apply cat_split in M as (a & b & -> & M & _). inversion M as [|c rs H| | | | |]; subst. exists c, b. auto.
Qed.
Lemma not_fused_intro l : (forall a k w k' w' b q, l = a ++ (k, w) :: (k', w') :: b -> quote_of k = Some q -> head w' <> Some q) -> not_fused l.
Proof.
  induction l as [|[k w] l IH]; intros H; [exact I|]. destruct l as [|[k' w'] l]; [exact I|]. split; [intros q; apply (H [] k w k' w' l q eq_refl)|]. apply IH. intros a k0 w0 k1 w1 b q E. apply (H ((k, w) :: a) k0 w0 k1 w1 b q). rewrite E. reflexivity.
Qed.
Lemma sigs_in l L : In l L -> trivial l = false -> In l (sigs L).
Proof. intros H T. unfold sigs. apply filter_In. rewrite T. auto. Qed.
Lemma head_app {A} (a b : list A) : a <> [] -> head (a ++ b) = head a.
Proof. destruct a; [congruence|reflexivity]. Qed.
(** the text of some tokens, from the first of which the text of others has been taken out *)
Lemma tokens_ws err w : forall v, forallb ws_char w = true -> tokens err (w ++ v) = tokens err v.
Proof. induction w as [|c w IH]; intros v F; [reflexivity|]. cbn [forallb] in F. apply andb_true_iff in F as [F1 F2]. cbn [app]. rewrite tokens_blank by exact F1. apply IH, F2. Qed.
Lemma tokens_of err ls : lex err (flat_map snd ls) = ls -> tokens err (flat_map snd ls) = sigs ls.
Proof. intros E. change (tokens err (flat_map snd ls)) with (sigs (lex err (flat_map snd ls))). rewrite E. reflexivity. Qed.
Lemma relex_front err t L1 N V DLs ys : lex err t = L1 ++ N -> Forall2 declaration DLs ys -> sigs L1 = concat DLs -> (L1 = [] \/ exists L0 w, L1 = L0 ++ [(K_WHITESPACE, w)]) ->
  tokens err (flat_map snd L1 ++ V) = sigs L1 ++ tokens err V.
Proof.
  intros E F S1 W. destruct W as [->|(L0 & w & ->)]; [reflexivity|].
  rewrite <- app_assoc in E. cbn [app] in E. destruct (ws_token _ _ _ _ _ E) as (Nw & Fw & _). assert (Sw : sigs [(K_WHITESPACE, w)] = []) by reflexivity. rewrite !PrologueSwap.sigs_app, Sw, app_nil_r in *.
  rewrite flat_map_app. cbn [flat_map snd]. rewrite app_nil_r, <- app_assoc. destruct L0 as [|x L0 _] using rev_ind; [cbn [flat_map app]; rewrite tokens_ws by exact Fw; reflexivity|].
  assert (K : forall l, In l (L0 ++ [x]) -> trivial l = true \/ In (fst l) decl_kinds). { intros l Hl. destruct (trivial l) eqn:T; [auto|]. right. eapply decls_in; [exact F|]. rewrite <- S1. apply sigs_in; assumption. }
  assert (NE : Forall (fun y => fst y <> K_Error) (L0 ++ [x])). { apply Forall_forall. intros [k u] Hl. destruct (K _ Hl) as [T|T]; cbn [fst] in *; intros ->; [discriminate T|cbn in T; repeat destruct T as [T|T]; discriminate || destruct T]. }
  assert (Ox : opens_blank (w ++ V)) by (destruct w as [|c w]; [congruence|]; cbn [forallb] in Fw; apply andb_true_iff in Fw as [Fw _]; exact Fw).
  change (tokens err (flat_map snd (L0 ++ [x]) ++ w ++ V)) with (sigs (lex err (flat_map snd (L0 ++ [x]) ++ w ++ V))).
  pose proof E as Ex. rewrite <- app_assoc in Ex. cbn [app] in Ex.
  rewrite (lex_insert err t L0 x ((K_WHITESPACE, w) :: N)).
  - change (L0 ++ x :: lex err (w ++ V)) with (L0 ++ [x] ++ lex err (w ++ V)). rewrite app_assoc, PrologueSwap.sigs_app. f_equal. change (tokens err (w ++ V) = tokens err V). apply tokens_ws, Fw.
  - exact Ex.
  - exact NE.
  - apply not_fused_intro. intros a k u k' u' b q El Hq. assert (E3 : lex err t = (a ++ (k, u) :: (k', u') :: b) ++ (K_WHITESPACE, w) :: N) by (refine (eq_trans E _); exact (f_equal (fun z => z ++ (K_WHITESPACE, w) :: N) El)). rewrite <- !app_assoc in E3. cbn [app] in E3.
    assert (Hin : In (k', u') (L0 ++ [x])) by (refine (eq_ind_r (fun z => In (k', u') z) _ El); apply in_app_iff; right; right; left; reflexivity).
    assert (E4 : lex err t = (a ++ [(k, u)]) ++ (k', u') :: b ++ (K_WHITESPACE, w) :: N) by (rewrite <- app_assoc; exact E3).
    assert (Tk : trivial (k, u) = false) by (destruct k; try discriminate; reflexivity).
    destruct (trivial (k', u')) eqn:T.
    + destruct (kind_eqb_spec k' K_WHITESPACE) as [->|N1].
      * destruct (ws_token _ _ _ _ _ E4) as (Nu & Fu & _). destruct u' as [|c u']; [congruence|]. cbn [head]. intros X. injection X as ->. cbn [forallb] in Fu. apply andb_true_iff in Fu as [Fu _]. destruct k; try discriminate Hq; injection Hq as <-; discriminate.
      * assert (k' = K_Comment) as -> by (unfold trivial in T; cbn [fst] in T; destruct k'; try discriminate; congruence). destruct (comment_token _ _ _ _ _ E4) as ((c & -> & _) & _). cbn [head]. intros X. injection X as <-. destruct k; discriminate.
    + assert (In k' [K_BASE; K_PREFIX; K_VERSION]) as Kw. { assert (Es : concat DLs = sigs a ++ (k, u) :: (k', u') :: sigs b). { rewrite <- S1. refine (eq_trans (f_equal sigs El) _). change (a ++ (k, u) :: (k', u') :: b) with (a ++ [(k, u)] ++ [(k', u')] ++ b). rewrite !PrologueSwap.sigs_app. f_equal. unfold sigs at 1 2. cbn [filter]. rewrite Tk, T. reflexivity. } eapply (decls_string _ _ F); [exact Es|congruence]. }
      destruct (keyword_head _ _ _ _ _ _ E4 Kw) as (c & r & -> & Hc). cbn [head]. intros X. injection X as ->. destruct k; try discriminate Hq; injection Hq as <-; discriminate.
  - exact Ox.
  - destruct x as [kx wx]. assert (Nx : kx <> K_Error). { apply Forall_app in NE as [_ NE]. inversion NE; subst. assumption. } pose proof (munch _ _ _ _ _ _ Ex Nx) as Mx.
    destruct (kind_eqb_spec kx K_WHITESPACE) as [->|N1].
    { exfalso. destruct (ws_token _ _ _ _ _ Ex) as (_ & _ & H). cbn [flat_map snd] in H. destruct w as [|c w]; [congruence|]. cbn [app] in H. cbn [forallb] in Fw. apply andb_true_iff in Fw as [Fw _]. congruence. }
    destruct (kind_eqb_spec kx K_Comment) as [->|N2].
    { destruct (comment_token _ _ _ _ _ Ex) as (_ & H). cbn [flat_map snd] in H. destruct w as [|c w]; [congruence|]. cbn [app] in H |- *. eapply ends_before_line; [exact Mx|]. cbn [forallb] in Fw. apply andb_true_iff in Fw as [Fw _]. apply blank_in in Fw. unfold blank_chars in Fw. cbn [In] in Fw. lia. }
    eapply ends_before_blank; [exact Mx| |exact Ox]. destruct (K (kx, wx)) as [T|T]; [apply in_app_iff; right; left; reflexivity| |].
    + exfalso. unfold trivial in T. cbn [fst] in T. destruct kx; try discriminate; congruence.
    + cbn [fst] in T. intros X. unfold extensible in X. cbn in T, X. repeat destruct T as [T|T]; subst; repeat destruct X as [X|X]; try discriminate; try destruct X; try destruct T.
Qed.
Lemma relex err t L1 M L2 DLs ys : lex err t = L1 ++ M ++ L2 -> Forall2 declaration DLs ys -> sigs L1 = concat DLs -> (L1 = [] \/ exists L0 w, L1 = L0 ++ [(K_WHITESPACE, w)]) ->
  tokens err (flat_map snd L1 ++ flat_map snd L2) = sigs L1 ++ sigs L2.
Proof.
  intros E F S1 W. rewrite (relex_front _ _ _ _ _ _ _ E F S1 W). f_equal. apply tokens_of. apply (lex_suffix err t (L1 ++ M)). rewrite <- app_assoc. exact E.
Qed.
