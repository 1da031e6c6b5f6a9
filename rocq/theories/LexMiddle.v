(** The tokens before a blank stay the same whatever is written behind the blank, in grammatical queries. *)
From Coq Require Import String List Arith NArith Bool Lia.
Import ListNotations.
From Verif Require Import ServerModel Kinds KindFacts ParserSyntax ParserModel GrammarData ParserTree ParserTerm ParserBuild ParserSpec ParserChecks ParserOutcome ParserProps
  TextModel TextSpec TextProofs Utf8Model LexerRegex LexerData LexerModel LexerProofs LexerSpec LexerProps FormatData FormatModel FormatTree FormatText FormatParse FormatWeave
  TreeModel TreePlace TreeShape TreeRename VarModel VarSpec VarRegions VarDoc LexRename VarProps DiagModel DiagSpec AstFacts DiagFacts DiagGroup DiagRest ParseTreeProps LexLayout DiagProps OnTypeProofs OnTypeProps LayoutProps LexInsert PrologueRun PrologueSwap QuickFixModel QuickFixFacts CoverFacts RemoveFacts UngramData Replant.
From Verif Require GrammarSpec GrammarFacts.

(** ** the terminals of queries *)
Fixpoint nodes_in (e : GrammarSpec.gexp) : list kind :=
  match e with GrammarSpec.GNode r => [r] | GrammarSpec.GSeq a b | GrammarSpec.GAlt a b => nodes_in a ++ nodes_in b | GrammarSpec.GOpt a | GrammarSpec.GRep a => nodes_in a | _ => [] end.
Fixpoint toks_in (e : GrammarSpec.gexp) : list kind :=
  match e with GrammarSpec.GTok k => [k] | GrammarSpec.GSeq a b | GrammarSpec.GAlt a b => toks_in a ++ toks_in b | GrammarSpec.GOpt a | GrammarSpec.GRep a => toks_in a | _ => [] end.
Fixpoint reachable (n : nat) (todo done : list kind) : list kind :=
  match n with
  | 0 => done
  | S n => match todo with
           | [] => done
           | r :: todo => if kind_in r done then reachable n todo done else reachable n (match sparql_grammar r with Some e => nodes_in e | None => [] end ++ todo) (r :: done)
           end
  end.
Definition query_rules : list kind := Eval vm_compute in reachable 5000 [K_QueryUnit] [].
Definition excluded : list kind := [K_Error; K_INSERT; K_DELETE; K_WHITESPACE; K_Comment; K_Eof].
Definition rule_fine (r : kind) : bool := match sparql_grammar r with Some e => forallb (fun k => kind_in k query_rules) (nodes_in e) && forallb (fun k => negb (kind_in k excluded)) (toks_in e) | None => true end.
Lemma rules_fine : forallb rule_fine query_rules = true.
Proof. vm_compute. reflexivity. Qed.
Lemma query_terminals e w : GrammarSpec.matches sparql_grammar e w -> forallb (fun k => kind_in k query_rules) (nodes_in e) = true -> forallb (fun k => negb (kind_in k excluded)) (toks_in e) = true -> Forall (fun k => ~ In k excluded) w.
Proof.
  induction 1 as [|k|r e w G M IH|a b u v M1 IH1 M2 IH2|a b w M IH|a b w M IH|a|a w M IH|a|a u v M1 IH1 M2 IH2]; cbn [nodes_in toks_in]; intros N T; rewrite ?forallb_app in *; try (constructor; fail).
  - constructor; [|constructor]. cbn [forallb] in T. apply andb_true_iff in T as [T _]. apply negb_true_iff in T. intros H. apply kind_in_In in H. congruence.
  - cbn [forallb] in N. apply andb_true_iff in N as [N _]. apply kind_in_In in N. pose proof rules_fine as F. rewrite forallb_forall in F. specialize (F _ N). unfold rule_fine in F. rewrite G in F. apply andb_true_iff in F as [F1 F2]. apply IH; assumption.
  - apply andb_true_iff in N as [N1 N2]. apply andb_true_iff in T as [T1 T2]. apply Forall_app. split; [apply IH1|apply IH2]; assumption.
  - apply andb_true_iff in N as [N1 N2]. apply andb_true_iff in T as [T1 T2]. apply IH; assumption.
  - apply andb_true_iff in N as [N1 N2]. apply andb_true_iff in T as [T1 T2]. apply IH; assumption.
  - apply IH; assumption.
  - apply Forall_app. split; [apply IH1|apply IH2]; assumption.
Qed.
Definition query_token (l : lexeme) : Prop := trivial l = true \/ ~ In (fst l) excluded.
Lemma grammatical_tokens err t : grammatical err t -> Forall query_token (lex err t).
Proof.
  intros G. assert (Forall (fun k => ~ In k excluded) (map lkind (tokens err t))) as F by (eapply query_terminals; [exact G|vm_compute; reflexivity|reflexivity]).
  apply Forall_forall. intros l Hl. destruct (trivial l) eqn:T; [left; exact T|right]. rewrite Forall_forall in F. apply (F (lkind l)). apply in_map. apply sigs_in; assumption.
Qed.
Lemma query_token_known l : query_token l -> fst l <> K_Error /\ fst l <> K_INSERT /\ fst l <> K_DELETE.
Proof.
  intros [T|N].
  - destruct l as [k w]. unfold trivial in T. cbn [fst] in *. destruct k; try discriminate T; (split; [|split]); discriminate.
  - split; [|split]; intros E; apply N; rewrite E; cbn; tauto.
Qed.
(** ** opening brackets *)
(** white space of Unicode, and control characters: what is not solid *)
Definition space_class : list (N * N) := [(0, 32); (133, 133); (160, 160); (5760, 5760); (8192, 8202); (8232, 8233); (8239, 8239); (8287, 8287); (12288, 12288)]%N.
Definition bracket (a b : N) : re := Cat (Chr a) (Cat (Star (Cls space_class)) (Chr b)).
Definition only_bracket (a b : N) (x : kind * re * bool) : bool := not_extended blank_chars (Chr a) (snd (fst x)) || included (snd (fst x)) (bracket a b).
Lemma parens_checked : forallb (only_bracket 40 41) lexer_rules = true.
Proof. vm_cast_no_check (eq_refl true). Qed.
Lemma bracks_checked : forallb (only_bracket 91 93) lexer_rules = true.
Proof. vm_cast_no_check (eq_refl true). Qed.
Lemma rule_paren k r wb : In (k, r, wb) lexer_rules -> not_extended blank_chars (Chr 40) r = true \/ included r (bracket 40 41) = true.
Proof. intros H. apply orb_prop. exact (proj1 (forallb_forall _ _) parens_checked _ H). Qed.
Lemma rule_brack k r wb : In (k, r, wb) lexer_rules -> not_extended blank_chars (Chr 91) r = true \/ included r (bracket 91 93) = true.
Proof. intros H. apply orb_prop. exact (proj1 (forallb_forall _ _) bracks_checked _ H). Qed.
Definition space (c : char) : bool := in_class c space_class.
Lemma ws_space c : ws_char c = true -> space c = true.
Proof. intros H. apply blank_in in H. repeat destruct H as [<-|H]; try reflexivity. destruct H. Qed.
Lemma spaces_star w : matches (Star (Cls space_class)) w -> forallb space w = true.
Proof. intros M. apply (star_one (Cls space_class) space_class w eq_refl) in M. exact M. Qed.
Lemma chr_inv a w : matches (Chr a) w -> w = [a].
Proof. intros M. inversion M as [|c rs Hc| | | | |]; subst. f_equal. unfold in_class in Hc. cbn in Hc. rewrite orb_false_r in Hc. apply andb_true_iff in Hc as [H1 H2]. apply N.leb_le in H1. apply N.leb_le in H2. apply N.le_antisymm; assumption. Qed.
Lemma bracket_inv a b w : matches (bracket a b) w -> exists u, w = a :: u ++ [b] /\ forallb space u = true.
Proof.
  intros M. apply cat_split in M as (x & y & -> & Mx & My). apply cat_split in My as (u & z & -> & Mu & Mz). exists u. split; [|apply spaces_star, Mu].
  apply chr_inv in Mx. apply chr_inv in Mz. subst. reflexivity.
Qed.
Lemma blank_run u w : forall b c y v, u ++ b :: y = w ++ c :: v -> forallb space u = true -> forallb space w = true -> space b = false -> space c = false -> b = c.
Proof.
  revert w. induction u as [|d u IH]; intros [|e w] b c y v E Hu Hw Hb Hc; cbn [app forallb] in *.
  - congruence.
  - injection E as -> _. apply andb_true_iff in Hw as [Hw _]. congruence.
  - injection E as -> _. apply andb_true_iff in Hu as [Hu _]. congruence.
  - injection E as -> E. apply andb_true_iff in Hu as [_ Hu]. apply andb_true_iff in Hw as [_ Hw]. eapply IH; eassumption.
Qed.

Lemma opens_bracket a b k w v : (a, b) = (40, 41)%N \/ (a, b) = (91, 93)%N -> In (k, Chr a, false) lexer_rules -> w <> [] -> forallb ws_char w = true -> (v = [] \/ exists u c r, v = u ++ c :: r /\ forallb space u = true /\ space c = false /\ c <> b) ->
  longest_rule lexer_rules ([a] ++ w ++ v) = Some (k, 1).
Proof.
  intros AB Hk Nw Fw Hv. apply longest_rule_some. split; [apply (some_match_intro k (Chr a) false [a] (w ++ v)); [exact Hk|constructor; unfold in_class; cbn; rewrite N.leb_refl; reflexivity|discriminate]|].
  intros k' m Hm. destruct (some_match_elim _ _ _ Hm) as (r & wb & z & y & Hin & Ez & Lz & Mz & _). subst m. destruct (le_lt_dec (length z) 1) as [K|K]; [exact K|exfalso].
  destruct z as [|z0 [|z1 z]]; cbn [length] in K; try lia. cbn [app] in Ez. injection Ez as <- Ez.
  assert (W1 : ws_char z1 = true) by (destruct w as [|d w]; [congruence|]; cbn [app forallb] in *; injection Ez as <- _; apply andb_true_iff in Fw; apply Fw).
  assert (not_extended blank_chars (Chr a) r = true \/ included r (bracket a b) = true) as [C|C] by (destruct AB as [AB|AB]; injection AB as -> ->; [exact (rule_paren _ _ _ Hin)|exact (rule_brack _ _ _ Hin)]).
  - eapply (not_extended_sound _ _ _ C [a] z1 z); [apply blank_in, W1|constructor; unfold in_class; cbn; rewrite N.leb_refl; reflexivity|exact Mz].
  - apply (included_sound _ _ C) in Mz. apply bracket_inv in Mz as (u & E & Fu). injection E as E. change (z1 :: (z ++ y)) with ((z1 :: z) ++ y) in Ez. rewrite E in Ez.
    assert (Sb : space b = false) by (destruct AB as [AB|AB]; injection AB as -> ->; reflexivity).
    destruct Hv as [->|(u' & c & r' & -> & Fu' & Hc & Nc)].
    + rewrite app_nil_r in Ez. assert (In b w) as Hb by (rewrite Ez, <- app_assoc; apply in_app_iff; right; left; reflexivity). rewrite forallb_forall in Fw. apply Fw, ws_space in Hb. congruence.
    + apply Nc. symmetry. rewrite <- app_assoc in Ez. cbn [app] in Ez. rewrite app_assoc in Ez. eapply (blank_run u (w ++ u') b c y r' (eq_sym Ez)); [exact Fu| |exact Sb|exact Hc].
      rewrite forallb_app, Fu', andb_true_r. apply forallb_forall. intros d Hd. rewrite forallb_forall in Fw. apply ws_space, Fw, Hd.
Qed.
Lemma paren_rule r wb : In (K_LParen, r, wb) lexer_rules -> r = Chr 40 /\ wb = false.
Proof. intros H. assert (forallb (fun x => match x with (K_LParen, r, wb) => re_eqb r (Chr 40) && negb wb | _ => true end) lexer_rules = true) as C by (vm_compute; reflexivity). rewrite forallb_forall in C. specialize (C _ H). apply andb_true_iff in C as [C1 C2]. split; [apply re_eqb_eq, C1|destruct wb; [discriminate|reflexivity]]. Qed.
Lemma brack_rule r wb : In (K_LBrack, r, wb) lexer_rules -> r = Chr 91 /\ wb = false.
Proof. intros H. assert (forallb (fun x => match x with (K_LBrack, r, wb) => re_eqb r (Chr 91) && negb wb | _ => true end) lexer_rules = true) as C by (vm_compute; reflexivity). rewrite forallb_forall in C. specialize (C _ H). apply andb_true_iff in C as [C1 C2]. split; [apply re_eqb_eq, C1|destruct wb; [discriminate|reflexivity]]. Qed.
(** what may follow: nothing, or text that neither starts with white space nor closes a bracket (behind other characters that Unicode has for white space, as U+1680, with which a prefix may start) *)
Definition opens_solid (v : text) : Prop :=
  match v with c :: _ => ws_char c = false | [] => True end /\ (v = [] \/ exists u c r, v = u ++ c :: r /\ forallb space u = true /\ space c = false /\ c <> 41%N /\ c <> 93%N).
Lemma opens_solid_ws v : opens_solid v -> match v with c :: _ => ws_char c = false | [] => True end.
Proof. intros [H _]. exact H. Qed.
Lemma opens_solid_char c v : space c = false -> c <> 41%N -> c <> 93%N -> opens_solid (c :: v).
Proof. intros H N1 N2. split; [destruct (ws_char c) eqn:W; [apply ws_space in W; congruence|reflexivity]|]. right. exists [], c, v. auto. Qed.
Theorem left_kept err t L w R v : lex err t = L ++ (K_WHITESPACE, w) :: R -> Forall query_token L -> not_fused L -> opens_solid v -> lex err (flat_map snd L ++ w ++ v) = L ++ (K_WHITESPACE, w) :: lex err v.
Proof.
  intros E F NF O. destruct (ws_token _ _ _ _ _ E) as (Nw & Fw & _). pose proof (lex_ws err w v Nw Fw (opens_solid_ws _ O)) as Lw. destruct L as [|[k u] L _] using rev_ind; [exact Lw|].
  assert (Ob : opens_blank (w ++ v)) by (destruct w as [|c w]; [congruence|]; cbn [forallb] in Fw; apply andb_true_iff in Fw as [Fw _]; exact Fw).
  apply Forall_app in F as F2. destruct F2 as [F1 F2]. inversion F2 as [|? ? Fx _]; subst. destruct (query_token_known _ Fx) as (N1 & N2 & N3). cbn [fst] in *.
  rewrite <- app_assoc in E. cbn [app] in E. pose proof (munch _ _ _ _ _ _ E N1) as Lx.
  refine (eq_trans (lex_insert err t L (k, u) ((K_WHITESPACE, w) :: R) (w ++ v) E _ _ _ _) _).
  5: { rewrite Lw, <- app_assoc. reflexivity. }
  - eapply Forall_impl; [|exact F]. intros l Hl. apply (query_token_known _ Hl).
  - exact NF.
  - exact Ob.
  - destruct (kind_in k extensible) eqn:X; [|eapply ends_before_blank; [exact Lx|intros H; apply kind_in_In in H; congruence|exact Ob]].
    apply kind_in_In in X. cbn in X. destruct X as [<-|[<-|[<-|[<-|[<-|[<-|[]]]]]]]; try congruence.
    + exfalso. destruct (ws_token _ _ _ _ _ E) as (_ & _ & X). cbn [flat_map snd] in X. destruct w as [|c w]; [congruence|]. cbn [app] in *. cbn [opens_blank] in Ob. congruence.
    + destruct (comment_token _ _ _ _ _ E) as [_ X]. cbn [flat_map snd] in X. destruct w as [|c w]; [congruence|]. cbn [app opens_blank] in *. eapply ends_before_line; [exact Lx|]. destruct X as [X|[X|X]]; [auto|auto|]. exfalso. apply blank_in in Ob. cbn in Ob. lia.
    + split; [|discriminate]. cbn [fst snd]. destruct (munched _ _ _ _ _ _ E N1) as (r & wb & Hin & Mu & _). pose proof (paren_rule _ _ Hin) as [-> ->]. apply chr_inv in Mu. subst u.
      apply (opens_bracket 40 41); [left; reflexivity|exact Hin|exact Nw|exact Fw|]. destruct O as [_ [O|(u' & c & r' & O & O1 & O2 & O3 & O4)]]; [left; exact O|right; exists u', c, r'; auto].
    + split; [|discriminate]. cbn [fst snd]. destruct (munched _ _ _ _ _ _ E N1) as (r & wb & Hin & Mu & _). pose proof (brack_rule _ _ Hin) as [-> ->]. apply chr_inv in Mu. subst u.
      apply (opens_bracket 91 93); [right; reflexivity|exact Hin|exact Nw|exact Fw|]. destruct O as [_ [O|(u' & c & r' & O & O1 & O2 & O3 & O4)]]; [left; exact O|right; exists u', c, r'; auto].
Qed.
