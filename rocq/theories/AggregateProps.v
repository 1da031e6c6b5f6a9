(** C67: the code actions that add an aggregate to a query. *)
From Coq Require Import String List Arith NArith Bool Lia Sorted Permutation.
Import ListNotations.
From Verif Require Import ServerModel Kinds KindFacts ParserSyntax ParserModel GrammarData ParserTree ParserTerm ParserBuild ParserSpec ParserChecks ParserOutcome ParserProps
  TextModel TextSpec TextProofs Utf8Model LexerRegex LexerData LexerModel LexerProofs LexerSpec LexerProps FormatData FormatModel FormatTree FormatText FormatParse FormatWeave
  TreeModel TreePlace TreeItems TreeShape TreeRename VarModel VarSpec VarRegions VarDoc LexRename VarProps DiagModel DiagSpec AstFacts DiagFacts DiagGroup DiagRest ParseTreeProps LexLayout DiagProps OnTypeProofs OnTypeProps LayoutProps LexInsert PrologueRun PrologueSwap QuickFixModel QuickFixFacts CoverFacts RemoveFacts UngramData Replant LexMiddle QuickFixProps RemoveProps ShortenFacts GrammarCheck DiagScope ShortenProps SelectModel SelectFacts SelectProps ResultModel ResultFacts ResultProps.
From Verif Require GrammarSpec GrammarFacts.

(** ** tokens of a text whose end is unknown *)
Fixpoint known_from (wb : bool) (l : list re) (u : text) (n : nat) (best : option nat) : option (option nat) :=
  match l with
  | [] => Some best
  | _ => match u with
         | [] => if forallb (re_eqb Eps) l && negb wb then Some (Some n) else None
         | c :: u' => known_from wb (pd_set c l) u' (S n) (if existsb nullable l && (negb wb || at_boundary u) then Some n else best)
         end
  end.
Lemma eps_all l c : forallb (re_eqb Eps) l = true -> pd_set c l = [] /\ (l <> [] -> existsb nullable l = true).
Proof.
  intros H. assert (H0 : forall r, In r l -> r = Eps) by (intros r Hr; rewrite forallb_forall in H; symmetry; apply re_eqb_eq, H, Hr). split.
  - unfold pd_set. replace (flat_map (pd c) l) with (@nil re); [reflexivity|]. clear H. induction l as [|r l IH]; [reflexivity|]. cbn [flat_map]. rewrite (H0 r) by (left; reflexivity). cbn [pd app]. apply IH. intros r' Hr. apply H0. right. exact Hr.
  - intros N. destruct l as [|r l]; [congruence|]. cbn [existsb]. rewrite (H0 r) by (left; reflexivity). reflexivity.
Qed.
Lemma known_from_sound wb v : forall u l n best r, known_from wb l u n best = Some r -> longest_from wb l (u ++ v) n best = r.
Proof.
  assert (Nil : forall t n best, longest_from wb [] t n best = best) by (intros t n best; destruct t; reflexivity).
  induction u as [|c u IH]; intros l n best r H.
  - destruct l as [|r0 l0]; [injection H as <-; apply Nil|]. set (l := r0 :: l0) in *. cbn [known_from app] in *. unfold l in H at 1. fold l in H. destruct (forallb (re_eqb Eps) l) eqn:F; [|discriminate]. destruct wb; [discriminate|]. injection H as <-.
    destruct v as [|c v].
    + cbn [longest_from]. unfold l at 2. destruct (eps_all l 0%N F) as [_ N]. rewrite N by discriminate. reflexivity.
    + cbn [longest_from]. unfold l at 2. destruct (eps_all l c F) as [E N]. rewrite N by discriminate. rewrite E. apply Nil.
  - destruct l as [|r0 l0]; [injection H as <-; apply Nil|]. cbn [known_from app longest_from] in *. apply IH. exact H.
Qed.
Fixpoint known_rule (rules : list (kind * re * bool)) (u : text) : option (option (kind * nat)) :=
  match rules with
  | [] => Some None
  | (k, r, wb) :: rules =>
    match known_from wb [r] u 0 None, known_rule rules u with
    | Some (Some n), Some (Some (k', n')) => Some (if n' <=? n then Some (k, n) else Some (k', n'))
    | Some (Some n), Some None => Some (Some (k, n))
    | Some None, Some x => Some x
    | _, _ => None
    end
  end.
Lemma known_rule_sound rules u v : forall r, known_rule rules u = Some r -> longest_rule rules (u ++ v) = r.
Proof.
  induction rules as [|[[k r] wb] rules IH]; intros x H; [injection H as <-; reflexivity|]. cbn [known_rule longest_rule] in *. destruct (known_from wb [r] u 0 None) as [a|] eqn:K; [|discriminate].
  unfold longest. rewrite (known_from_sound wb v _ _ _ _ _ K). destruct (known_rule rules u) as [b|]; [|destruct a; discriminate]. rewrite (IH b eq_refl). destruct a as [n|]; [destruct b as [[k' n']|]|]; injection H as <-; reflexivity.
Qed.
(** the tokens that are settled, and the rest *)
Fixpoint known_lex_by (rules : list (kind * re * bool)) (n : nat) (u : text) : list lexeme * text :=
  match n with
  | 0 => ([], u)
  | S n => match known_rule rules u with
           | Some (Some (k, S m)) => if S m <=? length u then let '(ls, r) := known_lex_by rules n (skipn (S m) u) in ((k, firstn (S m) u) :: ls, r) else ([], u)
           | _ => ([], u)
           end
  end.
Definition known_lex : nat -> text -> list lexeme * text := known_lex_by lexer_rules.
Lemma known_lex_by_sound rules err v : (forall u r, known_rule rules u = Some r -> longest_rule lexer_rules (u ++ v) = r) -> forall n u ls r, known_lex_by rules n u = (ls, r) -> lex err (u ++ v) = ls ++ lex err (r ++ v).
Proof.
  intros Sound.
  induction n as [|n IH]; intros u ls r H; [injection H as <- <-; reflexivity|]. cbn [known_lex_by] in H. destruct (known_rule rules u) as [[[k [|m]]|]|] eqn:K; try (injection H as <- <-; reflexivity).
  pose proof (Sound _ _ K) as Ru. destruct (S m <=? length u) eqn:L; [|injection H as <- <-; reflexivity]. apply Nat.leb_le in L. destruct (known_lex_by rules n (skipn (S m) u)) as [ls' r'] eqn:R. pose proof (f_equal fst H) as H1. pose proof (f_equal snd H) as H2. cbn [fst snd] in H1, H2. rewrite <- H1, <- H2. clear H H1 H2 K.
  assert (E : u = firstn (S m) u ++ skipn (S m) u) by (symmetry; apply firstn_skipn). assert (La : length (firstn (S m) u) = S m) by (apply firstn_length_le, L).  revert E La R. generalize (firstn (S m) u) as a. generalize (skipn (S m) u) as b. intros b a E La R.
  rewrite E, <- app_assoc. cbn [app]. rewrite <- (IH b ls' r' R). apply lex_one; [|intros ->; discriminate]. rewrite app_assoc, <- E, La. exact Ru.
Qed.
Lemma known_lex_sound err v n u ls r : known_lex n u = (ls, r) -> lex err (u ++ v) = ls ++ lex err (r ++ v).
Proof. apply known_lex_by_sound. intros u' r' H. exact (known_rule_sound _ _ v _ H). Qed.
Lemma var_next err a v : is_valid_variable_name a = true -> no_name v -> lex err ((63%N :: a) ++ v) = (K_VAR1, 63%N :: a) :: lex err v.
Proof. intros Ha Hv. apply lex_one; [|discriminate]. pose proof (var_longest K_VAR1 a v (or_introl eq_refl) Ha Hv) as L. replace (sigil_of K_VAR1) with 63%N in L by reflexivity. exact L. Qed.
Lemma valid_behind p a : is_valid_variable_name p = true -> is_valid_variable_name a = true -> is_valid_variable_name (p ++ a) = true.
Proof.
  intros Hp Ha. destruct p as [|c p]; [discriminate|]. cbn [app is_valid_variable_name] in *. apply andb_prop in Hp as [H1 H2]. rewrite H1, forallb_app, H2. apply valid_names in Ha as [Ha _]. exact Ha.
Qed.

(** ** the columns *)
Definition nest (ks : list kind) (y : tree) : tree := fold_right (fun k y => Node k [y]) y ks.
Definition expression (y : tree) : tree :=
  nest [K_Expression; K_ConditionalOrExpression; K_ConditionalAndExpression; K_ValueLogical; K_RelationalExpression; K_NumericExpression; K_AdditiveExpression; K_MultiplicativeExpression; K_UnaryExpression; K_PrimaryExpression] y.
(** ( the aggregate AS ?name ) *)
Definition named_aggregate (inner : list tree) (as_ name : text) : list tree :=
  [Tok K_LParen (chars "("); expression (Node K_BuiltInCall [Node K_Aggregate inner]); Tok K_AS as_; Node K_Var [Tok K_VAR1 (chars "?" ++ name)]; Tok K_RParen (chars ")")].
(** the title and the column of every aggregate of the variable ?a *)
Definition aggregate_trees (a : text) : list (text * list tree) :=
  let v := expression (Node K_Var [Tok K_VAR1 (chars "?" ++ a)]) in
  let simple k (f : text) := named_aggregate [Tok k f; Tok K_LParen (chars "("); v; Tok K_RParen (chars ")")] (chars "AS") in
  [(chars "Aggregate Count", simple K_COUNT (chars "COUNT") (chars "count_" ++ a));
   (chars "Aggregate Sum", simple K_SUM (chars "SUM") (chars "sum_" ++ a));
   (chars "Aggregate Min", simple K_MIN (chars "MIN") (chars "min_" ++ a));
   (chars "Aggregate Max", simple K_MAX (chars "MAX") (chars "max_" ++ a));
   (chars "Aggregate Avg", simple K_AVG (chars "AVG") (chars "avg_" ++ a));
   (chars "Aggregate Sample", simple K_SAMPLE (chars "SAMPLE") (chars "sample_" ++ a));
   (chars "Aggregate Group Concat",
     named_aggregate [Tok K_GROUP_CONCAT (chars "GROUP_CONCAT"); Tok K_LParen (chars "("); Tok K_DISTINCT (chars "DISTINCT"); v; Tok K_Semicolon (chars ";"); Tok K_SEPARATOR (chars "SEPARATOR"); Tok K_Equals (chars "=");
       Node K_String [Tok K_STRING_LITERAL2 (chars """, """)]; Tok K_RParen (chars ")")] (chars "as") (chars "group_concat_" ++ a))].
Definition column_text (w : text) (col : list tree) : Prop :=
  derives column (map shape col) /\ (forall err v, apart v -> tokens err (w ++ v) = flat_map leaves col ++ tokens err v) /\ forall v, opens_solid (w ++ v).
Ltac flat := repeat (first [rewrite <- app_assoc | progress cbn [app]]).
(** a closing parenthesis, but not )>> *)
Definition never_longer_paren (x : kind * re * bool) : bool := kind_eqb (fst (fst x)) K_RParenDoubleMore && re_eqb (snd (fst x)) (Cat (Chr 41) (Cat (Chr 62) (Chr 62))) || disjoint_re (Cat (Chr 41) (Cat top (Star top))) (snd (fst x)).
Lemma parens_longer : forallb never_longer_paren lexer_rules = true.
Proof. vm_compute. reflexivity. Qed.
Lemma paren_each x : In x lexer_rules -> never_longer_paren x = true.
Proof. exact (proj1 (forallb_forall never_longer_paren lexer_rules) parens_longer x). Qed.
Lemma rparen_rule : In (K_RParen, Chr 41, false) lexer_rules.
Proof. assert (existsb (fun x => kind_eqb (fst (fst x)) K_RParen && re_eqb (snd (fst x)) (Chr 41) && negb (snd x)) lexer_rules = true) as H by (vm_compute; reflexivity). apply existsb_exists in H as ([[k r] wb] & Hin & H). cbn [fst snd] in H.
  apply andb_true_iff in H as [H Hb]. apply andb_true_iff in H as [Hk Hr]. apply kind_eqb_eq in Hk. apply re_eqb_eq in Hr. subst. destruct wb; [discriminate|exact Hin]. Qed.
Lemma lex_rparen err v : apart v -> lex err (41%N :: v) = (K_RParen, [41%N]) :: lex err v.
Proof.
  intros Ap. apply (lex_one err K_RParen [41%N] v); [|discriminate]. apply longest_rule_some. split; [eapply (some_match_intro K_RParen (Chr 41) false [41%N] v); [exact rparen_rule|constructor; reflexivity|discriminate]|].
  intros k' m Hm. destruct (some_match_elim _ _ _ Hm) as (r' & wb' & z & y & Hin' & Ez & Lz & Mz & _). subst m. destruct z as [|c z]; [cbn; lia|]. cbn [app] in Ez. injection Ez as <- Ez. destruct z as [|d z]; [cbn; lia|exfalso].
  destruct (rule_ok _ _ _ Hin') as [B _]. pose proof (bounded_ok _ _ Mz B) as S. pose proof (paren_each _ Hin') as C. unfold never_longer_paren in C. cbn [fst snd] in C. apply orb_true_iff in C as [C|C].
  - apply andb_true_iff in C as [_ C]. apply re_eqb_eq in C. subst r'. apply cat_split in Mz as (a1 & b1 & E1 & M1 & Mz). apply chr_inv in M1. subst a1. cbn [app] in E1. injection E1 as E1. rewrite <- E1 in Mz. apply cat_split in Mz as (a2 & b2 & E2 & M2 & M3). apply chr_inv in M2. apply chr_inv in M3. subst a2 b2 b1. cbn [app] in E2. injection E2 as -> ->. apply (Ap y). exact Ez.
  - eapply disjoint_re_sound; [exact C| |exact Mz]. inversion S as [|? ? _ S1]; subst. inversion S1 as [|? ? Sd S2]; subst.
    change (41%N :: d :: z) with ([41%N] ++ [d] ++ z). constructor; [constructor; reflexivity|]. constructor; [|apply top_star, S2]. constructor. cbn. unfold small in Sd. apply N.leb_le in Sd. rewrite Sd. destruct d; reflexivity.
Qed.
Lemma aggregate_text a u1 l1 u2 l2 p : is_valid_variable_name a = true -> is_valid_variable_name p = true -> known_lex 50 (u1 ++ [63%N]) = (l1, [63%N]) -> known_lex 50 (u2 ++ 63%N :: p) = (l2, 63%N :: p) -> match u2 with c :: _ => var_char c = false | [] => False end ->
  forall err v, apart v -> tokens err ((u1 ++ (63%N :: a) ++ u2 ++ (63%N :: p) ++ a ++ chars ")") ++ v) = sigs l1 ++ (K_VAR1, 63%N :: a) :: sigs l2 ++ (K_VAR1, 63%N :: p ++ a) :: (K_RParen, chars ")") :: tokens err v.
Proof.
  intros Ha Hp E1 E2 H2 err v Ap.
  assert (L : lex err ((u1 ++ (63%N :: a) ++ u2 ++ (63%N :: p) ++ a ++ chars ")") ++ v) = l1 ++ (K_VAR1, 63%N :: a) :: l2 ++ (K_VAR1, 63%N :: p ++ a) :: (K_RParen, chars ")") :: lex err v).
  { set (z := (u2 ++ (63%N :: p) ++ a ++ chars ")") ++ v).
    assert (Z : lex err z = l2 ++ (K_VAR1, 63%N :: p ++ a) :: (K_RParen, chars ")") :: lex err v).
    { assert (Ez : z = (u2 ++ 63%N :: p) ++ (a ++ chars ")") ++ v) by (unfold z; flat; reflexivity). rewrite Ez, (known_lex_sound err _ _ _ _ _ E2). f_equal.
      refine (eq_trans (f_equal (lex err) _) (eq_trans (var_next err (p ++ a) (chars ")" ++ v) (valid_behind p a Hp Ha) eq_refl) _)).
      - flat. reflexivity.
      - f_equal. exact (lex_rparen err v Ap). }
    assert (Et : (u1 ++ (63%N :: a) ++ u2 ++ (63%N :: p) ++ a ++ chars ")") ++ v = (u1 ++ [63%N]) ++ a ++ z) by (unfold z; flat; reflexivity).
    rewrite Et, (known_lex_sound err _ _ _ _ _ E1). f_equal. refine (eq_trans (var_next err a z Ha _) _); [|f_equal; exact Z]. unfold z. destruct u2 as [|c u2]; [destruct H2|exact H2]. }
  unfold tokens. rewrite L. change (filter (fun l => negb (trivial l))) with sigs. rewrite PrologueSwap.sigs_app. f_equal. cbn [sigs filter]. change (filter (fun l => negb (trivial l))) with sigs. cbn [trivial negb]. f_equal. fold sigs. rewrite PrologueSwap.sigs_app. reflexivity.
Qed.
Lemma columns_ok a : is_valid_variable_name a = true -> Forall2 (fun c d => fst c = fst d /\ column_text (snd c) (snd d)) (aggregate_columns (63%N :: a)) (aggregate_trees a).
Proof.
  intros Ha. unfold aggregate_columns, aggregate_trees.
  assert (Dv : forall ts, existsb (fun l : list gtree => match l with [] => true | _ => false end) (rests 200 column ts) = true -> derives column ts).
  { intros ts H. apply existsb_exists in H as ([|] & X & Y); [|discriminate Y]. apply rests_sound in X as (u & -> & H). rewrite app_nil_r. exact H. }
  assert (Os : forall w v, opens_solid ((40%N :: w) ++ v)) by (intros w v; apply opens_solid_char; [reflexivity|discriminate|discriminate]).
  assert (One : forall u1 l1 u2 l2 p w col, known_lex 50 (u1 ++ [63%N]) = (l1, [63%N]) -> known_lex 50 (u2 ++ 63%N :: p) = (l2, 63%N :: p) -> is_valid_variable_name p = true -> match u2 with c :: _ => var_char c = false | [] => False end ->
    head u1 = Some 40%N -> w = u1 ++ (63%N :: a) ++ u2 ++ (63%N :: p) ++ a ++ chars ")" -> flat_map leaves col = sigs l1 ++ (K_VAR1, 63%N :: a) :: sigs l2 ++ [(K_VAR1, 63%N :: p ++ a); (K_RParen, chars ")")] ->
    existsb (fun l : list gtree => match l with [] => true | _ => false end) (rests 200 column (map shape col)) = true -> column_text w col).
  { intros u1 l1 u2 l2 p w col E1 E2 Hp H2 Hh Ew El Hd. split; [apply Dv, Hd|]. split.
    - intros err v Ap. rewrite Ew, El. refine (eq_trans (aggregate_text a u1 l1 u2 l2 p Ha Hp E1 E2 H2 err v Ap) _). flat. reflexivity.
    - intros v. destruct u1 as [|c u1]; cbn in Hh; [congruence|]. assert (c = 40%N) as -> by congruence. rewrite Ew. exact (Os _ _). }
  assert (Simple : forall k f p, known_lex 50 ((chars "(" ++ f ++ chars "(") ++ [63%N]) = ([(K_LParen, chars "("); (k, f); (K_LParen, chars "(")], [63%N]) -> trivial (k, f) = false ->
    known_lex 50 (chars ") AS " ++ 63%N :: p) = ([(K_RParen, chars ")"); (K_WHITESPACE, chars " "); (K_AS, chars "AS"); (K_WHITESPACE, chars " ")], 63%N :: p) -> is_valid_variable_name p = true ->
    let col := named_aggregate [Tok k f; Tok K_LParen (chars "("); expression (Node K_Var [Tok K_VAR1 (chars "?" ++ a)]); Tok K_RParen (chars ")")] (chars "AS") (p ++ a) in
    existsb (fun l : list gtree => match l with [] => true | _ => false end) (rests 200 column (map shape col)) = true ->
    column_text (chars "(" ++ f ++ chars "(" ++ (63%N :: a) ++ chars ") AS ?" ++ p ++ a ++ chars ")") col).
  { intros k f p E1 T E2 Hp col Hd. apply (One _ _ _ _ _ _ _ E1 E2 Hp eq_refl eq_refl); [|  |exact Hd].
    - rewrite <- !app_assoc. reflexivity.
    - unfold sigs. cbn [filter]. rewrite T. reflexivity. }
  repeat (apply Forall2_cons; [split; [reflexivity|]; cbn [fst snd]|]).
  - exact (Simple K_COUNT (chars "COUNT") (chars "count_") ltac:(vm_compute; reflexivity) eq_refl ltac:(vm_compute; reflexivity) eq_refl ltac:(vm_compute; reflexivity)).
  - exact (Simple K_SUM (chars "SUM") (chars "sum_") ltac:(vm_compute; reflexivity) eq_refl ltac:(vm_compute; reflexivity) eq_refl ltac:(vm_compute; reflexivity)).
  - exact (Simple K_MIN (chars "MIN") (chars "min_") ltac:(vm_compute; reflexivity) eq_refl ltac:(vm_compute; reflexivity) eq_refl ltac:(vm_compute; reflexivity)).
  - exact (Simple K_MAX (chars "MAX") (chars "max_") ltac:(vm_compute; reflexivity) eq_refl ltac:(vm_compute; reflexivity) eq_refl ltac:(vm_compute; reflexivity)).
  - exact (Simple K_AVG (chars "AVG") (chars "avg_") ltac:(vm_compute; reflexivity) eq_refl ltac:(vm_compute; reflexivity) eq_refl ltac:(vm_compute; reflexivity)).
  - exact (Simple K_SAMPLE (chars "SAMPLE") (chars "sample_") ltac:(vm_compute; reflexivity) eq_refl ltac:(vm_compute; reflexivity) eq_refl ltac:(vm_compute; reflexivity)).
  - eapply (One (chars "(GROUP_CONCAT(DISTINCT ") _ (chars "; SEPARATOR = "", "") as ") _ (chars "group_concat_")); [vm_compute; reflexivity|vm_compute; reflexivity|reflexivity|reflexivity|reflexivity|reflexivity|reflexivity|vm_compute; reflexivity].
  - constructor.
Qed.

(** ** C67 *)
(** the query [q] is grouped, and no grouped variable has the text [n] *)
Definition grouped_without (x : tree) (q : path) (n : text) : Prop := exists gc, grouped x q gc /\ ~ hidden x q /\ forall g, groups_by x gc g -> text_at x g <> n.
Lemma add_aggregates_is err t x v q sc cps : doc_tree err t x -> node_at x v K_Var -> query_of x v q -> part x q K_SelectClause sc -> at_path x sc = Some (Node K_SelectClause cps) -> exists f,
  (forall w, column_edit false x t sc w = Some (f w)) /\ (grouped_without x q (var_name (text_at x v)) -> add_aggregates x t v = Some (map (fun c => (fst c, f (snd c))) (aggregate_columns (text_at x v)))) /\
  (~ grouped_without x q (var_name (text_at x v)) -> add_aggregates x t v = None).
Proof.
  intros D Hv Hq Hs E. destruct (query_place _ _ _ _ _ D Hq) as (k & Hk & Sk). assert (Sl : select_like k = true) by (destruct Sk as [<-|[<-|[]]]; reflexivity).
  assert (Ns : sc <> []) by (destruct Hs as [[i ->] _]; destruct q; discriminate).
  assert (exists p k0, from_byte_index (end_at x sc) t = Some p /\ last_kind x sc = Some k0) as (p & k0 & Hp & Hl).
  { destruct (column_edit_some err t x sc cps false [] D Ns E) as [e He]. unfold column_edit in He. destruct (from_byte_index (end_at x sc) t) as [p|]; [|discriminate]. destruct (last_kind x sc) as [k0|]; [|discriminate]. eauto. }
  exists (fun w => match k0 with K_Star => instead_of_star p w | _ => mkedit (mkrange p p) (32%N :: w) end). split.
  - intros w. unfold column_edit. rewrite Hp, Hl. destruct k0; reflexivity.
  - assert (M : group_texts x q = match group_clause x q with Some gc => Some (texts x (group_variables x gc)) | None => None end) by (unfold group_texts; destruct (group_clause x q); reflexivity).
    unfold add_aggregates. rewrite (proj2 (target_query_iff _ _ _ _ _ D Hv) Hq), (proj2 (select_clause_iff _ _ _ _ _ _ D Hk Sl) Hs), M.
    assert (M2 : forall gc, node_at x gc K_GroupClause -> mem (var_name (text_at x v)) (texts x (group_variables x gc)) = false <-> forall g, groups_by x gc g -> text_at x g <> var_name (text_at x v)).
    { intros gc Ng. rewrite mem_false. unfold texts. rewrite in_map_iff. split.
      - intros N u Hu Eu. apply N. exists u. split; [exact Eu|]. apply (in_group_variables _ _ _ _ _ D Ng), Hu.
      - intros N (u & Eu & Hu). apply (in_group_variables _ _ _ _ _ D Ng) in Hu. exact (N u Hu Eu). }
    assert (Ngc : forall gc, grouped x q gc -> node_at x gc K_GroupClause) by (intros gc (sm & _ & _ & H); exact H). split.
    + intros (gc & Hg & Hh & N). rewrite (proj2 (group_clause_iff _ _ _ _ _ gc D Hk Sl) (conj Hg Hh)), (proj2 (M2 gc (Ngc gc Hg)) N), Hp, Hl. first [reflexivity | f_equal; apply map_ext; intros [title w]; destruct k0; reflexivity].
    + intros N. destruct (group_clause x q) as [gc|] eqn:Eg; [|reflexivity]. apply (group_clause_iff _ _ _ _ _ gc D Hk Sl) in Eg as [Hg Hh]. destruct (mem _ _) eqn:Em; [reflexivity|]. exfalso. apply N. exists gc. split; [exact Hg|]. split; [exact Hh|]. apply (M2 gc (Ngc gc Hg)), Em.
Qed.
Theorem C67_offered : forall err t x errs v kw w q sc r a b,
  doc_parse err t x errs -> at_path x v = Some (Node K_Var [Tok kw w]) -> byte_index (rstart r) t = Some a -> byte_index (rend r) t = Some b -> smallest x (v ++ [0]) a b ->
  query_of x v q -> part x q K_SelectClause sc ->
  (grouped_without x q (var_name w) -> exists es, offer_aggregates x t r = Reply es /\ length es = 7) /\ (~ grouped_without x q (var_name w) -> offer_aggregates x t r = Reply []).
Proof.
  intros err t x errs v kw w q sc r a b P Ev Ia Ib Sm Hq Hs. pose proof (doc_parse_tree _ _ _ _ P) as D. unfold offer_aggregates. rewrite (at_variable_is _ _ _ _ _ _ _ _ _ _ _ _ P Ev Ia Ib Sm).
  assert (Hv : node_at x v K_Var) by (eexists; exact Ev). destruct Hs as [Hi [cps E]]. destruct (add_aggregates_is _ _ _ _ _ _ _ D Hv Hq (conj Hi (ex_intro _ cps E)) E) as (f & _ & H1 & H2).
  assert (Tv : text_at x v = w) by (unfold text_at; rewrite Ev; cbn [tree_text map concat flat_map]; apply app_nil_r). rewrite Tv in *. split.
  - intros H. rewrite (H1 H). eexists. split; [reflexivity|]. rewrite map_length. reflexivity.
  - intros H. rewrite (H2 H). reflexivity.
Qed.
Theorem C67_aggregates_partial : forall err t x errs v n q sc cps r a b,
  doc_parse err t x errs -> grammatical err t -> at_path x v = Some (Node K_Var [Tok K_VAR1 (chars "?" ++ n)]) -> byte_index (rstart r) t = Some a -> byte_index (rend r) t = Some b -> smallest x (v ++ [0]) a b ->
  query_of x v q -> part x q K_SelectClause sc -> at_path x sc = Some (Node K_SelectClause cps) -> grouped_without x q n ->
  marks_spaced false x sc -> star_apart x sc -> apart (flat_map snd (leaves_behind x sc)) -> not_fused (leaves_before x sc ++ leaves (Node K_SelectClause cps)) ->
  exists es, offer_aggregates x t r = Reply es /\ map fst es = map fst (aggregate_trees n) /\
    forall title col, In (title, col) (aggregate_trees n) -> exists e t' x' q', In (title, e) es /\ edited t e t' /\ doc_parse err t' x' [] /\
      at_path (bare same x) q' = Some (bare same (Node K_SelectClause cps)) /\
      bare same x' = put_at (bare same x) q' (Node K_SelectClause (with_column false col (kids (bare same (Node K_SelectClause cps))))).
Proof.
  intros err t x errs v n q sc cps r a b P G Ev Ia Ib Sm Hq Hs E Hg Ms Sa Va NF. pose proof (doc_parse_tree _ _ _ _ P) as D.
  assert (Hv : node_at x v K_Var) by (eexists; exact Ev). destruct (add_aggregates_is _ _ _ _ _ _ _ D Hv Hq Hs E) as (f & Hf & H1 & _). assert (Tv : text_at x v = 63%N :: n) by (unfold text_at; rewrite Ev; cbn [tree_text map concat flat_map]; apply app_nil_r). rewrite Tv in H1. specialize (H1 Hg).
  assert (Hn : is_valid_variable_name n = true).
  { assert (Hin : In (K_VAR1, 63%N :: n) (lex err t)) by (rewrite (node_split _ _ _ _ _ D Ev); apply in_app_iff; right; apply in_app_iff; left; left; reflexivity).
    destruct (lex_var_text _ _ _ _ Hin (or_introl eq_refl)) as (n' & En & Hn). injection En as <-. exact Hn. }
  pose proof (columns_ok n Hn) as F. set (es := map (fun c => (fst c, f (snd c))) (aggregate_columns (63%N :: n))) in *.
  exists es. split; [unfold offer_aggregates; rewrite (at_variable_is _ _ _ _ _ _ _ _ _ _ _ _ P Ev Ia Ib Sm), H1; reflexivity|]. split.
  - unfold es. rewrite map_map. cbn [fst]. clear -F. induction F as [|c d l l' [H _] F IH]; [reflexivity|]. cbn [map fst]. rewrite H, IH. reflexivity.
  - intros title col Hin. destruct (forall2_in _ _ _ _ F Hin) as ([title' w] & Hw & Et & Dc & Lc & Oc). cbn [fst snd] in *. subst title'.
    destruct (column_added err t x errs sc cps P G E false col w Dc (fun u => Lc err u) Oc Ms Sa (fun _ => Va) NF) as (e & t' & x' & q' & He & Hd & P' & A' & B').
    exists e, t', x', q'. split; [|auto]. rewrite Hf in He. injection He as <-. unfold es. apply in_map_iff. exists (title, w). split; [reflexivity|exact Hw].
Qed.

(** ** a case, and what is not claimed *)
Local Open Scope string_scope.
Local Open Scope list_scope.
(** the documents behind the actions at a cursor *)
Definition aggregated_at (t : text) (l c : nat) : list (option text) :=
  match offer_aggregates (tree_of t) t (mkrange (mkpos l c) (mkpos l c)) with
  | Reply es => map (fun e => match apply_text_edits t [snd e] with Done u => Some u | _ => None end) es
  | _ => []
  end.
Definition C67_query : text := chars "SELECT ?x (SUM(?y) AS ?n) { ?x ?p ?y } GROUP BY ?x" ++ [NL].
Definition C67_dollar : text := chars "SELECT ?x { ?x ?p $y } GROUP BY ?x" ++ [NL].
Definition C67_at : range := mkrange (mkpos 0 36) (mkpos 0 36).
Definition C67_variable : path := [0; 0; 2; 0; 2; 0; 0; 2; 2; 0; 0; 0; 0].
Example C67_witness : exists cps, (doc_parse (fun _ => 0) C67_query (tree_of C67_query) (errors_of C67_query) /\ grammatical (fun _ => 0) C67_query) /\ at_path (tree_of C67_query) C67_variable = Some (Node K_Var [Tok K_VAR1 (chars "?" ++ chars "y")]) /\
  byte_index (rstart C67_at) C67_query = Some 36 /\ byte_index (rend C67_at) C67_query = Some 36 /\ smallest (tree_of C67_query) (C67_variable ++ [0]) 36 36 /\
  query_of (tree_of C67_query) C67_variable [0; 0] /\ part (tree_of C67_query) [0; 0] K_SelectClause [0; 0; 0] /\ at_path (tree_of C67_query) [0; 0; 0] = Some (Node K_SelectClause cps) /\
  grouped_without (tree_of C67_query) [0; 0] (chars "y") /\ marks_spaced false (tree_of C67_query) [0; 0; 0] /\ star_apart (tree_of C67_query) [0; 0; 0] /\ apart (flat_map snd (leaves_behind (tree_of C67_query) [0; 0; 0])) /\
  not_fused (leaves_before (tree_of C67_query) [0; 0; 0] ++ leaves (Node K_SelectClause cps)) /\
  nth_error (aggregated_at C67_query 0 36) 0 = Some (Some (chars "SELECT ?x (SUM(?y) AS ?n) (COUNT(?y) AS ?count_y) { ?x ?p ?y } GROUP BY ?x" ++ [NL])).
Proof.
  eexists. assert (P : doc_parse (fun _ => 0) C67_query (tree_of C67_query) (errors_of C67_query)) by (apply parses_doc; vm_compute; reflexivity). pose proof (doc_parse_tree _ _ _ _ P) as D.
  assert (Ev : at_path (tree_of C67_query) C67_variable = Some (Node K_Var [Tok K_VAR1 (chars "?" ++ chars "y")])) by (vm_compute; reflexivity).
  assert (Ia : byte_index (rstart C67_at) C67_query = Some 36) by (vm_compute; reflexivity).
  assert (Hq : query_of (tree_of C67_query) C67_variable [0; 0]) by (apply (target_query_iff _ _ _ _ _ D ltac:(eexists; exact Ev)); vm_compute; reflexivity).
  assert (Hk : node_at (tree_of C67_query) [0; 0] K_SelectQuery) by (eexists; vm_compute; reflexivity).
  split; [split; [exact P|apply (derivation_checked 200 _ _ _ D); vm_compute; reflexivity]|]. split; [exact Ev|]. split; [exact Ia|]. split; [exact Ia|]. split.
  { split; [|split; [left; apply Nat.ltb_lt; vm_compute; reflexivity|]].
    - split; [apply Nat.leb_le; vm_compute; reflexivity|]. split; [apply Nat.leb_le; reflexivity|apply Nat.leb_le; vm_compute; reflexivity].
    - intros i c H. exfalso. vm_compute in H. discriminate. }
  split; [exact Hq|]. split; [split; [exists 0; reflexivity|eexists; vm_compute; reflexivity]|]. split; [vm_compute; reflexivity|].
  split. { destruct (group_clause (tree_of C67_query) [0; 0]) as [gc|] eqn:Eg; [|vm_compute in Eg; discriminate]. pose proof (proj1 (group_clause_iff _ _ _ _ _ gc D Hk eq_refl) Eg) as [Hg Hh]. exists gc. split; [exact Hg|]. split; [exact Hh|].
    intros g H. assert (Ng : node_at (tree_of C67_query) gc K_GroupClause) by (destruct Hg as (sm & _ & _ & H0); exact H0). apply (in_group_variables _ _ _ _ _ D Ng) in H. vm_compute in Eg. injection Eg as <-. vm_compute in H. destruct H as [<-|[]]. vm_compute. discriminate. }
  split. { intros i (k & ds & c0 & E1 & E2 & M). exfalso. vm_compute in E1. injection E1 as <- <-. do 11 (destruct i as [|i]; [cbn [nth_error] in E2; injection E2 as <-; cbn [tkind] in M; intuition discriminate|]). destruct i; discriminate E2. }
  split. { intros i w H. exfalso. do 12 (destruct i as [|i]; [vm_compute in H; discriminate|]). vm_compute in H. destruct i; discriminate. }
  split. { intros r H. vm_compute in H. discriminate. }
  split; [vm_compute; repeat (split; [intros ? Hq0; discriminate Hq0|]); exact I|vm_compute; reflexivity].
Qed.
(** the action means to leave out grouped variables, but compares a name without its question mark with the texts of the grouped variables: the variable the query is
    grouped by is aggregated as well; a variable with a dollar sign is made a part of the name: a syntax error *)
Theorem C67_grouped_refuted : (doc_parse (fun _ => 0) C67_query (tree_of C67_query) (errors_of C67_query) /\ grammatical (fun _ => 0) C67_query) /\
  nth_error (aggregated_at C67_query 0 29) 0 = Some (Some (chars "SELECT ?x (SUM(?y) AS ?n) (COUNT(?x) AS ?count_x) { ?x ?p ?y } GROUP BY ?x" ++ [NL])).
Proof. split; [|vm_compute; reflexivity]. assert (P : doc_parse (fun _ => 0) C67_query (tree_of C67_query) (errors_of C67_query)) by (apply parses_doc; vm_compute; reflexivity). split; [exact P|apply (derivation_checked 200 _ _ _ (doc_parse_tree _ _ _ _ P)); vm_compute; reflexivity]. Qed.
Theorem C67_dollar_refuted : (doc_parse (fun _ => 0) C67_dollar (tree_of C67_dollar) (errors_of C67_dollar) /\ grammatical (fun _ => 0) C67_dollar) /\
  exists t', nth_error (aggregated_at C67_dollar 0 19) 0 = Some (Some t') /\ doc_parse (fun _ => 0) t' (tree_of t') (errors_of t') /\ errors_of t' <> [].
Proof. split; [apply grammatical_text; vm_compute; reflexivity|]. eexists; split; [vm_compute; reflexivity|]; split; [apply parses_doc; vm_compute; reflexivity|vm_compute; discriminate]. Qed.
