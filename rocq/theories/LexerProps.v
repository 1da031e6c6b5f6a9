(** Properties C25 and C33 to C36: the lexer. *)
From Coq Require Import String List Arith NArith Bool Lia.
Import ListNotations.
From Verif Require Import Kinds KindFacts TextModel Utf8Model ParserModel ParserSpec ParserProps LexerRegex LexerData LexerModel LexerSpec LexerProofs.

(** ** specification *)
(** a definition of the lexer matches the first [n] characters of [t] *)
Definition some_match (k : kind) (t : text) (n : nat) : Prop := exists r wb, In (k, r, wb) lexer_rules /\ rule_match r wb t n.
(** what the parser is given: the tokens with their byte spans *)
Fixpoint with_spans (from : nat) (ls : list lexeme) : list ltoken :=
  match ls with
  | [] => []
  | (k, w) :: r => let bytes := map N.to_nat (utf8 w) in
      {| ltok := {| tk := k; ttext := bytes |}; lstart := from; lend := from + length bytes |} :: with_spans (from + length bytes) r
  end.
(** every token with the text from its start on *)
Fixpoint at_each (t : text) (ls : list lexeme) : list (lexeme * text) :=
  match ls with [] => [] | (k, w) :: r => ((k, w), t) :: at_each (skipn (length w) t) r end.

(** ** facts about the definitions, checked by computation *)
Lemma rules_disjoint : all_disjoint lexer_rules = true.
Proof. vm_cast_no_check (eq_refl true). Qed.
Lemma rules_plain : forallb (fun x => negb (nullable (snd (fst x))) && negb (kind_eqb (fst (fst x)) K_Error) && negb (kind_eqb (fst (fst x)) K_Eof)) lexer_rules = true.
Proof. vm_compute. reflexivity. Qed.
Lemma rule_plain k r wb : In (k, r, wb) lexer_rules -> nullable r = false /\ k <> K_Error /\ k <> K_Eof.
Proof.
  intros H. pose proof rules_plain as P. rewrite forallb_forall in P. specialize (P _ H). cbn [fst snd] in P.
  apply andb_prop in P as [P P3]. apply andb_prop in P as [P1 P2]. apply negb_true_iff in P1, P2, P3.
  split; [exact P1|]. split; intros ->; [now rewrite kind_eqb_refl in P2|now rewrite kind_eqb_refl in P3].
Qed.
Lemma some_match_pos k t n : some_match k t n -> 0 < n.
Proof.
  intros (r & wb & Hin & _ & Hm & _). destruct n; [|lia]. cbn in Hm. apply rule_plain in Hin as (Hn & _).
  apply nullable_matches in Hm. congruence.
Qed.
Lemma some_match_unique k k' t n : some_match k t n -> some_match k' t n -> k = k'.
Proof.
  intros (r & wb & Hi & _ & Hm & _) (r' & wb' & Hi' & _ & Hm' & _).
  pose proof (all_disjoint_sound _ rules_disjoint _ _ _ _ _ _ _ Hi Hi' Hm Hm') as E. congruence.
Qed.

(** ** the lexer, step by step *)
Lemma longest_rule_some t k n : longest_rule lexer_rules t = Some (k, n) <->
  some_match k t n /\ (forall k' m, some_match k' t m -> m <= n).
Proof.
  pose proof (longest_rule_spec lexer_rules t) as S. split.
  - intros E. rewrite E in S. destruct S as [(r & wb & H1 & H2) H3]. split; [exists r, wb; auto|]. intros k' m (r' & wb' & K1 & K2). eauto.
  - intros [M L]. destruct (longest_rule lexer_rules t) as [[k' n']|].
    + destruct S as [(r & wb & H1 & H2) H3]. assert (M' : some_match k' t n') by (exists r, wb; auto).
      assert (n = n') as <-. { apply Nat.le_antisymm; [destruct M as (r' & wb' & K1 & K2); eauto|eauto]. }
      now rewrite (some_match_unique _ _ _ _ M M').
    + destruct M as (r & wb & K1 & K2). exfalso. eapply S; eassumption.
Qed.
Lemma longest_rule_none t : longest_rule lexer_rules t = None <-> (forall k m, ~ some_match k t m).
Proof.
  pose proof (longest_rule_spec lexer_rules t) as S. split.
  - intros E. rewrite E in S. intros k m (r & wb & H1 & H2). eapply S; eassumption.
  - intros H. destruct (longest_rule lexer_rules t) as [[k n]|]; [|reflexivity]. exfalso. destruct S as [(r & wb & H1 & H2) _].
    apply (H k n). exists r, wb. auto.
Qed.
Lemma longest_rule_S t k n : longest_rule lexer_rules t = Some (k, n) -> exists m, n = S m.
Proof. intros H. apply longest_rule_some in H as [H _]. apply some_match_pos in H. exists (pred n). lia. Qed.
Lemma lex_n_step err n t : t <> [] -> lex_n lexer_rules err (S n) t =
  match longest_rule lexer_rules t with
  | Some (k, m) => (k, firstn m t) :: lex_n lexer_rules err n (skipn m t)
  | None => (K_Error, firstn (S (err t)) t) :: lex_n lexer_rules err n (skipn (S (err t)) t)
  end.
Proof.
  intros Ht. destruct t as [|c t]; [congruence|]. cbn [lex_n]. destruct (longest_rule lexer_rules (c :: t)) as [[k m]|] eqn:E; [|reflexivity].
  destruct (longest_rule_S _ _ _ E) as [m' ->]. reflexivity.
Qed.
Lemma lex_n_nil err n : lex_n lexer_rules err n [] = [].
Proof. now destruct n. Qed.
Lemma lex_n_enough err : forall n m t, length t <= n -> length t <= m -> lex_n lexer_rules err n t = lex_n lexer_rules err m t.
Proof.
  induction n as [|n IH]; intros m t Hn Hm.
  - destruct t; [|cbn in Hn; lia]. now rewrite !lex_n_nil.
  - destruct t as [|c t]; [now rewrite !lex_n_nil|]. destruct m as [|m]; [cbn in Hm; lia|].
    rewrite !lex_n_step by discriminate. cbn [length] in Hn, Hm.
    destruct (longest_rule lexer_rules (c :: t)) as [[k j]|] eqn:E.
    + destruct (longest_rule_S _ _ _ E) as [j' ->]. f_equal. apply IH; rewrite skipn_length; cbn [length]; lia.
    + f_equal. apply IH; rewrite skipn_length; cbn [length]; lia.
Qed.
Lemma lex_step err t : t <> [] -> lex err t =
  match longest_rule lexer_rules t with
  | Some (k, m) => (k, firstn m t) :: lex err (skipn m t)
  | None => (K_Error, firstn (S (err t)) t) :: lex err (skipn (S (err t)) t)
  end.
Proof.
  intros Ht. unfold lex. destruct t as [|c t]; [congruence|]. cbn [length]. rewrite lex_n_step by discriminate.
  destruct (longest_rule lexer_rules (c :: t)) as [[k j]|] eqn:E.
  - destruct (longest_rule_S _ _ _ E) as [j' ->]. f_equal. apply lex_n_enough; rewrite skipn_length; cbn [length]; lia.
  - f_equal. apply lex_n_enough; rewrite skipn_length; cbn [length]; lia.
Qed.
Lemma lex_nil err : lex err [] = [].
Proof. reflexivity. Qed.
(** induction over the tokens of a text *)
Lemma lex_ind err (P : text -> list lexeme -> Prop) :
  P [] [] ->
  (forall t k n, t <> [] -> some_match k t n -> (forall k' m, some_match k' t m -> m <= n) -> n <= length t ->
     P (skipn n t) (lex err (skipn n t)) -> P t ((k, firstn n t) :: lex err (skipn n t))) ->
  (forall t, t <> [] -> (forall k m, ~ some_match k t m) ->
     P (skipn (S (err t)) t) (lex err (skipn (S (err t)) t)) -> P t ((K_Error, firstn (S (err t)) t) :: lex err (skipn (S (err t)) t))) ->
  forall t, P t (lex err t).
Proof.
  intros H0 H1 H2 t. remember (length t) as n eqn:E. revert t E. induction n as [n IH] using lt_wf_ind. intros t ->.
  destruct t as [|c t]; [exact H0|]. rewrite lex_step by discriminate. destruct (longest_rule lexer_rules (c :: t)) as [[k j]|] eqn:E.
  - destruct (longest_rule_S _ _ _ E) as [j' ->]. apply longest_rule_some in E as [M L].
    assert (S j' <= length (c :: t)) by (destruct M as (r & wb & _ & ? & _); assumption).
    apply H1; try assumption; [discriminate|]. eapply IH; [|reflexivity]. rewrite skipn_length. cbn [length]. lia.
  - apply H2; [discriminate|now apply longest_rule_none|]. eapply IH; [|reflexivity]. rewrite skipn_length. cbn [length]. lia.
Qed.

(** ** C25: the tokens tile the text *)
Theorem C25_tiles : forall err t, concat (map snd (lex err t)) = t /\ Forall (fun l => snd l <> []) (lex err t).
Proof.
  intros err t. pattern t, (lex err t). revert t. apply lex_ind.
  - split; [reflexivity|constructor].
  - intros t k n Ht M _ Hn [IH1 IH2]. cbn [map concat snd]. rewrite IH1, firstn_skipn. split; [reflexivity|]. constructor; [|exact IH2].
    cbn [snd]. apply some_match_pos in M. destruct n; [lia|]. destruct t; [congruence|discriminate].
  - intros t Ht _ [IH1 IH2]. cbn [map concat snd]. rewrite IH1, firstn_skipn. split; [reflexivity|]. constructor; [|exact IH2].
    cbn [snd]. destruct t; [congruence|discriminate].
Qed.
(** ... and so satisfy what the parser theorems (C12 to C19, C27) ask of their input *)
Lemma with_spans_tiles ls : forall from, tiles from (with_spans from ls).
Proof. induction ls as [|[k w] ls IH]; intros from; [exact I|]. cbn. auto. Qed.
Lemma with_spans_text ls : forall from, text_of (with_spans from ls) = map N.to_nat (utf8 (concat (map snd ls))).
Proof.
  induction ls as [|[k w] ls IH]; intros from; [reflexivity|]. cbn [with_spans text_of flat_map map concat snd]. cbn [ttext ltok].
  change (flat_map (fun t => ttext (ltok t)) ?x) with (text_of x). rewrite IH. unfold utf8. now rewrite flat_map_app, map_app.
Qed.
Lemma lex_kinds err t : Forall (fun l => fst l <> K_Eof) (lex err t).
Proof.
  revert t. apply (lex_ind err (fun _ ls => Forall (fun l => fst l <> K_Eof) ls)).
  - constructor.
  - intros t k n _ (r & wb & Hin & _) _ _ IH. constructor; [|exact IH]. now apply rule_plain in Hin as (_ & _ & ?).
  - intros t _ _ IH. constructor; [discriminate|exact IH].
Qed.
Theorem C25_parser_input : forall err t, let toks := with_spans 0 (lex err t) in
  tiles 0 toks /\ no_eof toks /\ text_of toks = map N.to_nat (utf8 t).
Proof.
  intros err t toks. split; [apply with_spans_tiles|]. split; [|unfold toks; rewrite with_spans_text, (proj1 (C25_tiles err t)); reflexivity].
  unfold toks. pose proof (lex_kinds err t) as K. generalize 0. induction K as [|[k w] ls Hk K IH]; intros from x Hx; [destruct Hx|].
  cbn [with_spans] in Hx. destruct Hx as [<-|Hx]; [exact Hk|]. eapply IH. exact Hx.
Qed.

(** ** C33: every token is the longest match of the one definition that matches it *)
Theorem C33_longest : forall err t k w u, In ((k, w), u) (at_each t (lex err t)) -> k <> K_Error ->
  firstn (length w) u = w /\ some_match k u (length w) /\ forall k' n, some_match k' u n -> n <= length w.
Proof.
  intros err t. pattern t, (lex err t). revert t. apply lex_ind.
  - intros k w u [].
  - intros t k n Ht M L Hn IH k0 w u Hin Hk. cbn [at_each] in Hin. rewrite firstn_length_le in Hin by assumption. destruct Hin as [E|Hin]; [|now apply IH].
    injection E as <- <- <-. rewrite firstn_length_le by assumption. auto.
  - intros t Ht N IH k0 w u Hin Hk. cbn [at_each] in Hin. destruct Hin as [E|Hin]; [congruence|]. apply IH; [|exact Hk].
    destruct (le_lt_dec (S (err t)) (length t)) as [Hl|Hl]; [now rewrite firstn_length_le in Hin|].
    rewrite (skipn_all2 t (n := S (err t))), lex_nil in Hin by lia. destruct Hin.
Qed.
Theorem C33_one_definition : forall k k' t n, some_match k t n -> some_match k' t n -> k = k'.
Proof. exact some_match_unique. Qed.
Theorem C33_errors_match_nothing : forall err t w u, In ((K_Error, w), u) (at_each t (lex err t)) -> forall k n, ~ some_match k u n.
Proof.
  intros err t. pattern t, (lex err t). revert t. apply lex_ind.
  - intros w u [].
  - intros t k n Ht M L Hn IH w u Hin. cbn [at_each] in Hin. rewrite firstn_length_le in Hin by assumption. destruct Hin as [E|Hin]; [|exact (IH w u Hin)].
    injection E as -> _ _. destruct M as (r & wb & Hr & _). now apply rule_plain in Hr as (_ & ? & _).
  - intros t Ht N IH w u Hin. cbn [at_each] in Hin. destruct Hin as [E|Hin]; [injection E as <- <-; exact N|]. apply (IH w u).
    destruct (le_lt_dec (S (err t)) (length t)) as [Hl|Hl]; [now rewrite firstn_length_le in Hin|].
    rewrite (skipn_all2 t (n := S (err t))), lex_nil in Hin by lia. destruct Hin.
Qed.

(** ** single tokens *)
Lemma single_token err w k : k <> K_Error -> (lex err w = [(k, w)] <-> exists r wb, In (k, r, wb) lexer_rules /\ matches r w).
Proof.
  intros Hk. split.
  - intros E. assert (Hw : w <> []) by (intros ->; discriminate). rewrite lex_step in E by exact Hw.
    destruct (longest_rule lexer_rules w) as [[k' n]|] eqn:L; [|injection E; congruence].
    injection E as <- E1 E2. apply longest_rule_some in L as [(r & wb & Hin & _ & Hm & _) _]. exists r, wb. split; [exact Hin|]. now rewrite E1 in Hm.
  - intros (r & wb & Hin & Hm). assert (Hw : w <> []).
    { intros ->. apply nullable_matches in Hm. apply rule_plain in Hin as (? & _). congruence. }
    rewrite lex_step by exact Hw. assert (L : longest_rule lexer_rules w = Some (k, length w)).
    { apply longest_rule_some. split.
      - exists r, wb. split; [exact Hin|]. split; [lia|]. rewrite firstn_all, skipn_all. split; [exact Hm|reflexivity].
      - intros k' m (r' & wb' & _ & ? & _). assumption. }
    rewrite L, firstn_all, skipn_all, lex_nil. reflexivity.
Qed.

(** ** C34: terminals against the SPARQL grammar *)
Definition rules_of (k : kind) : list re := flat_map (fun x => if kind_eqb (fst (fst x)) k then [snd (fst x)] else []) lexer_rules.
Lemma rules_of_In k r : In r (rules_of k) <-> exists wb, In (k, r, wb) lexer_rules.
Proof.
  unfold rules_of. rewrite in_flat_map. split.
  - intros ([[k' r'] wb] & Hin & Hr). cbn [fst snd] in Hr. destruct (kind_eqb k' k) eqn:E; [|destruct Hr]. destruct Hr as [<-|[]].
    apply kind_eqb_eq in E. subst. eauto.
  - intros (wb & Hin). exists (k, r, wb). split; [exact Hin|]. cbn [fst snd]. rewrite kind_eqb_refl. now left.
Qed.
Definition accepts_within (k : kind) : bool := match terminal k with Some s => forallb (fun r => included r s) (rules_of k) | None => false end.
Definition covers (k : kind) : bool := match terminal k with Some s => existsb (fun r => included s r) (rules_of k) | None => false end.
Definition exact_terminals : list kind := [K_IRIREF; K_PNAME_NS; K_BLANK_NODE_LABEL; K_VAR1; K_VAR2; K_LANG_DIR; K_Comment].
Definition generous_terminals : list kind :=
  [K_WHITESPACE; K_NIL; K_ANON; K_PNAME_LN; K_INTEGER; K_DECIMAL; K_DOUBLE; K_INTEGER_POSITIVE; K_DECIMAL_POSITIVE; K_DOUBLE_POSITIVE;
   K_INTEGER_NEGATIVE; K_DECIMAL_NEGATIVE; K_DOUBLE_NEGATIVE].
Lemma within_checked : forallb accepts_within (K_STRING_LITERAL1 :: exact_terminals) = true.
Proof. vm_cast_no_check (eq_refl true). Qed.
Lemma covers_checked : forallb covers (generous_terminals ++ exact_terminals) = true.
Proof. vm_cast_no_check (eq_refl true). Qed.
Lemma terminal_not_error k s : terminal k = Some s -> k <> K_Error.
Proof. intros H ->. discriminate. Qed.
Lemma within_sound k s err w : In k (K_STRING_LITERAL1 :: exact_terminals) -> terminal k = Some s -> lex err w = [(k, w)] -> matches s w.
Proof.
  intros Hk Ht Hl. apply single_token in Hl as (r & wb & Hin & Hm); [|eapply terminal_not_error; eassumption].
  pose proof within_checked as C. rewrite forallb_forall in C. specialize (C _ Hk). unfold accepts_within in C. rewrite Ht in C. rewrite forallb_forall in C.
  eapply included_sound; [|exact Hm]. apply C. apply rules_of_In. eauto.
Qed.
Lemma covers_sound k s err w : In k (generous_terminals ++ exact_terminals) -> terminal k = Some s -> matches s w -> lex err w = [(k, w)].
Proof.
  intros Hk Ht Hm. apply single_token; [eapply terminal_not_error; eassumption|].
  pose proof covers_checked as C. rewrite forallb_forall in C. specialize (C _ Hk). unfold covers in C. rewrite Ht in C.
  apply existsb_exists in C as (r & Hr & Hi). apply rules_of_In in Hr as (wb & Hr). exists r, wb. split; [exact Hr|]. eapply included_sound; eassumption.
Qed.
(** exactly the texts of the SPARQL grammar *)
Theorem C34_exact_terminals : forall k s err w, In k exact_terminals -> terminal k = Some s -> (lex err w = [(k, w)] <-> matches s w).
Proof. intros k s err w Hk Ht. split; [eapply within_sound|eapply covers_sound]; try eassumption; [now right|apply in_or_app; now right]. Qed.
(** at least the texts of the SPARQL grammar *)
Theorem C34_generous_terminals : forall k s err w, In k generous_terminals -> terminal k = Some s -> matches s w -> lex err w = [(k, w)].
Proof. intros k s err w Hk Ht. eapply covers_sound; [apply in_or_app; now left|exact Ht]. Qed.
(** at most *)
Theorem C34_single_quoted_sound : forall err w s, terminal K_STRING_LITERAL1 = Some s -> lex err w = [(K_STRING_LITERAL1, w)] -> matches s w.
Proof. intros err w s. apply within_sound. now left. Qed.

(** deciding membership *)
Definition accepts (r : re) (w : text) : bool := existsb nullable (fold_left (fun l c => pd_set c l) w [r]).
Lemma accepts_any w : forall l, existsb nullable (fold_left (fun l c => pd_set c l) w l) = true <-> matches_any l w.
Proof. induction w as [|c w IH]; intros l; cbn [fold_left]; [apply existsb_nullable|]. rewrite IH. symmetry. apply pd_set_correct. Qed.
Lemma accepts_matches r w : accepts r w = true <-> matches r w.
Proof.
  unfold accepts. rewrite accepts_any. unfold matches_any. split; [intros (x & [<-|[]] & H); exact H|intros H; exists r; split; [now left|exact H]].
Qed.
Definition no_token (w : text) : bool := forallb (fun x => negb (accepts (snd (fst x)) w)) lexer_rules.
Lemma no_token_sound w : no_token w = true -> forall err k, k <> K_Error -> lex err w <> [(k, w)].
Proof.
  intros H err k Hk E. apply single_token in E as (r & wb & Hin & Hm); [|exact Hk]. unfold no_token in H. rewrite forallb_forall in H.
  specialize (H _ Hin). cbn [fst snd] in H. apply accepts_matches in Hm. rewrite Hm in H. discriminate.
Qed.
Lemma is_token k w : k <> K_Error -> existsb (fun r => accepts r w) (rules_of k) = true -> forall err, lex err w = [(k, w)].
Proof.
  intros Hk H err. apply single_token; [exact Hk|]. apply existsb_exists in H as (r & Hr & Ha). apply rules_of_In in Hr as (wb & Hr).
  exists r, wb. split; [exact Hr|]. now apply accepts_matches.
Qed.
Definition quote : string := String (Ascii.ascii_of_nat 34) EmptyString.
Definition tab : string := String (Ascii.ascii_of_nat 9) EmptyString.
Local Open Scope string_scope.
(** but not every string literal: neither escapes in single-quoted strings, nor tabs or the escaped
    single quote in double-quoted ones, nor an escaped quote at the end of a long string *)
Theorem C34_string_literals_refuted : forall k w, In (k, w)
    [(K_STRING_LITERAL1, chars "'it\'s'"); (K_STRING_LITERAL2, chars (quote ++ tab ++ quote)); (K_STRING_LITERAL2, chars (quote ++ "it\'s" ++ quote));
     (K_STRING_LITERAL_LONG2, chars (quote ++ quote ++ quote ++ "a\" ++ quote ++ quote ++ quote ++ quote));
     (K_STRING_LITERAL_LONG1, chars "'''a\''''")] ->
  (exists s, terminal k = Some s /\ matches s w) /\ forall err k', k' <> K_Error -> lex err w <> [(k', w)].
Proof.
  intros k w H. cbn [In] in H. repeat (destruct H as [H|H]; [injection H as <- <-; split;
    [eexists; split; [reflexivity|]; apply accepts_matches; vm_compute; reflexivity|apply no_token_sound; vm_compute; reflexivity]|]). destruct H.
Qed.
(** and more than the grammar for some: digits of other scripts, a colon in a percent escape, any backslash in a long
    string, the escaped slash, form feeds *)
Theorem C34_generous_refuted : forall k w, In (k, w)
    [(K_INTEGER, [0x663%N]); (K_PNAME_LN, chars ":a%:1:2"); (K_STRING_LITERAL_LONG2, chars (quote ++ quote ++ quote ++ "\z" ++ quote ++ quote ++ quote));
     (K_STRING_LITERAL2, chars (quote ++ "\/" ++ quote)); (K_WHITESPACE, [12%N]); (K_NIL, [40%N; 12%N; 41%N]); (K_ANON, [91%N; 0xA0%N; 93%N])] ->
  (forall err, lex err w = [(k, w)]) /\ exists s, terminal k = Some s /\ ~ matches s w.
Proof.
  assert (N : forall s w, accepts s w = false -> ~ matches s w) by (intros s w H M; apply accepts_matches in M; congruence).
  intros k w H. cbn [In] in H. repeat (destruct H as [H|H]; [injection H as <- <-; split;
    [apply is_token; [discriminate|vm_compute; reflexivity]|eexists; split; [reflexivity|]; apply N; vm_compute; reflexivity]|]). destruct H.
Qed.

(** ** C35: keywords *)
Definition cased_boolean (k : kind) : bool := match k with K_True | K_False => true | _ => false end.
(** the words of a keyword, as a regular expression *)
Definition either_case (c : char) : re :=
  if ((65 <=? c) && (c <=? 90))%N then Cls [(c, c); (c + 32, c + 32)%N] else Cls [(c, c)].
Fixpoint spellings (t : text) : re := match t with [] => Eps | c :: t => Cat (either_case c) (spellings t) end.
Definition plain_upper (c : char) : bool := N.eqb (upper c) c.
Lemma spellings_complete t : forallb plain_upper t = true -> forall w, same_word w t -> matches (spellings t) w.
Proof.
  unfold same_word. induction t as [|c t IH]; intros H w E.
  - destruct w; [constructor|discriminate].
  - destruct w as [|d w]; [discriminate|]. cbn [map] in E. injection E as E1 E2. cbn [forallb] in H. apply andb_prop in H as [H1 H2].
    cbn [spellings]. change (d :: w) with (([d] ++ w)%list). constructor; [|now apply IH].
    unfold plain_upper in H1. apply N.eqb_eq in H1. rewrite H1 in E1. unfold either_case.
    assert (D : (d = c \/ ((65 <=? c) && (c <=? 90))%N = true /\ d = (c + 32)%N)).
    { unfold upper in E1. destruct ((97 <=? d) && (d <=? 122))%N eqn:B; [|left; congruence]. right. apply andb_prop in B as [B1 B2].
      apply N.leb_le in B1, B2. split; [|unfold char in *; lia]. apply andb_true_intro. split; apply N.leb_le; unfold char in *; lia. }
    destruct ((65 <=? c) && (c <=? 90))%N.
    + constructor. cbn. unfold char in *. destruct D as [->|[_ ->]]; rewrite ?N.leb_refl; cbn; rewrite ?orb_true_r; reflexivity.
    + destruct D as [->|[? _]]; [|discriminate]. constructor. cbn. now rewrite N.leb_refl.
Qed.
Definition keyword_ok (x : kind * string) : bool :=
  cased_boolean (fst x) || (forallb plain_upper (chars (snd x)) && existsb (fun r => included (spellings (chars (snd x))) r) (rules_of (fst x))
                             && negb (kind_eqb (fst x) K_Error)).
Lemma keywords_checked : forallb keyword_ok keywords = true.
Proof. vm_cast_no_check (eq_refl true). Qed.
(** a keyword in any mixture of cases is a token of its kind *)
Theorem C35_keywords_any_case : forall k s, In (k, s) keywords -> k <> K_True -> k <> K_False ->
  forall w, same_word w (chars s) -> forall err, lex err w = [(k, w)].
Proof.
  intros k s Hin Ht Hf w Hw err. pose proof keywords_checked as C. rewrite forallb_forall in C. specialize (C _ Hin). unfold keyword_ok in C. cbn [fst snd] in C.
  apply orb_prop in C as [C|C]; [destruct k; try discriminate; congruence|].
  apply andb_prop in C as [C C3]. apply andb_prop in C as [C1 C2]. apply existsb_exists in C2 as (r & Hr & Hi). apply rules_of_In in Hr as (wb & Hr).
  apply single_token; [intros ->; discriminate|]. exists r, wb. split; [exact Hr|]. eapply included_sound; [exact Hi|]. now apply spellings_complete.
Qed.
(** the boolean literals are keywords of the grammar, too, but [TRUE] is not read *)
Theorem C35_boolean_case_refuted : (forall err, lex err (chars "true") = [(K_True, chars "true")]) /\
  same_word (chars "TRUE") (chars "true") /\ forall err k, k <> K_Error -> lex err (chars "TRUE") <> [(k, chars "TRUE")].
Proof.
  split; [|split; [reflexivity|apply no_token_sound; vm_compute; reflexivity]]. apply is_token; [discriminate|vm_compute; reflexivity].
Qed.
(** the punctuation is read as itself *)
Lemma punctuation_checked : forallb (fun x => existsb (fun r => included (lit (snd x)) r && included r (lit (snd x))) (rules_of (fst x))
   && Nat.eqb (length (rules_of (fst x))) 1 && negb (kind_eqb (fst x) K_Error)) punctuation = true.
Proof. vm_cast_no_check (eq_refl true). Qed.
Lemma lit_matches s : matches (lit s) (chars s).
Proof.
  unfold lit, chars. induction (String.list_ascii_of_string s) as [|c l IH]; [constructor|]. cbn [fold_right map].
  assert (C : matches (Chr (Ascii.N_of_ascii c)) [Ascii.N_of_ascii c]).
  { constructor. cbn. now rewrite !N.leb_refl. }
  destruct (fold_right _ Eps l) eqn:E; try (change (?c :: ?w) with (([c] ++ w)%list); constructor; [exact C|exact IH]).
  inversion IH as [Hn| | | | | |]. exact C.
Qed.
Theorem C35_punctuation : forall k s, In (k, s) punctuation -> forall err w, lex err w = [(k, w)] <-> w = chars s.
Proof.
  intros k s Hin err w. pose proof punctuation_checked as C. rewrite forallb_forall in C. specialize (C _ Hin). cbn [fst snd] in C.
  apply andb_prop in C as [C C3]. apply andb_prop in C as [C1 C2]. apply existsb_exists in C1 as (r & Hr & Hi). apply andb_prop in Hi as [Hi1 Hi2].
  apply Nat.eqb_eq in C2. destruct (rules_of k) as [|r0 [|]] eqn:R; try discriminate. destruct Hr as [->|[]].
  rewrite single_token by (intros ->; discriminate). split.
  - intros (r' & wb & Hin' & Hm). assert (Hr : In r' (rules_of k)) by (apply rules_of_In; eauto). rewrite R in Hr. destruct Hr as [<-|[]].
    apply (included_sound _ _ Hi2) in Hm. clear -Hm. unfold lit, chars in *. revert w Hm. induction (String.list_ascii_of_string s) as [|c l IH]; intros w Hm.
    + now inversion Hm.
    + cbn [fold_right map] in *. assert (D : forall v, matches (Chr (Ascii.N_of_ascii c)) v -> v = [Ascii.N_of_ascii c]).
      { intros v Hv. inversion Hv as [|d rs Hd| | | | |]; subst. cbn in Hd. rewrite orb_false_r in Hd. apply andb_prop in Hd as [A B].
        apply N.leb_le in A, B. f_equal. unfold char in *. lia. }
      destruct (fold_right _ Eps l) eqn:E; try (apply matches_cat_inv in Hm as (u & v & -> & Hu & Hv); apply D in Hu as ->; apply IH in Hv as ->; reflexivity).
      apply D in Hm as ->. rewrite <- (IH []); [reflexivity|constructor].
  - intros ->. assert (Hr : In r (rules_of k)) by (rewrite R; now left). apply rules_of_In in Hr as (wb & Hr). exists r, wb. split; [exact Hr|].
    eapply included_sound; [exact Hi1|apply lit_matches].
Qed.

(** ** C36: whitespace separates tokens *)
Local Close Scope string_scope.
Definition blank : list N := [32; 9; 10; 13]%N.
Definition extensible : list kind := [K_WHITESPACE; K_Comment; K_LParen; K_LBrack; K_INSERT; K_DELETE].
Lemma separation_checked : forallb (fun x => if existsb (kind_eqb (fst (fst x))) extensible then true
   else forallb (fun y => not_extended blank (snd (fst x)) (snd (fst y))) lexer_rules) lexer_rules = true.
Proof. vm_cast_no_check (eq_refl true). Qed.
Lemma blank_not_word c : In c blank -> word_char c = false.
Proof. cbn [In blank]. intros [<-|[<-|[<-|[<-|[]]]]]; reflexivity. Qed.
Theorem C36_whitespace_separates : forall err k w c rest, lex err w = [(k, w)] -> k <> K_Error -> ~ In k extensible -> In c blank ->
  lex err (w ++ c :: rest) = (k, w) :: lex err (c :: rest).
Proof.
  intros err k w c rest Hl Hk He Hc. apply single_token in Hl as (r & wb & Hin & Hm); [|exact Hk].
  assert (L : longest_rule lexer_rules (w ++ c :: rest) = Some (k, length w)).
  { apply longest_rule_some. split.
    - exists r, wb. split; [exact Hin|]. split; [rewrite app_length; lia|]. rewrite firstn_app, Nat.sub_diag, firstn_all, firstn_O, app_nil_r.
      split; [exact Hm|]. intros _. rewrite skipn_app, Nat.sub_diag, skipn_all. cbn. now rewrite blank_not_word.
    - intros k' m (r' & wb' & Hin' & Hl & Hm' & _). destruct (le_lt_dec m (length w)) as [|Hlt]; [assumption|]. exfalso.
      pose proof separation_checked as C. rewrite forallb_forall in C. specialize (C _ Hin). cbn [fst snd] in C. destruct (existsb _ _) eqn:X in C.
      + apply existsb_exists in X as (x & Hx & E). apply kind_eqb_eq in E. subst x. contradiction.
      + rewrite forallb_forall in C. specialize (C _ Hin'). cbn [fst snd] in C.
        rewrite firstn_app, (firstn_all2 w) in Hm' by lia. replace (m - length w) with (S (m - length w - 1)) in Hm' by lia. cbn [firstn] in Hm'.
        eapply not_extended_sound; [exact C|exact Hc|exact Hm|exact Hm']. }
  assert (w <> []). { intros ->. apply nullable_matches in Hm. apply rule_plain in Hin as (? & _). congruence. }
  rewrite lex_step by (destruct w; discriminate). rewrite L.
  rewrite firstn_app, Nat.sub_diag, firstn_all, firstn_O, app_nil_r. f_equal. now rewrite skipn_app, Nat.sub_diag, skipn_all.
Qed.
Local Open Scope string_scope.
(** the update keywords that are one token with the blank in them: exactly one space for INSERT DATA *)
Theorem C36_insert_data_refuted : forall err,
  lex err (chars "INSERT DATA") = [(K_INSERT_DATA, chars "INSERT DATA")] /\
  lex err (chars "DELETE  DATA") = [(K_DELETE_DATA, chars "DELETE  DATA")] /\
  lex err (chars "INSERT  DATA") = [(K_INSERT, chars "INSERT"); (K_WHITESPACE, chars "  "); (K_DATA, chars "DATA")].
Proof.
  intros err.
  split; [apply is_token; [discriminate|vm_compute; reflexivity]|]. split; [apply is_token; [discriminate|vm_compute; reflexivity]|].
  assert (E : longest_rule lexer_rules (chars "INSERT  DATA") = Some (K_INSERT, 6)) by (vm_compute; reflexivity).
  assert (E2 : longest_rule lexer_rules (skipn 6 (chars "INSERT  DATA")) = Some (K_WHITESPACE, 2)) by (vm_compute; reflexivity).
  rewrite lex_step by discriminate. rewrite E. rewrite lex_step by discriminate. rewrite E2. cbn [skipn chars].
  rewrite (is_token K_DATA [68; 65; 84; 65]%N); [reflexivity|discriminate|vm_compute; reflexivity].
Qed.
Local Close Scope string_scope.

(** ** from text to tree *)
(** C12 for texts: the tree of a parsed text holds exactly its bytes *)
Theorem C12_lossless_text : forall err t entry g errs, entry_point entry ->
  returns entry (with_spans 0 (lex err t)) g errs -> gtext g = map N.to_nat (utf8 t).
Proof.
  intros err t entry g errs He H. destruct (C25_parser_input err t) as (_ & Hn & E). rewrite <- E.
  exact (proj2 (C12_lossless entry _ g errs He Hn H)).
Qed.
(** C18 for texts: diagnostics stay within the text and are ordered *)
Theorem C18_error_ranges_text : forall err t entry g errs e, entry_point entry ->
  returns entry (with_spans 0 (lex err t)) g errs -> In e errs -> pe_start e <= pe_end e <= length (utf8 t).
Proof.
  intros err t entry g errs e He H Hin. destruct (C25_parser_input err t) as (Ht & Hn & E).
  destruct (C18_error_ranges entry _ g errs e He Hn Ht H Hin) as [K _]. rewrite E, map_length in K. exact K.
Qed.
(** C21: line breaks occur in these tokens only *)
Definition multiline_kinds : list kind :=
  [K_WHITESPACE; K_NIL; K_ANON; K_STRING_LITERAL_LONG1; K_STRING_LITERAL_LONG2; K_DELETE_DATA; K_DELETE_WHERE; K_Error].
Lemma breaks_checked : forallb (fun x => existsb (kind_eqb (fst (fst x))) multiline_kinds
   || avoids NL (snd (fst x))) lexer_rules = true.
Proof. vm_cast_no_check (eq_refl true). Qed.
Lemma star_class rs w : matches (Star (Cls rs)) w -> Forall (fun c => in_class c rs = true) w.
Proof.
  intros H. remember (Star (Cls rs)) as r eqn:E. induction H; try discriminate; [constructor|]. injection E as ->.
  apply Forall_app. split; [|auto]. inversion H; subst. now constructor.
Qed.
Theorem C21_line_breaks : forall err t k w, In (k, w) (lex err t) -> ~ In k multiline_kinds -> ~ In NL w.
Proof.
  intros err t. pattern t, (lex err t). revert t. apply lex_ind.
  - intros k w [].
  - intros t k n _ (r & wb & Hr & Hl & Hm & _) _ _ IH k0 w [E|Hin] Hk; [|now apply (IH k0)]. injection E as <- <-.
    pose proof breaks_checked as C. rewrite forallb_forall in C. specialize (C _ Hr). cbn [fst snd] in C. apply orb_prop in C as [C|C].
    + apply existsb_exists in C as (x & Hx & E). apply kind_eqb_eq in E. subst x. contradiction.
    + exact (avoids_ok _ _ _ Hm C).
  - intros t _ _ IH k w [E|Hin] Hk; [|now apply (IH k)]. injection E as <- <-. exfalso. apply Hk. cbn. tauto.
Qed.

(** ** cases that meet the hypotheses *)
Local Open Scope string_scope.
Definition sample : text := chars "select * { ?s a <x:y>; ex:p 'v'@en, 1.5e3 } # done".
Example C25_witness : filter (fun k => negb (kind_eqb k K_WHITESPACE)) (map fst (lex (fun _ => 0) sample)) =
  [K_SELECT; K_Star; K_LCurly; K_VAR1; K_a; K_IRIREF; K_Semicolon; K_PNAME_LN; K_STRING_LITERAL1; K_LANG_DIR; K_Comma; K_DOUBLE; K_RCurly; K_Comment].
Proof. vm_compute. reflexivity. Qed.
(** two definitions match prefixes of the same text, the longer match wins *)
Example C33_witness : some_match K_Less (chars "<=1") 1 /\ some_match K_LessEquals (chars "<=1") 2.
Proof.
  assert (G : forall k t n, existsb (fun x => kind_eqb (fst (fst x)) k && accepts (snd (fst x)) (firstn n t) && negb (snd x)) lexer_rules = true ->
    n <= length t -> some_match k t n).
  { intros k t n H Hn. apply existsb_exists in H as ([[k' r] wb] & Hin & H). cbn [fst snd] in H. apply andb_prop in H as [H H3]. apply andb_prop in H as [H1 H2].
    apply kind_eqb_eq in H1. subst k'. exists r, wb. split; [exact Hin|]. split; [exact Hn|]. split; [now apply accepts_matches|]. destruct wb; discriminate. }
  split; apply G; try (vm_compute; reflexivity); cbn; lia.
Qed.
Example C33_witness_error : In (K_Error, chars "%", chars "%") (at_each (chars "a %") (lex (fun _ => 0) (chars "a %"))).
Proof. vm_compute. tauto. Qed.
Example C34_witness : matches (match terminal K_PNAME_LN with Some s => s | None => Eps end) (chars "dbo:birth.Place%20x").
Proof. apply accepts_matches. vm_compute. reflexivity. Qed.
Example C35_witness : In (K_SELECT, "SELECT") keywords /\ same_word (chars "SeLecT") (chars "SELECT").
Proof. split; [cbn; tauto|reflexivity]. Qed.
Example C36_witness : forall err, lex err (chars "ex:p") = [(K_PNAME_LN, chars "ex:p")] /\ ~ In K_PNAME_LN extensible.
Proof. intros err. split; [apply is_token; [discriminate|vm_compute; reflexivity]|]. cbn. intuition discriminate. Qed.
