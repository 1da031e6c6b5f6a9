(** Whitespace and comments do not matter to the parser: C58. *)
From Coq Require Import String List Arith NArith Bool Lia.
Import ListNotations.
From Verif Require Import ServerModel Kinds KindFacts ParserSyntax ParserModel GrammarData ParserTree ParserTerm ParserBuild ParserSpec ParserChecks ParserOutcome ParserProps
  TextModel TextSpec TextProofs Utf8Model LexerRegex LexerModel LexerSpec LexerProps FormatData FormatModel FormatTree FormatText FormatParse FormatWeave
  TreeModel TreePlace TreeShape TreeRename VarModel VarSpec VarProps DiagModel DiagSpec DiagFacts LexLayout RenameProps OnTypeModel OnTypeProofs OnTypeProps DiagProps.

(** ** what is left of a document without whitespace and comments *)
Definition trivial (l : lexeme) : bool := match fst l with K_WHITESPACE | K_Comment => true | _ => false end.
Definition tokens (err : text -> nat) (t : text) : list lexeme := filter (fun l => negb (trivial l)) (lex err t).
Fixpoint bare (f : lexeme -> lexeme) (x : tree) : tree :=
  match x with
  | Tok k w => tok (f (k, w))
  | Node k cs => Node k (flat_map (fun c => match c with Tok k w => if trivial (k, w) then [] else [tok (f (k, w))] | Node _ _ => [bare f c] end) cs)
  end.
Definition same (l : lexeme) : lexeme := l.
(** the [i]-th token of a document, from byte [a] to byte [b] *)
Definition token_nr (err : text -> nat) (t : text) (i a b : nat) : Prop :=
  exists l1 l l2, lex err t = l1 ++ l :: l2 /\ trivial l = false /\ length (filter (fun l => negb (trivial l)) l1) = i /\ a = byte_len (flat_map snd l1) /\ b = a + byte_len (snd l).
(** an error is at the [i]-th token, or behind the last one *)
Definition error_at (err : text -> nat) (t : text) (i : nat) (e : parse_error) : Prop :=
  token_nr err t i (pe_start e) (pe_end e) \/
  (length (tokens err t) <= i /\ pe_start e = pe_end e /\ match length (tokens err t) with 0 => pe_end e = 0 | S n => exists a, token_nr err t n a (pe_end e) end).

Lemma trivial_is l : trivial l = is_trivia (lkind l).
Proof. unfold trivial, lkind. destruct l as [k w]. destruct k; reflexivity. Qed.
Definition sigs (ls : list lexeme) : list lexeme := filter (fun l => negb (trivial l)) ls.
Section same.
Context (f : lexeme -> lexeme) (fk : forall l, fst (f l) = fst l).
Definition piece (c : tree) : list tree := match c with Tok k w => if trivial (k, w) then [] else [tok (f (k, w))] | Node _ _ => [bare f c] end.
Lemma pieces_trivia u : Forall (fun l => is_trivia (lkind l) = true) u -> flat_map piece (map tok u) = [].
Proof. induction 1 as [|[k w] u H _ IH]; [reflexivity|]. cbn [map flat_map]. unfold piece at 1. cbn [tok fst snd]. rewrite trivial_is, H. exact IH. Qed.
Lemma sigs_trivia u : Forall (fun l => is_trivia (lkind l) = true) u -> sigs u = [].
Proof. induction 1 as [|l u H _ IH]; [reflexivity|]. unfold sigs. cbn [filter]. rewrite trivial_is, H. exact IH. Qed.
Lemma sigs_app a b : sigs (a ++ b) = sigs a ++ sigs b.
Proof. apply filter_app. Qed.
(** a list of tokens: trivia, then nothing or a token *)
Lemma split_sigs l : exists u n, split_trivia lkind l = (u, n) /\ sigs l = sigs n /\ flat_map piece (map tok u) = [] /\
  match n with x :: r => sigs n = x :: sigs r /\ flat_map piece [tok x] = [tok (f x)] | [] => True end.
Proof.
  destruct (split_trivia_spec lkind l) as (u & n & E & -> & F & H). exists u, n. split; [exact E|]. split; [rewrite sigs_app, (sigs_trivia _ F); reflexivity|]. split; [apply pieces_trivia, F|].
  destruct n as [|[k w] r]; [exact I|]. unfold sigs. cbn [filter flat_map]. unfold piece. cbn [tok fst snd]. rewrite trivial_is, H. cbn. auto.
Qed.
Lemma place_same t : forall l l', map f (sigs l) = map f (sigs l') ->
  flat_map piece (fst (tplace t l)) = flat_map piece (fst (tplace t l')) /\ map f (sigs (snd (tplace t l))) = map f (sigs (snd (tplace t l'))).
Proof.
  induction t as [k|k ts IH|e] using ptree_rect'; intros l l' E.
  - unfold tplace, place. destruct (split_sigs l) as (u & n & -> & El & Eu & Hn). destruct (split_sigs l') as (u' & n' & -> & El' & Eu' & Hn'). rewrite El, El' in E.
    destruct n as [|x n]; destruct n' as [|x' n'].
    + cbn [fst snd]. rewrite Eu, Eu'. auto.
    + destruct Hn' as [Hn' _]. rewrite Hn' in E. discriminate.
    + destruct Hn as [Hn _]. rewrite Hn in E. discriminate.
    + destruct Hn as [Hn Hp], Hn' as [Hn' Hp']. rewrite Hn, Hn' in E. cbn [map] in E. injection E as Ex E. cbn [fst snd]. rewrite !flat_map_app, Eu, Eu', Hp, Hp', Ex. auto.
  - assert (Hl : forall l l', map f (sigs l) = map f (sigs l') -> flat_map piece (fst (tplaces ts l)) = flat_map piece (fst (tplaces ts l')) /\ map f (sigs (snd (tplaces ts l))) = map f (sigs (snd (tplaces ts l')))).
    { clear E l l'. induction IH as [|t ts Ht _ IHl]; intros l l' E; [cbn; auto|]. unfold tplaces in *. cbn [places]. fold tplace in *. destruct (Ht l l' E) as [A B]. unfold tplace in *.
      destruct (place lkind tok Node t l) as [a n], (place lkind tok Node t l') as [a' n']. cbn [fst snd] in *. destruct (IHl n n' B) as [C D].
      destruct (places lkind tok Node ts n) as [b m], (places lkind tok Node ts n') as [b' m']. cbn [fst snd] in *. rewrite !flat_map_app, A, C. auto. }
    unfold tplace. rewrite !place_node.
    assert (exists u n u' n', (if is_unit k then ([], l) else split_trivia lkind l) = (u, n) /\ (if is_unit k then ([], l') else split_trivia lkind l') = (u', n') /\ flat_map piece (map tok u) = [] /\ flat_map piece (map tok u') = [] /\ map f (sigs n) = map f (sigs n')) as (u & n & u' & n' & -> & -> & Eu & Eu' & En).
    { destruct (is_unit k); [exists [], l, [], l'; auto|]. destruct (split_sigs l) as (u & n & -> & El & Eu & _). destruct (split_sigs l') as (u' & n' & -> & El' & Eu' & _). exists u, n, u', n'. rewrite <- El, <- El'. auto. }
    destruct (Hl n n' En) as [A B]. unfold tplaces in *. destruct (places lkind tok Node ts n) as [cs m], (places lkind tok Node ts n') as [cs' m']. cbn [fst snd] in *. rewrite !flat_map_app, Eu, Eu'. split; [|exact B].
    cbn [app flat_map piece bare]. unfold piece in A. f_equal. f_equal. exact A.
  - cbn. auto.
Qed.
Lemma places_same ts : forall l l', map f (sigs l) = map f (sigs l') ->
  flat_map piece (fst (tplaces ts l)) = flat_map piece (fst (tplaces ts l')) /\ map f (sigs (snd (tplaces ts l))) = map f (sigs (snd (tplaces ts l'))).
Proof.
  induction ts as [|t ts IHl]; intros l l' E; [cbn; auto|]. unfold tplaces in *. cbn [places]. destruct (place_same t l l' E) as [A B]. unfold tplace in *.
  destruct (place lkind tok Node t l) as [a n], (place lkind tok Node t l') as [a' n']. cbn [fst snd] in *. destruct (IHl n n' B) as [C D].
  destruct (places lkind tok Node ts n) as [b m], (places lkind tok Node ts n') as [b' m']. cbn [fst snd] in *. rewrite !flat_map_app, A, C. auto.
Qed.
Lemma pieces_leaves l : flat_map piece (map tok l) = map (fun x => tok (f x)) (sigs l).
Proof. induction l as [|[k w] l IH]; [reflexivity|]. unfold sigs in *. cbn [map flat_map filter]. unfold piece at 1. cbn [tok fst snd]. destruct (trivial (k, w)); cbn [negb app map]; rewrite IH; reflexivity. Qed.
Lemma placed_same ts l l' : map f (sigs l) = map f (sigs l') -> flat_map piece (placed lkind tok Node ts l) = flat_map piece (placed lkind tok Node ts l').
Proof.
  intros E. destruct (places_same ts l l' E) as [A B]. unfold placed, tplaces in *. destruct (places lkind tok Node ts l) as [cs m], (places lkind tok Node ts l') as [cs' m']. cbn [fst snd] in *.
  rewrite !flat_map_app, A. f_equal. rewrite !pieces_leaves, <- !(map_map f tok), B. reflexivity.
Qed.
Lemma sigs_seen l : seen l = map fst (map f (sigs l)).
Proof.
  rewrite map_map, (map_ext _ _ fk). unfold seen, significant_kinds, sigs. induction l as [|x l IH]; [reflexivity|]. cbn [map filter]. rewrite trivial_is. destruct (is_trivia (lkind x)); cbn [negb map]; rewrite IH; reflexivity.
Qed.
Lemma entry_seen l : entry_for l = match find (fun k => kind_in k query_keywords || kind_in k update_keywords) (seen l) with Some k => if kind_in k query_keywords then K_QueryUnit else K_UpdateUnit | None => K_QueryUnit end.
Proof.
  unfold entry_for, entry_of. generalize 0. induction l as [|[k w] l IH]; intros n; [reflexivity|]. cbn [with_spans guess_operation_type ltok tk]. unfold seen, significant_kinds in *. cbn [map filter lkind fst].
  destruct (is_trivia k) eqn:T; cbn [negb].
  - destruct k; try discriminate T; apply IH.
  - cbn [find]. destruct (kind_in k query_keywords) eqn:Q; cbn [orb]; [rewrite Q; reflexivity|]. destruct (kind_in k update_keywords); [rewrite Q; reflexivity|apply IH].
Qed.
Lemma entry_same l l' : map f (sigs l) = map f (sigs l') -> entry_for l = entry_for l'.
Proof. intros E. rewrite !entry_seen, !sigs_seen, E. reflexivity. Qed.
End same.
Lemma doc_parse_returns err t x errs : doc_parse err t x errs -> exists g, returns (entry_for (lex err t)) (with_spans 0 (lex err t)) g errs /\ x = fst (graft g (lex err t)).
Proof. intros (gas & g & E & ->). exists g. split; [|reflexivity]. apply (parses_to_intro gas); [exact E|discriminate]. Qed.
Lemma doc_parse_run err t x errs : doc_parse err t x errs -> exists gas ts f, ex_rule rule_of gas (entry_for (lex err t)) (seen (lex err t)) max_fuel = Ok ([PNode (entry_for (lex err t)) ts], [], f) /\
  errs = map (mkerr (with_spans 0 (lex err t))) (perrss 0 (prunes ts)) /\ pleavess ts = seen (lex err t) /\ x = Node (entry_for (lex err t)) (placed lkind tok Node (prunes ts) (lex err t)).
Proof.
  intros P. pose proof (doc_parse_returns _ _ _ _ P) as (g & R & Ex). destruct (returns_run _ _ _ _ (entry_of_unit _) (with_spans_no_eof _ _ (lex_kinds _ _)) R) as (gas & ts & cs & f & E & Eg & Ee & L & _). rewrite seen_kinds in E, L.
  exists gas, ts, f. split; [exact E|]. split; [exact Ee|]. split; [exact L|]. apply doc_tree_intro in E as D. destruct D as (gas' & g' & errs' & P' & Eg'). rewrite Eg', Ex. f_equal. f_equal.
  assert (returns (entry_for (lex err t)) (with_spans 0 (lex err t)) g' errs') as R' by (apply (parses_to_intro gas'); [exact P'|discriminate]). pose proof (parses_to_det _ _ _ _ R R') as K. congruence.
Qed.
Lemma run_same gas gas' entry ks ts ts' f f' : ex_rule rule_of gas entry ks max_fuel = Ok ([PNode entry ts], [], f) -> ex_rule rule_of gas' entry ks max_fuel = Ok ([PNode entry ts'], [], f') -> ts = ts'.
Proof.
  intros E E'. destruct (proj2 (proj2 (ex_gas rule_of gas (gas + gas') ltac:(lia))) entry ks max_fuel) as [K|K]; [congruence|]. destruct (proj2 (proj2 (ex_gas rule_of gas' (gas + gas') ltac:(lia))) entry ks max_fuel) as [K'|K']; congruence.
Qed.
Lemma nth_token ls : forall from n t, nth_error (filter ntrivia (with_spans from ls)) n = Some t ->
  exists l1 l l2, ls = l1 ++ l :: l2 /\ trivial l = false /\ length (sigs l1) = n /\ lstart t = from + byte_len (flat_map snd l1) /\ lend t = lstart t + byte_len (snd l).
Proof.
  induction ls as [|[k w] ls IH]; intros from n t E; [destruct n; discriminate|]. cbn [with_spans filter] in E. unfold ntrivia at 1, ParserModel.trivia in E. cbn [ltok tk] in E. change (is_trivia k) with (is_trivia (lkind (k, w))) in E. rewrite <- trivial_is in E.
  assert (length (map N.to_nat (utf8 w)) = byte_len w) as W by (rewrite map_length; apply utf8_length). rewrite W in E.
  assert (Tail : forall n, nth_error (filter ntrivia (with_spans (from + byte_len w) ls)) n = Some t -> exists l1 l l2, (k, w) :: ls = l1 ++ l :: l2 /\ trivial l = false /\
    length (sigs l1) = (if trivial (k, w) then 0 else 1) + n /\ lstart t = from + byte_len (flat_map snd l1) /\ lend t = lstart t + byte_len (snd l)).
  { clear n E. intros n E. destruct (IH _ _ _ E) as (l1 & l & l2 & -> & T & L & A & B). exists ((k, w) :: l1), l, l2. split; [reflexivity|]. split; [exact T|]. split; [unfold sigs in *; cbn [filter]; destruct (trivial (k, w)); cbn [negb length]; lia|]. split; [|exact B]. cbn [flat_map snd]. rewrite byte_len_app. lia. }
  destruct (trivial (k, w)) eqn:Tr; cbn [negb] in E; [apply Tail, E|]. destruct n as [|n]; [|apply Tail, E]. injection E as <-. exists [], (k, w), ls. split; [reflexivity|]. split; [exact Tr|]. split; [reflexivity|]. cbn. lia.
Qed.
Lemma sig_count ls : forall from, length (filter ntrivia (with_spans from ls)) = length (sigs ls).
Proof.
  induction ls as [|[k w] ls IH]; intros from; [reflexivity|]. unfold sigs in *. cbn [with_spans filter]. unfold ntrivia at 1, ParserModel.trivia. cbn [ltok tk]. rewrite trivial_is. cbn [lkind fst]. destruct (is_trivia k); cbn [negb length]; rewrite IH; reflexivity.
Qed.
Lemma mkerr_at err t n e : error_at err t n (mkerr (with_spans 0 (lex err t)) (n, e)).
Proof.
  unfold mkerr, span_of, error_at, token_nr. cbn [fst snd]. change (tokens err t) with (sigs (lex err t)). rewrite <- (sig_count (lex err t) 0).
  destruct (nth_error (filter ntrivia (with_spans 0 (lex err t))) n) as [u|] eqn:E.
  - left. cbn [pe_start pe_end]. destruct (nth_token _ _ _ _ E) as (l1 & l & l2 & H1 & H2 & H3 & H4 & H5). exists l1, l, l2. auto.
  - right. split; [apply nth_error_None, E|]. destruct (rev _) as [|u r] eqn:R; cbn [pe_start pe_end]; (split; [reflexivity|]); apply (f_equal (@rev _)) in R; rewrite rev_involutive in R; cbn [rev] in R.
    + rewrite R. reflexivity.
    + assert (nth_error (filter ntrivia (with_spans 0 (lex err t))) (length (rev r)) = Some u) as N by (rewrite R, nth_error_app2, Nat.sub_diag by lia; reflexivity).
      assert (length (filter ntrivia (with_spans 0 (lex err t))) = S (length (rev r))) as -> by (rewrite R, app_length, Nat.add_comm; reflexivity).
      destruct (nth_token _ _ _ _ N) as (l1 & l & l2 & H1 & H2 & H3 & H4 & H5). exists (lstart u), l1, l, l2. auto.
Qed.
Definition same_errors (err : text -> nat) (t t' : text) (errs errs' : list parse_error) : Prop :=
  Forall2 (fun e e' => pe_expected e = pe_expected e' /\ exists i, error_at err t i e /\ error_at err t' i e') errs errs'.
Section layouts.
Context (f : lexeme -> lexeme) (fk : forall l, fst (f l) = fst l).
Lemma layout_same err t t' x errs x' errs' : doc_parse err t x errs -> doc_parse err t' x' errs' -> map f (tokens err t) = map f (tokens err t') -> bare f x = bare f x' /\ same_errors err t t' errs errs'.
Proof.
  intros P P' E. change (map f (sigs (lex err t)) = map f (sigs (lex err t'))) in E. destruct (doc_parse_run _ _ _ _ P) as (gas & ts & fu & R & Ee & _ & Ex). destruct (doc_parse_run _ _ _ _ P') as (gas' & ts' & fu' & R' & Ee' & _ & Ex').
  rewrite <- (entry_same f fk _ _ E) in R', Ex'. rewrite (sigs_seen f fk (lex err t)), E, <- (sigs_seen f fk) in R. pose proof (run_same _ _ _ _ _ _ _ _ R R') as <-. split.
  - rewrite Ex, Ex'. cbn [bare]. f_equal. exact (placed_same f (prunes ts) _ _ E).
  - rewrite Ee, Ee'. unfold same_errors. clear. induction (perrss 0 (prunes ts)) as [|[n e] l IH]; [constructor|]. constructor; [|exact IH]. split; [|exists n; split; apply mkerr_at]. unfold mkerr. destruct (span_of _ _), (span_of _ _). reflexivity.
Qed.
Lemma layout_parses err t t' x errs : doc_parse err t x errs -> map f (tokens err t) = map f (tokens err t') -> exists x' errs', doc_parse err t' x' errs'.
Proof.
  intros P E. change (map f (sigs (lex err t)) = map f (sigs (lex err t'))) in E. destruct (doc_parse_run _ _ _ _ P) as (gas & ts & fu & R & _).
  rewrite (entry_same f fk _ _ E), (sigs_seen f fk (lex err t)), E, <- (sigs_seen f fk) in R. apply doc_tree_intro in R as (gas' & g & errs' & R & _). exists (fst (graft g (lex err t'))), errs', gas', g. split; [exact R|reflexivity].
Qed.
End layouts.

(** ** C58: two documents with the same tokens, but for whitespace and comments, have the same tree, but for whitespace and comments *)
Theorem C58_same_tree : forall err t t' x x', doc_tree err t x -> doc_tree err t' x' -> tokens err t = tokens err t' -> bare same x = bare same x'.
Proof.
  intros err t t' x x' (gas & g & errs & P & ->) (gas' & g' & errs' & P' & ->) E. apply (layout_same same (fun _ => eq_refl) err t t' _ errs _ errs'); [exists gas, g; auto|exists gas', g'; auto|f_equal; exact E].
Qed.
(** ... and the same errors at the same tokens *)
Theorem C58_same_errors : forall err t t' x errs x' errs', doc_parse err t x errs -> doc_parse err t' x' errs' -> tokens err t = tokens err t' -> same_errors err t t' errs errs'.
Proof. intros err t t' x errs x' errs' P P' E. apply (layout_same same (fun _ => eq_refl) err t t' x errs x' errs' P P'). f_equal. exact E. Qed.
(** ... and if the parser panics on one of them, then on the other *)
Theorem C58_same_panics : forall err t t' x, doc_tree err t x -> tokens err t = tokens err t' -> exists x', doc_tree err t' x'.
Proof.
  intros err t t' x (gas & g & errs & P & ->) E. destruct (layout_parses same (fun _ => eq_refl) err t t' (fst (graft g (lex err t))) errs) as (x' & errs' & P'); [exists gas, g; auto|f_equal; exact E|]. exists x'. eapply doc_parse_tree, P'.
Qed.
(** ** on-type formatting leaves the tree as it is, but for whitespace *)
Lemma squeeze_kind l : fst (squeeze l) = fst l.
Proof. unfold squeeze. destruct l as [k w]. destruct k; reflexivity. Qed.
Lemma read_tokens err t : map squeeze (tokens err t) = filter (fun l => negb (trivial l)) (read err t).
Proof.
  unfold tokens, read. induction (lex err t) as [|l ls IH]; [reflexivity|]. cbn [filter]. assert (trivial (squeeze l) = trivial l) as T by (unfold trivial; rewrite squeeze_kind; reflexivity).
  destruct (kind_eqb_spec (fst l) K_WHITESPACE) as [E|N]; cbn [negb].
  - unfold trivial at 1. rewrite E. cbn [negb]. exact IH.
  - cbn [map filter]. rewrite T. destruct (trivial l); cbn [negb map]; rewrite IH; reflexivity.
Qed.
Lemma read_same err t t' x : doc_tree err t x -> read err t' = read err t -> exists x', doc_tree err t' x' /\ bare squeeze x = bare squeeze x'.
Proof.
  intros (gas & g & errs & P & ->) R. assert (map squeeze (tokens err t) = map squeeze (tokens err t')) as E by (rewrite !read_tokens, R; reflexivity).
  assert (doc_parse err t (fst (graft g (lex err t))) errs) as P0 by (exists gas, g; auto). destruct (layout_parses squeeze squeeze_kind err t t' _ _ P0 E) as (x' & errs' & P'). exists x'. split; [eapply doc_parse_tree, P'|].
  eapply (layout_same squeeze squeeze_kind); eassumption.
Qed.
Theorem C55_same_tree : forall width s o err t x at_ e, doc_tree err t x -> cr_only_in_crlf t -> no_lexical_error err t -> on_type_formatting width s o x t at_ [NL] = Reply (Some e) ->
  exists t' x', edited t e t' /\ doc_tree err t' x' /\ bare squeeze x = bare squeeze x'.
Proof.
  intros width s o err t x at_ e D C N H. destruct (C55_newline _ _ _ _ _ _ _ _ D C H) as (a & i & b & i' & _ & _ & _ & _ & _ & Ed & R). destruct (read_same _ _ _ _ D (R N)) as (x' & D' & E). eauto.
Qed.
Theorem C56_same_tree : forall width s o err t x at_ c k e, doc_tree err t x -> cr_only_in_crlf t -> no_lexical_error err t -> terminator c k -> on_type_formatting width s o x t at_ [c] = Reply (Some e) ->
  exists t' x', edited t e t' /\ doc_tree err t' x' /\ bare squeeze x = bare squeeze x'.
Proof.
  intros width s o err t x at_ c k e D C N T H. destruct (C56_terminator _ _ _ _ _ _ _ _ _ _ D C T H) as (_ & a & i & b & i' & _ & _ & _ & _ & _ & _ & Ed & R). destruct (read_same _ _ _ _ D (R N)) as (x' & D' & E). eauto.
Qed.

(** ** cases that meet the hypotheses *)
Local Open Scope string_scope.
Definition spaced : text := chars ("SELECT  ?a" ++ NLs ++ "{ ?a # a comment }" ++ NLs ++ " ?b ; ?c }").
Definition dense : text := chars "SELECT?a{?a?b;?c}".
Example C58_witness : doc_parse (fun _ => 0) spaced (tree_of spaced) (errors_of spaced) /\ doc_parse (fun _ => 0) dense (tree_of dense) (errors_of dense) /\ tokens (fun _ => 0) spaced = tokens (fun _ => 0) dense /\ length (errors_of dense) = 2 /\ tree_of spaced <> tree_of dense.
Proof.
  split; [apply parses_doc; vm_compute; reflexivity|]. split; [apply parses_doc; vm_compute; reflexivity|]. split; [vm_compute; reflexivity|]. split; [vm_compute; reflexivity|]. intros E. vm_compute in E. discriminate.
Qed.
