(** C37-C39: formatting. *)
From Coq Require Import String List Arith NArith Bool Lia Sorting.Permutation Sorting.Sorted.
Import ListNotations.
From Verif Require Import Kinds KindFacts ParserSyntax ParserModel GrammarData ParserSpec ParserOutcome ParserProps TextModel TextSpec TextProofs TextEditProofs TextProps
  LexerModel LexerSpec LexerProps FormatData FormatModel FormatChain FormatSpec FormatTree FormatPieces FormatWeave FormatText FormatParse FormatLex.

(** [formats width s o err t r]: a formatting request for the text [t] with settings [s] and options [o] ends with [r]
    ([width] measures the display width of a text, [err] the length of an unknown token, see LexerModel.v) *)
Definition formats (width : text -> nat) (s : fsettings) (o : foptions) (err : text -> nat) (t : text) (r : fout (list text_edit)) : Prop :=
  exists gas, format_lexed gas width s o t (lex err t) = Some r.
Definition no_comment (err : text -> nat) (t : text) : Prop := forall w, ~ In (K_Comment, w) (lex err t).
(** no INSERT DATA spelled with the long s U+017F *)
Definition plain_insert (err : text -> nat) (t : text) : Prop := forall w, In (K_INSERT_DATA, w) (lex err t) -> ~ In 0x17F%N w.

Lemma formatted_gap width s o err t r : no_comment err t -> plain_insert err t -> formats width s o err t r ->
  exists es ds, r = FDone es /\ Forall2 (edit_denotes t) (rev es) ds /\ StronglySorted cgap ds /\ relaid (lex err t) (splice 0 t ds).
Proof.
  intros Hc Hp [gas H]. unfold format_lexed in H. destruct (parse rule_of gas (with_spans 0 (lex err t))) as [[[g errs]|]| | |] eqn:P; try discriminate. injection H as <-.
  assert (Sh : Forall (fun l => shape (fst l) (snd l)) (lex err t)).
  { apply Forall_forall. intros [k w] Hin. apply (lexed_shape err t); [exact Hin| |].
    - cbn [fst]. intros ->. exact (Hc w Hin).
    - cbn [fst]. intros ->. exact (Hp w Hin). }
  destruct (parsed gas (lex err t) g errs P (lex_kinds err t)) as (k & cs & E & U & W & L & T).
  { eapply Forall_impl; [|exact Sh]. intros [k w]. apply shape_leaf_ok. }
  rewrite E. assert (T' : flat_map snd (lex err t) = t) by (destruct (C25_tiles err t) as [T' _]; etransitivity; [apply flat_map_concat_map|exact T']). rewrite T' in T.
  destruct (format_tree width s o k cs U W) as (es & ds & H1 & H2 & H3 & H4).
  { apply shapes_leaves. rewrite L. exact Sh. }
  { unfold quiet. rewrite L. apply Forall_forall. intros [k' w] Hin. cbn [fst]. intros ->. exact (Hc w Hin). }
  cbv zeta in *. rewrite T in *. rewrite L in H4. exists es, ds. auto.
Qed.
Lemma formatted width s o err t r : no_comment err t -> plain_insert err t -> formats width s o err t r ->
  exists es ds, r = FDone es /\ Forall2 (edit_denotes t) (rev es) ds /\ StronglySorted before ds /\ relaid (lex err t) (splice 0 t ds).
Proof.
  intros Hc Hp F. destruct (formatted_gap _ _ _ _ _ _ Hc Hp F) as (es & ds & H1 & H2 & H3 & H4). exists es, ds. split; [exact H1|]. split; [exact H2|]. split; [|exact H4].
  apply cgap_before; [|exact H3]. clear -H2. induction H2 as [|e c l ds D _ IH]; constructor; [apply D|exact IH].
Qed.

(** ** C37: formatting ends with edits that can be applied *)
Theorem C37_total : forall width s o err t, no_comment err t -> plain_insert err t ->
  parses_to (entry_of (with_spans 0 (lex err t))) (with_spans 0 (lex err t)) PanicStuck \/
  exists es, formats width s o err t (FDone es).
Proof.
  intros width s o err t Hc Hp. set (toks := with_spans 0 (lex err t)). destruct (C25_parser_input err t) as (_ & Hn & _).
  destruct (C14_only_stuck (entry_of toks) toks (entry_of_unit toks) Hn) as [H|(g & errs & H)]; [now left|]. right.
  apply parses_to_at in H as [gas H]. assert (F : exists r, formats width s o err t r).
  { eexists. exists gas. unfold format_lexed, parse. fold toks. rewrite H. reflexivity. }
  destruct F as [r F]. destruct (formatted _ _ _ _ _ _ Hc Hp F) as (es & _ & -> & _). eauto.
Qed.
(** never a panic, never an endless loop *)
Theorem C37_no_panic : forall width s o err t r, no_comment err t -> plain_insert err t -> formats width s o err t r -> exists es, r = FDone es.
Proof. intros width s o err t r Hc Hp F. destruct (formatted _ _ _ _ _ _ Hc Hp F) as (es & _ & -> & _). eauto. Qed.
(** the edits lie inside the document, on character boundaries, and do not overlap *)
Theorem C37_edits_disjoint : forall width s o err t es, no_comment err t -> plain_insert err t -> formats width s o err t (FDone es) ->
  exists ds, Forall2 (edit_denotes t) (rev es) ds /\ StronglySorted before ds.
Proof. intros width s o err t es Hc Hp F. destruct (formatted _ _ _ _ _ _ Hc Hp F) as (es' & ds & E & H1 & H2 & _). injection E as <-. eauto. Qed.
Theorem C37_applies : forall width s o err t es, no_comment err t -> plain_insert err t -> formats width s o err t (FDone es) ->
  exists out, apply_text_edits t es = Done out.
Proof.
  intros width s o err t es Hc Hp F. destruct (C37_edits_disjoint _ _ _ _ _ _ Hc Hp F) as (ds & H1 & H2).
  destruct (C05_simultaneous_edits t es (rev es) ds (Permutation_rev es) H1 H2) as (out & H & _). eauto.
Qed.
(** one request, one result *)
Theorem C37_deterministic : forall width s o err t r r', formats width s o err t r -> formats width s o err t r' -> r = r'.
Proof.
  intros width s o err t r r' [g H] [g' H']. unfold format_lexed in *.
  set (toks := with_spans 0 (lex err t)) in *. unfold parse in *.
  destruct (parse_tokens rule_of g (entry_of toks) toks) as [[[x e]|]| | |] eqn:E; try discriminate.
  destruct (parse_tokens rule_of g' (entry_of toks) toks) as [[[x' e']|]| | |] eqn:E'; try discriminate.
  assert (K : Ok (Some (x, e)) = Ok (Some (x', e'))).
  { apply (parses_to_det (entry_of toks) toks); [apply (parses_to_intro g); [exact E|discriminate]|apply (parses_to_intro g'); [exact E'|discriminate]]. }
  injection K as -> ->. congruence.
Qed.

(** ** C38: formatting changes the layout only *)
Lemma relaid_trailing ls out b : blanks b -> relaid ls out -> relaid ls (out ++ b).
Proof.
  intros Hb H. induction H; [apply at_end; apply Forall_app; auto|apply skip_blanks; auto|]. rewrite <- !app_assoc. now apply next_token.
Qed.
Theorem C38_layout_only : forall width s o err t es out, no_comment err t -> plain_insert err t ->
  formats width s o err t (FDone es) -> apply_text_edits t es = Done out -> relaid (lex err t) out.
Proof.
  intros width s o err t es out Hc Hp F A. destruct (formatted _ _ _ _ _ _ Hc Hp F) as (es' & ds & E & H1 & H2 & H3). injection E as <-.
  destruct (C05_simultaneous_edits t es (rev es) ds (Permutation_rev es) H1 H2) as (r & Hr & D). rewrite A in Hr. injection Hr as <-.
  destruct D as [[_ ->]|[_ ->]]; [exact H3|]. apply relaid_trailing; [|exact H3]. apply Forall_cons; [right; now left|constructor].
Qed.
(** letters compared without their case, whitespace left out *)
Definition whiteb (c : char) : bool :=
  ((9 <=? c) && (c <=? 13) || (c =? 32) || (c =? 133) || (c =? 160) || (c =? 5760) || (8192 <=? c) && (c <=? 8202) || (c =? 8232) || (c =? 8233) || (c =? 8239) || (c =? 8287) || (c =? 12288))%N.
Definition letters (t : text) : text := map fold_char (filter (fun c => negb (whiteb c)) t).
Lemma whiteb_spec c : whiteb c = true <-> white c.
Proof.
  unfold whiteb, white. rewrite !orb_true_iff, !andb_true_iff, !N.leb_le, !N.eqb_eq. unfold char in *. lia.
Qed.
Lemma letters_app a b : letters (a ++ b) = letters a ++ letters b.
Proof. unfold letters. now rewrite filter_app, map_app. Qed.
Lemma letters_white b : Forall white b -> letters b = [].
Proof. intros H. induction H as [|c b Hc _ IH]; [reflexivity|]. apply whiteb_spec in Hc. unfold letters in *. cbn [filter]. now rewrite Hc. Qed.
Lemma blank_white c : blank c -> white c.
Proof. intros H. unfold white. cbn in H. unfold char in *. lia. Qed.
Lemma letters_blank b : blanks b -> letters b = [].
Proof. intros H. apply letters_white. eapply Forall_impl; [|exact H]. apply blank_white. Qed.
Lemma fold_white c : whiteb (fold_char c) = whiteb c.
Proof.
  apply eq_true_iff_eq. rewrite !whiteb_spec. unfold fold_char, upper, white. destruct (N.eqb_spec c 0x17F) as [->|]; [unfold char in *; lia|].
  destruct ((97 <=? c) && (c <=? 122))%N eqn:E; [|reflexivity]. apply andb_prop in E as [A B]. apply N.leb_le in A, B. unfold char in *. lia.
Qed.
Lemma fold_white_map t : map whiteb t = map whiteb (map fold_char t).
Proof. rewrite map_map. apply map_ext. intros c. symmetry. apply fold_white. Qed.
Lemma same_letters_letters t : forall u, same_letters t u -> letters t = letters u.
Proof.
  unfold same_letters. induction t as [|c t IH]; intros [|d u] H; try discriminate; [reflexivity|]. cbn [map] in H. injection H as H1 H2. unfold letters. cbn [filter].
  assert (W : whiteb c = whiteb d) by (rewrite <- (fold_white c), H1; apply fold_white). rewrite <- W. specialize (IH _ H2). unfold letters in IH. destruct (negb (whiteb c)); cbn [map]; [now rewrite H1, IH|exact IH].
Qed.
Lemma respelled_letters k w w' : respelled k w w' -> letters w = letters w'.
Proof.
  intros H. destruct H as [w|w w' _ H|sign w b _ Hb|w _ Hw|x b y x' b' y' _ Hx Hy _ Hb _ Hb'].
  - reflexivity.
  - now apply same_letters_letters.
  - change (sign :: w) with ([sign] ++ w). change (sign :: b ++ w) with ([sign] ++ b ++ w). now rewrite !letters_app, (letters_blank b Hb).
  - change (91%N :: w ++ [93%N]) with ([91%N] ++ w ++ [93%N]). now rewrite !letters_app, (letters_white w Hw).
  - rewrite !letters_app, (letters_white b Hb), (letters_white b' Hb'). now rewrite (same_letters_letters _ _ Hx), (same_letters_letters _ _ Hy).
Qed.
Theorem C38_same_characters : forall width s o err t es out, no_comment err t -> plain_insert err t ->
  formats width s o err t (FDone es) -> apply_text_edits t es = Done out -> letters out = letters t.
Proof.
  intros width s o err t es out Hc Hp F A. pose proof (C38_layout_only _ _ _ _ _ _ _ Hc Hp F A) as R.
  destruct (C25_tiles err t) as [T _]. rewrite <- T.
  assert (Sh : Forall (fun l => fst l = K_WHITESPACE -> blanks (snd l)) (lex err t)).
  { apply Forall_forall. intros [k w] Hin. cbn [fst snd]. intros ->. exact (proj2 (proj2 (proj2 (proj2 (lexed_shape err t K_WHITESPACE w Hin ltac:(discriminate) ltac:(discriminate)))))). }
  revert Sh. clear -R. induction R as [b Hb|w ls out R IH|k w b w' ls out Hk Hb Hr R IH]; intros Sh; cbn [map snd concat].
  - now apply letters_blank.
  - inversion Sh as [|? ? H1 H2]; subst. rewrite letters_app, (letters_blank w (H1 eq_refl)). now apply IH.
  - inversion Sh as [|? ? H1 H2]; subst. rewrite !letters_app, (letters_blank b Hb), <- (respelled_letters _ _ _ Hr). now rewrite IH.
Qed.

(** ** cases that meet the hypotheses *)
Local Open Scope string_scope.
Definition no_width (t : text) : nat := length t.
Definition opts : foptions := mkfo 2 true.
Definition no_commentb (ls : list lexeme) : bool := forallb (fun l => negb (kind_eqb (fst l) K_Comment)) ls.
Definition plain_insertb (ls : list lexeme) : bool := forallb (fun l => negb (kind_eqb (fst l) K_INSERT_DATA) || negb (existsb (N.eqb 0x17F) (snd l))) ls.
Lemma no_commentb_ok err t : no_commentb (lex err t) = true -> no_comment err t.
Proof. unfold no_commentb. rewrite forallb_forall. intros H w Hin. specialize (H _ Hin). discriminate. Qed.
Lemma plain_insertb_ok err t : plain_insertb (lex err t) = true -> plain_insert err t.
Proof.
  unfold plain_insertb. rewrite forallb_forall. intros H w Hin K. specialize (H _ Hin). cbn [fst snd] in H. change (kind_eqb K_INSERT_DATA K_INSERT_DATA) with true in H. cbn [negb orb] in H.
  apply negb_true_iff in H. assert (X : existsb (N.eqb 0x17F) w = true) by (apply existsb_exists; exists 0x17F%N; split; [exact K|reflexivity]). congruence.
Qed.
(** the text after formatting *)
Definition result (s : fsettings) (t : string) : option (outcome text) :=
  match format_lexed 4000 no_width s opts (chars t) (lex (fun _ => 0) (chars t)) with Some (FDone es) => Some (apply_text_edits (chars t) es) | _ => None end.
Definition panics (s : fsettings) (t : string) : Prop := formats no_width s opts (fun _ => 0) (chars t) FPanic.
Definition lines (l : list string) : text := flat_map (fun s => (chars s ++ [NL])%list) l.
Definition sample : string := "select*{?s a <x:y>;<x:p> 1,[  ]}".
Example C37_witness : no_comment (fun _ => 0) (chars sample) /\ plain_insert (fun _ => 0) (chars sample) /\ exists es, formats no_width default_fsettings opts (fun _ => 0) (chars sample) (FDone es) /\ 3 < length es.
Proof.
  split; [apply no_commentb_ok; vm_compute; reflexivity|]. split; [apply plain_insertb_ok; vm_compute; reflexivity|]. eexists. split; [exists 4000; vm_compute; reflexivity|cbn; lia].
Qed.
Example C38_witness : result default_fsettings sample = Some (Done (lines ["SELECT * {"; "  ?s a <x:y> ;"; "     <x:p> 1, []"; "}"])).
Proof. vm_compute. reflexivity. Qed.

(** ** C39: what formatting does not keep *)
(** a comment where the formatter knows no separator: the server panics *)
Theorem C39_comments_refuted : exists t, panics default_fsettings t.
Proof. exists ("SELECT * { GRAPH # c" ++ String (Ascii.ascii_of_nat 10) "?g { } }"). exists 4000. vm_compute. reflexivity. Qed.
(** two tokens become one although the document has no syntax error *)
Definition significant (t : text) : list kind := filter (fun k => negb (is_trivia k)) (map fst (lex (fun _ => 0) t)).
Theorem C38_tokens_refuted : forall t t', In (t, t')
  [("CONSTRUCT FROM ex:g WHERE { }", "CONSTRUCT   FROM ex:gWHERE {}");
   ("SELECT * { FILTER ex:agg(DISTINCT ex:f(?x)) }", "SELECT * {  FILTER ex:agg(DISTINCTex:f(?x))}")] ->
  (exists g, returns K_QueryUnit (with_spans 0 (lex (fun _ => 0) (chars t))) g []) /\
  exists out, result default_fsettings t = Some (Done out) /\ filter (fun c => negb (N.eqb c NL)) out = chars t' /\ significant out <> significant (chars t).
Proof.
  intros t t' H. destruct H as [E|[E|[]]]; injection E as <- <-; (split; [eexists; apply (parses_to_intro 4000); [vm_compute; reflexivity|discriminate]|]);
    eexists; (split; [vm_compute; reflexivity|]); (split; [vm_compute; reflexivity|]); vm_compute; discriminate.
Qed.
(** with a long s in INSERT DATA a letter is lost *)
Theorem C38_long_s_refuted : exists s t es out, no_comment (fun _ => 0) t /\ formats no_width s opts (fun _ => 0) t (FDone es) /\ apply_text_edits t es = Done out /\ letters out <> letters t.
Proof.
  exists (mkfs true false false false (Some true) (Some 2) false true None 120 false false), ([105; 110; 0x17F; 101; 114; 116; 32] ++ chars "data { }")%list%N.
  eexists _, _. split; [apply no_commentb_ok; vm_compute; reflexivity|]. split; [exists 4000; vm_compute; reflexivity|]. split; [vm_compute; reflexivity|]. vm_compute. discriminate.
Qed.
(** ** C40: formatting a formatted document *)
Theorem C40_idempotent_refuted : exists t out out', result default_fsettings t = Some (Done out) /\
  match format_lexed 4000 no_width default_fsettings opts out (lex (fun _ => 0) out) with Some (FDone es) => apply_text_edits out es = Done out' | _ => False end /\ out <> out'.
Proof.
  exists ("SELECT * {[ex:p" ++ quote ++ "o" ++ quote ++ ";]ex:q ex:r}"). eexists _, _. split; [vm_compute; reflexivity|]. split; [vm_compute; reflexivity|]. vm_compute. discriminate.
Qed.
