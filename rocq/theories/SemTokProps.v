(** Properties C20, C21: semantic tokens. *)
From Coq Require Import List Arith NArith Bool Lia.
Import ListNotations.
From Verif Require Import Kinds KindFacts TextModel TextSpec TextProofs SemTokModel.

(** ** specification *)
(** a highlighted token: where it starts, how long it is, its type *)
Definition highlight := (pos * nat * semtype)%type.
(** what an LSP client makes of the data, given the legend: five numbers per token, the line relative
    to the previous token's, the column relative to it if on the same line *)
Fixpoint decode (legend : list semtype) (data : list nat) (at_ : pos) : option (list highlight) :=
  match data with
  | [] => Some []
  | dl :: dc :: len :: ty :: 0 :: rest =>
    let p := mkpos (line at_ + dl) (if dl =? 0 then character at_ + dc else dc) in
    match nth_error legend ty, decode legend rest p with
    | Some t, Some hs => Some ((p, len, t) :: hs)
    | _, _ => None
    end
  | _ => None
  end.
Definition client_view (data : list nat) : option (list highlight) := decode token_types data (mkpos 0 0).

(** the tokens of a document, each with the text before it *)
Fixpoint occurrences (pre : text) (toks : list leaf) : list (text * leaf) :=
  match toks with
  | [] => []
  | (k, t) :: r => (pre, (k, t)) :: occurrences (pre ++ t) r
  end.
(** line and column after a text, with the column in units of [len] per character *)
Definition position_in (len : char -> nat) (pre : text) : pos :=
  mkpos (count_occ N.eq_dec pre NL) (list_sum (map len (last_line pre))).
(** what should be highlighted: the tokens that have a type and touch the range *)
Definition expected (len : char -> nat) (r : option range) (o : text * leaf) : list highlight :=
  let '(pre, (k, t)) := o in
  match semantic_type k with
  | Some ty =>
    if match r with None => true | Some r => overlaps (mkrange (position_in len pre) (position_in len (pre ++ t))) r end
    then [(position_in len pre, list_sum (map len t), ty)] else []
  | None => []
  end.
(** line breaks occur in whitespace only *)
Definition breaks_in_whitespace (toks : list leaf) : Prop := forall k t, In (k, t) toks -> k <> K_WHITESPACE -> ~ In NL t.
Definition ascii (t : text) : Prop := Forall (fun c => (c < 128)%N) t.
Definition document_of (toks : list leaf) : text := flat_map snd toks.

(** ** proofs *)
Definition as_highlight (s : semtok) : highlight := (mkpos (st_line s) (st_char s), st_length s, st_type s).
Definition place_le (a b : nat * nat) : Prop := fst a < fst b \/ (fst a = fst b /\ snd a <= snd b).
Fixpoint ordered (p : nat * nat) (ts : list semtok) : Prop :=
  match ts with [] => True | s :: r => place_le p (st_line s, st_char s) /\ ordered (st_line s, st_char s) r end.

Lemma type_id_nth ty : exists i, type_id token_types ty 0 = Some i /\ nth_error token_types i = Some ty.
Proof. destruct ty; eexists; (split; [reflexivity|reflexivity]). Qed.
Lemma decode_encode ts : forall l c, ordered (l, c) ts ->
  exists data, encode ts l c = Some data /\ decode token_types data (mkpos l c) = Some (map as_highlight ts).
Proof.
  induction ts as [|s r IH]; intros l c H; [exists []; auto|]. destruct H as [H Hr].
  destruct (IH _ _ Hr) as (data & E & D). destruct (type_id_nth (st_type s)) as (i & I1 & I2).
  cbn [encode]. unfold place_le in H. cbn [fst snd] in H.
  unfold sub_checked at 1. replace (l <=? st_line s) with true by (symmetry; apply Nat.leb_le; lia).
  rewrite I1, E.
  destruct (Nat.ltb_spec 0 (st_line s - l)) as [L|L].
  - eexists. split; [reflexivity|]. cbn [decode app]. rewrite I2. cbn [TextModel.line character].
    replace (st_line s - l =? 0) with false by (symmetry; apply Nat.eqb_neq; lia).
    replace (l + (st_line s - l)) with (st_line s) by lia. rewrite D. reflexivity.
  - assert (E' : st_line s = l) by lia. unfold sub_checked. replace (c <=? st_char s) with true by (symmetry; apply Nat.leb_le; lia).
    eexists. split; [reflexivity|]. cbn [decode app]. rewrite I2. cbn [TextModel.line character].
    replace (st_line s - l =? 0) with true by (symmetry; apply Nat.eqb_eq; lia).
    replace (l + (st_line s - l)) with (st_line s) by lia. replace (c + (st_char s - c)) with (st_char s) by lia. rewrite D. reflexivity.
Qed.
Lemma nl_len : len_utf8 NL = 1. Proof. reflexivity. Qed.
Lemma count_nl t : length (filter is_nl t) = count_occ N.eq_dec t NL.
Proof. induction t as [|c t IH]; [reflexivity|]. cbn. unfold is_nl at 1. destruct (N.eq_dec c NL) as [->|n]; [cbn; now rewrite IH|]. apply N.eqb_neq in n. now rewrite n. Qed.
Lemma rfind_some t : forall a i, rfind_nl t a = Some i ->
  exists u v, t = u ++ NL :: v /\ ~ In NL v /\ i = a + byte_len u.
Proof.
  induction t as [|c t IH]; intros a i H; cbn [rfind_nl] in H; [discriminate|].
  destruct (rfind_nl t _) as [j|] eqn:E.
  - injection H as <-. destruct (IH _ _ E) as (u & v & -> & Hv & ->). exists (c :: u), v. cbn [byte_len]. repeat split; [assumption|lia].
  - destruct (is_nl c) eqn:Ec; [|discriminate]. injection H as <-. apply N.eqb_eq in Ec. subst c.
    exists [], t. split; [reflexivity|]. split; [|cbn; lia]. clear -E. revert E. generalize (a + len_utf8 NL).
    induction t as [|c t IH]; intros n E; [tauto|]. cbn [rfind_nl] in E. destruct (rfind_nl t _) eqn:E'; [discriminate|].
    destruct (is_nl c) eqn:Ec; [discriminate|]. intros [->|H]; [discriminate|]. exact (IH _ E' H).
Qed.
Lemma rfind_none t a : rfind_nl t a = None -> ~ In NL t.
Proof.
  revert a. induction t as [|c t IH]; intros a E; [tauto|]. cbn [rfind_nl] in E. destruct (rfind_nl t _) eqn:E'; [discriminate|].
  destruct (is_nl c) eqn:Ec; [discriminate|]. intros [->|H]; [discriminate|]. exact (IH _ E' H).
Qed.
Lemma next_place_le k t l c : place_le (l, c) (next_place k t l c).
Proof.
  unfold next_place, place_le. destruct (kind_eqb _ _); [|cbn; lia]. destruct (rfind_nl t 0) as [i|] eqn:E; [|cbn; lia].
  destruct (rfind_some _ _ _ E) as (u & v & -> & _). left. cbn [fst]. rewrite count_nl.
  rewrite count_occ_app. cbn [count_occ]. destruct (N.eq_dec NL NL); [lia|congruence].
Qed.
Lemma place_le_trans a b c : place_le a b -> place_le b c -> place_le a c.
Proof. unfold place_le. lia. Qed.
Lemma ordered_weaken p q ts : place_le p q -> ordered q ts -> ordered p ts.
Proof. destruct ts; [auto|]. cbn. intros H [K R]. split; [eapply place_le_trans; eassumption|exact R]. Qed.
Lemma collect_ordered toks : forall r l c, ordered (l, c) (collect toks r l c).
Proof.
  induction toks as [|[k t] rest IH]; intros r l c; [exact I|]. cbn [collect].
  pose proof (next_place_le k t l c) as H. destruct (next_place k t l c) as [l' c'].
  specialize (IH r l' c').
  assert (W : ordered (l, c) (collect rest r l' c')) by (eapply ordered_weaken; eassumption).
  destruct (match r with None => true | Some r0 => _ end); [|exact W]. destruct (semantic_type k); [|exact W].
  cbn [app ordered st_line st_char]. split; [right; cbn; lia|exact W].
Qed.

(** ** C20 *)
(** for every sequence of tokens: the encoding never underflows, and the client decodes exactly the
    collected tokens *)
Theorem C20_decodes : forall toks r, exists data,
  semantic_tokens_response toks r = Some data /\
  client_view data = Some (map as_highlight (collect_semantic_tokens toks r)).
Proof. intros toks r. apply decode_encode. apply collect_ordered. Qed.

(** every token is highlighted except whitespace, errors, brackets and punctuation, blank nodes and
    language tags *)
Theorem C20_highlighted_kinds : forall k, (kind_id k < kind_id K_QueryUnit)%N ->
  semantic_type k = None <->
  In k [K_Eof; K_Error; K_WHITESPACE; K_LParen; K_RParen; K_LCurly; K_RCurly; K_LCurlyPipe; K_PipeRCurly; K_Semicolon; K_Dot;
        K_Tilde; K_Comma; K_QuestionMark; K_LBrack; K_RBrack; K_LANG_DIR; K_DoubleLess; K_DoubleLessLParen; K_DoubleMore;
        K_RParenDoubleMore; K_BLANK_NODE_LABEL; K_ANON].
Proof.
  intros k H.
  assert (B : forall k, (kind_id k <? kind_id K_QueryUnit)%N = true ->
    match semantic_type k with None => true | Some _ => false end =
    kind_in k [K_Eof; K_Error; K_WHITESPACE; K_LParen; K_RParen; K_LCurly; K_RCurly; K_LCurlyPipe; K_PipeRCurly; K_Semicolon; K_Dot;
        K_Tilde; K_Comma; K_QuestionMark; K_LBrack; K_RBrack; K_LANG_DIR; K_DoubleLess; K_DoubleLessLParen; K_DoubleMore;
        K_RParenDoubleMore; K_BLANK_NODE_LABEL; K_ANON]).
  { clear. intros k. destruct k; vm_compute; intros H; first [reflexivity|discriminate H]. }
  apply N.ltb_lt in H. specialize (B k H). rewrite <- kind_in_In, <- B. destruct (semantic_type k); split; congruence.
Qed.

(** the byte position the server computes, for documents with line breaks in whitespace only *)
Lemma last_line_snoc_text pre t : ~ In NL t -> last_line (pre ++ t) = last_line pre ++ t.
Proof.
  revert pre. induction t as [|c t IH]; intros pre H; [now rewrite !app_nil_r|].
  replace (pre ++ c :: t) with ((pre ++ [c]) ++ t) by (rewrite <- app_assoc; reflexivity).
  rewrite IH by (intros K; apply H; now right).
  assert (E : last_line (pre ++ [c]) = last_line pre ++ [c]).
  { unfold last_line. rewrite last_line_from_app. cbn. replace (N.eqb c NL) with false; [reflexivity|].
    symmetry; apply N.eqb_neq. intros ->. apply H. now left. }
  rewrite E, <- app_assoc. reflexivity.
Qed.
Lemma count_occ_none t : ~ In NL t -> count_occ N.eq_dec t NL = 0.
Proof. intros H. now apply count_occ_not_In. Qed.
Lemma sum_app len (a b : text) : list_sum (map len (a ++ b)) = list_sum (map len a) + list_sum (map len b).
Proof. now rewrite map_app, list_sum_app. Qed.
Lemma byte_sum t : byte_len t = list_sum (map len_utf8 t).
Proof. induction t as [|c t IH]; [reflexivity|]. change (byte_len (c :: t)) with (len_utf8 c + byte_len t). rewrite IH. reflexivity. Qed.
Lemma next_place_position pre k t : (k <> K_WHITESPACE -> ~ In NL t) ->
  next_place k t (line (position_in len_utf8 pre)) (character (position_in len_utf8 pre)) =
  (line (position_in len_utf8 (pre ++ t)), character (position_in len_utf8 (pre ++ t))).
Proof.
  intros H. unfold next_place, position_in. cbn [TextModel.line character].
  assert (N0 : ~ In NL t -> (count_occ N.eq_dec pre NL, list_sum (map len_utf8 (last_line pre)) + byte_len t) =
     (count_occ N.eq_dec (pre ++ t) NL, list_sum (map len_utf8 (last_line (pre ++ t))))).
  { intros Hn. f_equal; [|now rewrite last_line_snoc_text, sum_app, byte_sum by assumption].
    rewrite count_occ_app. pose proof (count_occ_none t Hn) as Z. unfold char in *. lia. }
  destruct (kind_eqb_spec k K_WHITESPACE) as [->|Hk]; [|auto].
  destruct (rfind_nl t 0) as [i|] eqn:E; [|apply N0; eapply rfind_none; eassumption].
  destruct (rfind_some _ _ _ E) as (u & v & -> & Hv & ->). rewrite count_nl. apply f_equal2; [symmetry; apply count_occ_app|].
  rewrite byte_len_app. cbn [byte_len Nat.add]. rewrite nl_len.
  replace (pre ++ u ++ NL :: v) with ((pre ++ u) ++ [NL] ++ v) by (rewrite <- app_assoc; reflexivity).
  rewrite last_line_app_nl by assumption. rewrite <- (byte_sum v). lia.
Qed.
Lemma collect_exact toks r : forall pre, breaks_in_whitespace toks ->
  map as_highlight (collect toks r (line (position_in len_utf8 pre)) (character (position_in len_utf8 pre))) =
  flat_map (expected len_utf8 r) (occurrences pre toks).
Proof.
  induction toks as [|[k t] rest IH]; intros pre H; [reflexivity|]. cbn [collect occurrences flat_map].
  rewrite next_place_position by (apply H; now left). cbv beta iota.
  rewrite map_app, IH by (intros k' t' K; apply H; now right). f_equal.
  unfold expected. replace (mkpos (line (position_in len_utf8 pre)) (character (position_in len_utf8 pre))) with (position_in len_utf8 pre) by reflexivity.
  replace (mkpos (line (position_in len_utf8 (pre ++ t))) (character (position_in len_utf8 (pre ++ t)))) with (position_in len_utf8 (pre ++ t)) by reflexivity.
  destruct (semantic_type k) as [ty|]; [|now destruct (match r with None => true | Some _ => _ end)].
  destruct (match r with None => true | Some _ => _ end); [|reflexivity]. cbn [map as_highlight st_line st_char st_length st_type]. unfold as_highlight. cbn. now rewrite byte_sum.
Qed.
(** if line breaks occur in whitespace only, the client sees exactly the highlighted tokens (in the
    range), in order, at their line, with columns and lengths in bytes *)
Theorem C20_highlights : forall toks r, breaks_in_whitespace toks -> exists data,
  semantic_tokens_response toks r = Some data /\
  client_view data = Some (flat_map (expected len_utf8 r) (occurrences [] toks)).
Proof.
  intros toks r H. destruct (C20_decodes toks r) as (data & E & D). exists data. split; [exact E|].
  rewrite D. f_equal. exact (collect_exact toks r [] H).
Qed.

(** ** C21 *)
Lemma ascii_len c : (c < 128)%N -> len_utf8 c = 1 /\ len_utf16 c = 1.
Proof.
  intros H. unfold len_utf8, len_utf16. replace (c <? 128)%N with true by (symmetry; now apply N.ltb_lt).
  replace (c <? 65536)%N with true by (symmetry; apply N.ltb_lt; lia). auto.
Qed.
Lemma len_lt c : (128 <= c)%N -> len_utf16 c < len_utf8 c.
Proof.
  intros H. unfold len_utf8, len_utf16. replace (c <? 128)%N with false by (symmetry; now apply N.ltb_ge).
  destruct (N.ltb_spec c 2048), (N.ltb_spec c 65536); lia.
Qed.
Lemma sum_ascii t : list_sum (map len_utf16 t) <= list_sum (map len_utf8 t) /\
  (list_sum (map len_utf8 t) = list_sum (map len_utf16 t) <-> ascii t).
Proof.
  induction t as [|c t [L IH]]; [cbn; split; [lia|split; [constructor|reflexivity]]|]. cbn [map list_sum fold_right].
  change (fold_right Nat.add 0 (map len_utf16 t)) with (list_sum (map len_utf16 t)).
  change (fold_right Nat.add 0 (map len_utf8 t)) with (list_sum (map len_utf8 t)).
  destruct (N.lt_ge_cases c 128) as [H|H].
  - destruct (ascii_len c H) as [-> ->]. split; [lia|]. split.
    + intros E. constructor; [exact H|]. apply IH. lia.
    + intros E. inversion E; subst. assert (E' : list_sum (map len_utf8 t) = list_sum (map len_utf16 t)) by now apply IH. lia.
  - pose proof (len_lt c H). split; [lia|]. split; [lia|]. intros E. inversion E; subst. lia.
Qed.
Lemma ascii_app a b : ascii (a ++ b) <-> ascii a /\ ascii b.
Proof. unfold ascii. apply Forall_app. Qed.
Lemma ascii_last_line t : ascii t -> ascii (last_line t).
Proof.
  intros H. destruct (split_last_line t) as (a & b & -> & Hb & Ha). apply ascii_app in H as [_ H].
  destruct Ha as [->|(a' & ->)].
  - cbn [app]. now rewrite last_line_no_nl.
  - rewrite <- app_assoc. now rewrite last_line_app_nl.
Qed.
Lemma position_in_ascii pre : ascii pre -> position_in len_utf8 pre = position_after pre.
Proof. intros H. unfold position_in, position_after, utf16_len. f_equal. apply sum_ascii. now apply ascii_last_line. Qed.
(** for ASCII documents with line breaks in whitespace only, every highlighted token is reported at
    its UTF-16 position with its UTF-16 length *)
Theorem C21_ascii_documents : forall toks r, breaks_in_whitespace toks -> ascii (document_of toks) -> exists data,
  semantic_tokens_response toks r = Some data /\
  client_view data = Some (flat_map (expected len_utf16 r) (occurrences [] toks)).
Proof.
  intros toks r H A. destruct (C20_highlights toks r H) as (data & E & D). exists data. split; [exact E|]. rewrite D. f_equal.
  assert (G : forall pre, ascii pre -> ascii (document_of toks) -> flat_map (expected len_utf8 r) (occurrences pre toks) = flat_map (expected len_utf16 r) (occurrences pre toks)).
  { clear. induction toks as [|[k t] rest IH]; intros pre Hp A; [reflexivity|]. cbn [occurrences flat_map].
    cbn [document_of flat_map snd] in A. apply ascii_app in A as [At Ar].
    assert (Apt : ascii (pre ++ t)) by (apply ascii_app; auto).
    rewrite IH by assumption. f_equal. unfold expected.
    rewrite !position_in_ascii by assumption. change (position_in len_utf16) with position_after.
    now rewrite (proj2 (proj2 (sum_ascii t)) At). }
  apply G; [constructor|exact A].
Qed.
(** and only for those: a token is reported at its UTF-16 position exactly if nothing before it in its
    line is outside ASCII, and with its UTF-16 length exactly if it is ASCII itself *)
Theorem C21_non_ascii_refuted : forall pre t : text,
  (position_in len_utf8 pre = position_after pre <-> ascii (last_line pre)) /\
  (list_sum (map len_utf8 t) = utf16_len t <-> ascii t).
Proof.
  intros pre t. split; [|apply sum_ascii]. unfold position_in, position_after, utf16_len. split.
  - intros H. injection H as H. now apply sum_ascii.
  - intros H. f_equal. now apply sum_ascii.
Qed.
(** after a token that contains a line break and is not whitespace (a long string, DELETE WHERE on two
    lines) every highlighted token is reported on too early a line *)
Lemma place_line_le k t l c : fst (next_place k t l c) <= l + count_occ N.eq_dec t NL /\
  (k <> K_WHITESPACE -> fst (next_place k t l c) = l).
Proof.
  unfold next_place. destruct (kind_eqb_spec k K_WHITESPACE) as [->|Hk]; [|cbn; split; [lia|auto]].
  split; [|congruence]. destruct (rfind_nl t 0); cbn [fst]; rewrite ?count_nl; lia.
Qed.
Lemma forall2_impl {A B} (P Q : A -> B -> Prop) l m : (forall a b, P a b -> Q a b) -> Forall2 P l m -> Forall2 Q l m.
Proof. intros H. induction 1; constructor; auto. Qed.
Definition typed (o : text * leaf) : bool := match semantic_type (fst (snd o)) with Some _ => true | None => false end.
Lemma collect_lines toks : forall pre l c d, l + d <= count_occ N.eq_dec pre NL ->
  Forall2 (fun h o => line (fst (fst h)) + d <= line (position_after (fst o)))
          (map as_highlight (collect toks None l c)) (filter typed (occurrences pre toks)).
Proof.
  induction toks as [|[k t] rest IH]; intros pre l c d H; [constructor|]. cbn [collect].
  pose proof (place_line_le k t l c) as [P _]. destruct (next_place k t l c) as [l' c'] eqn:E. cbn [fst] in P.
  assert (R : Forall2 (fun h o => line (fst (fst h)) + d <= line (position_after (fst o)))
          (map as_highlight (collect rest None l' c')) (filter typed (occurrences (pre ++ t) rest))).
  { apply IH. rewrite count_occ_app. lia. }
  cbn [occurrences filter]. unfold typed at 1. cbn [fst snd]. destruct (semantic_type k); cbn [app map]; [constructor; [exact H|exact R]|exact R].
Qed.
Lemma collect_app a : forall b r l c, exists l' c', collect (a ++ b) r l c = collect a r l c ++ collect b r l' c' /\
  l' <= l + count_occ N.eq_dec (document_of a) NL.
Proof.
  induction a as [|[k t] a IH]; intros b r l c; [exists l, c; cbn; split; [reflexivity|lia]|]. cbn [app collect].
  pose proof (place_line_le k t l c) as [P _]. destruct (next_place k t l c) as [l1 c1]. cbn [fst] in P.
  destruct (IH b r l1 c1) as (l' & c' & E & L). exists l', c'. rewrite E, app_assoc. split; [reflexivity|].
  change (document_of ((k, t) :: a)) with (t ++ document_of a). rewrite count_occ_app. unfold char, text in *. lia.
Qed.
Theorem C21_multiline_refuted : forall before k t after, k <> K_WHITESPACE -> In NL t ->
  exists data hs1 hs2, semantic_tokens_response (before ++ (k, t) :: after) None = Some data /\
  client_view data = Some (hs1 ++ hs2) /\
  Forall2 (fun h o => line (fst (fst h)) < line (position_after (fst o))) hs2
          (filter typed (occurrences (document_of before ++ t) after)).
Proof.
  intros before k t after Hk Hn. destruct (C20_decodes (before ++ (k, t) :: after) None) as (data & E & D).
  destruct (collect_app before ((k, t) :: after) None 0 0) as (l & c & C & L).
  pose proof (eq_trans D (f_equal (fun x => Some (map as_highlight x)) C)) as D'. clear D. rename D' into D. cbn [collect] in D. destruct (place_line_le k t l c) as [_ P]. specialize (P Hk).
  destruct (next_place k t l c) as [l' c']. cbn [fst] in P. subst l'.
  rewrite app_assoc, map_app in D. exists data, (map as_highlight (collect before None 0 0 ++ match semantic_type k with
    | Some ty => [mksemtok l c (byte_len t) ty] | None => [] end)), (map as_highlight (collect after None l c')).
  split; [exact E|]. split; [exact D|].
  assert (K : l + 1 <= count_occ N.eq_dec (document_of before ++ t) NL).
  { rewrite count_occ_app. apply (count_occ_In N.eq_dec) in Hn. unfold char, text in *. lia. }
  eapply forall2_impl; [|apply (collect_lines after _ l c' 1 K)]. intros h o Hl. cbv beta in *. rewrite Nat.add_1_r in Hl. exact Hl.
Qed.

(** the hypotheses are met *)
Definition sample : list leaf :=
  [(K_SELECT, [83; 69; 76; 69; 67; 84]); (K_WHITESPACE, [32]); (K_VAR1, [63; 120]); (K_WHITESPACE, [10; 10; 32]);
   (K_LCurly, [123]); (K_RCurly, [125]); (K_Comment, [35; 33])]%N.
Example C20_witness : breaks_in_whitespace sample /\ ascii (document_of sample) /\
  semantic_tokens_response sample None = Some [0; 0; 6; 0; 0;  0; 7; 2; 2; 0;  2; 3; 2; 5; 0] /\
  semantic_tokens_response sample (Some (mkrange (mkpos 0 3) (mkpos 2 3))) = Some [0; 0; 6; 0; 0;  0; 7; 2; 2; 0].
Proof.
  split; [|split; [|split; reflexivity]].
  - intros k t H Hk K. cbn in H. repeat (destruct H as [H|H]; [injection H as <- <-; cbn in K; intuition (discriminate || congruence)|]). exact H.
  - unfold ascii. cbn. repeat (constructor; [lia|]). constructor.
Qed.
Example C21_witness_multiline : (* a long string over two lines, then a variable reported on line 0 *)
  exists data, semantic_tokens_response [(K_STRING_LITERAL_LONG1, [39; 39; 39; 10; 39; 39; 39]%N); (K_VAR1, [63; 120]%N)] None = Some data /\
  data = [0; 0; 7; 3; 0;  0; 7; 2; 2; 0].
Proof. eexists. split; reflexivity. Qed.
