(** Requests about variables, on the tree of a document. *)
From Coq Require Import String List Arith NArith Bool Lia Relations Sorted.
Import ListNotations.
From Verif Require Import ServerModel Kinds KindFacts ParserSyntax ParserModel GrammarData ParserTree ParserTerm ParserBuild ParserSpec ParserChecks ParserOutcome
  TextModel TextSpec TextProofs TextProps Utf8Model LexerModel LexerSpec LexerProps FormatData FormatModel FormatTree FormatText FormatParse
  TreeModel TreePlace TreeShape VarModel VarUnion VarSpec VarRegions VarOcc.

(** ** nodes and the text *)
Lemma flat_map_split (cs : list tree) i c : nth_error cs i = Some c ->
  flat_map tree_text cs = flat_map tree_text (firstn i cs) ++ tree_text c ++ flat_map tree_text (skipn (S i) cs).
Proof.
  revert i; induction cs as [|d cs IH]; intros [|i] E; cbn in E; try discriminate.
  - injection E as ->. reflexivity.
  - cbn [flat_map firstn skipn]. rewrite (IH _ E). rewrite <- app_assoc. reflexivity.
Qed.
Lemma node_slice x : forall p y, at_path x p = Some y ->
  exists a b, tree_text x = a ++ tree_text y ++ b /\ byte_len a = start_at x p /\ length a = chars_before x p.
Proof.
  induction x as [k w|k cs IH] using tree_ind'; intros [|i p] y E; cbn [at_path] in E; try discriminate.
  - injection E as <-. exists [], []. rewrite app_nil_r. split; [reflexivity|]. split; reflexivity.
  - injection E as <-. exists [], []. rewrite app_nil_r. split; [reflexivity|]. split; reflexivity.
  - destruct (nth_error cs i) as [c|] eqn:C; [|discriminate]. destruct (nth_error_Forall _ _ _ _ IH C _ _ E) as (a & b & T & L & N).
    exists (flat_map tree_text (firstn i cs) ++ a), (b ++ flat_map tree_text (skipn (S i) cs)). cbn [tree_text start_at chars_before]. rewrite C.
    rewrite (flat_map_split _ _ _ C), T, byte_len_app, app_length, L, N, <- !app_assoc. split; [reflexivity|]. split; reflexivity.
Qed.
(** two nodes one after the other, none inside the other *)
Lemma nodes_apart x : forall p q y z, doc_before p q -> (forall r, q <> p ++ r) -> at_path x p = Some y -> at_path x q = Some z ->
  chars_before x p + length (tree_text y) <= chars_before x q.
Proof.
  induction x as [k w|k cs IH] using tree_ind'; intros p q y z B Hn Ep Eq.
  - destruct q as [|j q]; [inversion B|discriminate].
  - inversion B as [i j p' q' Hlt|i p' q' B'|i q']; subst.
    + cbn [at_path] in Ep, Eq. destruct (nth_error cs i) as [c|] eqn:C; [|discriminate]. destruct (nth_error cs j) as [d|] eqn:D; [|discriminate].
      destruct (node_slice _ _ _ Ep) as (a & b & T & _ & N). cbn [chars_before]. rewrite C, D, <- N.
      assert (length (flat_map tree_text (firstn i cs)) + length (tree_text c) <= length (flat_map tree_text (firstn j cs))) as H.
      { rewrite <- (firstn_skipn (S i) (firstn j cs)), flat_map_app, app_length, firstn_firstn, Nat.min_l by lia.
        assert (firstn (S i) cs = firstn i cs ++ [c]) as ->.
        { clear -C. revert i C; induction cs as [|e cs IH]; intros [|i] C; cbn in C; try discriminate; [injection C as ->; reflexivity|]. cbn [firstn app]. f_equal. apply (IH i C). }
        rewrite flat_map_app, app_length. cbn [flat_map]. rewrite app_nil_r. lia. }
      rewrite T, !app_length in H. lia.
    + cbn [at_path] in Ep, Eq. destruct (nth_error cs i) as [c|] eqn:C; [|discriminate].
      assert (forall r, q' <> p' ++ r) as Hn' by (intros r ->; apply (Hn r); reflexivity).
      pose proof (nth_error_Forall _ _ _ _ IH C _ _ _ _ B' Hn' Ep Eq) as H. cbn [chars_before]. rewrite C. lia.
    + exfalso. apply (Hn (i :: q')). reflexivity.
Qed.

(** ** byte_index stays inside the document *)
Lemma byte_len_cons c r : byte_len (c :: r) = len_utf8 c + byte_len r.
Proof. reflexivity. Qed.
Lemma nl_len c : is_nl c = true -> len_utf8 c = 1.
Proof. unfold is_nl. intros H. apply N.eqb_eq in H. subst. reflexivity. Qed.
Lemma cr_len c : is_cr c = true -> len_utf8 c = 1.
Proof. unfold is_cr. intros H. apply N.eqb_eq in H. subst. reflexivity. Qed.
Lemma skip_lines_le n : forall cs, length cs <= n -> forall todo bi b rest, skip_lines todo cs bi = Some (b, rest) -> b + byte_len rest <= bi + byte_len cs.
Proof.
  induction n as [|n IH]; intros cs Hn todo bi b rest H.
  - destruct cs; [|cbn in Hn; lia]. destruct todo; cbn in H; [|discriminate]. injection H as <- <-. lia.
  - destruct cs as [|c r]; [destruct todo; cbn in H; [injection H as <- <-; cbn; lia|discriminate]|]. destruct todo as [|k]; [cbn in H; injection H as <- <-; lia|].
    cbn [length] in Hn. cbn [skip_lines] in H. rewrite byte_len_cons. destruct (is_nl c) eqn:NL'.
    + apply nl_len in NL'. apply IH in H; [|lia]. lia.
    + destruct (is_cr c) eqn:CR'.
      * apply cr_len in CR'. destruct r as [|d r']; [apply IH in H; [lia|lia]|]. rewrite byte_len_cons in *. destruct (is_nl d) eqn:ND.
        -- apply nl_len in ND. apply IH in H; [lia|cbn in Hn; lia].
        -- apply IH in H; [rewrite byte_len_cons in H; lia|lia].
      * apply IH in H; [lia|lia].
Qed.
Lemma skip_cols_le n : forall cs, length cs <= n -> forall target idx bi b, skip_cols target idx cs bi = Some b -> b <= bi + byte_len cs.
Proof.
  induction n as [|n IH]; intros cs Hn target idx bi b H.
  - destruct cs; [|cbn in Hn; lia]. cbn [skip_cols] in H. destruct (idx <? target); [discriminate|]. injection H as <-. lia.
  - destruct cs as [|c r]; [cbn [skip_cols] in H; destruct (idx <? target); [discriminate|]; injection H as <-; lia|]. cbn [length] in Hn. cbn [skip_cols] in H. rewrite byte_len_cons.
    destruct (idx <? target); [|injection H as <-; lia]. destruct (is_nl c); [discriminate|]. destruct (is_cr c).
    + destruct r as [|d r']; [apply IH in H; [lia|lia]|]. rewrite byte_len_cons. destruct (is_nl d); [discriminate|]. apply IH in H; [lia|cbn in Hn; lia].
    + apply IH in H; [lia|lia].
Qed.
Lemma byte_index_le p t b : byte_index p t = Some b -> b <= byte_len t.
Proof.
  rewrite byte_index_unfold. destruct (skip_lines (line p) t 0) as [[bi rest]|] eqn:E; [|discriminate]. intros H.
  apply (skip_lines_le (length t)) in E; [|lia]. apply (skip_cols_le (length rest)) in H; [|lia]. lia.
Qed.

(** ** the tree of a document *)
Lemma doc_text err t x : doc_tree err t x -> tree_text x = t.
Proof.
  intros (gas & g & errs & H & ->). assert (Hn : no_eof (with_spans 0 (lex err t))) by (apply with_spans_no_eof, lex_kinds).
  assert (R : returns (entry_of (with_spans 0 (lex err t))) (with_spans 0 (lex err t)) g errs) by (apply parses_to_intro with (gas := gas); [exact H|discriminate]).
  destruct (returns_run _ _ _ _ (entry_of_unit _) Hn R) as (gas' & ts & cs & f & _ & -> & _ & _ & T & _).
  destruct (graft_ok (GNodeT (entry_of (with_spans 0 (lex err t))) cs) (lex err t) []) as (y & G1 & G2 & _).
  { cbn [gtokens]. change (flat_map gtokens cs) with (gtokenss cs). rewrite T, map_length, with_spans_length. reflexivity. }
  rewrite app_nil_r in G1. rewrite G1. cbn [fst]. rewrite leaves_text, G2. destruct (C25_tiles err t) as [T' _]. etransitivity; [apply flat_map_concat_map|exact T'].
Qed.
Lemma range_at_doc err t x p y : doc_tree err t x -> at_path x p = Some y -> exists a b, t = a ++ tree_text y ++ b /\ length a = chars_before x p /\
  range_at x t p = Some (mkrange (position_after a) (position_after (a ++ tree_text y))).
Proof.
  intros D E. destruct (node_slice _ _ _ E) as (a & b & T & L & N). rewrite (doc_text _ _ _ D) in T. exists a, b. split; [exact T|]. split; [exact N|].
  unfold range_at, end_at, text_at. rewrite E, <- L, <- byte_len_app, T, from_byte_index_boundary, app_assoc, from_byte_index_boundary. reflexivity.
Qed.
Lemma unwrap_all_map {A B} (f : A -> option B) (R : A -> B -> Prop) l : (forall x, In x l -> exists y, f x = Some y /\ R x y) ->
  exists ys, unwrap_all (map f l) = Some ys /\ Forall2 R l ys.
Proof.
  induction l as [|x l IH]; intros H; [exists []; split; [reflexivity|constructor]|]. destruct (H x (or_introl eq_refl)) as (y & E & Hy).
  destruct (IH (fun z Hz => H z (or_intror Hz))) as (ys & Es & F). exists (y :: ys). cbn [map unwrap_all]. rewrite E, Es. split; [reflexivity|]. constructor; assumption.
Qed.

(** ** the token under a position *)
Lemma in_leaf_paths x : forall p, In p (leaf_paths x) <-> exists k w, at_path x p = Some (Tok k w).
Proof.
  induction x as [k w|k cs IH] using tree_ind'; intros p; cbn [leaf_paths].
  - split; [intros [<-|[]]; exists k, w; reflexivity|]. intros (k' & w' & E). destruct p; [left; reflexivity|discriminate].
  - rewrite (in_imap_concat leaf_paths). split.
    + intros (j & c & q & E & -> & H). apply (nth_error_Forall _ _ _ _ IH E) in H as (k' & w' & H). exists k', w'. cbn [Nat.add at_path]. rewrite E. exact H.
    + intros (k' & w' & H). destruct p as [|j q]; [discriminate|]. cbn [at_path] in H. destruct (nth_error cs j) as [c|] eqn:E; [|discriminate].
      exists j, c, q. split; [exact E|]. split; [reflexivity|]. apply (nth_error_Forall _ _ _ _ IH E). eauto.
Qed.
(** [p] is the token the position [offset] is in or at the end of *)
Definition cursor_on (x : tree) (t : text) (offset : nat) (p : path) : Prop :=
  exists k w a b, at_path x p = Some (Tok k w) /\ t = a ++ w ++ b /\ length a = chars_before x p /\
    offset <= byte_len (a ++ w) /\ (byte_len a < offset \/ (a = [] /\ offset = 0)).
Lemma find_app {A} (f : A -> bool) l m : find f (l ++ m) = match find f l with Some x => Some x | None => find f m end.
Proof. induction l as [|x l IH]; [reflexivity|]. cbn. destruct (f x); [reflexivity|apply IH]. Qed.
Lemma find_map {A B} (g : A -> B) (f : B -> bool) l : find f (map g l) = option_map g (find (fun x => f (g x)) l).
Proof. induction l as [|x l IH]; [reflexivity|]. cbn. destruct (f (g x)); [reflexivity|apply IH]. Qed.
Lemma find_ext' {A} (f g : A -> bool) l : (forall x, In x l -> f x = g x) -> find f l = find g l.
Proof. induction l as [|x l IH]; intros H; [reflexivity|]. cbn. rewrite (H x (or_introl eq_refl)). destruct (g x); [reflexivity|]. apply IH. intros y Hy. apply H. now right. Qed.
Lemma end_at_child k cs i c p : nth_error cs i = Some c -> end_at (Node k cs) (i :: p) = byte_len (flat_map tree_text (firstn i cs)) + end_at c p.
Proof. intros E. unfold end_at, text_at. cbn [start_at at_path]. rewrite E. lia. Qed.
Lemma token_find x : forall base off, base <= off ->
  match find (fun p => off <=? base + end_at x p) (leaf_paths x) with
  | Some p => In p (leaf_paths x) /\ off <= base + end_at x p /\ (base + start_at x p < off \/ (start_at x p = 0 /\ off = base))
  | None => tree_text x = [] \/ base + byte_len (tree_text x) < off
  end.
Proof.
  induction x as [k w|k cs IH] using tree_ind'; intros base off Hb.
  - cbn [leaf_paths find]. unfold end_at, text_at. cbn [start_at at_path Nat.add tree_text]. destruct (Nat.leb_spec off (base + byte_len w)) as [H|H]; [|right; lia].
    split; [left; reflexivity|]. split; [exact H|]. cbn [start_at]. lia.
  - assert (forall ds pre, cs = pre ++ ds -> byte_len (flat_map tree_text pre) = 0 /\ flat_map tree_text pre = [] \/ base + byte_len (flat_map tree_text pre) < off ->
      match find (fun p => off <=? base + end_at (Node k cs) p) (concat (imap (fun i c => map (cons i) (leaf_paths c)) (length pre) ds)) with
      | Some p => off <= base + end_at (Node k cs) p /\ (base + start_at (Node k cs) p < off \/ (start_at (Node k cs) p = 0 /\ off = base))
      | None => flat_map tree_text cs = [] \/ base + byte_len (flat_map tree_text cs) < off
      end) as H.
    { induction ds as [|d ds IHd]; intros pre Ec Hp.
      - rewrite app_nil_r in Ec. subst cs. cbn. destruct Hp as [[_ Hp]|Hp]; [left|right]; assumption.
      - assert (nth_error cs (length pre) = Some d) as Ed by (rewrite Ec, nth_error_app2, Nat.sub_diag by lia; reflexivity).
        assert (firstn (length pre) cs = pre) as Ef by (rewrite Ec, firstn_app, Nat.sub_diag, firstn_all; cbn [firstn]; apply app_nil_r).
        cbn [imap concat]. rewrite find_app, find_map.
        rewrite (find_ext' _ (fun p => off <=? (base + byte_len (flat_map tree_text pre)) + end_at d p)).
        2: { intros p _. rewrite (end_at_child _ _ _ _ _ Ed), Ef. f_equal. lia. }
        assert (base + byte_len (flat_map tree_text pre) <= off) as Hb' by (destruct Hp as [[Hp _]|Hp]; lia).
        pose proof (nth_error_Forall _ _ _ _ IH Ed _ _ Hb') as Hd.
        destruct (find (fun p => off <=? (base + byte_len (flat_map tree_text pre)) + end_at d p) (leaf_paths d)) as [p|] eqn:Fd; cbn [option_map].
        + destruct Hd as (_ & H1 & H2). rewrite (end_at_child _ _ _ _ _ Ed). cbn [start_at]. rewrite Ed, Ef. split; [lia|]. destruct Hp as [[Hp _]|Hp]; lia.
        + specialize (IHd (pre ++ [d])). rewrite app_length in IHd. cbn [length] in IHd. rewrite Nat.add_1_r in IHd. apply IHd; [rewrite Ec, <- app_assoc; reflexivity|].
          rewrite flat_map_app, byte_len_app. cbn [flat_map]. rewrite app_nil_r. destruct Hd as [Hd|Hd].
          * rewrite Hd. cbn [byte_len fold_right map list_sum]. rewrite app_nil_r. change (byte_len []) with 0. rewrite Nat.add_0_r. exact Hp.
          * right. lia. }
    specialize (H cs [] eq_refl). cbn [length flat_map] in H. change (byte_len []) with 0 in H. specialize (H (or_introl (conj eq_refl eq_refl))).
    cbn [leaf_paths]. destruct (find _ _) as [p|] eqn:F; [|exact H]. split; [|exact H]. apply (find_some _ _ F).
Qed.
Lemma token_at_on x off : match token_at x off with
  | Some p => cursor_on x (tree_text x) off p
  | None => tree_text x = [] \/ byte_len (tree_text x) < off
  end.
Proof.
  pose proof (token_find x 0 off (Nat.le_0_l _)) as H. cbn [Nat.add] in H. unfold token_at. destruct (find _ _) as [p|]; [|exact H].
  destruct H as (Hin & He & Hs). apply in_leaf_paths in Hin as (k & w & E). destruct (node_slice _ _ _ E) as (a & b & T & L & N). cbn [tree_text] in T.
  exists k, w, a, b. split; [exact E|]. split; [exact T|]. split; [exact N|]. unfold end_at, text_at in He. rewrite E in He. cbn [tree_text] in He.
  rewrite <- L in *. rewrite byte_len_app. split; [exact He|]. destruct Hs as [Hs|[Hs ->]]; [left; exact Hs|right]. split; [|reflexivity].
  destruct a as [|c a]; [reflexivity|]. exfalso. rewrite byte_len_cons in Hs. unfold len_utf8 in Hs. repeat (destruct (_ <? _)%N in Hs; [lia|]). lia.
Qed.
Lemma doc_before_total p : forall q, p = q \/ doc_before p q \/ doc_before q p.
Proof.
  induction p as [|i p IH]; intros [|j q]; [left; reflexivity|right; left; constructor|right; right; constructor|].
  destruct (Nat.lt_trichotomy i j) as [H|[<-|H]]; [right; left; constructor; exact H| |right; right; constructor; exact H].
  destruct (IH q) as [<-|[H|H]]; [left; reflexivity|right; left; now constructor|right; right; now constructor].
Qed.
Lemma cursor_fun x t off p q : (forall r k w, at_path x r = Some (Tok k w) -> w <> []) -> tree_text x = t -> cursor_on x t off p -> cursor_on x t off q -> p = q.
Proof.
  intros Hne Ht. assert (forall p q, cursor_on x t off p -> cursor_on x t off q -> doc_before p q -> False) as K.
  { clear p q. intros p q (k & w & a & b & E & T & N & H1 & H2) (k' & w' & a' & b' & E' & T' & N' & H1' & H2') B.
    assert (chars_before x p + length (tree_text (Tok k w)) <= chars_before x q) as L.
    { eapply nodes_apart; [exact B| |exact E|exact E']. intros r ->. rewrite at_path_app, E in E'. destruct r; [|discriminate]. rewrite app_nil_r in B. exact (doc_before_irrefl _ B). }
    cbn [tree_text] in L. rewrite <- N, <- N' in L. assert (exists c, a' = (a ++ w) ++ c) as [c Ea].
    { exists (skipn (length (a ++ w)) a'). rewrite T, app_assoc in T'. rewrite <- app_length in L. clear -T' L. revert T' L. generalize (a ++ w) (w' ++ b'). intros z y T' L.
      apply (f_equal (firstn (length z))) in T'. rewrite !firstn_app, Nat.sub_diag, firstn_all in T'.
      replace (length z - length a') with 0 in T' by lia. cbn [firstn] in T'. rewrite !app_nil_r in T'. rewrite T' at 1. symmetry. apply firstn_skipn. }
    destruct H2' as [H2'|[-> _]].
    - rewrite Ea, byte_len_app in H2'. lia.
    - symmetry in Ea. apply app_eq_nil in Ea as [Ea _]. apply app_eq_nil in Ea as [_ ->]. exact (Hne _ _ _ E eq_refl). }
  intros Hp Hq. destruct (doc_before_total p q) as [H|[H|H]]; [exact H|exfalso; exact (K _ _ Hp Hq H)|exfalso; exact (K _ _ Hq Hp H)].
Qed.
Lemma leaf_in_leaves x : forall p k w, at_path x p = Some (Tok k w) -> In (k, w) (FormatWeave.leaves x).
Proof.
  induction x as [k w|k cs IH] using tree_ind'; intros [|i p] k' w' E; cbn [at_path] in E; try discriminate.
  - injection E as <- <-. left. reflexivity.
  - destruct (nth_error cs i) as [c|] eqn:C; [|discriminate]. cbn [FormatWeave.leaves]. apply in_flat_map. exists c. split; [eapply nth_error_In, C|].
    eapply (nth_error_Forall _ _ _ _ IH C), E.
Qed.
Lemma doc_leaves err t x : doc_tree err t x -> FormatWeave.leaves x = lex err t.
Proof.
  intros (gas & g & errs & H & ->). assert (Hn : no_eof (with_spans 0 (lex err t))) by (apply with_spans_no_eof, lex_kinds).
  assert (R : returns (entry_of (with_spans 0 (lex err t))) (with_spans 0 (lex err t)) g errs) by (apply parses_to_intro with (gas := gas); [exact H|discriminate]).
  destruct (returns_run _ _ _ _ (entry_of_unit _) Hn R) as (gas' & ts & cs & f & _ & -> & _ & _ & T & _).
  destruct (graft_ok (GNodeT (entry_of (with_spans 0 (lex err t))) cs) (lex err t) []) as (y & G1 & G2 & _).
  { cbn [gtokens]. change (flat_map gtokens cs) with (gtokenss cs). rewrite T, map_length, with_spans_length. reflexivity. }
  rewrite app_nil_r in G1. rewrite G1. exact G2.
Qed.
Lemma doc_token err t x p k w : doc_tree err t x -> at_path x p = Some (Tok k w) -> In (k, w) (lex err t) /\ w <> [].
Proof.
  intros D E. apply leaf_in_leaves in E. rewrite (doc_leaves _ _ _ D) in E. split; [exact E|]. destruct (C25_tiles err t) as [_ F]. rewrite Forall_forall in F. apply (F _ E).
Qed.
