(** What each edit does to the text: blanks between the pieces of tokens, pieces respelled. *)
From Coq Require Import String List Arith NArith Bool Lia Sorting.Permutation Sorting.Sorted.
Import ListNotations.
From Verif Require Import Kinds ParserModel TextModel TextSpec TextProofs LexerSpec FormatData FormatModel FormatChain FormatSpec FormatTree.

Inductive cls := Gap | Case | Mid | Anon | CommaP | Fix.
Definition piece := (cls * text)%type.
Definition is_gap (p : piece) : Prop := fst p = Gap.
Definition texts (P : list piece) : text := flat_map snd P.
Definition split_words (n : nat) (w : text) : list piece :=
  [(Case, firstn 6 w); (Mid, firstn (length w - (6 + n)) (skipn 6 w)); (Case, skipn (length w - n) w)].
Definition leaf_pieces (k : kind) (w : text) : list piece :=
  if signed_kind k then [(Fix, firstn 1 w); (Fix, skipn 1 w)] else
  match k with
  | K_WHITESPACE | K_Comment => [(Gap, w)]
  | K_DELETE_WHERE => split_words 5 w
  | K_DELETE_DATA | K_INSERT_DATA => split_words 4 w
  | K_ANON => [(Anon, w)]
  | K_Comma => [(CommaP, w)]
  | _ => [(if existsb (kind_eqb k) any_case then Case else Fix, w)]
  end.
Fixpoint pieces (t : tree) : list piece := match t with Tok k w => leaf_pieces k w | Node _ cs => flat_map pieces cs end.
(** [rep c p q]: a piece [p] may become [q] *)
Definition rep (c : cls) (p q : text) : Prop :=
  match c with
  | Gap => False
  | Case => same_letters p q
  | Mid => q <> [] /\ Forall white q
  | Anon => q = p \/ q = [91; 93]%N
  | CommaP => q = p \/ q = p ++ sp
  | Fix => q = p
  end.

(** ** shapes of tokens *)
Definition two_word_shape (n : nat) (w : text) : Prop :=
  exists x b y, w = x ++ b ++ y /\ length x = 6 /\ byte_len x = 6 /\ length y = n /\ byte_len y = n /\ b <> [] /\ Forall white b.
Definition spelled (w : text) (s : string) : Prop := map fold_char w = chars s.
Definition shape (k : kind) (w : text) : Prop :=
  w <> [] /\ unit_kind k = false /\ (k = K_Comment -> exists a, w = 35%N :: a) /\
  (signed_kind k = true -> exists c r, w = c :: r /\ r <> [] /\ len_utf8 c = 1) /\
  match k with
  | K_WHITESPACE => blanks w
  | K_IN => spelled w "IN"
  | K_DELETE => spelled w "DELETE" /\ byte_len w = 6
  | K_DELETE_WHERE => two_word_shape 5 w /\ spelled (firstn 6 w) "DELETE" /\ spelled (skipn (length w - 5) w) "WHERE"
  | K_DELETE_DATA => two_word_shape 4 w /\ spelled (firstn 6 w) "DELETE" /\ spelled (skipn (length w - 4) w) "DATA"
  | K_INSERT_DATA => two_word_shape 4 w /\ spelled (firstn 6 w) "INSERT" /\ spelled (skipn (length w - 4) w) "DATA"
  | K_Comma => w = [44]%N
  | K_a => w = [97]%N
  | K_ANON => exists m, w = 91%N :: m ++ [93%N] /\ Forall white m
  | _ => True
  end.
Fixpoint shapes (t : tree) : Prop :=
  match t with Tok k w => shape k w | Node _ cs => (fix go cs := match cs with [] => True | c :: r => shapes c /\ go r end) cs end.
Lemma shapes_node k cs : shapes (Node k cs) <-> Forall shapes cs.
Proof. cbn [shapes]. induction cs as [|c r IH]; [split; [constructor|auto]|]. rewrite IH. split; [intros []; constructor; auto|intros H; inversion H; auto]. Qed.
Lemma split_words_text n w : 6 + n <= length w -> texts (split_words n w) = w.
Proof.
  intros H. unfold split_words, texts. cbn [flat_map snd]. rewrite app_nil_r.
  replace (skipn (length w - n) w) with (skipn (length w - (6 + n)) (skipn 6 w)) by (rewrite skipn_skipn; f_equal; lia).
  now rewrite !firstn_skipn.
Qed.
Lemma two_word_split n w : two_word_shape n w -> exists b, split_words n w = [(Case, firstn 6 w); (Mid, b); (Case, skipn (length w - n) w)] /\ b <> [] /\ Forall white b /\
  w = firstn 6 w ++ b ++ skipn (length w - n) w /\ byte_len (firstn 6 w) = 6 /\ byte_len (skipn (length w - n) w) = n /\ 6 + n <= length w /\ byte_len w = 6 + (byte_len b + n).
Proof.
  intros (x & b & y & -> & L1 & B1 & L2 & B2 & Hb & Hw). exists b.
  assert (E1 : firstn 6 (x ++ b ++ y) = x) by (rewrite firstn_app, L1, Nat.sub_diag, firstn_O, app_nil_r, firstn_all2; [reflexivity|lia]).
  assert (E2 : skipn 6 (x ++ b ++ y) = b ++ y) by (rewrite skipn_app, L1, Nat.sub_diag, skipn_all2; [reflexivity|lia]).
  assert (E3 : skipn (length (x ++ b ++ y) - n) (x ++ b ++ y) = y).
  { rewrite (app_assoc x b y), skipn_app. replace (length ((x ++ b) ++ y) - n) with (length (x ++ b)) by (rewrite !app_length; lia). rewrite skipn_all, Nat.sub_diag. reflexivity. }
  assert (E4 : firstn (length (x ++ b ++ y) - (6 + n)) (b ++ y) = b).
  { replace (length (x ++ b ++ y) - (6 + n)) with (length b) by (rewrite !app_length; lia). rewrite firstn_app, firstn_all, Nat.sub_diag, firstn_O, app_nil_r. reflexivity. }
  unfold split_words. rewrite E2, E4, E1, E3. repeat split; auto; [rewrite !app_length; lia|rewrite !byte_len_app; lia].
Qed.
Lemma leaf_text k w : shape k w -> texts (leaf_pieces k w) = w.
Proof.
  intros (_ & _ & _ & Hs & H). unfold leaf_pieces. destruct (signed_kind k).
  - destruct (Hs eq_refl) as (c & r & -> & _). cbn. now rewrite app_nil_r.
  - destruct k; try (cbn; now rewrite app_nil_r); destruct H as (H & _); destruct (two_word_split _ _ H) as (b & _ & _ & _ & _ & _ & _ & L & _); apply split_words_text; lia.
Qed.
Lemma pieces_text t : shapes t -> texts (pieces t) = tree_text t.
Proof.
  induction t as [k w|k cs IH] using tree_ind'; intros H; [now apply leaf_text|]. apply shapes_node in H. cbn [pieces tree_text]. clear k. unfold texts in *.
  induction cs as [|c r IHr]; [reflexivity|]. inversion H; subst. inversion IH; subst. cbn [flat_map]. rewrite flat_map_app. f_equal; [auto|]. now apply IHr.
Qed.
Lemma pieces_len t : shapes t -> byte_len (texts (pieces t)) = tlen t.
Proof. intros H. now rewrite pieces_text. Qed.
Lemma shape_leaf_ok k w : shape k w -> leaf_ok k w.
Proof.
  intros (_ & Hu & _ & Hs & H). split; [exact Hu|]. split.
  - intros S. destruct (Hs S) as (c & r & -> & _ & E). cbn. lia.
  - destruct k; auto; try (destruct H as (H & _); destruct (two_word_split _ _ H) as (b & _ & Hb & _ & _ & _ & _ & L & E); lia).
    now destruct H.
Qed.
Lemma pieces_nonempty t : shapes t -> Forall (fun p => snd p <> []) (pieces t).
Proof.
  induction t as [k w|k cs IH] using tree_ind'; intros H.
  - destruct H as (Hn & _ & _ & Hs & H). cbn [pieces]. unfold leaf_pieces. destruct (signed_kind k).
    + destruct (Hs eq_refl) as (c & r & -> & Hr & _). cbn. repeat constructor; cbn; [discriminate|exact Hr].
    + destruct k; try (repeat constructor; exact Hn); destruct H as (H & _); destruct (two_word_split _ _ H) as (b & -> & Hb & _ & E & B1 & B2 & L & _).
      all: apply Forall_cons; [cbn [snd]; intros X; rewrite X in B1; discriminate|apply Forall_cons; [exact Hb|apply Forall_cons; [cbn [snd]; intros X; rewrite X in B2; discriminate|apply Forall_nil]]].
  - apply shapes_node in H. cbn [pieces]. clear k. induction cs as [|c r IHr]; [constructor|]. inversion H; subst. inversion IH; subst. cbn [flat_map]. apply Forall_app. auto.
Qed.
Lemma gap_piece k c : wf false c -> shapes c -> gap k c = true -> exists w, pieces c = [(Gap, w)].
Proof.
  unfold gap. destruct c as [k' w|k' cs]; cbn [tkind].
  - intros _ (_ & _ & Hc & _) H. exists w. destruct k'; try discriminate; reflexivity.
  - intros H. apply wf_node in H as (H & _). destruct k'; discriminate.
Qed.

(** ** edits in terms of pieces *)
Definition good (run : list piece) (new : text) : Prop :=
  (Forall is_gap run /\ blanks new) \/ (exists c p b q, run = [(c, p)] /\ c <> Gap /\ blanks b /\ new = b ++ q /\ rep c p q).
Definition typed (s : nat) (P : list piece) (e : sedit) : Prop :=
  exists p1 run p2, P = p1 ++ run ++ p2 /\ s_from e = s + byte_len (texts p1) /\ s_to e = s + byte_len (texts (p1 ++ run)) /\ good run (s_new e).
Definition bound (s : nat) (P : list piece) (x : nat) : Prop := exists p1 p2, P = p1 ++ p2 /\ x = s + byte_len (texts p1).
Lemma texts_app a b : texts (a ++ b) = texts a ++ texts b.
Proof. apply flat_map_app. Qed.
Lemma texts_len_app a b : byte_len (texts (a ++ b)) = byte_len (texts a) + byte_len (texts b).
Proof. rewrite texts_app. apply byte_len_app. Qed.
Lemma typed_lift s P e A B : typed (s + byte_len (texts A)) P e -> typed s (A ++ P ++ B) e.
Proof.
  intros (p1 & run & p2 & -> & F & T & G). exists (A ++ p1), run, (p2 ++ B). rewrite <- !app_assoc. repeat split; auto; rewrite !texts_len_app in *; lia.
Qed.
Lemma bound_lift s P x A B : bound (s + byte_len (texts A)) P x -> bound s (A ++ P ++ B) x.
Proof. intros (p1 & p2 & -> & E). exists (A ++ p1), (p2 ++ B). rewrite <- !app_assoc. split; [reflexivity|]. rewrite texts_len_app. lia. Qed.
Lemma bound_typed s P x t : bound s P x -> blanks t -> typed s P (ins x t).
Proof.
  intros (p1 & p2 & -> & E) H. exists p1, [], p2. cbn [app]. rewrite app_nil_r. repeat split; auto. left. split; [constructor|exact H].
Qed.
Lemma bound_start s P : bound s P s.
Proof. exists [], P. cbn. split; [reflexivity|lia]. Qed.
Lemma bound_end s P : bound s P (s + byte_len (texts P)).
Proof. exists P, []. rewrite app_nil_r. auto. Qed.
(** where a child's pieces are *)
Lemma child_pieces k s up cs : forall left at_ c, Forall shapes cs -> In c (child_locs k s up left cs at_) ->
  exists A B, flat_map pieces cs = A ++ pieces (el c) ++ B /\ l_start c = at_ + byte_len (texts A).
Proof.
  induction cs as [|x r IH]; intros left at_ c H Hc; [destruct Hc|]. inversion H; subst. destruct Hc as [<-|Hc].
  - exists [], (flat_map pieces r). cbn. split; [reflexivity|lia].
  - destruct (IH _ _ _ H3 Hc) as (A & B & E1 & E2). exists (pieces x ++ A), B. cbn [flat_map]. rewrite E1, <- app_assoc. split; [reflexivity|].
    rewrite texts_len_app, (pieces_len x) by assumption. lia.
Qed.
Lemma inner_bound k w s x : shape k w -> In x (inner_cuts k s (byte_len w)) -> bound s (leaf_pieces k w) x.
Proof.
  intros (_ & _ & _ & Hs & H) Hx. unfold inner_cuts, leaf_pieces in *. destruct (signed_kind k) eqn:S.
  - destruct (Hs eq_refl) as (c & r & -> & Hr & E). destruct Hx as [<-|[]]. exists [(Fix, [c])], [(Fix, r)]. cbn. split; [reflexivity|lia].
  - assert (K : forall n, two_word_shape n w -> In x [s + 6; s + byte_len w - n] -> bound s (split_words n w) x).
    { intros n Hn Hi. destruct (two_word_split _ _ Hn) as (b & -> & Hb & _ & E & B1 & B2 & L & BL). destruct Hi as [<-|[<-|[]]].
      - exists [(Case, firstn 6 w)], [(Mid, b); (Case, skipn (length w - n) w)]. split; [reflexivity|]. unfold texts. cbn [flat_map snd]. rewrite app_nil_r. lia.
      - exists [(Case, firstn 6 w); (Mid, b)], [(Case, skipn (length w - n) w)]. split; [reflexivity|]. unfold texts. cbn [flat_map snd]. rewrite app_nil_r, byte_len_app. lia. }
    destruct k; try (destruct Hx; fail); destruct H as (H & _); apply K; assumption.
Qed.
Lemma cuts_bound t : forall s x, shapes t -> In x (cuts t s) -> bound s (pieces t) x.
Proof.
  induction t as [k w|k cs IH] using tree_ind'; intros s x H Hx.
  - cbn [cuts pieces] in *. destruct Hx as [<-|[<-|Hx]]; [apply bound_start| |now apply inner_bound].
    replace (byte_len w) with (byte_len (texts (leaf_pieces k w))) by (now rewrite leaf_text). apply bound_end.
  - assert (H' := H). apply shapes_node in H'. rewrite (cuts_node k cs s []) in Hx. cbn [pieces]. destruct Hx as [<-|[<-|Hx]]; [apply bound_start| |].
    + rewrite <- (pieces_len (Node k cs)) by exact H. apply bound_end.
    + apply in_flat_map in Hx as (c & Hc & Hx). apply filter_In in Hc as [Hc _].
      destruct (child_pieces k s [] cs [] s c H' Hc) as (A & B & -> & E). apply bound_lift. rewrite <- E.
      assert (He : In (el c) cs) by (rewrite <- (child_locs_el k s [] cs [] s); now apply in_map). rewrite Forall_forall in IH, H'. apply IH; [exact He|now apply H'|exact Hx].
Qed.
Lemma at_cut_typed C s P e : (forall x, In x C -> bound s P x) -> at_cut C e -> typed s P e.
Proof. intros H (x & t & -> & Hx & Hb). apply bound_typed; auto. Qed.

(** ** leaves *)
Lemma kw_pieces k w : existsb (kind_eqb k) KEYWORDS = true -> leaf_pieces k w = [(Case, w)].
Proof. destruct k; intros H; first [discriminate H | reflexivity]. Qed.
Lemma fold_upper c : fold_char (upper_char c) = fold_char c.
Proof.
  unfold fold_char, upper_char. destruct (N.eqb_spec c 383) as [->|N]; [reflexivity|]. unfold upper.
  destruct ((97 <=? c)%N && (c <=? 122)%N) eqn:E.
  - apply andb_prop in E as [E1 E2]. apply N.leb_le in E1, E2. replace (N.eqb (c - 32) 383) with false by (symmetry; apply N.eqb_neq; lia).
    replace (97 <=? c - 32)%N with false by (symmetry; apply N.leb_gt; lia). reflexivity.
  - destruct (N.eqb_spec c 383); [congruence|]. now rewrite E.
Qed.
Lemma uppercase_letters w : same_letters w (to_uppercase w).
Proof. unfold same_letters, to_uppercase. rewrite map_map. apply map_ext. intros c. symmetry. apply fold_upper. Qed.
Lemma whole_typed s c w new q : c <> Gap -> new = q -> rep c w q -> typed s [(c, w)] (mkse s (s + byte_len w) new).
Proof.
  intros Hc -> R. exists [], [(c, w)], []. cbn. rewrite app_nil_r. repeat split; try lia. right. exists c, w, [], q. repeat split; auto. constructor.
Qed.
Section typed_edits.
Variables (width : text -> nat) (settings : fsettings) (ib : text).
Hypothesis blank_base : blanks ib.
Notation in_node := (in_node_augmentation width settings ib).
Notation pre_node := (pre_node_augmentation width settings ib).
Notation post_node := (post_node_augmentation width settings ib).
Notation kw_edit := (keyword_edit settings).

Lemma kw_leaf_typed k w s up : shape k w -> Forall (typed s (leaf_pieces k w)) (kw_edit (mkloc (Tok k w) s up)).
Proof.
  intros H. unfold keyword_edit, l_kind. cbn [el tkind l_start]. unfold l_end. cbn [el l_start]. rewrite tlen_tok. destruct (kind_eqb k K_IN) eqn:E.
  - assert (k = K_IN) as -> by (destruct k; discriminate || reflexivity). destruct H as (_ & _ & _ & _ & H). constructor; [|constructor].
    apply whole_typed with (q := if capitalize_keywords settings then chars "IN" else chars "in"); [discriminate|reflexivity|].
    cbn [rep]. unfold same_letters, spelled in *. change (map fold_char w = map fold_char (if capitalize_keywords settings then chars "IN" else chars "in")). rewrite H. now destruct (capitalize_keywords settings).
  - destruct (existsb (kind_eqb k) KEYWORDS) eqn:K; [|constructor]. destruct (capitalize_keywords settings); [|constructor]. constructor; [|constructor].
    rewrite (kw_pieces k w K). eapply whole_typed; [discriminate|reflexivity|]. apply uppercase_letters.
Qed.
Lemma two_words_typed n w s x y : two_word_shape n w -> same_letters (firstn 6 w) x -> same_letters (skipn (length w - n) w) y ->
  Forall (typed s (split_words n w)) [mkse (s + 6) (s + byte_len w - n) sp; mkse s (s + 6) x; mkse (s + byte_len w - n) (s + byte_len w) y].
Proof.
  intros Hn Hx Hy. destruct (two_word_split _ _ Hn) as (b & -> & Hb & _ & E & B1 & B2 & L & BL).
  apply Forall_cons; [|apply Forall_cons; [|apply Forall_cons; [|apply Forall_nil]]].
  - exists [(Case, firstn 6 w)], [(Mid, b)], [(Case, skipn (length w - n) w)]. unfold texts. cbn [flat_map snd s_from s_to s_new app]. rewrite !app_nil_r, byte_len_app.
    split; [reflexivity|]. split; [lia|]. split; [lia|]. right. exists Mid, b, [], sp. split; [reflexivity|]. split; [discriminate|]. split; [apply Forall_nil|]. split; [reflexivity|].
    split; [discriminate|]. apply Forall_cons; [unfold white; right; left; reflexivity|apply Forall_nil].
  - exists [], [(Case, firstn 6 w)], [(Mid, b); (Case, skipn (length w - n) w)]. unfold texts. cbn [flat_map snd s_from s_to s_new app]. rewrite app_nil_r, B1.
    split; [reflexivity|]. split; [cbn [byte_len]; lia|]. split; [lia|]. right. exists Case, (firstn 6 w), [], x. split; [reflexivity|]. split; [discriminate|]. split; [apply Forall_nil|]. auto.
  - exists [(Case, firstn 6 w); (Mid, b)], [(Case, skipn (length w - n) w)], []. unfold texts. cbn [flat_map snd s_from s_to s_new app]. rewrite !app_nil_r, !byte_len_app.
    split; [reflexivity|]. split; [lia|]. split; [lia|]. right. exists Case, (skipn (length w - n) w), [], y. split; [reflexivity|]. split; [discriminate|]. split; [apply Forall_nil|]. auto.
Qed.
Lemma spelled_letters w s : spelled w s -> map fold_char (chars s) = chars s -> same_letters w (chars s).
Proof. unfold spelled, same_letters. congruence. Qed.
Lemma in_leaf_typed k w s up ind : shape k w -> Forall (typed s (leaf_pieces k w)) (in_node (mkloc (Tok k w) s up) [] ind).
Proof.
  intros H. destruct (rewritten_leaf k) eqn:R.
  2:{ rewrite in_leaf_plain; [constructor|apply H|exact R]. }
  assert (H' := H). destruct H' as (_ & _ & _ & Hs & Hk).
  destruct k; try discriminate R; cbn [in_node_augmentation l_kind tkind el]; unfold l_end; cbn [el l_start]; rewrite ?tlen_tok.
  all: try match goal with |- context [if some ?x then _ else _] => destruct (some x); [|constructor]; (apply Forall_cons; [|constructor]); apply bound_typed; [|repeat constructor; cbn; tauto];
    apply inner_bound; [exact H|now left] end.
  - (* DATA of an insertion *)
    destruct Hk as (Hn & S1 & S2). pose proof (two_words_typed 4 w s _ _ Hn (spelled_letters _ _ S1 eq_refl) (spelled_letters _ _ S2 eq_refl)) as T.
    inversion T as [|? ? T1 T']; subst. apply Forall_cons; [exact T1|]. destruct (capitalize_keywords settings); [exact T'|constructor].
  - destruct Hk as (Hn & S1 & S2). pose proof (two_words_typed 4 w s _ _ Hn (spelled_letters _ _ S1 eq_refl) (spelled_letters _ _ S2 eq_refl)) as T.
    inversion T as [|? ? T1 T']; subst. apply Forall_cons; [exact T1|]. destruct (capitalize_keywords settings); [exact T'|constructor].
  - destruct Hk as (Hn & S1 & S2). pose proof (two_words_typed 5 w s _ _ Hn (spelled_letters _ _ S1 eq_refl) (spelled_letters _ _ S2 eq_refl)) as T.
    inversion T as [|? ? T1 T']; subst. apply Forall_cons; [exact T1|]. destruct (capitalize_keywords settings); [exact T'|constructor].
  - destruct Hk as [Hk Hl]. destruct (capitalize_keywords settings).
    + apply Forall_cons; [|constructor]. eapply whole_typed; [discriminate|reflexivity|]. now apply spelled_letters.
    + rewrite Hl. constructor.
  - subst w. apply Forall_cons; [|constructor]. eapply whole_typed; [discriminate|reflexivity|]. reflexivity.
  - apply Forall_cons; [|constructor]. eapply whole_typed; [discriminate|reflexivity|]. right. reflexivity.
Qed.
(** ** nodes *)
Definition gaps_between (s : nat) (P : list piece) (x y : nat) : Prop :=
  exists p1 run p2, P = p1 ++ run ++ p2 /\ Forall is_gap run /\ x = s + byte_len (texts p1) /\ y = s + byte_len (texts (p1 ++ run)).
Lemma gaps_typed s P x y t : gaps_between s P x y -> blanks t -> typed s P (mkse x y t).
Proof. intros (p1 & run & p2 & -> & G & -> & ->) Hb. exists p1, run, p2. repeat split; auto. left. auto. Qed.
Lemma sep_gaps k s0 up cs : forall left at_ s P0 p, Forall (wf false) cs -> Forall shapes cs -> at_ = s + byte_len (texts P0) ->
  match p with Some a => exists q g, P0 = q ++ g /\ Forall is_gap g /\ l_end a = s + byte_len (texts q) | None => True end ->
  forall a b, In (Some a, b) (with_prev p (filter (solid k) (child_locs k s0 up left cs at_))) -> gaps_between s (P0 ++ flat_map pieces cs) (l_end a) (l_start b).
Proof.
  induction cs as [|c r IH]; intros left at_ s P0 p W S E Hp a b Hin; [destruct Hin|]. inversion W; subst. inversion S; subst. cbn [child_locs filter] in Hin. unfold solid at 1 in Hin. cbn [el] in Hin.
  cbn [flat_map]. assert (T : s + byte_len (texts P0) + tlen c = s + byte_len (texts (P0 ++ pieces c))) by (rewrite texts_len_app, pieces_len by assumption; lia).
  destruct (gap k c) eqn:G; cbn [negb] in Hin.
  - rewrite app_assoc. eapply IH; try eassumption. destruct p as [a'|]; [|exact I]. destruct Hp as (q & g & -> & Gg & El). destruct (gap_piece k c) as (w & ->); try assumption.
    exists q, (g ++ [(Gap, w)]). rewrite <- app_assoc. split; [reflexivity|]. split; [|exact El]. apply Forall_app. split; [exact Gg|]. constructor; [reflexivity|constructor].
  - cbn [with_prev] in Hin. destruct Hin as [Hin|Hin].
    + injection Hin as -> <-. destruct Hp as (q & g & -> & Gg & El). exists q, g, (pieces c ++ flat_map pieces r). rewrite <- app_assoc. repeat split; auto.
    + rewrite app_assoc. eapply IH; try eassumption. exists (P0 ++ pieces c), []. rewrite app_nil_r. split; [reflexivity|]. split; [constructor|]. unfold l_end. cbn [el l_start]. exact T.
Qed.
Lemma first_gaps k s0 up cs : forall left at_ s P0, Forall (wf false) cs -> Forall shapes cs -> at_ = s + byte_len (texts P0) -> Forall is_gap P0 ->
  match filter (solid k) (child_locs k s0 up left cs at_) with
  | [] => gaps_between s (P0 ++ flat_map pieces cs) s (at_ + list_sum (map tlen cs))
  | c :: _ => gaps_between s (P0 ++ flat_map pieces cs) s (l_start c)
  end.
Proof.
  induction cs as [|c r IH]; intros left at_ s P0 W S E G.
  - cbn [child_locs filter flat_map map]. rewrite app_nil_r. exists [], P0, []. rewrite app_nil_r. cbn [app]. split; [reflexivity|]. split; [exact G|]. split; [cbn; lia|cbn [list_sum fold_right]; lia].
  - inversion W; subst. inversion S; subst. cbn [child_locs filter]. unfold solid at 1. cbn [el].
    cbn [flat_map]. assert (T : s + byte_len (texts P0) + tlen c = s + byte_len (texts (P0 ++ pieces c))) by (rewrite texts_len_app, pieces_len by assumption; lia).
    destruct (gap k c) eqn:Gc; cbn [negb].
    + rewrite app_assoc. cbn [map]. change (list_sum (tlen c :: map tlen r)) with (tlen c + list_sum (map tlen r)). rewrite Nat.add_assoc. apply IH; try assumption.
      apply Forall_app. split; [exact G|]. destruct (gap_piece k c) as (w & ->); try assumption. constructor; [reflexivity|constructor].
    + exists [], P0, (pieces c ++ flat_map pieces r). cbn [app l_start]. split; [reflexivity|]. split; [exact G|]. split; [cbn; lia|reflexivity].
Qed.
Lemma last_gaps k s0 up cs : forall left at_ s P0 p, Forall (wf false) cs -> Forall shapes cs -> at_ = s + byte_len (texts P0) ->
  (exists q g, P0 = q ++ g /\ Forall is_gap g /\ l_end p = s + byte_len (texts q)) ->
  gaps_between s (P0 ++ flat_map pieces cs) (l_end (last (filter (solid k) (child_locs k s0 up left cs at_)) p)) (at_ + list_sum (map tlen cs)).
Proof.
  induction cs as [|c r IH]; intros left at_ s P0 p W S E (q & g & -> & Gg & El).
  - cbn [child_locs filter flat_map map last]. rewrite app_nil_r. exists q, g, []. rewrite app_nil_r. repeat split; auto. cbn [list_sum fold_right]; lia.
  - inversion W; subst. inversion S; subst. cbn [child_locs filter]. unfold solid at 1. cbn [el].
    cbn [flat_map]. assert (T : s + byte_len (texts (q ++ g)) + tlen c = s + byte_len (texts ((q ++ g) ++ pieces c))) by (rewrite (texts_len_app (q ++ g)), (pieces_len c) by assumption; lia).
    rewrite app_assoc. cbn [map]. change (list_sum (tlen c :: map tlen r)) with (tlen c + list_sum (map tlen r)). rewrite Nat.add_assoc.
    destruct (gap k c) eqn:Gc; cbn [negb].
    + apply IH; try assumption. destruct (gap_piece k c) as (w & ->); try assumption. exists q, (g ++ [(Gap, w)]). rewrite <- app_assoc. split; [reflexivity|]. split; [|exact El].
      apply Forall_app. split; [exact Gg|]. constructor; [reflexivity|constructor].
    + match goal with |- context [last (?x :: ?l) p] => replace (last (x :: l) p) with (last l x) end.
      * apply IH; try assumption. exists ((q ++ g) ++ pieces c), []. rewrite app_nil_r. split; [reflexivity|]. split; [constructor|]. unfold l_end. cbn [el l_start]. exact T.
      * match goal with |- last ?l ?x = _ => generalize l; intros l0; generalize x; intros x0 end. clear. revert x0. induction l0 as [|y l0 IH]; intros x0; [reflexivity|].
        change (last (x0 :: y :: l0) p) with (last (y :: l0) p). destruct l0; [reflexivity|]. change (last (l :: l0) x0 = last (l :: l0) p). clear.
        revert l. induction l0 as [|z l0 IH]; intros l; [reflexivity|]. apply (IH z).
Qed.
Lemma leaf_typed k w s up ind : shape k w -> Forall (typed s (leaf_pieces k w)) (visit_edits width settings ib (mkloc (Tok k w) s up) ind).
Proof.
  intros H. unfold visit_edits, node_augmentation. change (formatted_children (mkloc (Tok k w) s up)) with (@nil loc).
  change (separation ib (mkloc (Tok k w) s up) [] ind) with (@nil sedit). rewrite app_nil_r.
  assert (B : forall x, In x (cuts (Tok k w) s) -> bound s (leaf_pieces k w) x) by (intros x Hx; exact (cuts_bound (Tok k w) s x H Hx)).
  apply Forall_app. split; [now apply in_leaf_typed|]. apply Forall_app. split; [|apply Forall_app; split; [|now apply kw_leaf_typed]].
  - eapply Forall_impl; [|apply pre_ins, blank_base]. intros e (t & -> & Hb). apply bound_typed; [|exact Hb]. apply B. now left.
  - eapply Forall_impl; [|apply post_ins, blank_base]. intros e (t & -> & Hb). apply bound_typed; [|exact Hb]. apply B. right. now left.
Qed.
Theorem tree_typed t : forall top s up ind, wf top t -> (top = true -> s = 0) -> shapes t -> Forall (typed s (pieces t)) (edits width settings ib t s up ind).
Proof.
  induction t as [k w|k cs IH] using tree_ind'; intros top s up ind H Hs Sh; [rewrite edits_tok; now apply leaf_typed|].
  pose proof H as Hwf. apply wf_node in H as (Ht & Hu & Hc). assert (Sh' := Sh). apply shapes_node in Sh'.
  eapply Permutation_Forall; [apply Permutation_sym, edits_node|]. set (i := u8 (ind + inc_indent (Node k cs))). apply Forall_app. split.
  2:{ apply Forall_forall. intros e He. apply in_flat_map in He as (c & Hin & He). destruct (child_pieces k s up cs [] s c Sh' Hin) as (A & B & E1 & E2).
      cbn [pieces]. rewrite E1. apply typed_lift. rewrite <- E2.
      assert (Hel : In (el c) cs) by (rewrite <- (child_locs_el k s up cs [] s); now apply in_map).
      rewrite Forall_forall in IH, Hc, Sh'. specialize (IH _ Hel false (l_start c) (l_up c) i (Hc _ Hel) ltac:(discriminate) (Sh' _ Hel)). rewrite Forall_forall in IH. apply IH, He. }
  unfold visit_edits, node_augmentation. rewrite formatted_solid, kw_node, app_nil_r by exact Ht.
  set (L := filter (solid k) (child_locs k s up [] cs s)). set (l := mkloc (Node k cs) s up).
  assert (B : forall x, In x (cuts (Node k cs) s) -> bound s (pieces (Node k cs)) x) by (intros x; now apply cuts_bound).
  assert (INL : forall c, In c L -> Forall (fun x => In x (cuts (Node k cs) s)) (lcuts c)).
  { intros c Hin. apply Forall_forall. intros x Hx. rewrite (cuts_node k cs s up). right. right. apply in_flat_map. eauto. }
  rewrite Forall_app. split; [apply Forall_app; split; [|apply Forall_app; split]|].
  - destruct (unit_kind k) eqn:U; [|destruct (list_kind k) eqn:LK].
    + assert (s = 0) by auto. unfold l. rewrite in_node_unit by exact U. fold l. unfold unit_edits.
      pose proof (first_gaps k s up cs [] s s [] Hc Sh' ltac:(cbn; lia) (Forall_nil _)) as FG. fold L in FG.
      assert (LE : l_end l = s + list_sum (map tlen cs)) by (unfold l_end, l; cbn [el l_start]; now rewrite tlen_node).
      destruct L as [|first L'] eqn:EL; (apply Forall_cons; [|]).
      * rewrite LE. subst s. apply gaps_typed; [exact FG|apply Forall_nil].
      * apply Forall_nil.
      * subst s. apply gaps_typed; [exact FG|apply Forall_nil].
      * apply Forall_cons; [|apply Forall_nil]. rewrite LE. apply gaps_typed; [|apply Forall_nil].
        assert (LG := last_gaps k s up cs [] s s []). specialize (LG {| el := Tok K_WHITESPACE []; l_start := s; l_up := [] |} Hc Sh' ltac:(cbn; lia)).
        fold L in LG. rewrite EL in LG. cbn [app] in LG. erewrite last_cons. apply LG. exists [], []. cbn. repeat split; try constructor; unfold l_end, tlen; cbn; lia.
    + unfold l. rewrite in_node_list by exact LK. apply Forall_forall. intros e He. apply in_flat_map in He as (c & Hin & He). unfold comma_edit in He.
      destruct (kind_eqb (l_kind c) K_Comma) eqn:E; [|destruct (l_kind c); try destruct He; discriminate].
      assert (K : l_kind c = K_Comma) by (destruct (l_kind c); discriminate || reflexivity). rewrite K in He. destruct He as [<-|[]].
      apply filter_In in Hin as [Hin _]. destruct (child_pieces k s up cs [] s c Sh' Hin) as (A & B' & E1 & E2). cbn [pieces]. rewrite E1. apply typed_lift. rewrite <- E2.
      assert (Hel : In (el c) cs) by (rewrite <- (child_locs_el k s up cs [] s); now apply in_map).
      rewrite Forall_forall in Hc, Sh'. specialize (Hc _ Hel). specialize (Sh' _ Hel). unfold l_kind in K. unfold l_end. destruct (el c) as [k' w|k' cs']; cbn [tkind] in K; subst k'.
      * destruct Sh' as (_ & _ & _ & _ & ->). eapply whole_typed; [discriminate|reflexivity|]. right. reflexivity.
      * apply wf_node in Hc as (Hc & _). discriminate.
    + eapply Forall_impl; [|apply in_node_cut; eassumption]. intros e. now apply at_cut_typed.
  - eapply Forall_impl; [|apply pre_ins, blank_base]. intros e (t & -> & Hb). apply bound_typed; [|exact Hb]. apply bound_start.
  - eapply Forall_impl; [|apply post_ins, blank_base]. intros e (t & -> & Hb). apply bound_typed; [|exact Hb]. apply B. rewrite (cuts_node k cs s up). right. now left.
  - apply Forall_forall. intros e He. apply in_flat_map in He as ([[a|] b] & Hx & He); [|destruct He].
    pose proof (sep_gaps k s up cs [] s s [] None Hc Sh' ltac:(cbn; lia) I a b Hx) as G. cbn [app] in G.
    destruct (get_separator _) in He; try (destruct He as [<-|[]]); try (apply gaps_typed; [exact G|]); try (now apply blanks_linebreak); try apply blanks_sp; [|destruct He].
    destruct (kind_eqb _ _); [apply blanks_sp|apply Forall_nil].
Qed.
End typed_edits.
