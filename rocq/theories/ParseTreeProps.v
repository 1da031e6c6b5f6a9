(** The parse tree request: C59.  [x] is the tree that the parser gives for the text [t]. *)
From Coq Require Import String List Arith NArith Bool Lia Sorted.
Import ListNotations.
From Verif Require Import ServerModel Kinds KindFacts ParserModel GrammarData ParserOutcome
  TextModel TextSpec TextProofs TextProps LexerRegex LexerModel LexerSpec LexerProps FormatData FormatModel FormatTree FormatText FormatWeave
  TreeModel TreePlace TreeShape TreeKids VarModel VarSpec VarDoc LexRename VarRegions VarProps DiagModel DiagSpec AstFacts DiagFacts OnTypeModel FoldProps LayoutProps ParseTreeModel.

(** ** the answer that is expected *)
(** [shows x t skip p e]: the element [e] of the answer shows the element [p] of the tree: the same kind, the range at which
    its text is in the document, and its children in order - without whitespace and comments if these are to be skipped *)
Inductive shows (x : tree) (t : text) (skip : bool) : path -> element -> Prop :=
| shows_token p k w r : at_path x p = Some (Tok k w) -> located x t p r -> shows x t skip p (EToken k r w)
| shows_node p k cs r is es : at_path x p = Some (Node k cs) -> located x t p r ->
    (forall i, In i is <-> exists c, nth_error cs i = Some c /\ (skip = true -> is_trivia (tkind c) = false)) -> StronglySorted lt is ->
    Forall2 (fun i e => shows x t skip (p ++ [i]) e) is es -> shows x t skip p (ENode k r es).
(** the tokens of an answer *)
Fixpoint etokens (e : element) : list lexeme := match e with EToken k _ w => [(k, w)] | ENode _ _ es => flat_map etokens es end.
(** an answer without whitespace and comments *)
Fixpoint untrivial (e : element) : element :=
  match e with
  | EToken k r w => EToken k r w
  | ENode k r es => ENode k r (flat_map (fun e => match e with EToken k r w => if is_trivia k then [] else [EToken k r w] | ENode _ _ _ => [untrivial e] end) es)
  end.

(** ** the cursor *)
Definition cursor_at (a : text) : cursor := mkcursor (byte_len a) (position_after a).
Lemma steps m : forall a, fold_left cursor_step m (cursor_at a) = cursor_at (a ++ m).
Proof.
  induction m as [|c m IH]; intros a; [rewrite app_nil_r; reflexivity|]. cbn [fold_left]. replace (cursor_step (cursor_at a) c) with (cursor_at (a ++ [c])); [rewrite IH, <- app_assoc; reflexivity|].
  unfold cursor_at, cursor_step. cbn [byte_offset cposition]. rewrite byte_len_app, position_after_snoc. cbn [byte_len]. rewrite Nat.add_0_r. reflexivity.
Qed.
Lemma advance_ok a m b t n : t = (a ++ m) ++ b -> n = byte_len (a ++ m) -> advance_to t (cursor_at a) n = VDone (position_after (a ++ m), cursor_at (a ++ m)).
Proof.
  intros -> ->. unfold advance_to, slice. cbn [byte_offset cursor_at]. rewrite byte_len_app. destruct (Nat.ltb_spec (byte_len a + byte_len m) (byte_len a)); [lia|].
  rewrite <- app_assoc, split_byte_app. replace (byte_len a + byte_len m - byte_len a) with (byte_len m) by lia. rewrite split_byte_app. rewrite steps. reflexivity.
Qed.

(** ** every element *)
Lemma doc_place err t x p y : doc_tree err t x -> at_path x p = Some y -> exists u v, t = u ++ tree_text y ++ v /\ byte_len u = start_at x p /\ byte_len (u ++ tree_text y) = end_at x p /\ u = firstn (chars_before x p) t /\
  located x t p (mkrange (position_after u) (position_after (u ++ tree_text y))).
Proof.
  intros D E. destruct (node_slice _ _ _ E) as (u & v & T & B & L). rewrite (doc_text _ _ _ D) in T. exists u, v. split; [exact T|]. split; [exact B|]. split; [unfold end_at, text_at; rewrite byte_len_app, E, B; reflexivity|].
  assert (u = firstn (chars_before x p) t) as Eu by (rewrite <- L, T; symmetry; apply firstn_exact). split; [exact Eu|].
  unfold located, text_at. rewrite E. cbn [rstart rend]. rewrite <- L. split; [rewrite T, !app_length; lia|]. split; [rewrite T, skipn_exact; apply firstn_exact|]. rewrite L, <- Eu. split; [reflexivity|].
  rewrite <- L, T, app_assoc, <- app_length, firstn_exact. reflexivity.
Qed.
Lemma chars_before_app x p : forall y q, at_path x p = Some y -> chars_before x (p ++ q) = chars_before x p + chars_before y q.
Proof.
  revert x; induction p as [|i p IH]; intros x y q E; cbn [at_path app chars_before] in *; [injection E as <-; reflexivity|]. destruct x as [|k cs]; [discriminate|]. destruct (nth_error cs i) as [c|]; [|discriminate]. rewrite (IH _ _ q E). lia.
Qed.
Lemma firstn_snoc {A} (l : list A) : forall i c, nth_error l i = Some c -> firstn (S i) l = firstn i l ++ [c].
Proof. induction l as [|a l IH]; intros [|i] c H; cbn in H; try discriminate; [injection H as ->; reflexivity|]. cbn [firstn app]. f_equal. apply IH, H. Qed.
Lemma child_place x p k cs i c : at_path x p = Some (Node k cs) -> nth_error cs i = Some c -> forall err t, doc_tree err t x -> firstn (chars_before x (p ++ [i])) t = firstn (chars_before x p) t ++ flat_map tree_text (firstn i cs).
Proof.
  intros E C err t D. destruct (node_slice _ _ _ E) as (u & v & T & B & L). rewrite (doc_text _ _ _ D) in T. rewrite <- L. rewrite T at 2. rewrite firstn_exact.
  rewrite (chars_before_app x p _ [i] E). cbn [chars_before]. rewrite C, Nat.add_0_r, <- L, T. cbn [tree_text]. rewrite (flat_map_split _ _ _ C), <- !app_assoc. rewrite (app_assoc u). rewrite <- app_length. apply firstn_exact.
Qed.
Lemma build_shows err t x skip : doc_tree err t x -> forall y p a m, at_path x p = Some y -> firstn (chars_before x p) t = a ++ m ->
  exists e, build_element x t skip p y (cursor_at a) = VDone (e, cursor_at ((a ++ m) ++ tree_text y)) /\ shows x t skip p e.
Proof.
  intros D y. induction y as [k w|k cs IH] using tree_ind'; intros p a m E F; destruct (doc_place _ _ _ _ _ D E) as (u & v & T & B1 & B2 & Eu & Loc); rewrite F in Eu; subst u.
  - cbn [build_element]. rewrite (advance_ok a m (tree_text (Tok k w) ++ v) t) by congruence. cbn [vbind].
    rewrite (advance_ok (a ++ m) (tree_text (Tok k w)) v t) by (rewrite <- ?app_assoc in *; congruence). cbn [vbind]. eexists. split; [reflexivity|]. apply shows_token; assumption.
  - cbn [build_element]. rewrite (advance_ok a m (tree_text (Node k cs) ++ v) t) by congruence. cbn [vbind].
    match goal with |- context [vbind (?f 0 cs _) _] => set (kids := f) end.
    assert (K : forall r i b n, (forall j, nth_error cs (i + j) = nth_error r j) -> (a ++ m) ++ flat_map tree_text (firstn i cs) = b ++ n ->
      exists es is b' n', kids i r (cursor_at b) = VDone (es, cursor_at b') /\ (a ++ m) ++ flat_map tree_text cs = b' ++ n' /\
        (forall j, In j is <-> i <= j /\ exists c, nth_error cs j = Some c /\ (skip = true -> is_trivia (tkind c) = false)) /\ StronglySorted lt is /\ Forall2 (fun i e => shows x t skip (p ++ [i]) e) is es).
    { induction r as [|c r IHr]; intros i b n Hr Hb.
      - exists [], [], b, n. split; [reflexivity|]. assert (length cs <= i) as Li. { apply nth_error_None. rewrite <- (Nat.add_0_r i), Hr. reflexivity. }
        rewrite firstn_all2 in Hb by exact Li. split; [exact Hb|]. split; [|split; constructor]. intros j. split; [intros []|]. intros (H & c & Hc & _). assert (j < length cs) by (apply nth_error_Some; congruence). lia.
      - assert (C : nth_error cs i = Some c) by (rewrite <- (Nat.add_0_r i), Hr; reflexivity). assert (Hr' : forall j, nth_error cs (S i + j) = nth_error r j) by (intros j; rewrite Nat.add_succ_comm, Hr; reflexivity).
        assert (Next : (a ++ m) ++ flat_map tree_text (firstn (S i) cs) = (b ++ n) ++ tree_text c).
        { rewrite <- Hb. rewrite (firstn_snoc _ _ _ C), flat_map_app. cbn [flat_map]. rewrite app_nil_r, <- !app_assoc. reflexivity. }
        cbn [kids]. fold kids. destruct (negb skip || negb (is_trivia (tkind c))) eqn:Keep.
        + destruct (nth_error_Forall _ _ _ _ IH C (p ++ [i]) b n) as (e & -> & Se); [rewrite (AstFacts.at_child _ _ _ _ _ E); exact C|rewrite (child_place _ _ _ _ _ _ E C _ _ D), F; exact Hb|].
          destruct (IHr (S i) ((b ++ n) ++ tree_text c) [] Hr') as (es & is & b' & n' & K & Hb' & HI & HS & HF); [rewrite app_nil_r; exact Next|]. cbn [vbind]. rewrite K. cbn [vbind].
          exists (e :: es), (i :: is), b', n'. split; [reflexivity|]. split; [exact Hb'|]. split; [|split].
          * intros j. split.
            -- intros [<-|H]; [split; [apply Nat.le_refl|]; exists c; split; [exact C|]; intros ->; cbn in Keep; destruct (is_trivia (tkind c)); [discriminate|reflexivity]|]. apply HI in H as [H1 H2]. split; [lia|exact H2].
            -- intros [H1 H2]. apply Nat.lt_eq_cases in H1 as [H1|<-]; [right; apply HI; auto|left; reflexivity].
          * constructor; [exact HS|]. apply Forall_forall. intros j Hj. apply HI in Hj. lia.
          * constructor; assumption.
        + destruct (IHr (S i) b (n ++ tree_text c) Hr') as (es & is & b' & n' & K & Hb' & HI & HS & HF); [rewrite app_assoc; exact Next|]. exists es, is, b', n'. split; [exact K|]. split; [exact Hb'|]. split; [|auto].
          intros j. rewrite HI. split; [intros [H1 H2]; split; [lia|exact H2]|]. intros [H1 H2]. split; [|exact H2]. apply Nat.lt_eq_cases in H1 as [H1|<-]; [exact H1|]. exfalso. destruct H2 as (c' & Hc & Ht). rewrite C in Hc. injection Hc as <-.
          destruct skip; [rewrite Ht in Keep by reflexivity|]; discriminate. }
    destruct (K cs 0 (a ++ m) []) as (es & is & b' & n' & -> & Hb' & HI & HS & HF); [reflexivity|cbn; reflexivity|]. cbn [vbind].
    assert (tree_text (Node k cs) = flat_map tree_text cs) as Tt by reflexivity. rewrite <- Tt in Hb'.
    rewrite (advance_ok b' n' v t) by (rewrite <- Hb', <- ?app_assoc in *; congruence). cbn [vbind]. rewrite <- Hb'. eexists. split; [reflexivity|].
    apply shows_node with (cs := cs) (is := is); auto. intros i. rewrite HI. split; [intros [_ H]; exact H|intros H; split; [lia|exact H]].
Qed.

(** ** C59 *)
(** the request is answered - it never panics - and the answer shows the tree *)
Theorem C59_shows err t x skip : doc_tree err t x -> exists e, parse_tree_reply x t skip = VDone e /\ shows x t (match skip with Some b => b | None => false end) [] e.
Proof.
  intros D. unfold parse_tree_reply. destruct (build_shows err t x (match skip with Some b => b | None => false end) D x [] [] []) as (e & E & H); [reflexivity|reflexivity|].
  change (cursor_at []) with cursor_new in E. rewrite E. cbn [vbind]. eauto.
Qed.

(** ** the tokens of the answer *)
Lemma sorted_ext (l : list nat) : forall l', StronglySorted lt l -> StronglySorted lt l' -> (forall i, In i l <-> In i l') -> l = l'.
Proof.
  induction l as [|a l IH]; intros l' S1 S2 H.
  - destruct l' as [|b l']; [reflexivity|]. destruct (proj2 (H b) (or_introl eq_refl)).
  - destruct l' as [|b l']; [destruct (proj1 (H a) (or_introl eq_refl))|]. inversion S1 as [|? ? T1 F1]; subst. inversion S2 as [|? ? T2 F2]; subst. rewrite Forall_forall in F1, F2.
    assert (a = b) as <-.
    { destruct (proj1 (H a) (or_introl eq_refl)) as [<-|Ha]; [reflexivity|]. destruct (proj2 (H b) (or_introl eq_refl)) as [->|Hb]; [reflexivity|]. apply F2 in Ha. apply F1 in Hb. lia. }
    f_equal. apply IH; auto. intros i. split; intros Hi.
    + destruct (proj1 (H i) (or_intror Hi)) as [<-|K]; [apply F1 in Hi; lia|exact K].
    + destruct (proj2 (H i) (or_intror Hi)) as [<-|K]; [apply F2 in Hi; lia|exact K].
Qed.
Definition keep (skip : bool) (c : tree) : bool := negb (skip && is_trivia (tkind c)).
Fixpoint kept (skip : bool) (i : nat) (cs : list tree) : list nat := match cs with [] => [] | c :: cs => (if keep skip c then [i] else []) ++ kept skip (S i) cs end.
Lemma in_kept skip cs : forall i j, In j (kept skip i cs) <-> i <= j /\ exists c, nth_error cs (j - i) = Some c /\ (skip = true -> is_trivia (tkind c) = false).
Proof.
  induction cs as [|c cs IH]; intros i j; cbn [kept].
  - split; [intros []|]. intros (_ & c & H & _). destruct (j - i); discriminate.
  - rewrite in_app_iff, IH. assert (Hc : keep skip c = true <-> (skip = true -> is_trivia (tkind c) = false)) by (unfold keep; destruct skip, (is_trivia (tkind c)); cbn; intuition congruence). split.
    + intros [H|(H1 & c' & H2 & H3)].
      * destruct (keep skip c) eqn:K; [|destruct H]. destruct H as [<-|[]]. split; [lia|]. exists c. rewrite Nat.sub_diag. split; [reflexivity|apply Hc; reflexivity].
      * split; [lia|]. exists c'. replace (j - i) with (S (j - S i)) by lia. auto.
    + intros (H1 & c' & H2 & H3). destruct (Nat.eq_dec i j) as [<-|N].
      * left. rewrite Nat.sub_diag in H2. injection H2 as <-. apply Hc in H3. rewrite H3. left. reflexivity.
      * right. split; [lia|]. replace (j - i) with (S (j - S i)) in H2 by lia. eauto.
Qed.
Lemma kept_sorted skip cs : forall i, StronglySorted lt (kept skip i cs).
Proof.
  induction cs as [|c cs IH]; intros i; cbn [kept]; [constructor|]. destruct (keep skip c); cbn [app]; [|apply IH]. constructor; [apply IH|]. apply Forall_forall. intros j Hj. apply in_kept in Hj. lia.
Qed.
Lemma shows_inv x t skip p e y : shows x t skip p e -> at_path x p = Some y ->
  match y with
  | Tok k w => exists r, located x t p r /\ e = EToken k r w
  | Node k cs => exists r es, located x t p r /\ e = ENode k r es /\ Forall2 (fun i e => shows x t skip (p ++ [i]) e) (kept skip 0 cs) es
  end.
Proof.
  intros [p' k w r E L|p' k cs r is es E L HI HS F] Ey; rewrite E in Ey; injection Ey as <-; [eauto|]. exists r, es. split; [exact L|]. split; [reflexivity|].
  replace (kept skip 0 cs) with is; [exact F|]. apply sorted_ext; [exact HS|apply kept_sorted|]. intros i. rewrite HI, in_kept, Nat.sub_0_r. split; [intros H; split; [lia|exact H]|intros [_ H]; exact H].
Qed.
Lemma node_not_trivial err t x p k cs : doc_tree err t x -> at_path x p = Some (Node k cs) -> is_trivia k = false.
Proof.
  intros D E. assert (node_at x p k) as N by (exists cs; exact E). destruct (is_trivia k) eqn:T; [exfalso|reflexivity]. assert (k = K_WHITESPACE \/ k = K_Comment) as Hk by (destruct k; try discriminate; auto). destruct (path_split p) as [->|(q & i & ->)].
  - destruct (doc_root _ _ _ D) as (r & R & Hr). pose proof (node_at_fun _ _ _ _ N R). destruct Hk as [-> | ->], Hr as [-> | ->]; discriminate.
  - destruct (doc_parent_in _ _ _ _ _ _ [] D N) as (k' & _ & []); [destruct Hk as [-> | ->]; discriminate|destruct Hk as [-> | ->]; vm_compute; reflexivity].
Qed.
Lemma shows_tokens err t x skip : doc_tree err t x -> forall y p e, at_path x p = Some y -> keep skip y = true -> shows x t skip p e ->
  etokens e = if skip then filter (fun l => negb (trivial l)) (FormatWeave.leaves y) else FormatWeave.leaves y.
Proof.
  intros D y. induction y as [k w|k cs IH] using tree_ind'; intros p e E K Se; pose proof (shows_inv _ _ _ _ _ _ Se E) as H; cbn beta iota in H.
  - destruct H as (r & _ & ->). cbn [etokens FormatWeave.leaves]. destruct skip; [|reflexivity]. cbn [filter]. rewrite trivial_is. unfold keep in K. cbn in K. unfold lkind. cbn [fst]. rewrite K. reflexivity.
  - destruct H as (r & es & _ & -> & F). cbn [etokens FormatWeave.leaves].
    assert (G : forall r i es, (forall j, nth_error cs (i + j) = nth_error r j) -> Forall2 (fun i e => shows x t skip (p ++ [i]) e) (kept skip i r) es ->
      flat_map etokens es = if skip then filter (fun l => negb (trivial l)) (flat_map FormatWeave.leaves r) else flat_map FormatWeave.leaves r).
    { clear F Se es r. induction r as [|c r IHr]; intros i es Hr F; [inversion F; subst; destruct skip; reflexivity|].
      assert (C : nth_error cs i = Some c) by (rewrite <- (Nat.add_0_r i), Hr; reflexivity). assert (Hr' : forall j, nth_error cs (S i + j) = nth_error r j) by (intros j; rewrite Nat.add_succ_comm, Hr; reflexivity).
      assert (Ec : at_path x (p ++ [i]) = Some c) by (rewrite (AstFacts.at_child _ _ _ _ _ E); exact C).
      cbn [kept] in F. cbn [flat_map]. destruct (keep skip c) eqn:Kc.
      - cbn [app] in F. inversion F as [|? e ? es' F1 F2]; subst. cbn [flat_map]. rewrite (IHr _ _ Hr' F2), (nth_error_Forall _ _ _ _ IH C _ _ Ec Kc F1). destruct skip; [rewrite filter_app|]; reflexivity.
      - cbn [app] in F. rewrite (IHr _ _ Hr' F). unfold keep in Kc. destruct skip; [|discriminate]. destruct c as [k' w|k' cs']; cbn in Kc; [|rewrite (node_not_trivial _ _ _ _ _ _ D Ec) in Kc; discriminate].
        cbn [FormatWeave.leaves app filter]. rewrite trivial_is. unfold lkind. cbn [fst]. destruct (is_trivia k'); [reflexivity|discriminate]. }
    apply (G cs 0); [reflexivity|exact F].
Qed.
(** the tokens of the answer are those of the document, in order; with skipTrivia those that are neither whitespace nor a comment *)
Theorem C59_tokens err t x skip : doc_tree err t x -> exists e, parse_tree_reply x t skip = VDone e /\
  etokens e = (if match skip with Some b => b | None => false end then tokens err t else lex err t).
Proof.
  intros D. destruct (C59_shows err t x skip D) as (e & E & H). exists e. split; [exact E|].
  set (b := match skip with Some b => b | None => false end) in *. assert (keep b x = true) as K by (destruct (doc_root _ _ _ D) as (k & [cs R] & [-> | ->]); cbn in R; injection R as ->; destruct b; reflexivity).
  rewrite (shows_tokens err t x b D x [] e eq_refl K H).
  rewrite (doc_leaves _ _ _ D). reflexivity.
Qed.
(** with skipTrivia the answer is that without it, less whitespace and comments: no other element and no range changes *)
Theorem C59_skip err t x : doc_tree err t x -> exists e, parse_tree_reply x t None = VDone e /\ parse_tree_reply x t (Some false) = VDone e /\ parse_tree_reply x t (Some true) = VDone (untrivial e).
Proof.
  intros D. destruct (C59_shows err t x None D) as (e & E & H). destruct (C59_shows err t x (Some true) D) as (e' & E' & H'). exists e. split; [exact E|]. split; [exact E|]. rewrite E'. f_equal.
  assert (G : forall y p e e', at_path x p = Some y -> shows x t false p e -> shows x t true p e' -> e' = untrivial e).
  { clear -D. intros y. induction y as [k w|k cs IH] using tree_ind'; intros p e e' E H H'; pose proof (shows_inv _ _ _ _ _ _ H E) as I; pose proof (shows_inv _ _ _ _ _ _ H' E) as I'; cbn beta iota in I, I'.
    - destruct I as (r & (_ & _ & R1 & R2) & ->). destruct I' as (r' & (_ & _ & R1' & R2') & ->). cbn. destruct r, r'. cbn in *. congruence.
    - destruct I as (r & es & (_ & _ & R1 & R2) & -> & F). destruct I' as (r' & es' & (_ & _ & R1' & R2') & -> & F'). cbn [untrivial]. assert (r' = r) as -> by (destruct r, r'; cbn in *; congruence). f_equal.
      assert (G : forall r i es es', (forall j, nth_error cs (i + j) = nth_error r j) -> Forall2 (fun i e => shows x t false (p ++ [i]) e) (kept false i r) es -> Forall2 (fun i e => shows x t true (p ++ [i]) e) (kept true i r) es' ->
        es' = flat_map (fun e => match e with EToken k r w => if is_trivia k then [] else [EToken k r w] | ENode _ _ _ => [untrivial e] end) es).
      { clear F F' es es' R1 R2 R1' R2' H H' r. induction r as [|c r IHr]; intros i es es' Hr F F'; [inversion F; inversion F'; subst; reflexivity|].
        assert (C : nth_error cs i = Some c) by (rewrite <- (Nat.add_0_r i), Hr; reflexivity). assert (Hr' : forall j, nth_error cs (S i + j) = nth_error r j) by (intros j; rewrite Nat.add_succ_comm, Hr; reflexivity).
        assert (Ec : at_path x (p ++ [i]) = Some c) by (rewrite (AstFacts.at_child _ _ _ _ _ E); exact C).
        cbn [kept] in F, F'. change (keep false c) with true in F. cbn [app] in F. inversion F as [|? e ? es0 F1 F2]; subst. cbn [flat_map]. pose proof (shows_inv _ _ _ _ _ _ F1 Ec) as I.
        destruct (keep true c) eqn:Kc; cbn [app] in F'.
        - inversion F' as [|? e' ? es0' F1' F2']; subst. rewrite (nth_error_Forall _ _ _ _ IH C _ _ _ Ec F1 F1'). rewrite (IHr _ _ _ Hr' F2 F2'). unfold keep in Kc. cbn [andb] in Kc.
          destruct c as [k' w|k' cs']; [destruct I as (r0 & _ & ->); cbn in Kc; destruct (is_trivia k'); [discriminate|]; reflexivity|destruct I as (r0 & es1 & _ & -> & _); reflexivity].
        - rewrite (IHr _ _ _ Hr' F2 F'). unfold keep in Kc. cbn [andb] in Kc. destruct c as [k' w|k' cs']; cbn in Kc.
          + destruct I as (r0 & _ & ->). destruct (is_trivia k'); [reflexivity|discriminate].
          + rewrite (node_not_trivial _ _ _ _ _ _ D Ec) in Kc. discriminate. }
      apply (G cs 0); [reflexivity|exact F|exact F']. }
  exact (G x [] e e' eq_refl H H').
Qed.

(** ** a case that meets the hypotheses: a comment, two lines, a character outside the BMP *)
Local Open Scope string_scope.
Definition shown_query : text := (chars ("# c" ++ NLs ++ "ASK {" ++ NLs ++ "?s ?p 'x") ++ [128512%N] ++ chars "' . }")%list.
Fixpoint eranges (e : element) : list (text * range) := match e with EToken _ r w => [(w, r)] | ENode _ _ es => flat_map eranges es end.
Example C59_witness : doc_tree (fun _ => 0) shown_query (tree_of shown_query) /\
  match parse_tree_reply (tree_of shown_query) shown_query (Some true) with
  | VDone e => eranges e = [(chars "ASK", mkrange (mkpos 1 0) (mkpos 1 3)); (chars "{", mkrange (mkpos 1 4) (mkpos 1 5)); (chars "?s", mkrange (mkpos 2 0) (mkpos 2 2)); (chars "?p", mkrange (mkpos 2 3) (mkpos 2 5));
      ((chars "'x" ++ [128512%N] ++ chars "'")%list, mkrange (mkpos 2 6) (mkpos 2 11)); (chars ".", mkrange (mkpos 2 12) (mkpos 2 13)); (chars "}", mkrange (mkpos 2 14) (mkpos 2 15))]
  | _ => False
  end.
Proof. split; [apply parses_tree|]; vm_compute; reflexivity. Qed.
