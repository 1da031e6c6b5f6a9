(** C39: formatting documents with comments. *)
From Coq Require Import String List Arith NArith Bool Lia Sorting.Permutation Sorting.Sorted.
Import ListNotations.
From Verif Require Import Kinds KindFacts ParserSyntax ParserModel GrammarData ParserSpec ParserOutcome ParserProps TextModel TextSpec TextProofs TextEditProofs TextProps
  LexerModel LexerSpec LexerProps FormatData FormatModel FormatChain FormatSpec FormatTree FormatPieces FormatWeave FormatText FormatParse FormatLex FormatComments FormatArrange FormatKept
  TreePlace VarModel VarSpec VarDoc DiagModel DiagSpec AstFacts LexRename LexInsert RemoveFacts RemoveProps FormatProps.

(** no token but whitespace starts with a whitespace character (U+1680 may start a prefix, and other characters are unknown tokens) *)
Definition solid (err : text -> nat) (t : text) : Prop := forall k c w, In (k, c :: w) (lex err t) -> k <> K_WHITESPACE -> ~ white c.
(** the comments of a text *)
Definition comments_in (ls : list lexeme) : list text := map snd (filter (fun l => kind_eqb (fst l) K_Comment) ls).
(** the edit that comes with each comment in front of everything the formatter changes *)
Definition line_on_top : text_edit := mkedit (mkrange (mkpos 0 0) (mkpos 0 0)) [NL].

Lemma comment_ok err t w : In (K_Comment, w) (lex err t) -> is_comment w.
Proof.
  intros H. apply in_split in H as (l1 & l2 & E). destruct (comment_token err t l1 w l2 E) as [(a & -> & F) _]. exists a. split; [reflexivity|]. rewrite forallb_forall in F. split; intros K; apply F in K; vm_compute in K; discriminate.
Qed.
Lemma comment_shape w : is_comment w -> shape K_Comment w.
Proof. intros (a & -> & _). split; [discriminate|]. split; [reflexivity|]. split; [eauto|]. split; [discriminate|exact Logic.I]. Qed.
Lemma formatted_comments width s o err t x es : plain_insert err t -> solid err t -> doc_tree err t x -> format_document width s o t x = FDone es ->
  exists es0 rest ds placed, es = es0 ++ flat_map (leftover (indent_string s o)) rest /\ Forall2 (edit_denotes t) (rev es0) ds /\ StronglySorted cgap ds /\
    arranged (lex err t) placed (splice 0 t ds) /\ Permutation (map c_text rest ++ placed) (free_comments x).
Proof.
  intros Hp So (gas & g & errs & P & ->) H.
  assert (Sh : Forall (fun l => shape (fst l) (snd l)) (lex err t)).
  { apply Forall_forall. intros [k w] Hin. destruct (kind_eqb k K_Comment) eqn:E; [apply kind_eqb_eq in E; subst k; exact (comment_shape w (comment_ok err t w Hin))|]. apply (lexed_shape err t); [exact Hin| |].
    - cbn [fst]. intros ->. discriminate.
    - cbn [fst]. intros ->. exact (Hp w Hin). }
  destruct (parsed gas (lex err t) g errs P (lex_kinds err t)) as (k & cs & E & U & W & L & T).
  { eapply Forall_impl; [|exact Sh]. intros [k w]. apply shape_leaf_ok. }
  rewrite E in *. assert (T' : flat_map snd (lex err t) = t) by (destruct (C25_tiles err t) as [T' _]; etransitivity; [apply flat_map_concat_map|exact T']). rewrite T' in T. clear T'.
  rewrite <- T in H. destruct (format_comments width s o k cs es U W) as (es0 & rest & ds & placed & H1 & H2 & H3 & H4 & H5).
  - apply shapes_leaves. rewrite L. exact Sh.
  - rewrite L. apply Forall_forall. intros [k' w] Hin. unfold solid_leaf. cbn [fst snd]. intros Hk. rewrite Forall_forall in Sh. destruct (Sh _ Hin) as (Ne & _). cbn [snd] in Ne. destruct w as [|c w]; [congruence|]. exists c, w. split; [reflexivity|]. exact (So k' c w Hin Hk).
  - rewrite L. apply Forall_forall. intros [k' w] Hin. cbn [fst snd]. intros ->. exact (comment_ok err t w Hin).
  - exact H.
  - cbv zeta in *. rewrite T, L in *. exists es0, rest, ds, placed. auto.
Qed.
(** the comments of a tree without errors *)
Lemma free_all x : forall k, k <> K_Error \/ is_node x = true -> (forall p, ~ node_at x p K_Error) -> free_under k x = comments_in (leaves x).
Proof.
  induction x as [k' w|k' cs IH] using tree_ind'; intros k Hk N; cbn [free_under leaves].
  - unfold comments_in. cbn [filter map fst]. destruct Hk as [Hk|Hk]; [|discriminate]. destruct (kind_eqb k' K_Comment); [|reflexivity]. destruct (kind_eqb k K_Error) eqn:E; [apply kind_eqb_eq in E; contradiction|]. reflexivity.
  - assert (Hk' : k' <> K_Error) by (intros ->; apply (N []); exists cs; reflexivity).
    assert (G : forall c, In c cs -> free_under k' c = comments_in (leaves c)).
    { intros c Hc. rewrite Forall_forall in IH. apply (IH c Hc k'); [now left|]. intros p [ds Hp]. apply In_nth_error in Hc as [i Hi]. apply (N (i :: p)). exists ds. cbn. rewrite Hi. exact Hp. }
    clear IH N Hk. induction cs as [|c cs IHc]; [reflexivity|]. cbn [flat_map]. unfold comments_in in *. rewrite filter_app, map_app. f_equal; [apply G; left; reflexivity|]. apply IHc. intros d Hd. apply G. right. exact Hd.
Qed.

(** ** C39 *)
(** wherever the comments stand: if formatting succeeds, its edits but the last are disjoint; they put the tokens of the document in their order, with the comments between them, each at the end of its line;
    the rest are two insertions for each of the remaining comments; together these are the comments of the document outside syntax errors, each once *)
Theorem C39_kept_partial : forall width s o err t x es, plain_insert err t -> solid err t -> doc_tree err t x -> formats width s o err t (FDone es) ->
  exists es0 es1 ds placed late, es = es0 ++ es1 /\ Forall2 (edit_denotes t) (rev es0) ds /\ StronglySorted cgap ds /\ arranged (lex err t) placed (splice 0 t ds) /\
    Permutation (late ++ placed) (free_comments x) /\
    (exists ps, es1 = flat_map (fun p => [line_on_top; mkedit (mkrange (fst p) (fst p)) (snd p)]) ps /\ Forall2 (fun w p => exists b, FormatSpec.blanks b /\ snd p = b ++ w) late ps).
Proof.
  intros width s o err t x es Hp So D [gas F]. unfold format_lexed in F. destruct (parse rule_of gas (with_spans 0 (lex err t))) as [[[g errs]|]| | |] eqn:P; try discriminate. injection F as F.
  assert (Dx : x = fst (graft g (lex err t))). { destruct D as (gas' & g' & errs' & P' & Ex). apply (proj1 (doc_parse_fun err t x errs' (fst (graft g (lex err t))) errs (ex_intro _ gas' (ex_intro _ g' (conj P' Ex))) (ex_intro _ gas (ex_intro _ g (conj P eq_refl))))). } rewrite <- Dx in F.
  destruct (formatted_comments width s o err t x es Hp So D F) as (es0 & rest & ds & placed & H1 & H2 & H3 & H4 & H5). exists es0, (flat_map (leftover (indent_string s o)) rest), ds, placed, (map c_text rest).
  repeat (split; [assumption|]). exists (map (fun c => (c_pos c, comment_text (indent_string s o) c)) rest). split.
  - clear. induction rest as [|c rest IH]; [reflexivity|]. cbn [flat_map map fst snd]. now rewrite IH.
  - clear. induction rest as [|c rest IH]; [constructor|]. cbn [map]. constructor; [|exact IH]. cbn [snd]. apply (comment_text_form _ c (indent_blank s o)).
Qed.
(** a document without syntax errors and without a comment on top: every comment of the document is in the result, at the end of its line *)
Theorem C39_result_partial : forall width s o err t x es out, plain_insert err t -> solid err t -> doc_tree err t x -> (forall p, ~ node_at x p K_Error) ->
  formats width s o err t (FDone es) -> ~ In line_on_top es -> apply_text_edits t es = Done out ->
  exists placed, arranged (lex err t) placed out /\ Permutation placed (comments_in (lex err t)).
Proof.
  intros width s o err t x es out Hp So D N F Top A. destruct (C39_kept_partial width s o err t x es Hp So D F) as (es0 & es1 & ds & placed & late & -> & H2 & H3 & H4 & H5 & (ps & -> & H6)).
  destruct ps as [|p ps]; [|exfalso; apply Top; apply in_app_iff; right; left; reflexivity]. inversion H6; subst. cbn [flat_map app] in *. rewrite app_nil_r in A.
  assert (B : StronglySorted before ds). { apply cgap_before; [|exact H3]. clear -H2. induction H2 as [|e c l ds Dn _ IH]; constructor; [apply Dn|exact IH]. }
  destruct (C05_simultaneous_edits t es0 (rev es0) ds (Permutation_rev es0) H2 B) as (r & Hr & Dr). rewrite A in Hr. injection Hr as <-.
  exists placed. split.
  - destruct Dr as [[_ ->]|[_ ->]]; [exact H4|]. clear -H4. assert (Bl : filler [] [NL]) by (constructor; [cbn; tauto|constructor]). induction H4.
    + rewrite <- (app_nil_r cs). apply arr_end. now apply filler_app.
    + now apply arr_skip.
    + now apply arr_moved.
    + rewrite <- !app_assoc. now apply arr_next.
  - rewrite H5. unfold free_comments. destruct (doc_root err t x D) as (k & [cs R] & _). cbn in R. injection R as ->. rewrite free_all; [|now right|exact N]. rewrite (doc_leaves _ _ _ D). apply Permutation_refl.
Qed.

(** ** cases that meet the hypotheses *)
Local Open Scope string_scope.
Fixpoint without (k : kind) (x : tree) : bool := match x with Tok _ _ => true | Node k' cs => negb (kind_eqb k' k) && forallb (without k) cs end.
Lemma without_ok k x : without k x = true -> forall p, ~ node_at x p k.
Proof.
  induction x as [k' w|k' cs IH] using tree_ind'; intros H p [ds E]; [destruct p; discriminate|]. cbn [without] in H. apply andb_prop in H as [H1 H2]. destruct p as [|i p]; cbn in E.
  - injection E as -> _. rewrite kind_eqb_refl in H1. discriminate.
  - destruct (nth_error cs i) as [c|] eqn:N; [|discriminate]. apply nth_error_In in N. rewrite Forall_forall in IH. rewrite forallb_forall in H2. apply (IH c N (H2 c N) p). exists ds. exact E.
Qed.
Definition solidb (ls : list lexeme) : bool := forallb (fun l => kind_eqb (fst l) K_WHITESPACE || match snd l with c :: _ => negb (whiteb c) | [] => true end) ls.
Lemma solidb_ok err t : solidb (lex err t) = true -> solid err t.
Proof.
  unfold solidb. rewrite forallb_forall. intros H k c w Hin Hk W. specialize (H _ Hin). cbn [fst snd] in H. apply orb_prop in H as [H|H]; [apply kind_eqb_eq in H; contradiction|]. apply whiteb_spec in W. rewrite W in H. discriminate.
Qed.
Definition br : string := String (Ascii.ascii_of_nat 10) "".
Definition commented : string := "# top" ++ br ++ "select * {# a" ++ br ++ "?s ?p # b" ++ br ++ " # c" ++ br ++ "?o}# d".
Example C39_witness : let t := chars commented in let err := fun _ : text => 0 in plain_insert err t /\ solid err t /\
  exists x es out, doc_tree err t x /\ (forall p, ~ node_at x p K_Error) /\ formats no_width default_fsettings opts err t (FDone es) /\ ~ In line_on_top es /\ apply_text_edits t es = Done out /\
    comments_in (lex err t) = map chars ["# top"; "# a"; "# b"; "# c"; "# d"] /\
    out = lines ["# top"; "SELECT * { # a"; "  ?s ?p # b"; "  # c"; "  ?o"; "} # d"].
Proof.
  cbv zeta. split; [apply plain_insertb_ok; vm_compute; reflexivity|]. split; [apply solidb_ok; vm_compute; reflexivity|]. eexists _, _, _.
  split; [exists 4000; eexists _, _; split; [vm_compute; reflexivity|reflexivity]|]. split; [apply without_ok; vm_compute; reflexivity|]. split; [exists 4000; vm_compute; reflexivity|]. split; [cbn; intuition discriminate|].
  split; [vm_compute; reflexivity|]. split; vm_compute; reflexivity.
Qed.
