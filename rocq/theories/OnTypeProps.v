(** On-type formatting and folding ranges: C55, C56, C57. *)
From Coq Require Import String List Arith NArith Bool Lia Sorted.
Import ListNotations.
From Verif Require Import ServerModel Kinds KindFacts ParserModel GrammarData ParserOutcome
  TextModel TextSpec TextProofs TextProps LexerRegex LexerData LexerModel LexerSpec LexerProofs LexerProps FormatData FormatModel FormatTree FormatText FormatWeave
  RenameDoc TreeModel TreePlace TreeShape VarModel VarSpec VarDoc LexRename LexLayout VarRegions DiagModel VarProps OnTypeModel RenameProps OnTypeProofs DiagProps.

(** what a client makes of one edit *)
Definition edited (t : text) (e : text_edit) (t' : text) : Prop := exists c, edit_denotes t e c /\ t' = splice 0 t [c].
Lemma edited_blanks t at_ a rest w e : t = a ++ rest -> position_after a = at_ -> blank_edit t at_ (byte_len a) w = Some e -> edited t e (a ++ w ++ skipn (length (first_blanks rest)) rest).
Proof.
  intros E Hp H. eexists. split; [eapply blank_edit_denotes; eassumption|]. subst t. cbn [splice ci cj cnew]. rewrite !Nat.sub_0_r, firstn_exact, skipn_app, (skipn_all2 a) by apply Nat.le_add_r.
  rewrite (Nat.add_comm (length a)), Nat.add_sub. reflexivity.
Qed.
Lemma cut_inside (A w B a : text) c y : A ++ w ++ B = (a ++ [c]) ++ y -> byte_len A < byte_len (a ++ [c]) -> byte_len (a ++ [c]) <= byte_len (A ++ w) ->
  exists w1 w2, w = w1 ++ c :: w2 /\ a = A ++ w1 /\ y = w2 ++ B.
Proof.
  intros E H1 H2. rewrite app_assoc in E. destruct (LexRename.app_cut _ _ _ _ E) as [(e & E1 & E2)|(e & E1 & E2)].
  - assert (e = []) as -> by (destruct e as [|d e]; [reflexivity|rewrite E1, !byte_len_app, byte_len_cons in H2; pose proof (len_utf8_pos d); lia]).
    rewrite app_nil_r in E1. cbn [app] in E2. subst B. destruct w as [|d w] using rev_ind; [rewrite app_nil_r in E1; rewrite E1 in H1; lia|]. clear IHw. rewrite app_assoc in E1. apply app_inj_tail in E1 as [-> ->].
    exists w, []. auto.
  - destruct (LexRename.app_cut _ _ _ _ E1) as [(e' & E3 & E4)|(e' & E3 & E4)].
    + destruct e' as [|d e'] using rev_ind; [rewrite app_nil_r in E3; rewrite E3 in H1; lia|]. clear IHe'. rewrite app_assoc in E3. apply app_inj_tail in E3 as [-> ->].
      exists e', e. split; [rewrite E4, <- app_assoc; reflexivity|]. auto.
    + rewrite E3, byte_len_app in H1. lia.
Qed.
Lemma tabs_repeat n w : tabs w -> tabs (repeat_text n w).
Proof. intros H. induction n as [|n IH]; [reflexivity|]. change (repeat_text (S n) w) with (w ++ repeat_text n w). apply tabs_app. auto. Qed.
Lemma tabs_spaces n : tabs (repeat SPACE n).
Proof. induction n as [|n IH]; [reflexivity|exact IH]. Qed.
Lemma tabs_unit o : tabs (tab_unit o).
Proof. unfold tab_unit. destruct (insert_spaces o); [apply tabs_spaces|reflexivity]. Qed.
Section Answers.
Context (width : char -> nat) (s : otf_settings) (o : options).
Lemma column_done err t x p y : doc_tree err t x -> at_path x p = Some y -> exists n, column_at_offset width t (start_at x p) = VDone n.
Proof.
  intros D E. destruct (node_slice _ _ _ E) as (a & b & T & L & _). rewrite (doc_text _ _ _ D) in T. unfold column_at_offset. rewrite T, <- L, split_at_app. eauto.
Qed.
Lemma aligned_done err t x tok indent : doc_tree err t x -> tabs indent -> exists w, aligned width s o x t tok indent = VDone w /\ tabs w.
Proof.
  intros D Ti. unfold aligned. assert (tabs (indent ++ tab_unit o)) as Tu by (apply tabs_app; split; [exact Ti|apply tabs_unit]). destruct (otf_align s); [|eauto].
  unfold predicate_alignment_column. destruct (enclosing_triple x tok) as [q|]; [|cbn [vbind]; eauto]. destruct (properties_list_path x q) as [l|] eqn:El; [|cbn [vbind]; eauto].
  assert (exists y, at_path x l = Some y) as [y Hy].
  { unfold properties_list_path in El. destruct (nth_error (child_nodes x q) 1) as [l'|]; [|discriminate]. destruct (_ || _) eqn:K in El; [|discriminate]. injection El as ->.
    unfold kind_is, kind_at in K. destruct (at_path x l) as [y|]; [eauto|discriminate]. }
  destruct (column_done err t x l y D Hy) as [n ->]. cbn [vbind]. exists (repeat SPACE n). split; [reflexivity|apply tabs_spaces].
Qed.
Lemma blank_edit_some t at_ a rest w : t = a ++ rest -> exists e, blank_edit t at_ (byte_len a) w = Some e.
Proof. intros ->. unfold blank_edit. rewrite split_at_app. eauto. Qed.

(** the token behind whose [c] the cursor is *)
Lemma token_behind err t x off c a y : doc_tree err t x -> t = (a ++ [c]) ++ y -> byte_len (a ++ [c]) = off ->
  exists p k w1 w2 l1 l2, token_at x off = Some p /\ kind_at x p = Some k /\ lex err t = l1 ++ (k, w1 ++ c :: w2) :: l2 /\ a = flat_map snd l1 ++ w1 /\ y = w2 ++ flat_map snd l2.
Proof.
  intros D Et Eo. pose proof (token_at_on x off) as H. rewrite (doc_text _ _ _ D) in H. destruct (token_at x off) as [p|].
  - destruct (doc_cursor_token _ _ _ _ _ D H) as (k & w & l1 & l2 & E & El & H1 & H2). pose proof (lex_text err t) as T. rewrite El, flat_map_app in T. cbn [flat_map snd] in T. rewrite Et in T.
    assert (byte_len (flat_map snd l1) < off) as H2'. { destruct H2 as [H2|[_ H2]]; [exact H2|]. rewrite <- Eo, byte_len_app, byte_len_cons in H2. pose proof (len_utf8_pos c). lia. }
    rewrite <- Eo in H1, H2'. destruct (cut_inside _ _ _ _ _ _ T H2' H1) as (w1 & w2 & -> & -> & ->). exists p, k, w1, w2, l1, l2. split; [reflexivity|]. split; [unfold kind_at; rewrite E; reflexivity|]. auto.
  - exfalso. rewrite Et, !byte_len_app, byte_len_cons in H. pose proof (len_utf8_pos c). destruct H as [H|H]; [destruct a; discriminate|]. rewrite <- Eo, byte_len_app, byte_len_cons in H. lia.
Qed.
Lemma offset_in err t x at_ off : doc_tree err t x -> byte_index at_ t = Some off -> byte_len (tree_text x) <? off = false.
Proof. intros D B. rewrite (doc_text _ _ _ D). apply Nat.ltb_ge. eapply byte_index_le, B. Qed.

(** ** C55: typing a line break *)
(** an edit is offered, and replaces the blanks behind the line break by others; the document is read as before *)
Theorem C55_newline err t x at_ e : doc_tree err t x -> cr_only_in_crlf t -> on_type_formatting width s o x t at_ [NL] = Reply (Some e) ->
  exists a i b i', t = (a ++ [NL]) ++ i ++ b /\ position_after (a ++ [NL]) = at_ /\ tabs i /\ (match b with c :: _ => tabb c = false | [] => True end) /\ tabs i' /\
    edited t e ((a ++ [NL]) ++ i' ++ b) /\ (no_lexical_error err t -> read err ((a ++ [NL]) ++ i' ++ b) = read err t).
Proof.
  intros D Hcr H. unfold on_type_formatting in H. destruct (byte_index at_ t) as [off|] eqn:B; [|discriminate]. rewrite (offset_in _ _ _ _ _ D B) in H. cbn [andb trigger_of N.eqb] in H.
  change (newline_trigger width s o x t at_ off = Reply (Some e)) in H. unfold newline_trigger in H. destruct (right_after NL off t) eqn:R; [|discriminate]. cbn [negb] in H. apply right_after_spec in R as (a & y & Et & Eo).
  destruct (token_behind _ _ _ _ _ _ _ D Et Eo) as (p & k & w1 & w2 & l1 & l2 & Hp & Hk & El & Ea & Ey). rewrite Hp, Hk in H.
  assert (blank_inside k /\ exists w, tabs w /\ blank_edit t at_ off w = Some e) as (Hb & w & Tw & He).
  { set (indent := repeat_text (brace_nesting_depth x p) (tab_unit o)) in *. assert (tabs indent) as Ti by (apply tabs_repeat, tabs_unit).
    set (final := match prev_meaningful x p with Some q => if kind_is x q K_Semicolon then aligned width s o x t q indent else VDone indent | None => VDone indent end) in *.
    assert (exists w, final = VDone w /\ tabs w) as (w & Ef & Tw). { unfold final. destruct (prev_meaningful x p) as [q|]; [|eauto]. destruct (kind_is x q K_Semicolon); [|eauto]. eapply aligned_done; eassumption. }
    rewrite Ef in H. destruct k; try discriminate H; (split; [unfold blank_inside; auto|]); exists w; (split; [exact Tw|]); destruct (blank_edit t at_ off w); congruence. }
  destruct (first_blanks_spec y) as (b & Eb & Ti & _ & Hnb). exists a, (first_blanks y), b, w. split; [rewrite Et; f_equal; exact Eb|].
  assert (position_after (a ++ [NL]) = at_) as Hpos by (eapply position_right_after; [exact Hcr|reflexivity|exact B|exact Et|exact Eo]).
  split; [exact Hpos|]. split; [exact Ti|]. split; [exact Hnb|]. split; [exact Tw|]. assert (skipn (length (first_blanks y)) y = b) as Es by (rewrite Eb at 2; apply skipn_exact). split.
  - rewrite <- Es. eapply edited_blanks; [exact Et|exact Hpos|]. rewrite Eo. exact He.
  - intros Hne. rewrite <- Es, Ea, Ey. pose proof (newline_read err t l1 k w1 w2 l2 w Hne El Hb Tw) as N. cbv zeta in N. rewrite (app_assoc (flat_map snd l1)) in N. exact N.
Qed.
(** where: in whitespace and in the blanks of [( )] and [[ ]]; not in strings, comments and other tokens *)
Theorem C55_where err t x at_ off p k w : doc_tree err t x -> byte_index at_ t = Some off -> cursor_on x t off p -> at_path x p = Some (Tok k w) ->
  (exists a y, t = (a ++ [NL]) ++ y /\ byte_len (a ++ [NL]) = off) ->
  (In k [K_WHITESPACE; K_ANON; K_NIL] -> exists e, on_type_formatting width s o x t at_ [NL] = Reply (Some e)) /\
  (~ In k [K_WHITESPACE; K_ANON; K_NIL] -> on_type_formatting width s o x t at_ [NL] = Reply None).
Proof.
  intros D B C E (a & y & Et & Eo). destruct (doc_token_at _ _ _ _ _ _ D B C) as [H1 H2]. unfold on_type_formatting. rewrite B, H1. cbn [andb].
  change (trigger_of [NL]) with TNewline. cbv match. unfold newline_trigger. assert (right_after NL off t = true) as -> by (apply right_after_spec; eauto). cbn [negb]. rewrite H2. unfold kind_at. rewrite E. cbn [option_map tkind].
  set (indent := repeat_text (brace_nesting_depth x p) (tab_unit o)) in *. assert (tabs indent) as Ti by (apply tabs_repeat, tabs_unit).
  set (final := match prev_meaningful x p with Some q => if kind_is x q K_Semicolon then aligned width s o x t q indent else VDone indent | None => VDone indent end) in *.
  assert (exists w, final = VDone w /\ tabs w) as (v & Ef & Tw). { unfold final. destruct (prev_meaningful x p) as [q|]; [|eauto]. destruct (kind_is x q K_Semicolon); [|eauto]. eapply aligned_done; eassumption. }
  rewrite Ef. rewrite <- Eo. destruct (blank_edit_some t at_ (a ++ [NL]) y v Et) as [e ->]. split.
  - intros [<-|[<-|[<-|[]]]]; eauto.
  - intros N. destruct k; try reflexivity; exfalso; apply N; cbn; auto.
Qed.
(** ** C56: typing [;] or [.] *)
Definition terminator (c : char) (k : kind) : Prop := (c = 59%N /\ k = K_Semicolon) \/ (c = 46%N /\ k = K_Dot).
Theorem C56_terminator err t x at_ c k e : doc_tree err t x -> cr_only_in_crlf t -> terminator c k -> on_type_formatting width s o x t at_ [c] = Reply (Some e) ->
  auto_line_break s = true /\
  exists a i b i', t = (a ++ [c]) ++ i ++ b /\ position_after (a ++ [c]) = at_ /\ tabs i /\ (match b with d :: _ => tabb d = false | [] => True end) /\ tabs i' /\
    In (k, [c]) (lex err t) /\ edited t e ((a ++ [c]) ++ (NL :: i') ++ b) /\ (no_lexical_error err t -> read err ((a ++ [c]) ++ (NL :: i') ++ b) = read err t).
Proof.
  intros D Hcr Hc H. unfold on_type_formatting in H. destruct (byte_index at_ t) as [off|] eqn:B; [|discriminate]. rewrite (offset_in _ _ _ _ _ D B) in H. cbn [andb] in H.
  assert (terminator_trigger width s o x t at_ off k c = Reply (Some e)) as H' by (destruct Hc as [[-> ->]|[-> ->]]; exact H). clear H. rename H' into H.
  unfold terminator_trigger in H. destruct (auto_line_break s); [|discriminate]. split; [reflexivity|]. cbn [negb] in H. destruct (right_after c off t) eqn:R; [|discriminate]. cbn [negb] in H. apply right_after_spec in R as (a & y & Et & Eo).
  destruct (token_behind _ _ _ _ _ _ _ D Et Eo) as (p & k' & w1 & w2 & l1 & l2 & Hp & Hk & El & Ea & Ey). rewrite Hp in H.
  unfold kind_is in H. rewrite Hk in H. destruct (kind_eqb_spec k' k) as [Ek|_]; [subst k'|discriminate]. cbn [negb] in H.
  assert (mark_kind k = true) as Hm by (destruct Hc as [[_ ->]|[_ ->]]; reflexivity). assert (k <> K_Error) as Hke by (destruct Hc as [[_ ->]|[_ ->]]; discriminate).
  assert (w1 = [] /\ w2 = []) as [-> ->].
  { destruct (lex_rule err t k (w1 ++ c :: w2)) as (r & wb & Hin & M); [rewrite El; apply in_elt|exact Hke|]. destruct (mark_text _ _ _ _ Hin Hm M) as [[_ E]|[_ E]]; destruct w1 as [|d w1]; try (injection E as _ ->; auto); destruct w1; discriminate. }
  cbn [app] in El, Ey. rewrite app_nil_r in Ea.
  assert (exists w, tabs w /\ blank_edit t at_ off (NL :: w) = Some e) as (w & Tw & He).
  { destruct (find_triple_for_terminator x p k) as [q|]; [|discriminate]. destruct (has_error x q); [discriminate|].
    set (indent := repeat_text (brace_nesting_depth x p) (tab_unit o)) in *. assert (tabs indent) as Ti by (apply tabs_repeat, tabs_unit).
    destruct (aligned_done err t x p indent D Ti) as (v & Ev & Tv). destruct Hc as [[_ ->]|[_ ->]].
    - rewrite Ev in H. exists v. split; [exact Tv|]. destruct (blank_edit t at_ off (NL :: v)); congruence.
    - exists indent. split; [exact Ti|]. destruct (blank_edit t at_ off (NL :: indent)); congruence. }
  destruct (first_blanks_spec y) as (b & Eb & Ti & _ & Hnb). exists a, (first_blanks y), b, w. split; [rewrite Et; f_equal; exact Eb|].
  assert (position_after (a ++ [c]) = at_) as Hpos by (eapply position_right_after; [exact Hcr|destruct Hc as [[-> _]|[-> _]]; reflexivity|exact B|exact Et|exact Eo]).
  split; [exact Hpos|]. split; [exact Ti|]. split; [exact Hnb|]. split; [exact Tw|]. split; [rewrite El; apply in_elt|]. assert (skipn (length (first_blanks y)) y = b) as Es by (rewrite Eb at 2; apply skipn_exact). split.
  - rewrite <- Es. eapply edited_blanks; [exact Et|exact Hpos|]. rewrite Eo. exact He.
  - intros Hne. rewrite <- Es, Ea, Ey. apply (break_read err t l1 k [c] l2 w Hne El Hm Tw).
Qed.
(** whatever is typed wherever: no crash *)
Theorem C55_no_crash err t x at_ ch : doc_tree err t x -> (exists r, on_type_formatting width s o x t at_ ch = Reply r) \/ (exists c, on_type_formatting width s o x t at_ ch = Refused c).
Proof.
  intros D. unfold on_type_formatting. destruct (byte_index at_ t) as [off|] eqn:B; [|right; eauto]. rewrite (offset_in _ _ _ _ _ D B). cbn [andb].
  assert (forall p v, right_after p off t = true -> exists e, blank_edit t at_ off v = Some e) as Be by (intros c v R; apply right_after_spec in R as (a & y & Et & Eo); rewrite <- Eo; eapply blank_edit_some, Et).
  assert (T : forall k c, (exists r, terminator_trigger width s o x t at_ off k c = Reply r) \/ (exists e, terminator_trigger width s o x t at_ off k c = Refused e)).
  { intros k c. unfold terminator_trigger. destruct (auto_line_break s); cbn [negb]; [|eauto]. destruct (right_after c off t) eqn:R; cbn [negb]; [|eauto]. destruct (token_at x off) as [p|]; [|eauto].
    destruct (kind_is x p k); cbn [negb]; [|eauto]. destruct (find_triple_for_terminator x p k) as [q|]; [|eauto]. destruct (has_error x q); [eauto|].
    set (indent := repeat_text (brace_nesting_depth x p) (tab_unit o)). destruct (aligned_done err t x p indent D) as (v & Ev & _); [apply tabs_repeat, tabs_unit|].
    destruct (Be c (NL :: v) R) as [e1 E1], (Be c (NL :: indent) R) as [e2 E2]. destruct k; rewrite ?Ev, ?E1, ?E2; eauto. }
  destruct (trigger_of ch); [|apply T|apply T|eauto]. unfold newline_trigger. destruct (right_after NL off t) eqn:R; cbn [negb]; [|eauto]. destruct (token_at x off) as [p|]; [|eauto].
  set (indent := repeat_text (brace_nesting_depth x p) (tab_unit o)) in *. assert (tabs indent) as Ti by (apply tabs_repeat, tabs_unit).
  set (final := match prev_meaningful x p with Some q => if kind_is x q K_Semicolon then aligned width s o x t q indent else VDone indent | None => VDone indent end) in *.
  assert (exists w, final = VDone w) as (v & Ef). { unfold final. destruct (prev_meaningful x p) as [q|]; [|eauto]. destruct (kind_is x q K_Semicolon); [|eauto]. destruct (aligned_done err t x q indent D Ti) as (v & Ev & _). eauto. }
  rewrite Ef. destruct (Be NL v R) as [e1 E1]. rewrite E1. destruct (kind_at x p) as [k|]; [|eauto]. destruct k; eauto.
Qed.
End Answers.

(** ** cases that meet the hypotheses *)
Local Open Scope string_scope.
Definition NLs : string := String (Ascii.ascii_of_nat 10) EmptyString.
Lemma cr_check t : forallb (fun c => negb (N.eqb c CR)) t = true -> cr_only_in_crlf t.
Proof. intros H a b ->. rewrite forallb_forall in H. specialize (H CR (in_elt _ _ _)). discriminate. Qed.
Definition one (_ : char) : nat := 1.
Definition typed (s : otf_settings) (t : string) (l c : nat) (ch : string) : option (string * nat) :=
  match on_type_formatting one s (mkoptions 2 true) (tree_of (chars t)) (chars t) (mkpos l c) (chars ch) with
  | Reply (Some e) => Some (string_of_list_ascii (map (fun c => Ascii.ascii_of_N c) (new_text e)), character (rend (erange e)))
  | _ => None
  end.
Definition typed_newline : string := "SELECT * {" ++ NLs ++ "  { " ++ NLs ++ "   ?s ?p ?o ;" ++ NLs ++ "} }".
(** behind the second line break: depth two; behind [;]: aligned with the predicate; the blanks that are there are replaced *)
Example C55_witness : doc_tree (fun _ => 0) (chars typed_newline) (tree_of (chars typed_newline)) /\ cr_only_in_crlf (chars typed_newline) /\ no_lexical_error (fun _ => 0) (chars typed_newline) /\
  typed (mkots true true) typed_newline 2 0 NLs = Some ("    ", 3) /\ typed (mkots true true) typed_newline 3 0 NLs = Some ("      ", 0).
Proof.
  split; [apply parses_tree; vm_compute; reflexivity|]. split; [apply cr_check; vm_compute; reflexivity|]. split; [apply lex_ok_sound; vm_compute; reflexivity|]. split; vm_compute; reflexivity.
Qed.
(** ... but not in a string: its text would change *)
Definition long_string : text := chars ("ASK { ?s ?p '''a" ++ NLs ++ " b''' }").
Example C55_witness_where : doc_tree (fun _ => 0) long_string (tree_of long_string) /\ byte_index (mkpos 1 0) long_string = Some 17 /\
  (exists p w, cursor_on (tree_of long_string) long_string 17 p /\ at_path (tree_of long_string) p = Some (Tok K_STRING_LITERAL_LONG1 w)) /\ on_type_formatting one (mkots true true) (mkoptions 2 true) (tree_of long_string) long_string (mkpos 1 0) [NL] = Reply None.
Proof.
  assert (D : doc_tree (fun _ => 0) long_string (tree_of long_string)) by (apply parses_tree; vm_compute; reflexivity).
  split; [exact D|]. split; [vm_compute; reflexivity|]. split; [|vm_compute; reflexivity]. pose proof (token_at_on (tree_of long_string) 17) as C. rewrite (doc_text _ _ _ D) in C. destruct (token_at (tree_of long_string) 17) as [p|] eqn:E; [|vm_compute in E; discriminate].
  exists p. eexists. split; [exact C|]. vm_compute in E. injection E as <-. vm_compute. reflexivity.
Qed.
Definition typed_mark : string := "SELECT * { ?s ?p ?o;?q ?r.?a ?b ?c }".
Example C56_witness : doc_tree (fun _ => 0) (chars typed_mark) (tree_of (chars typed_mark)) /\ cr_only_in_crlf (chars typed_mark) /\ no_lexical_error (fun _ => 0) (chars typed_mark) /\
  typed (mkots true true) typed_mark 0 20 ";" = Some (NLs ++ "              ", 20) /\ typed (mkots true true) typed_mark 0 26 "." = Some (NLs ++ "  ", 26) /\ typed (mkots false true) typed_mark 0 26 "." = None.
Proof.
  split; [apply parses_tree; vm_compute; reflexivity|]. split; [apply cr_check; vm_compute; reflexivity|]. split; [apply lex_ok_sound; vm_compute; reflexivity|]. split; [vm_compute; reflexivity|]. split; vm_compute; reflexivity.
Qed.
