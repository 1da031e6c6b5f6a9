(** Lemmas about on-type formatting. *)
From Coq Require Import String List Arith NArith Bool Lia.
Import ListNotations.
From Verif Require Import ServerModel Kinds KindFacts ParserModel GrammarData ParserOutcome
  TextModel TextSpec TextProofs TextProps LexerRegex LexerData LexerModel LexerSpec LexerProofs LexerProps FormatData FormatModel FormatTree FormatText FormatWeave
  RenameDoc TreeModel TreePlace TreeShape VarModel VarSpec VarDoc LexRename LexLayout VarRegions DiagModel VarProps OnTypeModel RenameProps.

(** ** texts cut at bytes *)
Lemma len_utf8_pos c : 0 < len_utf8 c.
Proof. unfold len_utf8. repeat (destruct (_ <? _)%N; [lia|]). lia. Qed.
Lemma split_at_app x y : split_at (byte_len x) (x ++ y) = Some (x, y).
Proof.
  induction x as [|c x IH]; [destruct y; reflexivity|]. rewrite byte_len_cons. pose proof (len_utf8_pos c) as P. cbn [app split_at]. destruct (len_utf8 c + byte_len x) as [|n] eqn:E; [lia|].
  rewrite <- E. destruct (Nat.ltb_spec (len_utf8 c + byte_len x) (len_utf8 c)); [lia|]. replace (len_utf8 c + byte_len x - len_utf8 c) with (byte_len x) by lia. rewrite IH. reflexivity.
Qed.
Lemma split_at_some b : forall t x y, split_at b t = Some (x, y) -> t = x ++ y /\ byte_len x = b.
Proof.
  induction b as [b IH] using lt_wf_ind. intros t x y. destruct b as [|n]; [destruct t; cbn; intros H; injection H as <- <-; split; reflexivity|]. destruct t as [|c r]; [discriminate|].
  cbn [split_at]. destruct (Nat.ltb_spec (S n) (len_utf8 c)) as [H|H]; [discriminate|]. pose proof (len_utf8_pos c) as P. destruct (split_at (S n - len_utf8 c) r) as [[x0 y0]|] eqn:E; [|discriminate].
  intros K. injection K as <- <-. apply IH in E as [-> E]; [|lia]. split; [reflexivity|]. rewrite byte_len_cons, E. lia.
Qed.
Lemma right_after_spec c b t : right_after c b t = true <-> exists x y, t = (x ++ [c]) ++ y /\ byte_len (x ++ [c]) = b.
Proof.
  unfold right_after. split.
  - destruct (split_at b t) as [[x y]|] eqn:E; [|discriminate]. apply split_at_some in E as [-> <-]. destruct (rev x) as [|d r] eqn:R; [discriminate|]. intros H. apply N.eqb_eq in H. subst d.
    exists (rev r), y. assert (x = rev r ++ [c]) as -> by (rewrite <- (rev_involutive x), R; reflexivity). split; reflexivity.
  - intros (x & y & -> & <-). rewrite split_at_app, rev_unit, N.eqb_refl. reflexivity.
Qed.
Lemma byte_len_inj x y x' y' : x ++ y = x' ++ y' -> byte_len x = byte_len x' -> x = x' /\ y = y'.
Proof. intros E L. pose proof (split_at_app x y) as H. rewrite E, L, split_at_app in H. injection H as <- <-. split; reflexivity. Qed.
(** a position right behind a character of the document is the position of that place *)
Lemma position_right_after at_ t off c x y : cr_only_in_crlf t -> len_utf16 c = 1 -> byte_index at_ t = Some off -> t = (x ++ [c]) ++ y -> byte_len (x ++ [c]) = off -> position_after (x ++ [c]) = at_.
Proof.
  intros Hcr Hc B E L. apply (byte_index_sound _ _ _ Hcr) in B as (x' & y' & E' & L' & _ & P). rewrite E in E'. destruct (byte_len_inj _ _ _ _ E') as [<- <-]; [congruence|].
  destruct P as [P|(z & d & Ez & H2 & _)]; [exact P|]. apply app_inj_tail in Ez as [_ <-]. lia.
Qed.
Fixpoint first_blanks (t : text) : text := match t with c :: r => if tabb c then c :: first_blanks r else [] | [] => [] end.
Lemma first_blanks_spec t : exists r, t = first_blanks t ++ r /\ tabs (first_blanks t) /\ length (first_blanks t) = leading_blanks t /\ match r with c :: _ => tabb c = false | [] => True end.
Proof.
  induction t as [|c t (r & E & T & L & H)]; [exists []; cbn; repeat split|]. cbn [first_blanks leading_blanks]. destruct (tabb c) eqn:Ec.
  - exists r. cbn [app length]. split; [f_equal; exact E|]. split; [unfold tabs; cbn [forallb]; rewrite Ec; exact T|]. split; [f_equal; exact L|exact H].
  - exists (c :: t). split; [reflexivity|]. split; [reflexivity|]. split; [reflexivity|]. exact Ec.
Qed.
Lemma tab_plain c : tabb c = true -> c <> NL /\ len_utf16 c = 1.
Proof. unfold tabb. intros H. apply orb_prop in H as [H|H]; apply N.eqb_eq in H; subst c; split; (discriminate || reflexivity). Qed.
Lemma position_tabs i : forall a, tabs i -> position_after (a ++ i) = mkpos (line (position_after a)) (character (position_after a) + length i).
Proof.
  induction i as [|c i IH]; intros a T; [rewrite app_nil_r, Nat.add_0_r; destruct (position_after a); reflexivity|]. unfold tabs in T. cbn [forallb] in T. apply andb_prop in T as [Hc T].
  destruct (tab_plain _ Hc) as [H1 H2]. change (c :: i) with ([c] ++ i). rewrite app_assoc, IH by exact T.
  assert (position_after (a ++ [c]) = mkpos (line (position_after a)) (character (position_after a) + 1)) as ->.
  { rewrite position_after_snoc. unfold pstep, is_nl. destruct (N.eqb_spec c NL); [contradiction|]. rewrite H2. reflexivity. }
  cbn [line character app length]. f_equal. lia.
Qed.
Lemma blank_edit_denotes t at_ a rest w e : t = a ++ rest -> position_after a = at_ -> blank_edit t at_ (byte_len a) w = Some e ->
  edit_denotes t e (mkcedit (length a) (length a + length (first_blanks rest)) w).
Proof.
  intros -> Hp H. unfold blank_edit in H. rewrite split_at_app in H. injection H as <-. destruct (first_blanks_spec rest) as (r & E & T & L & _).
  unfold edit_denotes. cbn [ci cj cnew erange rstart rend new_text]. split; [|split; [|split]].
  - assert (length rest = length (first_blanks rest) + length r) as El by (rewrite E at 1; apply app_length). rewrite app_length. lia.
  - rewrite firstn_exact. exact Hp.
  - assert (firstn (length a + length (first_blanks rest)) (a ++ rest) = a ++ first_blanks rest) as ->.
    { rewrite <- app_length. rewrite E at 2. rewrite app_assoc. apply firstn_exact. }
    rewrite position_tabs, Hp, <- L by exact T. reflexivity.
  - reflexivity.
Qed.
(** ** the tokens around a token *)
Lemma leaf_split x : forall p k w, at_path x p = Some (Tok k w) -> exists l1 l2, leaves x = l1 ++ (k, w) :: l2 /\ length (flat_map snd l1) = chars_before x p.
Proof.
  induction x as [k w|k cs IH] using tree_ind'; intros [|i p] k' w' E; cbn [at_path] in E; try discriminate.
  - injection E as <- <-. exists [], []. split; reflexivity.
  - destruct (nth_error cs i) as [c|] eqn:C; [|discriminate]. destruct (nth_error_Forall _ _ _ _ IH C _ _ _ E) as (l1 & l2 & E1 & E2).
    apply nth_error_split in C as C'. destruct C' as (pre & post & -> & Li). exists (flat_map leaves pre ++ l1), (l2 ++ flat_map leaves post). cbn [leaves]. rewrite flat_map_app. cbn [flat_map]. rewrite E1. split.
    + rewrite <- !app_assoc. reflexivity.
    + cbn [chars_before]. rewrite C, flat_map_app, app_length. f_equal; [|exact E2]. subst i. rewrite firstn_exact. clear. induction pre as [|d pre IH]; [reflexivity|]. cbn [flat_map]. rewrite flat_map_app, !app_length, IH. f_equal.
      rewrite <- leaves_text'. reflexivity.
Qed.
Lemma doc_cursor_token err t x off p : doc_tree err t x -> cursor_on x t off p ->
  exists k w l1 l2, at_path x p = Some (Tok k w) /\ lex err t = l1 ++ (k, w) :: l2 /\ off <= byte_len (flat_map snd l1 ++ w) /\ (byte_len (flat_map snd l1) < off \/ (l1 = [] /\ off = 0)).
Proof.
  intros D (k & w & a & b & E & T & L & H1 & H2). destruct (leaf_split _ _ _ _ E) as (l1 & l2 & El & Ll). rewrite (doc_leaves _ _ _ D) in El. exists k, w, l1, l2.
  assert (t = flat_map snd (lex err t)) as Tt by (rewrite flat_map_concat_map; symmetry; apply (proj1 (C25_tiles err t))).
  assert (flat_map snd l1 = a) as <-.
  { rewrite Tt, El, flat_map_app in T. apply (f_equal (firstn (length a))) in T. rewrite firstn_exact in T. rewrite <- T, L, <- Ll. symmetry. apply firstn_exact. }
  split; [exact E|]. split; [exact El|]. split; [exact H1|]. destruct H2 as [H2|[H2 H3]]; [left; exact H2|right]. split; [|exact H3].
  destruct l1 as [|[k1 w1] l1]; [reflexivity|exfalso]. cbn [flat_map snd] in H2. apply app_eq_nil in H2 as [H2 _]. subst w1. destruct (C25_tiles err t) as [_ F]. rewrite Forall_forall in F. apply (F (k1, [])); [rewrite El; left; reflexivity|reflexivity].
Qed.

Lemma lex_text err t : flat_map snd (lex err t) = t.
Proof. rewrite flat_map_concat_map. apply (proj1 (C25_tiles err t)). Qed.
(** behind a run of whitespace comes none *)
Lemma ws_maximal err t : forall l1 w l2, lex err t = l1 ++ (K_WHITESPACE, w) :: l2 -> match flat_map snd l2 with c :: _ => ws_char c = false | [] => True end.
Proof.
  pattern t, (lex err t). revert t. apply lex_ind.
  - intros [|x l1] w l2 E; discriminate.
  - intros t k m Ht M L Lm IH [|x l1] w l2 E; cbn [app] in E; [|injection E as _ E; exact (IH _ _ _ E)]. injection E as -> <- <-.
    assert (flat_map snd (lex err (skipn m t)) = skipn m t) as -> by apply lex_text. destruct (skipn m t) as [|c r] eqn:Er; [exact I|]. destruct (ws_char c) eqn:Ec; [exfalso|reflexivity].
    assert (t = firstn m t ++ c :: r) as Et by (rewrite <- Er; symmetry; apply firstn_skipn). assert (length (firstn m t) = m) as Lf by (rewrite firstn_length; lia). set (w := firstn m t) in *. clearbody w.
    rewrite Et in M. rewrite <- Lf in M. destruct (match_here _ _ _ M) as (r0 & wb & Hin & Mw & _). destruct (ws_rule_re _ _ Hin) as [-> ->]. apply ws_re_iff in Mw as [Hn Hw].
    assert (some_match K_WHITESPACE ((w ++ [c]) ++ r) (length (w ++ [c]))) as K.
    { eapply some_match_intro; [exact ws_rule_in| |discriminate]. apply ws_re_iff. split; [destruct w; discriminate|]. rewrite forallb_app, Hw. cbn [forallb]. rewrite Ec. reflexivity. }
    rewrite <- app_assoc in K. cbn [app] in K. rewrite <- Et in K. apply L in K. rewrite app_length in K. cbn in K. lia.
  - intros t _ _ IH [|x l1] w l2 E; cbn [app] in E; [discriminate|]. injection E as _ E. exact (IH _ _ _ E).
Qed.
Lemma lex_rule err t k w : In (k, w) (lex err t) -> k <> K_Error -> exists r wb, In (k, r, wb) lexer_rules /\ matches r w.
Proof.
  intros Hin Hk. revert Hin. pattern t, (lex err t). revert t. apply lex_ind; [intros []| |].
  - intros t k0 m _ M _ Lm IH [E|Hin]; [|exact (IH Hin)]. injection E as -> <-. destruct (some_match_elim _ _ _ M) as (r & wb & z & v & Hr & Ez & Lz & Mz & _).
    exists r, wb. split; [exact Hr|]. assert (firstn m t = z) as -> by (rewrite Ez, <- Lz; apply firstn_exact). exact Mz.
  - intros t _ _ IH [E|Hin]; [|exact (IH Hin)]. injection E as <- _. congruence.
Qed.
Lemma lex_suffix err t : forall l1 l2, lex err t = l1 ++ l2 -> lex err (flat_map snd l2) = l2.
Proof.
  pattern t, (lex err t). revert t. apply lex_ind.
  - intros [|x l1] l2 E; [|discriminate]. cbn [app] in E. subst l2. reflexivity.
  - intros t k m Ht M L Lm IH [|x l1] l2 E; cbn [app] in E; [|injection E as _ E; exact (IH _ _ E)]. subst l2. cbn [flat_map snd]. rewrite (lex_text err (skipn m t)), firstn_skipn.
    rewrite lex_step by exact Ht. assert (longest_rule lexer_rules t = Some (k, m)) as -> by (apply longest_rule_some; auto). reflexivity.
  - intros t Ht Hn IH [|x l1] l2 E; cbn [app] in E; [|injection E as _ E; exact (IH _ _ E)]. subst l2. cbn [flat_map snd]. rewrite (lex_text err (skipn (S (err t)) t)), firstn_skipn.
    rewrite lex_step by exact Ht. assert (longest_rule lexer_rules t = None) as -> by (apply longest_rule_none; auto). reflexivity.
Qed.
Lemma lay_refl l : forall b, lay b l l.
Proof. induction l as [|[k w] l IH]; intros b; constructor. apply IH. Qed.
Lemma lay_prefix l1 k w w' l2 l2' : (forall b, lay b ((k, w) :: l2) ((k, w') :: l2')) -> forall b, lay b (l1 ++ (k, w) :: l2) (l1 ++ (k, w') :: l2').
Proof. intros H. induction l1 as [|[k1 w1] l1 IH]; intros b; [apply H|]. cbn [app]. apply lay_same, IH. Qed.

(** ** what is read *)
Definition nonblank (w : text) : text := filter (fun c => negb (ws_char c)) w.
Definition squeeze (l : lexeme) : lexeme := match fst l with K_ANON | K_NIL => (fst l, nonblank (snd l)) | _ => l end.
(** the tokens of a document but for whitespace; the blanks in [( )] and [[ ]] do not count either *)
Definition read (err : text -> nat) (t : text) : list lexeme := map squeeze (filter (fun l => negb (kind_eqb (fst l) K_WHITESPACE)) (lex err t)).
Definition read_ (ls : list lexeme) : list lexeme := map squeeze (filter (fun l => negb (kind_eqb (fst l) K_WHITESPACE)) ls).
Lemma respaced_nonblank w w' : respaced w w' -> nonblank w = nonblank w'.
Proof.
  assert (forall a u, tabs a -> nonblank (a ++ u) = nonblank u) as T.
  { intros a u Ha. unfold nonblank. rewrite filter_app. assert (filter (fun c => negb (ws_char c)) a = []) as ->; [|reflexivity]. apply tabs_ws in Ha. induction a as [|c a IH]; [reflexivity|].
    cbn [forallb] in Ha. apply andb_prop in Ha as [Hc Ha]. cbn [filter]. rewrite Hc. exact (IH Ha). }
  induction 1 as [|c u u' H IH|a a' u u' Ha Ha' H IH]; [reflexivity| |].
  - unfold nonblank in *. cbn [filter]. rewrite IH. reflexivity.
  - change (NL :: a ++ u) with ([NL] ++ a ++ u). change (NL :: a' ++ u') with ([NL] ++ a' ++ u'). unfold nonblank in *. rewrite (filter_app _ [NL]), (filter_app _ [NL] (a' ++ u')). f_equal. rewrite (T a u Ha), (T a' u' Ha'). exact IH.
Qed.
Lemma lay_read b ls ls' : lay b ls ls' -> read_ ls = read_ ls'.
Proof.
  unfold read_. induction 1 as [b|b k w ls ls' H IH|b k w w' ls ls' Hk Hw H IH|a a' y ls ls' Ha Ha' H IH|a' ls ls' Ha' Hn H IH]; cbn [filter fst].
  - reflexivity.
  - destruct (kind_eqb k K_WHITESPACE); cbn [negb map]; [exact IH|f_equal; exact IH].
  - pose proof (respaced_nonblank _ _ Hw) as E. destruct Hk as [->|[->| ->]]; [exact IH| |].
    + change (squeeze (K_ANON, w) :: map squeeze (filter (fun l : kind * text => negb (kind_eqb (fst l) K_WHITESPACE)) ls) = squeeze (K_ANON, w') :: map squeeze (filter (fun l : kind * text => negb (kind_eqb (fst l) K_WHITESPACE)) ls')).
      rewrite IH. unfold squeeze. cbn [fst snd]. rewrite E. reflexivity.
    + change (squeeze (K_NIL, w) :: map squeeze (filter (fun l : kind * text => negb (kind_eqb (fst l) K_WHITESPACE)) ls) = squeeze (K_NIL, w') :: map squeeze (filter (fun l : kind * text => negb (kind_eqb (fst l) K_WHITESPACE)) ls')).
      rewrite IH. unfold squeeze. cbn [fst snd]. rewrite E. reflexivity.
  - exact IH.
  - exact IH.
Qed.
Lemma lay_text err t ls' : no_lexical_error err t -> lay false (lex err t) ls' -> read err (flat_map snd ls') = read err t.
Proof.
  intros Hne H. destruct (lex_lay err t false ls') as [_ E]; [apply Forall_forall; intros [k w] Hin; exact (Hne _ _ Hin)|exact H|]. unfold read. rewrite E. symmetry. exact (lay_read _ _ _ H).
Qed.

(** ** the two ways to lay a document out anew *)
Lemma blanks_prefix u v : (tabs u -> match v with c :: _ => tabb c = false | [] => True end) -> exists r, u = first_blanks (u ++ v) ++ r.
Proof.
  induction u as [|c u IH]; intros H.
  - exists []. rewrite app_nil_r. cbn [app]. destruct v as [|d v]; [reflexivity|]. cbn [first_blanks]. rewrite (H eq_refl). reflexivity.
  - cbn [app first_blanks]. destruct (tabb c) eqn:E.
    + destruct IH as [r Hr]; [intros T; apply H; unfold tabs; cbn [forallb]; rewrite E; exact T|]. exists r. cbn [app]. f_equal. exact Hr.
    + exists (c :: u). reflexivity.
Qed.
Lemma not_ws_tab c : ws_char c = false -> tabb c = false.
Proof. intros H. destruct (tabb c) eqn:E; [|reflexivity]. apply tabb_ws in E. congruence. Qed.
Definition closing_ok (x : kind * re * bool) : bool :=
  let '(k, r, _) := x in
  if kind_eqb k K_ANON || kind_eqb k K_NIL then match r with Cat _ (Cat _ (Cls rs)) => negb (existsb (fun c => in_class c rs) [9; 10; 12; 13; 32]%N) | _ => false end else true.
Lemma closing_checked : forallb closing_ok lexer_rules = true.
Proof. vm_compute. reflexivity. Qed.
Lemma closing k r wb w : In (k, r, wb) lexer_rules -> k = K_ANON \/ k = K_NIL -> matches r w -> exists u c, w = u ++ [c] /\ ws_char c = false.
Proof.
  intros Hin Hk M. pose proof closing_checked as P. rewrite forallb_forall in P. specialize (P _ Hin). unfold closing_ok in P.
  assert (kind_eqb k K_ANON || kind_eqb k K_NIL = true) as E by (destruct Hk as [->| ->]; reflexivity). rewrite E in P. clear E.
  destruct r as [| |r1 [| |r2 [|rs| | |]| |]| |]; try discriminate. apply matches_cat_inv in M as (u & v & -> & _ & M). apply matches_cat_inv in M as (u' & v' & -> & _ & M). inversion M as [|c rs' I| | | | |]; subst.
  exists (u ++ u'), c. rewrite app_assoc. split; [reflexivity|]. destruct (ws_char c) eqn:E; [exfalso|reflexivity]. apply ws_char_cases in E. apply negb_true_iff in P. apply not_true_iff_false in P. apply P. apply existsb_exists. exists c. auto.
Qed.
Lemma newline_read err t l1 k w1 w2 l2 i' : no_lexical_error err t -> lex err t = l1 ++ (k, w1 ++ NL :: w2) :: l2 -> blank_inside k -> tabs i' ->
  let rest := w2 ++ flat_map snd l2 in
  read err ((flat_map snd l1 ++ w1 ++ [NL]) ++ i' ++ skipn (length (first_blanks rest)) rest) = read err t.
Proof.
  intros Hne El Hk Hi rest. assert (exists w3, w2 = first_blanks rest ++ w3) as [w3 Ew].
  { apply blanks_prefix. intros T. destruct Hk as [->|Hk].
    - pose proof (ws_maximal _ _ _ _ _ El) as H. destruct (flat_map snd l2); [exact I|]. apply not_ws_tab, H.
    - exfalso. destruct (lex_rule err t k (w1 ++ NL :: w2)) as (r & wb & Hin & M); [rewrite El; apply in_elt|destruct Hk as [->| ->]; discriminate|].
      destruct (closing _ _ _ _ Hin Hk M) as (u & c & Eu & Ec). clear -Eu Ec T. destruct w2 as [|d w2] using rev_ind.
      + apply (app_inj_tail w1 u NL c) in Eu as [_ <-]. discriminate.
      + clear IHw2. change (w1 ++ NL :: w2 ++ [d]) with (w1 ++ (NL :: w2) ++ [d]) in Eu. rewrite app_assoc in Eu. apply app_inj_tail in Eu as [_ <-]. apply tabs_app in T as [_ T]. unfold tabs in T. cbn [forallb] in T. rewrite andb_true_r in T. apply tabb_ws in T. congruence. }
  destruct (first_blanks_spec rest) as (r & _ & T & _). set (i := first_blanks rest) in *.
  assert (skipn (length i) rest = w3 ++ flat_map snd l2) as -> by (unfold rest; rewrite Ew, <- app_assoc; apply skipn_exact).
  pose proof (lay_text err t (l1 ++ (k, w1 ++ NL :: i' ++ w3) :: l2) Hne) as L. rewrite <- L.
  - f_equal. rewrite flat_map_app. cbn [flat_map snd]. rewrite <- ?app_assoc. cbn [app]. rewrite <- ?app_assoc. reflexivity.
  - rewrite El. apply lay_prefix. intros b. apply lay_inner; [exact Hk| |apply lay_refl]. rewrite Ew. clear -T Hi. induction w1 as [|c w1 IH]; [|constructor; exact IH].
    cbn [app]. apply resp_nl; [exact T|exact Hi|apply respaced_refl].
Qed.
Lemma break_read err t l1 k w l2 i' : no_lexical_error err t -> lex err t = l1 ++ (k, w) :: l2 -> mark_kind k = true -> tabs i' ->
  let rest := flat_map snd l2 in
  read err ((flat_map snd l1 ++ w) ++ (NL :: i') ++ skipn (length (first_blanks rest)) rest) = read err t.
Proof.
  intros Hne El Hk Hi rest. destruct (first_blanks_spec rest) as (r & Er & T & _). set (i := first_blanks rest) in *. 
  assert (lex err rest = l2) as E2 by (apply (lex_suffix err t (l1 ++ [(k, w)])); rewrite El, <- app_assoc; reflexivity).
  destruct l2 as [|[k2 w2] l3]; [|destruct (kind_eqb_spec k2 K_WHITESPACE) as [Ek|Nk]].
  - assert (i = []) as -> by reflexivity. pose proof (lay_text err t (l1 ++ (k, w) :: [(K_WHITESPACE, NL :: i')]) Hne) as L. rewrite <- L.
    + f_equal. rewrite flat_map_app. cbn [flat_map snd]. rewrite <- !app_assoc. reflexivity.
    + rewrite El. apply lay_prefix. intros b. apply lay_same. rewrite Hk. apply lay_new; [exact Hi|discriminate|constructor].
  - subst k2. assert (exists y, w2 = i ++ y) as [y Ey].
    { apply (blanks_prefix w2 (flat_map snd l3)). intros _. assert (lex err t = (l1 ++ [(k, w)]) ++ (K_WHITESPACE, w2) :: l3) as E' by (rewrite El, <- app_assoc; reflexivity).
      pose proof (ws_maximal _ _ _ _ _ E') as H. destruct (flat_map snd l3); [exact I|]. apply not_ws_tab, H. }
    assert (skipn (length i) rest = y ++ flat_map snd l3) as -> by (unfold rest; cbn [flat_map snd]; rewrite Ey, <- app_assoc; apply skipn_exact).
    pose proof (lay_text err t (l1 ++ (k, w) :: (K_WHITESPACE, NL :: i' ++ y) :: l3) Hne) as L. rewrite <- L.
    + f_equal. rewrite flat_map_app. cbn [flat_map snd app]. rewrite <- ?app_assoc. cbn [app]. rewrite <- ?app_assoc. reflexivity.
    + rewrite El. apply lay_prefix. intros b. apply lay_same. rewrite Hk, Ey. apply lay_blank; [exact T|exact Hi|apply lay_refl].
  - assert (i = []) as ->. { pose proof (no_ws_start err rest) as H. rewrite E2 in H. unfold i. destruct rest as [|c rest]; [reflexivity|]. cbn [first_blanks]. rewrite (not_ws_tab c); [reflexivity|]. apply H. intros ? ? K. injection K as -> _. congruence. }
    pose proof (lay_text err t (l1 ++ (k, w) :: (K_WHITESPACE, NL :: i') :: (k2, w2) :: l3) Hne) as L. rewrite <- L.
    + f_equal. rewrite flat_map_app. cbn [flat_map snd app length skipn]. rewrite <- !app_assoc. reflexivity.
    + rewrite El. apply lay_prefix. intros b. apply lay_same. rewrite Hk. apply lay_new; [exact Hi|intros ? ? K; injection K as -> _; congruence|apply lay_refl].
Qed.
