(** Tokens stay what they are if the text behind them is replaced by other text that begins with white space. *)
From Coq Require Import List Arith NArith Bool Lia.
Import ListNotations.
From Verif Require Import Kinds KindFacts TextModel LexerRegex LexerData LexerModel LexerProofs LexerSpec LexerProps FormatParse LexRename LexLayout OnTypeProofs.

(** ** regular expressions *)
Definition top : re := Cls [(0, 1114111)]%N.
Definition solid_class : list (N * N) := [(33, 132); (134, 159); (161, 5759); (5761, 8191); (8203, 8231); (8234, 8238); (8240, 8286); (8288, 12287); (12289, 1114111)]%N.
Definition solid : re := Cls solid_class.
Definition blanks : re := Cls ws_class.
Definition nonword : re := Cls [(0, 47); (58, 64); (91, 94); (96, 96); (123, 1114111)]%N.
Fixpoint bounded (r : re) : bool :=
  match r with
  | Eps => true
  | Cls rs => forallb (fun x => (snd x <=? 1114111)%N) rs
  | Cat a b | Alt a b => bounded a && bounded b
  | Star a => bounded a
  end.
Definition small (c : char) : Prop := (c <= 1114111)%N.
Lemma bounded_ok r w : matches r w -> bounded r = true -> Forall small w.
Proof.
  induction 1 as [|c rs E|a b u v H1 IH1 H2 IH2|a b u H1 IH1|a b u H1 IH1|a|a u v H1 IH1 H2 IH2]; cbn [bounded]; intros B.
  - constructor.
  - constructor; [|constructor]. unfold in_class in E. apply existsb_exists in E as (x & Hx & E). rewrite forallb_forall in B. specialize (B _ Hx). apply andb_prop in E as [_ E]. apply N.leb_le in B, E. unfold small. lia.
  - apply andb_prop in B as [B1 B2]. apply Forall_app; auto.
  - apply andb_prop in B as [B1 B2]. auto.
  - apply andb_prop in B as [B1 B2]. auto.
  - constructor.
  - apply Forall_app; auto.
Qed.
Lemma top_star w : Forall small w -> matches (Star top) w.
Proof.
  induction 1 as [|c w H _ IH]; [constructor|]. change (c :: w) with ([c] ++ w). constructor; [|exact IH]. constructor. unfold in_class. cbn. apply N.leb_le in H. destruct (N.leb_spec 0 c); [|lia]. rewrite H. reflexivity.
Qed.
Lemma in_class_cons c a b rs : in_class c ((a, b) :: rs) = true <-> (a <= c /\ c <= b)%N \/ in_class c rs = true.
Proof. unfold in_class. cbn [existsb fst snd]. rewrite orb_true_iff, andb_true_iff, !N.leb_le. reflexivity. Qed.
Lemma in_class_nil c : in_class c [] = true <-> False.
Proof. split; [discriminate|intros []]. Qed.
Lemma nonword_one c : small c -> word_char c = false -> matches nonword [c].
Proof.
  unfold small, word_char. intros B H. constructor. apply not_true_iff_false in H. rewrite !orb_true_iff, !andb_true_iff, !N.leb_le, N.eqb_eq in H. rewrite !in_class_cons, in_class_nil. lia.
Qed.
Lemma blanks_one c : ws_char c = true -> matches blanks [c].
Proof. intros H. constructor. exact H. Qed.

(** ** checked for every pair of token definitions *)
Definition quote_of (k : kind) : option char := match k with K_STRING_LITERAL1 => Some 39%N | K_STRING_LITERAL2 => Some 34%N | _ => None end.
Definition unquote (q : char) : re := Cls [(0, N.pred q); (N.succ q, 1114111)]%N.
(** what may follow a token so that a longer match is to be excluded *)
Definition tail_of (k : kind) (wb : bool) : re :=
  match quote_of k with
  | Some q => Cat (unquote q) (Star top)
  | None => if wb then Cat nonword (Star top) else Cat (Star top) (Cat solid (Cat (Star top) (Cat blanks (Star top))))
  end.
Definition stays (x y : kind * re * bool) : bool :=
  let '(k, r, wb) := x in let '(k', r', wb') := y in
  if kind_eqb k K_WHITESPACE || kind_eqb k K_Comment then true
  else if apart_first r r' then true
  else if kind_eqb k K_IN && kind_eqb k' K_INSERT_DATA then true
  else (if forallb (fun c => avoids c r') [9; 10; 12; 13; 32]%N then true else disjoint_re (Cat r (tail_of k wb)) r') &&
       (if wb' then disjoint_re (Cat r (Cat top (Star top))) r' else true).
Lemma stays_checked : forallb (fun x => forallb (stays x) lexer_rules) lexer_rules = true.
Proof. vm_cast_no_check (eq_refl true). Qed.
(** every token but white space and comments has a character that is not white space *)
Definition has_solid (x : kind * re * bool) : bool :=
  let '(k, r, _) := x in kind_eqb k K_WHITESPACE || kind_eqb k K_Comment || disjoint_re r (Star (Cls [(0, 32); (133, 133); (160, 160); (5760, 5760); (8192, 8202); (8232, 8233); (8239, 8239); (8287, 8287); (12288, 12288)]%N)).
Lemma solid_checked : forallb has_solid lexer_rules = true.
Proof. vm_cast_no_check (eq_refl true). Qed.
Lemma bounded_checked : forallb (fun x => bounded (snd (fst x))) lexer_rules = true.
Proof. vm_cast_no_check (eq_refl true). Qed.
Definition blank_chars : list N := [9; 10; 12; 13; 32]%N.
Lemma blank_in c : ws_char c = true <-> In c blank_chars.
Proof. split; [apply ws_char_cases|]. unfold blank_chars. cbn [In]. intros H. repeat destruct H as [<-|H]; try reflexivity. destruct H. Qed.
Definition separable (x : kind * re * bool) : bool :=
  existsb (kind_eqb (fst (fst x))) extensible || forallb (fun y => not_extended blank_chars (snd (fst x)) (snd (fst y))) lexer_rules.
Lemma separable_checked : forallb separable lexer_rules = true.
Proof. vm_cast_no_check (eq_refl true). Qed.
(** starting with white space, or empty *)
Definition opens_blank (v : text) : Prop := match v with c :: _ => ws_char c = true | [] => True end.
Lemma ws_not_word c : ws_char c = true -> word_char c = false.
Proof. intros H. apply blank_in in H. repeat destruct H as [<-|H]; try reflexivity. destruct H. Qed.
Lemma opens_boundary v : opens_blank v -> at_boundary v = true.
Proof. destruct v as [|c v]; [reflexivity|]. cbn. intros H. rewrite (ws_not_word _ H). reflexivity. Qed.
Lemma rule_ok k r wb : In (k, r, wb) lexer_rules -> bounded r = true /\ (k = K_WHITESPACE \/ k = K_Comment \/ forall w, matches r w -> exists c, In c w /\ in_class c solid_class = true).
Proof.
  intros H. pose proof bounded_checked as B. rewrite forallb_forall in B. specialize (B _ H). split; [exact B|]. cbn [fst snd] in B.
  pose proof solid_checked as S. rewrite forallb_forall in S. specialize (S _ H). cbn [has_solid] in S. apply orb_prop in S as [S|S]; [apply orb_prop in S as [S|S]; apply kind_eqb_eq in S; auto|]. right. right.
  intros w M. destruct (existsb (fun c => in_class c solid_class) w) eqn:E; [apply existsb_exists in E; exact E|]. exfalso. refine (disjoint_re_sound _ _ S w M _).
  pose proof (bounded_ok _ _ M B) as Bw. clear -E Bw. induction Bw as [|c w Hc _ IH]; [constructor|]. cbn [existsb] in E. apply orb_false_elim in E as [E1 E2]. change (c :: w) with ([c] ++ w). constructor; [|apply IH, E2]. constructor.
  unfold small in Hc. unfold solid_class in E1. apply not_true_iff_false in E1. rewrite !in_class_cons, in_class_nil in *. lia.
Qed.
(** ** the longest match, with other text behind it *)
Lemma comment_rule k r wb w : In (k, r, wb) lexer_rules -> matches r (35%N :: w) -> k = K_Comment.
Proof.
  assert (C : forallb (fun x => kind_eqb (fst (fst x)) K_Comment || match pd_set 35%N [snd (fst x)] with [] => true | _ => false end) lexer_rules = true) by (vm_compute; reflexivity).
  intros Hin M. rewrite forallb_forall in C. specialize (C _ Hin). cbn [fst snd] in C. apply orb_prop in C as [C|C]; [apply kind_eqb_eq, C|]. exfalso.
  assert (matches_any [r] (35%N :: w)) as A by (exists r; split; [left; reflexivity|exact M]). apply pd_set_correct in A. destruct (pd_set 35%N [r]); [|discriminate]. destruct A as (? & [] & _).
Qed.
Definition comment_class : list (N * N) := [(0, 9); (11, 12); (14, 1114111)]%N.
Definition comment_re : re := Cat (Chr 35) (Star (Cls comment_class)).
Lemma comment_in : In (K_Comment, comment_re, false) lexer_rules.
Proof.
  assert (existsb (fun x => kind_eqb (fst (fst x)) K_Comment && re_eqb (snd (fst x)) comment_re && negb (snd x)) lexer_rules = true) as E by (vm_compute; reflexivity).
  apply existsb_exists in E as ([[k r] wb] & Hin & E). apply andb_prop in E as [E E3]. apply andb_prop in E as [E1 E2]. cbn [fst snd] in *. apply kind_eqb_eq in E1. apply re_eqb_eq in E2. subst. destruct wb; [discriminate|]. exact Hin.
Qed.
Lemma comment_only r wb : In (K_Comment, r, wb) lexer_rules -> r = comment_re.
Proof.
  assert (C : forallb (fun x => negb (kind_eqb (fst (fst x)) K_Comment) || re_eqb (snd (fst x)) comment_re) lexer_rules = true) by (vm_compute; reflexivity).
  intros Hin. rewrite forallb_forall in C. specialize (C _ Hin). cbn [fst snd] in C. rewrite kind_eqb_refl in C. apply re_eqb_eq, C.
Qed.
Lemma comment_iff w : matches comment_re w <-> exists a, w = 35%N :: a /\ forallb (fun c => in_class c comment_class) a = true.
Proof.
  assert (S : forall a, matches (Star (Cls comment_class)) a <-> forallb (fun c => in_class c comment_class) a = true).
  { intros a. exact (star_one (Cls comment_class) comment_class a eq_refl). }
  split.
  - intros M. inversion M as [| |? ? u v M1 M2| | | |]; subst. inversion M1 as [|c rs E| | | | |]; subst. rewrite in_class_cons, in_class_nil in E. assert (c = 35%N) as -> by lia. exists v. split; [reflexivity|apply S, M2].
  - intros (a & -> & H). change (35%N :: a) with ([35%N] ++ a). constructor; [constructor; reflexivity|apply S, H].
Qed.
Lemma comment_kept w rest v : longest_rule lexer_rules (w ++ rest) = Some (K_Comment, length w) -> head rest = head v -> longest_rule lexer_rules (w ++ v) = Some (K_Comment, length w).
Proof.
  intros E Hd. apply longest_rule_some in E as [M L]. destruct (match_here _ _ _ M) as (r & wb & Hin & Mw & B). rewrite (comment_only _ _ Hin) in Mw. apply longest_rule_some. split; [apply (some_match_intro _ comment_re false); [exact comment_in|exact Mw|discriminate]|].
  apply comment_iff in Mw as (a & -> & Ha). intros k m Hm. destruct (some_match_elim _ _ _ Hm) as (r' & wb' & z & v' & Hin' & Ez & Lz & Mz & _). subst m. destruct z as [|c z]; [cbn; lia|]. cbn [app] in Ez. injection Ez as <- Ez.
  assert (k = K_Comment) as -> by (eapply comment_rule; eassumption). rewrite (comment_only _ _ Hin') in Mz. apply comment_iff in Mz as (z' & Ez' & Hz). injection Ez' as <-. destruct (le_lt_dec (length (35%N :: z)) (length (35%N :: a))) as [K|K]; [exact K|exfalso].
  destruct (app_cut _ _ _ _ Ez) as [(e & -> & Ev)|(e & -> & _)]; [|cbn [length] in K; rewrite app_length in K; apply Nat.lt_irrefl with (x := length z); unfold lt in *; apply le_S_n in K; eapply Nat.le_trans; [|exact K]; apply le_n_S, Nat.le_add_r]. destruct e as [|d e]; [rewrite app_nil_r in K; exact (Nat.lt_irrefl _ K)|]. rewrite Ev in Hd. destruct rest as [|d' rest]; [discriminate|]. cbn in Hd. injection Hd as ->.
  rewrite forallb_app in Hz. apply andb_prop in Hz as [_ Hz]. cbn [forallb] in Hz. apply andb_prop in Hz as [Hz _].
  assert (some_match K_Comment (((35%N :: a) ++ [d]) ++ rest) (length ((35%N :: a) ++ [d]))) as X.
  { apply (some_match_intro _ comment_re false); [exact comment_in| |discriminate]. apply comment_iff. exists (a ++ [d]). split; [reflexivity|]. rewrite forallb_app. apply andb_true_intro. split; [exact Ha|]. cbn [forallb]. apply andb_true_intro. split; [exact Hz|reflexivity]. }
  rewrite <- app_assoc in X. apply L in X. rewrite app_length, Nat.add_comm in X. exact (Nat.nle_succ_diag_l _ X).
Qed.
Lemma ws_kept w rest v : longest_rule lexer_rules (w ++ rest) = Some (K_WHITESPACE, length w) -> rest <> [] -> head rest = head v -> longest_rule lexer_rules (w ++ v) = Some (K_WHITESPACE, length w).
Proof.
  intros E Hr Hd. apply longest_rule_some in E as [M L]. destruct (match_here _ _ _ M) as (r & wb & Hin & Mw & _). destruct (ws_rule_re _ _ Hin) as [-> ->]. apply ws_re_iff in Mw as [W1 W2]. apply ws_longest; [exact W1|exact W2|].
  destruct v as [|c v]; [exact I|]. destruct rest as [|d rest]; [congruence|]. cbn in Hd. injection Hd as ->. destruct (ws_char c) eqn:Wc; [|reflexivity]. exfalso.
  assert (some_match K_WHITESPACE ((w ++ [c]) ++ rest) (length (w ++ [c]))) as X.
  { apply (some_match_intro _ ws_re false); [exact ws_rule_in| |discriminate]. apply ws_re_iff. split; [destruct w; discriminate|]. rewrite forallb_app. apply andb_true_intro. split; [exact W2|]. cbn [forallb]. rewrite andb_true_r. exact Wc. }
  rewrite <- app_assoc in X. apply L in X. rewrite app_length, Nat.add_comm in X. exact (Nat.nle_succ_diag_l _ X).
Qed.
Lemma cat_split a b t : matches (Cat a b) t -> exists u v, t = u ++ v /\ matches a u /\ matches b v.
Proof. intros M. inversion M as [| |? ? u v M1 M2| | | |]; subst. eauto. Qed.
(** INſERT, with the long s: IN is no token of it *)
Lemma insert_data_cut r wb p c q : In (K_INSERT_DATA, r, wb) lexer_rules -> matches r (p ++ c :: q) -> ws_char c = true -> exists r', In (K_INSERT, r', false) lexer_rules /\ matches r' p.
Proof.
  assert (C : forallb (fun x => if kind_eqb (fst (fst x)) K_INSERT_DATA then existsb (fun y => if kind_eqb (fst (fst y)) K_INSERT && negb (snd y) && forallb (fun c => avoids c (snd (fst y))) blank_chars then
    existsb (fun z => if kind_eqb (fst (fst z)) K_DATA && forallb (fun c => avoids c (snd (fst z))) blank_chars then included (snd (fst x)) (Cat (snd (fst y)) (Cat blanks (snd (fst z)))) else false) lexer_rules else false) lexer_rules else true) lexer_rules = true) by (vm_compute; reflexivity).
  intros Hin M Wc. rewrite forallb_forall in C. specialize (C _ Hin). cbn [fst snd] in C. rewrite kind_eqb_refl in C. apply existsb_exists in C as ([[k1 r1] wb1] & Hin1 & C). match type of C with (if ?b then _ else _) = _ => destruct b eqn:Cb; [|discriminate] end. rename C into C4. rename Cb into C. apply andb_prop in C as [C C3]. apply andb_prop in C as [C1 C2]. cbn [fst snd] in *.
  apply kind_eqb_eq in C1. subst k1. destruct wb1; [discriminate|]. apply existsb_exists in C4 as ([[k2 r2] wb2] & Hin2 & D). match type of D with (if ?b then _ else _) = _ => destruct b eqn:Db; [|discriminate] end. rename D into D3. rename Db into D. apply andb_prop in D as [D1 D2]. cbn [fst snd] in *. apply (included_sound _ _ D3) in M.
  destruct (cat_split _ _ _ M) as (u & v & E1 & M1 & M2). destruct (cat_split _ _ _ M2) as (u2 & v2 & -> & M3 & M4). inversion M3 as [|b rs Eb| | | | |]; subst u2. assert (Wb : ws_char b = true) by exact Eb.
  assert (A : forall w r, matches r w -> forallb (fun c => avoids c r) blank_chars = true -> forall c, In c w -> ws_char c = false).
  { clear. intros w r M F c Hc. destruct (ws_char c) eqn:E; [|reflexivity]. exfalso. apply blank_in in E. rewrite forallb_forall in F. exact (avoids_ok _ _ _ M (F _ E) Hc). }
  pose proof (A _ _ M1 C3) as N1. pose proof (A _ _ M4 D2) as N2. exists r1. split; [exact Hin1|]. assert (u = p) as <-; [|exact M1].
  symmetry in E1. cbn [app] in E1. destruct (app_cut _ _ _ _ E1) as [(e & -> & E)|(e & -> & E)].
  - destruct e as [|d e]; [rewrite app_nil_r; reflexivity|]. cbn [app] in E. injection E as <- ->. rewrite (N2 c) in Wc; [discriminate|]. apply in_app_iff. right. left. reflexivity.
  - destruct e as [|d e]; [rewrite app_nil_r; reflexivity|]. cbn [app] in E. injection E as <- E. rewrite (N1 c) in Wc; [discriminate|]. apply in_app_iff. right. left. reflexivity.
Qed.

Lemma longest_kept k w rest v v' : longest_rule lexer_rules (w ++ rest ++ v) = Some (k, length w) -> opens_blank v' -> (exists c, In c rest /\ in_class c solid_class = true) -> (forall q, quote_of k = Some q -> head rest <> Some q) ->
  longest_rule lexer_rules (w ++ rest ++ v') = Some (k, length w).
Proof.
  intros E O (sc & Hs & Sc) Q. assert (rest <> []) as Hr by (intros ->; destruct Hs). assert (Hd : forall v, head (rest ++ v) = head rest) by (intros; destruct rest; [congruence|reflexivity]).
  destruct (kind_eqb_spec k K_WHITESPACE) as [->|N1]; [apply (ws_kept w (rest ++ v)); [exact E|destruct rest; [congruence|discriminate]|rewrite !Hd; reflexivity]|].
  destruct (kind_eqb_spec k K_Comment) as [->|N2]; [apply (comment_kept w (rest ++ v)); [exact E|rewrite !Hd; reflexivity]|].
  apply longest_rule_some in E as [M L]. destruct (match_here _ _ _ M) as (r & wb & Hin & Mw & B).
  assert (Bd : forall v, at_boundary (rest ++ v) = at_boundary rest) by (intros; destruct rest; [congruence|reflexivity]). rewrite Bd in B.
  apply longest_rule_some. split; [eapply some_match_intro; [exact Hin|exact Mw|rewrite Bd; exact B]|].
  intros k' m Hm. destruct (le_lt_dec m (length w)) as [K|K]; [exact K|exfalso]. destruct (some_match_elim _ _ _ Hm) as (r' & wb' & z & y & Hin' & Ez & Lz & Mz & B').
  destruct (app_cut _ _ _ _ Ez) as [(e & -> & Er)|(e & -> & _)]; [|rewrite app_length in *; lia]. assert (e <> []) as He by (intros ->; rewrite app_length in Lz; cbn in Lz; lia). clear Ez.
  destruct (rule_ok _ _ _ Hin') as [Bo' _]. pose proof (bounded_ok _ _ Mz Bo') as Bz. apply Forall_app in Bz as [_ Be].
  pose proof stays_checked as C. rewrite forallb_forall in C. specialize (C _ Hin). rewrite forallb_forall in C. specialize (C _ Hin'). cbn [stays] in C.
  destruct (kind_eqb_spec k K_WHITESPACE) as [?|_]; [congruence|]. destruct (kind_eqb_spec k K_Comment) as [?|_]; [congruence|]. cbn [orb] in C.
  destruct (apart_first r r') eqn:Ap.
  { pose proof (matches_first _ _ Mw) as Fa. pose proof (rule_plain _ _ _ Hin) as (Pn & _). destruct w as [|d w]; [congruence|]. destruct Fa as (rs & Hrs & Ea). apply matches_first in Mz. destruct Mz as (ss & Hss & Eb).
    unfold apart_first in Ap. apply andb_prop in Ap as [_ H2]. rewrite forallb_forall in H2. specialize (H2 _ Hrs). rewrite forallb_forall in H2. specialize (H2 _ Hss).
    unfold in_class in Ea, Eb. apply existsb_exists in Ea as (x & Hx & Ex), Eb as (y' & Hy & Ey). rewrite forallb_forall in H2. specialize (H2 _ Hx). rewrite forallb_forall in H2. specialize (H2 _ Hy).
    apply andb_prop in Ex as [X1 X2], Ey as [Y1 Y2]. apply N.leb_le in X1, X2, Y1, Y2. apply orb_prop in H2 as [H2|H2]; apply N.ltb_lt in H2; lia. }
  assert (Same : e = rest -> False).
  { intros ->. assert (y = v') as -> by (apply app_inv_head in Er; congruence). destruct wb'.
      - destruct (kind_eqb k K_IN && kind_eqb k' K_INSERT_DATA) eqn:S.
        + apply andb_prop in S as [_ S]. apply kind_eqb_eq in S. subst k'. assert (forallb (fun x => negb (kind_eqb (fst (fst x)) K_INSERT_DATA && snd x)) lexer_rules = true) as W by (vm_compute; reflexivity).
          rewrite forallb_forall in W. specialize (W _ Hin'). cbn [fst snd] in W. rewrite kind_eqb_refl in W. discriminate.
        + apply andb_prop in C as [_ C]. refine (disjoint_re_sound _ _ C _ _ Mz). constructor; [exact Mw|]. destruct rest as [|c rest]; [congruence|]. change (c :: rest) with ([c] ++ rest). inversion Be as [|? ? Hc Be']; subst.
          constructor; [constructor; apply in_class_cons; left; unfold small in Hc; lia|apply top_star, Be'].
      - assert (some_match k' ((w ++ rest) ++ v) (length (w ++ rest))) as X by (eapply some_match_intro; [exact Hin'|exact Mz|discriminate]). rewrite <- app_assoc in X. apply L in X. rewrite app_length in X. destruct rest; [congruence|]. cbn [length] in X. lia. }
  destruct (app_cut _ _ _ _ Er) as [(f & -> & Ev)|(f & -> & Ey)].
  - (* the match goes into the new text *)
    destruct f as [|c f].
    { rewrite app_nil_r in Same. exact (Same eq_refl). }
    rewrite Ev in O. cbn [opens_blank app] in O. destruct (kind_eqb k K_IN && kind_eqb k' K_INSERT_DATA) eqn:S.
    { apply andb_prop in S as [_ S]. apply kind_eqb_eq in S. subst k'. rewrite app_assoc in Mz. destruct (insert_data_cut _ _ _ _ _ Hin' Mz O) as (r3 & Hin3 & M3).
      assert (some_match K_INSERT ((w ++ rest) ++ v) (length (w ++ rest))) as X by (eapply some_match_intro; [exact Hin3|exact M3|discriminate]). rewrite <- app_assoc in X. apply L in X. rewrite app_length in X. destruct rest; [congruence|]. cbn [length] in X. lia. }
    apply andb_prop in C as [C _]. destruct (forallb _ _) eqn:Av in C.
    { apply blank_in in O. rewrite forallb_forall in Av. refine (avoids_ok _ _ _ Mz (Av _ O) _). apply in_app_iff. right. apply in_app_iff. right. left. reflexivity. }
    refine (disjoint_re_sound _ _ C _ _ Mz). constructor; [exact Mw|]. unfold tail_of. apply Forall_app in Be as [Br Bf]. inversion Bf as [|? ? Bc Bf']; subst. destruct (quote_of k) as [q|] eqn:Eq.
    + specialize (Q q eq_refl). destruct rest as [|d rest]; [congruence|]. cbn [app]. inversion Br as [|? ? Bd' Br']; subst. change (d :: rest ++ c :: f) with ([d] ++ (rest ++ c :: f)). constructor; [|apply top_star, Forall_app; split; [exact Br'|constructor; assumption]].
      constructor. rewrite !in_class_cons, in_class_nil. unfold small in Bd'. assert (d <> q) by (intros ->; apply Q; reflexivity). assert (q = 39%N \/ q = 34%N) by (destruct k; inversion Eq; auto). lia.
    + destruct wb.
      * specialize (B eq_refl). destruct rest as [|d rest]; [congruence|]. cbn [app]. inversion Br as [|? ? Bd' Br']; subst. cbn [at_boundary] in B. change (d :: rest ++ c :: f) with ([d] ++ (rest ++ c :: f)). constructor; [|apply top_star, Forall_app; split; [exact Br'|constructor; assumption]].
        apply nonword_one; [exact Bd'|]. apply negb_true_iff, B.
      * apply in_split in Hs as (r1 & r2 & ->). apply Forall_app in Br as [B1 B2]. inversion B2 as [|? ? B3 B4]; subst. replace ((r1 ++ sc :: r2) ++ c :: f) with (r1 ++ [sc] ++ r2 ++ [c] ++ f) by (rewrite <- app_assoc; reflexivity).
        constructor; [apply top_star, B1|]. constructor; [constructor; exact Sc|]. constructor; [apply top_star, B4|]. constructor; [apply blanks_one, O|apply top_star, Bf'].
  - (* it ends in the old text *)
    assert (some_match k' ((w ++ e) ++ f ++ v) (length (w ++ e))) as X.
    { eapply some_match_intro; [exact Hin'|exact Mz|]. intros Ewb. specialize (B' Ewb). destruct f as [|c f]; [|cbn [app] in *; rewrite Ey in B'; exact B'].
      exfalso. apply Same. rewrite app_nil_r. reflexivity. }
    rewrite <- app_assoc in X. rewrite <- app_assoc in L. apply L in X. rewrite app_length in X. destruct e; [congruence|]. cbn [length] in X. lia.
Qed.

(** ** a text cut behind a token *)
Lemma lex_suffix err t l1 l2 : lex err t = l1 ++ l2 -> lex err (flat_map snd l2) = l2.
Proof.
  revert t. induction l1 as [|[k w] l1 IH]; intros t E; cbn [app] in E.
  - pose proof (lex_text err t) as T. rewrite E in T. rewrite T. exact E.
  - destruct t as [|c t]; [discriminate|]. rewrite lex_step in E by discriminate. destruct (longest_rule lexer_rules (c :: t)) as [[k' m]|]; injection E as _ _ E; exact (IH _ E).
Qed.
Lemma lex_first err k w l : lex err (flat_map snd ((k, w) :: l)) = (k, w) :: l -> k <> K_Error -> longest_rule lexer_rules (w ++ flat_map snd l) = Some (k, length w).
Proof.
  cbn [flat_map snd]. intros E N. destruct (w ++ flat_map snd l) as [|c t] eqn:Et; [discriminate|]. rewrite lex_step in E by discriminate. destruct (longest_rule lexer_rules (c :: t)) as [[k' m]|] eqn:L.
  - injection E as -> E1 _. apply longest_rule_some in L as L'. destruct L' as [L1 _]. destruct (some_match_elim _ _ _ L1) as (r & wb & z & v & _ & Ez & Lz & _).
    do 2 f_equal. rewrite <- E1, firstn_length, Ez, app_length. lia.
  - injection E as E _. congruence.
Qed.
Lemma lex_one err k w v : longest_rule lexer_rules (w ++ v) = Some (k, length w) -> w <> [] -> lex err (w ++ v) = (k, w) :: lex err v.
Proof. intros E N. rewrite lex_step by (destruct w; [congruence|discriminate]). rewrite E, firstn_exact, skipn_exact. reflexivity. Qed.
(** [k w] is a whole token in front of [v], and not white space *)
Definition ends_before (v : text) (x : lexeme) : Prop := longest_rule lexer_rules (snd x ++ v) = Some (fst x, length (snd x)) /\ fst x <> K_WHITESPACE.
Fixpoint not_fused (l : list lexeme) : Prop :=
  match l with
  | (k, _) :: ((_, w) :: _) as l' => (forall q, quote_of k = Some q -> head w <> Some q) /\ not_fused l'
  | _ => True
  end.
Lemma not_fused_tail x l : not_fused (x :: l) -> not_fused l.
Proof. destruct x as [k w], l as [|[a b] l]; [intros; exact I|]. intros [_ H]. exact H. Qed.
Lemma not_fused_head k w a b l q : not_fused ((k, w) :: (a, b) :: l) -> quote_of k = Some q -> head b <> Some q.
Proof. intros [H _]. exact (H q). Qed.
Lemma token_rule k w v : longest_rule lexer_rules (w ++ v) = Some (k, length w) -> exists r wb, In (k, r, wb) lexer_rules /\ matches r w /\ w <> [].
Proof.
  intros E. apply longest_rule_some in E as [M _]. destruct (match_here _ _ _ M) as (r & wb & Hin & Mw & _). exists r, wb. split; [exact Hin|]. split; [exact Mw|]. intros ->. apply nullable_matches in Mw. apply rule_plain in Hin as (? & _). congruence.
Qed.
Lemma token_solid k w v : longest_rule lexer_rules (w ++ v) = Some (k, length w) -> k <> K_WHITESPACE -> exists c, In c w /\ in_class c solid_class = true.
Proof.
  intros E N. destruct (token_rule _ _ _ E) as (r & wb & Hin & Mw & _). destruct (rule_ok _ _ _ Hin) as [_ [?|[->|H]]]; [congruence| |exact (H _ Mw)].
  rewrite (comment_only _ _ Hin) in Mw. apply comment_iff in Mw as (a & -> & _). exists 35%N. split; [left; reflexivity|reflexivity].
Qed.
Theorem lex_insert err t l1 x l2 v : lex err t = l1 ++ x :: l2 -> Forall (fun y => fst y <> K_Error) (l1 ++ [x]) -> not_fused (l1 ++ [x]) -> opens_blank v -> ends_before v x ->
  lex err (flat_map snd (l1 ++ [x]) ++ v) = l1 ++ x :: lex err v.
Proof.
  intros E F Q O [X1 X2]. destruct x as [kx wx]. cbn [fst snd] in *. destruct (token_solid _ _ _ X1 X2) as (sc & Hs & Sc). destruct (token_rule _ _ _ X1) as (_ & _ & _ & _ & Nx).
  assert (E' : lex err (flat_map snd (l1 ++ (kx, wx) :: l2)) = l1 ++ (kx, wx) :: l2) by (pose proof (lex_text err t) as T; rewrite E in T; refine (eq_trans _ E); f_equal; exact T). clear E t.
  induction l1 as [|[k w] l1 IH]; cbn [app flat_map snd].
  - rewrite app_nil_r. apply lex_one; assumption.
  - inversion F as [|? ? Fk F']; subst. cbn [fst] in Fk. cbn [app] in E'. pose proof (lex_first _ _ _ _ E' Fk) as L.
    rewrite <- app_assoc. assert (EQ : flat_map snd (l1 ++ (kx, wx) :: l2) = flat_map snd (l1 ++ [(kx, wx)]) ++ flat_map snd l2) by (rewrite !flat_map_app; cbn [flat_map snd]; rewrite app_nil_r, <- app_assoc; reflexivity).
    rewrite EQ in L. rewrite lex_one with (k := k); [f_equal; apply IH; [exact F'| |exact (lex_suffix err _ [(k, w)] _ E')]| |].
    + exact (not_fused_tail _ _ Q).
    + apply longest_kept with (v := flat_map snd l2); [exact L|exact O| |].
      * exists sc. split; [|exact Sc]. rewrite flat_map_app. apply in_app_iff. right. cbn. rewrite app_nil_r. exact Hs.
      * intros q Eq Hd. pose proof (lex_suffix err _ [(k, w)] _ E') as E2. clear L. destruct l1 as [|[a b] l1].
        -- cbn in Hd. rewrite app_nil_r in Hd. exact (not_fused_head _ _ _ _ _ _ Q Eq Hd).
        -- cbn [app flat_map snd] in Hd. destruct b as [|b0 b]; [|exact (not_fused_head _ _ _ _ _ _ Q Eq Hd)]. exfalso.
           inversion F' as [|? ? Fa _]; subst. cbn [fst] in Fa. pose proof (lex_first _ _ _ _ E2 Fa) as L. destruct (token_rule _ _ _ L) as (_ & _ & _ & _ & N). congruence.
    + destruct (token_rule _ _ _ L) as (_ & _ & _ & _ & N). exact N.
Qed.
(** a token that is not a prefix of a longer one with white space in it ends before white space *)
Lemma ends_before_blank k w rest v : longest_rule lexer_rules (w ++ rest) = Some (k, length w) -> ~ In k extensible -> opens_blank v -> ends_before v (k, w).
Proof.
  intros E He O. split; [|cbn [fst]; intros ->; apply He; left; reflexivity]. cbn [fst snd]. apply longest_rule_some in E as [M L]. destruct (match_here _ _ _ M) as (r & wb & Hin & Mw & _).
  apply longest_rule_some. split; [eapply some_match_intro; [exact Hin|exact Mw|intros _; apply opens_boundary, O]|].
  intros k' m Hm. destruct (some_match_elim _ _ _ Hm) as (r' & wb' & z & y & Hin' & Ez & Lz & Mz & _). destruct (le_lt_dec m (length w)) as [K|K]; [exact K|exfalso].
  destruct (app_cut _ _ _ _ Ez) as [(e & -> & Ev)|(e & -> & _)]; [|rewrite app_length in *; lia]. destruct e as [|c e]; [rewrite app_nil_r in *; lia|]. rewrite Ev in O. cbn [opens_blank app] in O. apply blank_in in O.
  pose proof separable_checked as C. rewrite forallb_forall in C. specialize (C _ Hin). unfold separable in C. cbn [fst snd] in C. apply orb_prop in C as [C|C].
  - apply existsb_exists in C as (x & Hx & C). apply kind_eqb_eq in C. subst x. contradiction.
  - rewrite forallb_forall in C. specialize (C _ Hin'). cbn [fst snd] in C. eapply not_extended_sound; [exact C|exact O|exact Mw|exact Mz].
Qed.
Lemma ends_before_line w rest c v : longest_rule lexer_rules (w ++ rest) = Some (K_Comment, length w) -> c = 10%N \/ c = 13%N -> ends_before (c :: v) (K_Comment, w).
Proof.
  intros E Hc. split; [|discriminate]. cbn [fst snd]. apply longest_rule_some in E as [M L]. destruct (match_here _ _ _ M) as (r & wb & Hin & Mw & _). rewrite (comment_only _ _ Hin) in Mw.
  apply longest_rule_some. split; [apply (some_match_intro _ comment_re false); [exact comment_in|exact Mw|discriminate]|]. apply comment_iff in Mw as (a & -> & Ha).
  intros k' m Hm. destruct (some_match_elim _ _ _ Hm) as (r' & wb' & z & y & Hin' & Ez & Lz & Mz & _). subst m. destruct z as [|d z]; [cbn; lia|]. cbn [app] in Ez. injection Ez as <- Ez.
  assert (k' = K_Comment) as -> by (eapply comment_rule; eassumption). rewrite (comment_only _ _ Hin') in Mz. apply comment_iff in Mz as (z' & Ez' & Hz). injection Ez' as <-.
  destruct (app_cut _ _ _ _ Ez) as [(e & -> & Ev)|(e & -> & _)]; [|cbn [length]; rewrite app_length; apply le_n_S, Nat.le_add_r]. destruct e as [|d e]; [rewrite app_nil_r; apply Nat.le_refl|]. cbn [app] in Ev. injection Ev as <- _.
  rewrite forallb_app in Hz. apply andb_prop in Hz as [_ Hz]. cbn [forallb] in Hz. apply andb_prop in Hz as [Hz _]. destruct Hc as [->| ->]; discriminate.
Qed.
