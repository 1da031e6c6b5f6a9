(** Changing the blanks behind a line break, or breaking the line behind a punctuation mark, does not change how the rest
    of a text is read. *)
From Coq Require Import String List Arith NArith Bool Lia.
Import ListNotations.
From Verif Require Import Kinds KindFacts TextModel LexerRegex LexerData LexerModel LexerSpec LexerProofs LexerProps VarModel LexRename.

Definition SPACE : char := 32%N.
Definition TAB : char := 9%N.
Definition tabb (c : char) : bool := N.eqb c SPACE || N.eqb c TAB.
Definition tabs (a : text) : Prop := forallb tabb a = true.
(** the characters behind which a line is broken *)
Definition marks_ : list char := [59; 46]%N.
(** [u] and [u'] are the same but for blanks behind line breaks and, in [u'], line breaks behind punctuation marks *)
Inductive relay : text -> text -> Prop :=
| relay_nil : relay [] []
| relay_chr c u u' : relay u u' -> relay (c :: u) (c :: u')
| relay_nl a a' u u' : tabs a -> tabs a' -> relay u u' -> relay (NL :: a ++ u) (NL :: a' ++ u')
| relay_brk c a a' u u' : In c marks_ -> tabs a -> tabs a' -> relay u u' -> relay (c :: a ++ u) (c :: NL :: a' ++ u').
Lemma relay_refl u : relay u u.
Proof. induction u; constructor; assumption. Qed.
Lemma relay_app u u' v v' : relay u u' -> relay v v' -> relay (u ++ v) (u' ++ v').
Proof. induction 1; intros Hv; cbn [app]; [exact Hv|constructor; auto| |]; rewrite <- !app_assoc; [apply relay_nl|apply relay_brk]; auto. Qed.

(** ** definitions without line breaks *)
Definition plain_char (c : char) : bool := negb (N.eqb c NL || existsb (N.eqb c) marks_).
Lemma relay_plain u u' : relay u u' -> ~ In NL u' -> u = u'.
Proof.
  induction 1 as [|c u u' H IH|a a' u u' Ha Ha' H IH|c a a' u u' Hc Ha Ha' H IH]; intros B; [reflexivity| | |].
  - f_equal. apply IH. intros Hin. apply B. right. exact Hin.
  - exfalso. apply B. left. reflexivity.
  - exfalso. apply B. right. left. reflexivity.
Qed.
(** ** definitions with line breaks: sets of derivatives *)
Definition loops (l : list re) : bool := res_eqb (pd_set SPACE l) l && res_eqb (pd_set TAB l) l.
Definition dead (l : list re) : bool := match l with [] => true | _ => false end.
Definition nl_ok (l : list re) : bool := let n := pd_set NL l in if dead n then true else loops n.
Definition brk_ok (l : list re) : bool := forallb (fun c => let m := pd_set c l in let n := pd_set NL m in if dead n then true else res_eqb n m && loops m) marks_.
Definition closed_under (l : list (list re)) : bool := forallb (fun s => nl_ok s && brk_ok s && forallb (fun s' => set_in s' l) (set_succ s)) l.
Definition layout_free (r : re) : bool := closed_under ([r] :: states r).
Lemma loops_run l a v : loops l = true -> tabs a -> (matches_any l (a ++ v) <-> matches_any l v).
Proof.
  intros L. apply andb_prop in L as [L1 L2]. apply res_eqb_eq in L1, L2. induction a as [|c a IH]; intros Ha; [reflexivity|]. unfold tabs in Ha. cbn [forallb] in Ha. apply andb_prop in Ha as [Hc Ha].
  cbn [app]. rewrite pd_set_correct. assert (pd_set c l = l) as ->; [|apply IH, Ha]. unfold tabb in Hc. apply orb_prop in Hc as [Hc|Hc]; apply N.eqb_eq in Hc; subst c; assumption.
Qed.
Lemma dead_none l v : dead l = true -> ~ matches_any l v.
Proof. destruct l; [|discriminate]. intros _ (r & [] & _). Qed.
Lemma closed_sound l : closed_under l = true -> forall u u', relay u u' -> forall s, In s l -> matches_any s u' -> matches_any s u.
Proof.
  intros H u u' Hr. unfold closed_under in H. rewrite forallb_forall in H.
  assert (C : forall s d, In s l -> In (pd_set d s) l).
  { intros s d Hs. specialize (H _ Hs). apply andb_prop in H as [_ H]. rewrite forallb_forall in H. apply set_in_In, H, set_succ_complete. }
  induction Hr as [|d u u' Hr IH|a a' u u' Ha Ha' Hr IH|d a a' u u' Hd Ha Ha' Hr IH]; intros s Hs M.
    - exact M.
    - apply pd_set_correct in M. apply pd_set_correct. apply IH; [apply C, Hs|exact M].
    - pose proof (H _ Hs) as K. apply andb_prop in K as [K _]. apply andb_prop in K as [K _]. unfold nl_ok in K. apply pd_set_correct in M. destruct (dead (pd_set NL s)) eqn:D; [exfalso; exact (dead_none _ _ D M)|].
      apply (proj1 (loops_run _ _ _ K Ha')) in M. apply pd_set_correct. apply (proj2 (loops_run _ _ _ K Ha)). apply IH; [apply C, Hs|exact M].
    - pose proof (H _ Hs) as K. apply andb_prop in K as [K _]. apply andb_prop in K as [_ K]. unfold brk_ok in K. rewrite forallb_forall in K. specialize (K _ Hd). cbv zeta in K.
      rewrite !pd_set_correct in M. destruct (dead (pd_set NL (pd_set d s))) eqn:D; [exfalso; exact (dead_none _ _ D M)|]. apply andb_prop in K as [K1 K2]. apply res_eqb_eq in K1. rewrite K1 in M.
      apply (proj1 (loops_run _ _ _ K2 Ha')) in M. rewrite pd_set_correct. apply (proj2 (loops_run _ _ _ K2 Ha)). apply IH; [apply C, Hs|exact M].
Qed.
Lemma layout_free_sound r : layout_free r = true -> forall u u', relay u u' -> matches r u' -> matches r u.
Proof.
  intros H u u' Hr M. assert (matches_any [r] u') as M1 by (exists r; split; [left; reflexivity|exact M]).
  apply (closed_sound _ H _ _ Hr) in M1; [|apply in_eq]. destruct M1 as (x & [<-|[]] & Hx). exact Hx.
Qed.
Definition layout_ok (x : kind * re * bool) : bool :=
  if avoids NL (snd (fst x)) then (if snd x then forallb (fun c => avoids c (snd (fst x))) marks_ else true) else negb (snd x) && layout_free (snd (fst x)).
Lemma rules_layout : forallb layout_ok lexer_rules = true.
Proof. vm_cast_no_check (eq_refl true). Qed.
Lemma rule_relay k r wb u u' : In (k, r, wb) lexer_rules -> relay u u' -> matches r u' -> matches r u /\ (wb = true -> Forall (fun d => plain_char d = true) u').
Proof.
  intros Hin Hr M. pose proof rules_layout as P. rewrite forallb_forall in P. specialize (P _ Hin). unfold layout_ok in P. cbn [fst snd] in P. destruct (avoids NL r) eqn:A.
  - pose proof (avoids_ok _ _ _ M A) as B. split.
    + rewrite (relay_plain _ _ Hr); [exact M|exact B].
    + intros ->. rewrite forallb_forall in P. apply Forall_forall. intros d Hd. unfold plain_char. apply negb_true_iff, orb_false_iff. split; [apply N.eqb_neq; intros ->; exact (B Hd)|].
      apply not_true_iff_false. intros K. apply existsb_exists in K as (d' & Hd' & E). apply N.eqb_eq in E. subst d'. exact (avoids_ok _ _ _ M (P _ Hd') Hd).
  - apply andb_prop in P as [P1 P2]. split; [eapply layout_free_sound; eassumption|]. intros ->. discriminate.
Qed.
Lemma tabs_app a b : tabs (a ++ b) <-> tabs a /\ tabs b.
Proof. unfold tabs. rewrite forallb_app, andb_true_iff. reflexivity. Qed.
(** cutting the second text cuts the first *)
Lemma relay_cut t t' : relay t t' -> forall u' v', t' = u' ++ v' -> exists u v, t = u ++ v /\ relay u u' /\ (u' <> [] -> u <> []) /\ (Forall (fun d => plain_char d = true) u' -> relay v v').
Proof.
  induction 1 as [|c u u' H IH|a a' u u' Ha Ha' H IH|c a a' u u' Hc Ha Ha' H IH]; intros p q E.
  - symmetry in E. apply app_eq_nil in E as [-> ->]. exists [], []. split; [reflexivity|]. split; [constructor|]. split; [auto|constructor].
  - destruct p as [|d p]; cbn [app] in E.
    + subst q. exists [], (c :: u). split; [reflexivity|]. split; [constructor|]. split; [auto|]. intros _. constructor. exact H.
    + injection E as <- E. destruct (IH _ _ E) as (x & y & -> & R & _ & P). exists (c :: x), y. split; [reflexivity|]. split; [constructor; exact R|]. split; [discriminate|].
      intros F. inversion F; subst. auto.
  - destruct p as [|d p]; cbn [app] in E.
    + subst q. exists [], (NL :: a ++ u). split; [reflexivity|]. split; [constructor|]. split; [auto|]. intros _. apply relay_nl; assumption.
    + injection E as <- E. apply app_eq_app in E as (l & [[-> ->]|[-> E]]).
      * apply tabs_app in Ha' as [Hp Hl]. exists (NL :: a), u. split; [reflexivity|]. split; [|split; [discriminate|intros F; inversion F; discriminate]].
        rewrite <- (app_nil_r a), <- (app_nil_r p). apply relay_nl; [exact Ha|exact Hp|constructor].
      * destruct (IH _ _ E) as (x & y & -> & R & _ & P). exists (NL :: a ++ x), y. split; [cbn [app]; rewrite app_assoc; reflexivity|]. split; [apply relay_nl; assumption|].
        split; [discriminate|intros F; inversion F; discriminate].
  - assert (forall r, ~ Forall (fun d => plain_char d = true) (c :: r)) as NP.
    { intros r F. inversion F as [|? ? K _]; subst. cbn [In marks_] in Hc. destruct Hc as [<-|[<-|[]]]; discriminate. }
    destruct p as [|d p]; cbn [app] in E.
    + subst q. exists [], (c :: a ++ u). split; [reflexivity|]. split; [constructor|]. split; [auto|]. intros _. apply relay_brk; assumption.
    + injection E as <- E. destruct p as [|d p]; cbn [app] in E.
      * exists [c], (a ++ u). split; [reflexivity|]. split; [repeat constructor|]. split; [discriminate|]. intros F. exfalso. eapply NP, F.
      * injection E as <- E. apply app_eq_app in E as (l & [[-> ->]|[-> E]]).
        -- apply tabs_app in Ha' as [Hp Hl]. exists (c :: a), u. split; [reflexivity|]. split; [|split; [discriminate|intros F; exfalso; eapply NP, F]].
           rewrite <- (app_nil_r a), <- (app_nil_r p). apply relay_brk; [exact Hc|exact Ha|exact Hp|constructor].
        -- destruct (IH _ _ E) as (x & y & -> & R & _ & P). exists (c :: a ++ x), y. split; [cbn [app]; rewrite app_assoc; reflexivity|]. split; [apply relay_brk; assumption|].
           split; [discriminate|intros F; exfalso; eapply NP, F].
Qed.
Lemma relay_head u u' : relay u u' -> head u = head u'.
Proof. destruct 1; reflexivity. Qed.
Lemma relay_boundary v v' : relay v v' -> at_boundary v = at_boundary v'.
Proof. destruct 1; reflexivity. Qed.
Lemma no_longer_lay w w' rest rest' : relay w w' -> relay rest rest' -> (forall k m, some_match k (w ++ rest) m -> m <= length w) ->
  forall k m, some_match k (w' ++ rest') m -> m <= length w'.
Proof.
  intros W R H k m Hm. destruct (le_lt_dec m (length w')) as [L|L]; [exact L|exfalso]. destruct (some_match_elim _ _ _ Hm) as (r & wb & z & v' & Hin & E & Lz & M & B).
  destruct (app_cut _ _ _ _ E) as [(u' & -> & E')|(e & E' & ->)].
  - destruct (relay_cut _ _ R _ _ E') as (u & v & -> & Ru & Nu & Bu).
    destruct (rule_relay k r wb (w ++ u) (w' ++ u') Hin (relay_app _ _ _ _ W Ru) M) as [M' Hwb].
    assert (some_match k ((w ++ u) ++ v) (length (w ++ u))) as K.
    { apply some_match_intro with (r := r) (wb := wb); [exact Hin|exact M'|]. intros Ewb. specialize (Hwb Ewb). apply Forall_app in Hwb as [_ Hwb'].
      rewrite (relay_boundary _ _ (Bu Hwb')). apply B, Ewb. }
    rewrite <- app_assoc in K. apply H in K. rewrite !app_length in *. destruct u' as [|x u']; [cbn [length] in *; lia|].
    assert (u <> []) as Hu by (apply Nu; discriminate). destruct u; [congruence|]. cbn [length] in *. lia.
  - rewrite E', app_length in L. lia.
Qed.
Lemma match_here k w rest : some_match k (w ++ rest) (length w) -> exists r wb, In (k, r, wb) lexer_rules /\ matches r w /\ (wb = true -> at_boundary rest = true).
Proof.
  intros H. destruct (some_match_elim _ _ _ H) as (r & wb & z & v & Hin & E & L & M & B).
  assert (z = w /\ v = rest) as [-> ->]. { apply (f_equal (firstn (length w))) in E as E1. rewrite firstn_exact, <- L, firstn_exact in E1. subst z. apply app_inv_head in E. auto. }
  exists r, wb. auto.
Qed.
(** ** what may become of the tokens *)
(** only the blanks behind line breaks differ *)
Inductive respaced : text -> text -> Prop :=
| resp_nil : respaced [] []
| resp_chr c u u' : respaced u u' -> respaced (c :: u) (c :: u')
| resp_nl a a' u u' : tabs a -> tabs a' -> respaced u u' -> respaced (NL :: a ++ u) (NL :: a' ++ u').
Lemma respaced_refl u : respaced u u.
Proof. induction u; constructor; assumption. Qed.
Lemma respaced_sym u u' : respaced u u' -> respaced u' u.
Proof. induction 1; constructor; assumption. Qed.
Lemma respaced_relay u u' : respaced u u' -> relay u u'.
Proof. induction 1; constructor; assumption. Qed.
Definition blank_inside (k : kind) : Prop := k = K_WHITESPACE \/ k = K_ANON \/ k = K_NIL.
Definition mark_kind (k : kind) : bool := kind_eqb k K_Semicolon || kind_eqb k K_Dot.
(** [lay b ls ls']: tokens [ls] become [ls']; [b] says that a [;] or [.] comes right before them *)
Inductive lay : bool -> list lexeme -> list lexeme -> Prop :=
| lay_nil b : lay b [] []
| lay_same b k w ls ls' : lay (mark_kind k) ls ls' -> lay b ((k, w) :: ls) ((k, w) :: ls')
| lay_inner b k w w' ls ls' : blank_inside k -> respaced w w' -> lay false ls ls' -> lay b ((k, w) :: ls) ((k, w') :: ls')
| lay_blank a a' y ls ls' : tabs a -> tabs a' -> lay false ls ls' -> lay true ((K_WHITESPACE, a ++ y) :: ls) ((K_WHITESPACE, NL :: a' ++ y) :: ls')
| lay_new a' ls ls' : tabs a' -> (forall w l, ls <> (K_WHITESPACE, w) :: l) -> lay false ls ls' -> lay true ls ((K_WHITESPACE, NL :: a') :: ls').
Definition relayb (b : bool) (t t' : text) : Prop := relay t t' \/ (b = true /\ exists a a' u u', t = a ++ u /\ t' = NL :: a' ++ u' /\ tabs a /\ tabs a' /\ relay u u').
Lemma relayb_false t t' : relayb false t t' -> relay t t'.
Proof. intros [H|[E _]]; [exact H|discriminate]. Qed.

(** ** blanks, marks *)
Definition ws_class : list (N * N) := [(9, 10); (12, 13); (32, 32)]%N.
Definition ws_char (c : char) : bool := in_class c ws_class.
Lemma tabb_ws c : tabb c = true -> ws_char c = true.
Proof. unfold tabb. intros H. apply orb_prop in H as [H|H]; apply N.eqb_eq in H; subst; reflexivity. Qed.
Lemma tabs_ws a : tabs a -> forallb ws_char a = true.
Proof. unfold tabs. induction a as [|c a IH]; [reflexivity|]. cbn [forallb]. intros H. apply andb_prop in H as [H1 H2]. rewrite (tabb_ws _ H1). auto. Qed.
Definition ws_re : re := Cat (Cls ws_class) (Star (Cls ws_class)).
Definition ws_rule_ok (x : kind * re * bool) : bool :=
  let '(k, r, wb) := x in
  if kind_eqb k K_WHITESPACE then re_eqb r ws_re && negb wb
  else forallb (fun c => match pd_set c [r] with [] => true | _ => false end) [9; 10; 12; 13; 32]%N
       && (if kind_eqb k K_Dot then re_eqb r (Chr 46) else true) && (if kind_eqb k K_Semicolon then re_eqb r (Chr 59) else true)
       && (if kind_eqb k K_ANON || kind_eqb k K_NIL then negb wb else true).
Lemma ws_rules_checked : forallb ws_rule_ok lexer_rules = true.
Proof. vm_compute. reflexivity. Qed.
Lemma ws_char_cases c : ws_char c = true -> In c [9; 10; 12; 13; 32]%N.
Proof. unfold ws_char, in_class, ws_class. cbn [existsb fst snd In]. intros H. rewrite !orb_true_iff, !andb_true_iff, !N.leb_le in H. lia. Qed.
Lemma ws_starts k r wb c w : In (k, r, wb) lexer_rules -> ws_char c = true -> matches r (c :: w) -> k = K_WHITESPACE.
Proof.
  intros Hin Hc M. pose proof ws_rules_checked as P. rewrite forallb_forall in P. specialize (P _ Hin). unfold ws_rule_ok in P. destruct (kind_eqb_spec k K_WHITESPACE) as [E|E]; [exact E|exfalso].
  apply andb_prop in P as [P _]. apply andb_prop in P as [P _]. apply andb_prop in P as [P _]. rewrite forallb_forall in P. specialize (P _ (ws_char_cases _ Hc)).
  assert (matches_any [r] (c :: w)) as M1 by (exists r; split; [left; reflexivity|exact M]). rewrite pd_set_correct in M1. destruct (pd_set c [r]); [|discriminate]. destruct M1 as (? & [] & _).
Qed.
Lemma ws_rule_re r wb : In (K_WHITESPACE, r, wb) lexer_rules -> r = ws_re /\ wb = false.
Proof.
  intros Hin. pose proof ws_rules_checked as P. rewrite forallb_forall in P. specialize (P _ Hin). unfold ws_rule_ok in P. rewrite kind_eqb_refl in P. apply andb_prop in P as [P1 P2].
  apply re_eqb_eq in P1. apply negb_true_iff in P2. auto.
Qed.
Lemma ws_re_iff w : matches ws_re w <-> w <> [] /\ forallb ws_char w = true.
Proof.
  unfold ws_re. split.
  - intros M. apply matches_cat_inv in M as (u & v & -> & Hu & Hv). inversion Hu; subst. split; [discriminate|]. cbn [app forallb]. apply (star_one (Cls ws_class) ws_class v eq_refl) in Hv.
    apply andb_true_intro. split; assumption.
  - intros [Hn H]. destruct w as [|c w]; [congruence|]. cbn [forallb] in H. apply andb_prop in H as [H1 H2]. apply (m_cat _ _ [c] w); [constructor; exact H1|]. apply (star_one (Cls ws_class) ws_class w eq_refl). exact H2.
Qed.
Lemma ws_rule_in : In (K_WHITESPACE, ws_re, false) lexer_rules.
Proof.
  assert (existsb (fun x => kind_eqb (fst (fst x)) K_WHITESPACE) lexer_rules = true) as H by (vm_compute; reflexivity). apply existsb_exists in H as ([[k r] wb] & Hin & E). cbn [fst] in E.
  apply kind_eqb_eq in E. subst k. destruct (ws_rule_re _ _ Hin) as [-> ->]. exact Hin.
Qed.
(** a run of blanks is one token *)
Lemma ws_longest w rest : w <> [] -> forallb ws_char w = true -> (match rest with c :: _ => ws_char c = false | [] => True end) -> longest_rule lexer_rules (w ++ rest) = Some (K_WHITESPACE, length w).
Proof.
  intros Hn Hw Hr. apply longest_rule_some. split.
  - eapply some_match_intro; [exact ws_rule_in|apply ws_re_iff; auto|discriminate].
  - intros k m Hm. destruct (some_match_elim _ _ _ Hm) as (r & wb & z & v & Hin & E & Lz & M & _). destruct w as [|c w]; [congruence|].
    assert (0 < m) as Pm by (eapply some_match_pos, Hm). destruct z as [|c' z]; [cbn in Lz; lia|]. cbn [app] in E. injection E as <- E. cbn [forallb] in Hw. apply andb_prop in Hw as [Hc Hw].
    assert (k = K_WHITESPACE) as -> by (eapply ws_starts; eassumption). destruct (ws_rule_re _ _ Hin) as [-> ->]. apply ws_re_iff in M as [_ M]. cbn [forallb] in M. apply andb_prop in M as [_ M].
    subst m. cbn [length]. apply le_n_S. destruct (app_cut _ _ _ _ E) as [(u & -> & ->)|(e & -> & ->)].
    + rewrite forallb_app in M. apply andb_prop in M as [_ M]. destruct u as [|d u]; [rewrite app_nil_r; lia|]. cbn [app] in Hr. cbn [forallb] in M. rewrite Hr in M. discriminate.
    + rewrite app_length. lia.
Qed.
Lemma lex_ws err w rest : w <> [] -> forallb ws_char w = true -> (match rest with c :: _ => ws_char c = false | [] => True end) -> lex err (w ++ rest) = (K_WHITESPACE, w) :: lex err rest.
Proof.
  intros Hn Hw Hr. rewrite lex_step by (destruct w; [congruence|discriminate]). rewrite (ws_longest _ _ Hn Hw Hr), firstn_exact, skipn_exact. reflexivity.
Qed.
Lemma no_ws_start err t : (forall w l, lex err t <> (K_WHITESPACE, w) :: l) -> match t with c :: _ => ws_char c = false | [] => True end.
Proof.
  intros H. destruct t as [|c t]; [exact I|]. destruct (ws_char c) eqn:E; [exfalso|reflexivity].
  assert (exists n, some_match K_WHITESPACE (c :: t) n) as (n & Hn). { exists 1. change (c :: t) with ([c] ++ t). eapply some_match_intro with (w := [c]); [exact ws_rule_in|apply ws_re_iff; split; [discriminate|cbn [forallb]; rewrite E; reflexivity]|discriminate]. }
  rewrite lex_step in H by discriminate. destruct (longest_rule lexer_rules (c :: t)) as [[k m]|] eqn:L.
  - apply longest_rule_some in L as [M _]. assert (0 < m) as P by (eapply some_match_pos, M). destruct (some_match_elim _ _ _ M) as (r & wb & z & v & Hin & Ez & Lz & Mz & _).
    destruct z as [|d z]; [cbn in Lz; lia|]. cbn [app] in Ez. injection Ez as <- _. assert (k = K_WHITESPACE) as -> by (eapply ws_starts; eassumption). eapply H. reflexivity.
  - exact (proj1 (longest_rule_none _) L _ _ Hn).
Qed.
Lemma head_ws u u' : head u = head u' -> match u with c :: _ => ws_char c = false | [] => True end -> match u' with c :: _ => ws_char c = false | [] => True end.
Proof. destruct u, u'; cbn; congruence. Qed.
Lemma lay_true ls ls' : lay true ls ls' -> lay false ls ls' \/ (exists a a' y l l', ls = (K_WHITESPACE, a ++ y) :: l /\ ls' = (K_WHITESPACE, NL :: a' ++ y) :: l' /\ tabs a /\ tabs a' /\ lay false l l')
  \/ (exists a' l', ls' = (K_WHITESPACE, NL :: a') :: l' /\ tabs a' /\ (forall w l, ls <> (K_WHITESPACE, w) :: l) /\ lay false ls l').
Proof.
  intros H. inversion H as [b|b k w l l' Hl|b k w w' l l' Hk Hw Hl|a a' y l l' Ha Ha' Hl|a' l l' Ha' Hw Hl]; subst; [left; constructor|left; constructor; assumption|left; apply lay_inner; assumption|right; left|right; right].
  - exists a, a', y, l, l'. auto.
  - exists a', l'. auto.
Qed.
Lemma mark_text k r wb w : In (k, r, wb) lexer_rules -> mark_kind k = true -> matches r w -> (k = K_Dot /\ w = [46%N]) \/ (k = K_Semicolon /\ w = [59%N]).
Proof.
  intros Hin Hk M. pose proof ws_rules_checked as P. rewrite forallb_forall in P. specialize (P _ Hin). unfold ws_rule_ok in P. unfold mark_kind in Hk.
  destruct (kind_eqb_spec k K_WHITESPACE) as [E|E]; [subst k; discriminate|]. apply andb_prop in P as [P _]. apply andb_prop in P as [P P2]. apply andb_prop in P as [_ P1].
  apply orb_prop in Hk as [Hk|Hk]; apply kind_eqb_eq in Hk; subst k; cbn [kind_eqb] in P1, P2.
  - right. split; [reflexivity|]. assert (re_eqb r (Chr 59) = true) as R by exact P2. apply re_eqb_eq in R. subst r. inversion M as [|c rs I| | | | |]; subst. cbn [in_class existsb fst snd] in I. rewrite orb_false_r, <- eqb_between in I. apply N.eqb_eq in I. subst c. reflexivity.
  - left. split; [reflexivity|]. assert (re_eqb r (Chr 46) = true) as R by exact P1. apply re_eqb_eq in R. subst r. inversion M as [|c rs I| | | | |]; subst. cbn [in_class existsb fst snd] in I. rewrite orb_false_r, <- eqb_between in I. apply N.eqb_eq in I. subst c. reflexivity.
Qed.
Lemma lex_mark err k w rest : (k = K_Dot /\ w = [46%N]) \/ (k = K_Semicolon /\ w = [59%N]) -> lex err (w ++ NL :: rest) = (k, w) :: lex err (NL :: rest).
Proof.
  intros [[-> ->]|[-> ->]]; apply C36_whitespace_separates; try discriminate; try (vm_compute; reflexivity); try (cbn; tauto); intros [?|[?|[?|[?|[?|[?|[]]]]]]]; discriminate.
Qed.
Lemma inner_wb k r wb : In (k, r, wb) lexer_rules -> blank_inside k -> wb = false.
Proof.
  intros Hin Hk. pose proof ws_rules_checked as P. rewrite forallb_forall in P. specialize (P _ Hin). unfold ws_rule_ok in P. destruct Hk as [->|[->| ->]].
  - eapply ws_rule_re, Hin.
  - apply andb_prop in P as [_ P]. apply negb_true_iff in P. exact P.
  - apply andb_prop in P as [_ P]. apply negb_true_iff in P. exact P.
Qed.
Lemma inner_mark k : blank_inside k -> mark_kind k = false.
Proof. intros [->|[->| ->]]; reflexivity. Qed.
(** ** the rest of the text is read the same *)
Theorem lex_lay err : forall t b ls', Forall (fun l => fst l <> K_Error) (lex err t) -> lay b (lex err t) ls' -> relayb b t (flat_map snd ls') /\ lex err (flat_map snd ls') = ls'.
Proof.
  assert (New : forall t ls', (forall ls', lay false (lex err t) ls' -> relayb false t (flat_map snd ls') /\ lex err (flat_map snd ls') = ls') ->
     (exists a' l', ls' = (K_WHITESPACE, NL :: a') :: l' /\ tabs a' /\ (forall w l, lex err t <> (K_WHITESPACE, w) :: l) /\ lay false (lex err t) l') -> relayb true t (flat_map snd ls') /\ lex err (flat_map snd ls') = ls').
  { intros t ls' F (a' & l' & -> & Ha & Hw & Hl). destruct (F _ Hl) as [R E]. apply relayb_false in R. cbn [flat_map snd]. split.
    - right. split; [reflexivity|]. exists [], a', t, (flat_map snd l'). split; [reflexivity|]. split; [reflexivity|]. split; [reflexivity|]. auto.
    - rewrite lex_ws; [rewrite E; reflexivity|discriminate|cbn [forallb]; apply tabs_ws in Ha; exact Ha|]. eapply head_ws; [apply relay_head, R|apply (no_ws_start err), Hw]. }
  intros t. pattern t, (lex err t). revert t. apply lex_ind.
  - assert (F : forall ls', lay false [] ls' -> relayb false [] (flat_map snd ls') /\ lex err (flat_map snd ls') = ls') by (intros ls' H; inversion H; subst; split; [left; constructor|reflexivity]).
    intros [] ls' _ H; [|exact (F _ H)]. destruct (lay_true _ _ H) as [K|[(a & a' & y & l & l' & E & _)|K]]; [|discriminate|].
    + destruct (F _ K) as [R E]. split; [left; apply relayb_false, R|exact E].
    + apply (New [] ls' F). exact K.
  - intros t k m Ht M L Lm IH. set (w := firstn m t) in *. set (rest := skipn m t) in *. assert (t = w ++ rest) as Et by (symmetry; apply firstn_skipn). assert (length w = m) as Lw by (unfold w; rewrite firstn_length; lia).
    assert (lex err t = (k, w) :: lex err rest) as El.
    { rewrite lex_step by exact Ht. assert (longest_rule lexer_rules t = Some (k, m)) as -> by (apply longest_rule_some; auto). reflexivity. }
    clearbody w rest. subst m. assert (0 < length w) as Pw by (rewrite Et in M; eapply some_match_pos, M). assert (w <> []) as Hw by (intros ->; cbn in Pw; lia).
    intros b ls' Hne. inversion Hne as [|x l _ Hne']; subst x l.
    assert (IH' : forall b ls', lay b (lex err rest) ls' -> relayb b rest (flat_map snd ls') /\ lex err (flat_map snd ls') = ls') by (intros; apply IH; assumption). clear IH.
    rewrite Et in M, L. destruct (match_here _ _ _ M) as (r & wb & Hin & Mw & Bw).
    assert (F : forall ls', lay false ((k, w) :: lex err rest) ls' -> relayb false t (flat_map snd ls') /\ lex err (flat_map snd ls') = ls').
    { intros l0 H. inversion H as [b0|b0 k0 w0 l l' Hl|b0 k0 w0 w' l l' Hk Hr Hl| |]; subst b0 k0 w0 l l0; cbn [flat_map snd].
      - destruct (IH' _ _ Hl) as [R E]. destruct R as [R|(Hm & a & a' & u & u' & Ea & Eu & Ha & Ha' & R)].
        + split; [left; rewrite Et; apply relay_app; [apply relay_refl|exact R]|]. rewrite lex_step by (destruct w; [congruence|discriminate]).
          assert (longest_rule lexer_rules (w ++ flat_map snd l') = Some (k, length w)) as ->.
          { apply longest_rule_some. split; [|eapply no_longer_lay; [apply relay_refl|exact R|exact L]]. eapply some_match_intro; [exact Hin|exact Mw|]. intros X. rewrite <- (relay_boundary _ _ R). apply Bw, X. }
          rewrite firstn_exact, skipn_exact, E. reflexivity.
        + pose proof (mark_text _ _ _ _ Hin Hm Mw) as T. split.
          * left. rewrite Et, Ea, Eu. destruct T as [[_ ->]|[_ ->]]; cbn [app]; apply relay_brk; try assumption; cbn; tauto.
          * rewrite Eu, (lex_mark err _ _ _ T), <- Eu, E. reflexivity.
      - destruct (IH' _ _ Hl) as [R E]. apply relayb_false in R. split; [left; rewrite Et; apply relay_app; [apply respaced_relay, Hr|exact R]|].
        assert (w' <> []) as Hw' by (intros ->; inversion Hr; subst; congruence). rewrite lex_step by (destruct w'; [congruence|discriminate]).
        assert (longest_rule lexer_rules (w' ++ flat_map snd l') = Some (k, length w')) as ->.
        { apply longest_rule_some. split; [|eapply no_longer_lay; [apply respaced_relay, Hr|exact R|exact L]]. eapply some_match_intro; [exact Hin| |rewrite (inner_wb _ _ _ Hin Hk); discriminate].
          eapply rule_relay; [exact Hin|apply respaced_relay, respaced_sym, Hr|exact Mw]. }
        rewrite firstn_exact, skipn_exact, E. reflexivity. }
    intros H. destruct b; [|exact (F _ H)]. destruct (lay_true _ _ H) as [K|[(a & a' & y & l & l' & E & -> & Ha & Ha' & Hl)|K]].
    + destruct (F _ K) as [R E]. split; [left; apply relayb_false, R|exact E].
    + injection E as -> -> <-. destruct (IH' _ _ Hl) as [R E]. apply relayb_false in R. cbn [flat_map snd]. split.
      * right. split; [reflexivity|]. exists a, a', (y ++ rest), (y ++ flat_map snd l'). rewrite Et, <- app_assoc. split; [reflexivity|]. split; [cbn [app]; rewrite <- app_assoc; reflexivity|]. split; [exact Ha|]. split; [exact Ha'|].
        apply relay_app; [apply relay_refl|exact R].
      * destruct (ws_rule_re _ _ Hin) as [-> ->]. apply ws_re_iff in Mw as [_ Mw]. rewrite forallb_app in Mw. apply andb_prop in Mw as [My1 My2].
        rewrite lex_ws; [rewrite E; reflexivity|discriminate|cbn [forallb]; rewrite forallb_app, (tabs_ws _ Ha'), My2; reflexivity|]. eapply head_ws; [apply relay_head, R|].
        destruct rest as [|c rest]; [exact I|]. destruct (ws_char c) eqn:Ec; [exfalso|reflexivity].
        assert (some_match K_WHITESPACE (((a ++ y) ++ [c]) ++ rest) (length ((a ++ y) ++ [c]))) as K.
        { eapply some_match_intro; [exact ws_rule_in| |discriminate]. apply ws_re_iff. split; [destruct (a ++ y); discriminate|]. rewrite !forallb_app, My1, My2. cbn [forallb]. rewrite Ec. reflexivity. }
        rewrite <- app_assoc in K. cbn [app] in K. apply L in K. rewrite app_length in K. cbn in K. lia.
    + apply New; [|rewrite El; exact K]. intros l0 Hl0. apply F. rewrite <- El. exact Hl0.
  - intros t _ _ _ b ls' Hne _. inversion Hne as [|? ? H _]; subst. exfalso. apply H. reflexivity.
Qed.
