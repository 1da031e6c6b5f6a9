(** C64: the prefixes of a document are declared and removed automatically. *)
From Coq Require Import String List Arith NArith Bool Lia Sorted Permutation.
Import ListNotations.
From Verif Require Import ServerModel Kinds KindFacts ParserSyntax ParserModel GrammarData ParserTree ParserTerm ParserBuild ParserSpec ParserChecks ParserOutcome ParserProps
  TextModel TextSpec TextProofs Utf8Model LexerRegex LexerData LexerModel LexerProofs LexerSpec LexerProps FormatData FormatModel FormatTree FormatText FormatParse FormatWeave
  TreeModel TreePlace TreeShape TreeRename VarModel VarSpec VarRegions VarDoc LexRename VarProps DiagModel DiagSpec AstFacts DiagFacts DiagGroup DiagRest ParseTreeProps LexLayout DiagProps OnTypeProofs OnTypeProps LayoutProps LexInsert PrologueRun PrologueSwap QuickFixModel QuickFixFacts CoverFacts RemoveFacts DeclCount QuickFixProps RemoveProps AutoFacts.



(** ** the specification *)
(** several edits made at once, as the protocol has it: the places are those in the text before; they do not overlap; what is inserted at the same place keeps the order of the list *)
Definition inserts_at (p : pos) (e : text_edit) : bool :=
  let is q := (line q =? line p) && (character q =? character p) in is (rstart (erange e)) && is (rend (erange e)).
Definition at_once (t : text) (es : list text_edit) (t' : text) : Prop :=
  exists es' cs, Permutation es es' /\ (forall p, filter (inserts_at p) es' = filter (inserts_at p) es) /\ Forall2 (edit_denotes t) es' cs /\ StronglySorted (fun a b => cj a <= ci b) cs /\ t' = splice 0 t cs.
(** the tokens before [q] are those of the first [i] declarations *)
Definition stands_at (x : tree) (DLs : list (list lexeme)) (q : path) (i : nat) : Prop := i < length DLs /\ sigs (leaves_before x q) = concat (firstn i DLs).

(** ** proofs *)
Fixpoint trivia (L : list lexeme) : list lexeme := match L with l :: L => if trivial l then l :: trivia L else [] | [] => [] end.
Fixpoint beyond (L : list lexeme) : list lexeme := match L with l :: L' => if trivial l then beyond L' else L | [] => [] end.
Lemma trivia_ok L : L = trivia L ++ beyond L /\ Forall (fun l => trivial l = true) (trivia L) /\ match beyond L with l :: _ => trivial l = false | [] => True end.
Proof.
  induction L as [|l L (E & F & H)]; cbn [trivia beyond]; [auto|]. destruct (trivial l) eqn:T; [|auto]. split; [cbn [app]; congruence|]. auto.
Qed.
Lemma sigs_trivial T : Forall (fun l => trivial l = true) T -> sigs T = [].
Proof. induction 1 as [|l T H _ IH]; [reflexivity|]. unfold sigs. cbn [filter]. rewrite H. exact IH. Qed.
Lemma declaration_code dl y dl' y' a b : declaration dl y -> declaration dl' y' -> dl ++ a = dl' ++ b -> dl = dl' /\ y = y'.
Proof.
  intros H H' E. destruct H as [u v|u v w|k u v K], H' as [u' v'|u' v' w'|k' u' v' K']; cbn [app] in E; try discriminate; injection E; intros; subst; split; reflexivity.
Qed.
Lemma concat_firstn_lt DLs ys i j : Forall2 declaration DLs ys -> i < j -> i < length DLs -> length (concat (firstn i DLs)) < length (concat (firstn j DLs)).
Proof.
  intros F. revert i j. induction F as [|dl y DLs ys H _ IH]; intros i j L Li; [cbn in Li; lia|]. destruct j as [|j]; [lia|]. cbn [firstn concat]. rewrite app_length. assert (0 < length dl) by (destruct H; cbn; lia). destruct i as [|i]; [cbn; lia|]. cbn [firstn concat length] in *. rewrite app_length. specialize (IH i j). lia.
Qed.
Lemma forall2_nth {A B} (P : A -> B -> Prop) l m : Forall2 P l m -> forall i a, nth_error l i = Some a -> exists b, nth_error m i = Some b /\ P a b.
Proof. induction 1 as [|a b l m H _ IH]; intros [|i] c E; try discriminate; [injection E as <-; exists b; auto|apply IH, E]. Qed.
Lemma forall2_firstn {A B} (P : A -> B -> Prop) l m : Forall2 P l m -> forall i, Forall2 P (firstn i l) (firstn i m).
Proof. induction 1 as [|a b l m H _ IH]; intros [|i]; constructor; auto. Qed.
Lemma skipn_nth {A} (l : list A) : forall i a, nth_error l i = Some a -> skipn i l = a :: skipn (S i) l.
Proof. induction l as [|c l IH]; intros [|i] a E; try discriminate; [injection E as <-; reflexivity|]. cbn [skipn]. apply IH, E. Qed.
Lemma concat_next {A} (l : list (list A)) : forall i a, nth_error l i = Some a -> concat (firstn (S i) l) = concat (firstn i l) ++ a.
Proof.
  induction l as [|c l IH]; intros [|i] a E; try discriminate; [injection E as <-; cbn; rewrite app_nil_r; reflexivity|]. cbn [nth_error] in E. change (c ++ concat (firstn (S i) l) = (c ++ concat (firstn i l)) ++ a). rewrite (IH i a E), <- app_assoc. reflexivity.
Qed.
Section place.
Context (err : text -> nat) (t : text) (x : tree) (DLs : list (list lexeme)) (ys : list tree) (T0 : list lexeme) (Cs : list (list lexeme)) (R : list lexeme).
Context (D : doc_tree err t x) (F : Forall2 declaration DLs ys) (Hcr : cr_only_in_crlf t).
Context (Ex : lex err t = T0 ++ concat Cs ++ R) (HT : Forall (fun l => trivial l = true) T0) (FC : Forall2 (fun C dl => sigs C = dl) Cs DLs).
Context (HC : forall C, In C Cs -> match C with l :: _ => trivial l = false | [] => False end) (HR : match R with l :: _ => trivial l = false | [] => False end).
Definition pre (i : nat) : list lexeme := T0 ++ concat (firstn i Cs).
Definition off (i : nat) : nat := length (flat_map snd (pre i)).
Definition removal (q : path) : text_edit :=
  let U := flat_map snd (leaves_before x q) in mkedit (mkrange (position_after U) (position_after (U ++ text_at x q ++ flat_map snd (trivia (leaves_behind x q))))) [].
Lemma opens_chunks i : match concat (skipn i Cs) ++ R with l :: _ => trivial l = false | [] => False end.
Proof.
  destruct (skipn i Cs) as [|C l] eqn:E; [exact HR|]. assert (In C Cs) as H by (rewrite <- (firstn_skipn i Cs), E; apply in_app_iff; right; left; reflexivity). specialize (HC C H). cbn [concat]. destruct C as [|c C]; [destruct HC|exact HC].
Qed.
Lemma sigs_chunks : forall i l m, Forall2 (fun C dl => sigs C = dl) l m -> sigs (concat (firstn i l)) = concat (firstn i m).
Proof. intros i l m G. revert i. induction G as [|C dl l m H _ IH]; intros i; [rewrite !firstn_nil; reflexivity|]. destruct i as [|i]; [reflexivity|]. cbn [firstn concat]. rewrite PrologueSwap.sigs_app, H, IH. reflexivity. Qed.
Lemma pre_sigs i : sigs (pre i) = concat (firstn i DLs).
Proof. unfold pre. rewrite PrologueSwap.sigs_app, (sigs_trivial _ HT), (sigs_chunks _ _ _ FC). reflexivity. Qed.
Lemma pre_rest i : lex err t = pre i ++ concat (skipn i Cs) ++ R.
Proof. rewrite Ex. unfold pre. rewrite <- !app_assoc. f_equal. rewrite (app_assoc (concat (firstn i Cs))), <- concat_app, firstn_skipn. reflexivity. Qed.
(** the declaration at [q] is the one with the number [i] *)
Lemma placed q i cs : at_path x q = Some (Node K_PrefixDecl cs) -> complete x q -> stands_at x DLs q i ->
  exists C y, nth_error Cs i = Some C /\ nth_error ys i = Some y /\ nth_error DLs i = Some (sigs (leaves (Node K_PrefixDecl cs))) /\ y = bare same (Node K_PrefixDecl cs) /\ leaves_before x q = pre i /\ leaves (Node K_PrefixDecl cs) ++ trivia (leaves_behind x q) = C /\ beyond (leaves_behind x q) = concat (skipn (S i) Cs) ++ R.
Proof.
  intros E (n & En & Hn) [Li Si]. rewrite E in En. injection En as <-. pose proof (decl_split err t x q cs D E) as Sp. set (Y := leaves (Node K_PrefixDecl cs)) in *.
  assert (Q0 : q <> []) by (eapply doc_inner; [exact D|exists cs; exact E|discriminate|discriminate]). destruct (leads_leaf _ _ _ _ _ _ D Q0 E) as (l & ls & El & Tl). fold Y in El.
  pose proof (pre_rest i) as Pr. rewrite Sp in Pr. rewrite <- pre_sigs in Si. destruct (sig_cut _ _ _ _ Pr Si) as [E1 E2]; [rewrite El; exact Tl|apply opens_chunks|].
  assert (exists C, nth_error Cs i = Some C) as [C EC]. { destruct (nth_error Cs i) as [C|] eqn:EC; [eauto|]. apply nth_error_None in EC. rewrite (forall2_len _ _ _ FC) in EC. lia. }
  assert (exists dl, nth_error DLs i = Some dl /\ sigs C = dl) as (dl & Edl & Sdl) by exact (forall2_nth _ _ _ FC _ _ EC).
  assert (exists y, nth_error ys i = Some y /\ declaration dl y) as (y & Ey & Hy) by exact (forall2_nth _ _ _ F _ _ Edl).
  assert (Esk : skipn i Cs = C :: skipn (S i) Cs) by (apply skipn_nth, EC).
  rewrite Esk in E2. cbn [concat] in E2. rewrite <- app_assoc in E2. destruct (trivia_ok (leaves_behind x q)) as (Et & Ft & Hb).
  assert (sigs Y = dl /\ bare same (Node K_PrefixDecl cs) = y) as [Ed Ebare]. { apply (declaration_code _ _ _ _ (sigs (leaves_behind x q)) (sigs (concat (skipn (S i) Cs) ++ R)) Hn Hy). rewrite <- Sdl, <- !PrologueSwap.sigs_app. rewrite E2. reflexivity. }
  assert (E3 : (Y ++ trivia (leaves_behind x q)) ++ beyond (leaves_behind x q) = C ++ concat (skipn (S i) Cs) ++ R) by (rewrite <- app_assoc, <- Et; exact E2).
  assert (S3 : sigs (Y ++ trivia (leaves_behind x q)) = sigs C) by (rewrite PrologueSwap.sigs_app, (sigs_trivial _ Ft), app_nil_r; congruence).
  pose proof (opens_chunks (S i)) as O3. assert (B3 : match beyond (leaves_behind x q) with l :: _ => trivial l = false | [] => False end).
  { destruct (beyond (leaves_behind x q)) as [|b bs] eqn:Eb; [|exact Hb]. apply (f_equal sigs) in E3. rewrite !(PrologueSwap.sigs_app (_ ++ _)), (PrologueSwap.sigs_app C), S3 in E3. apply app_inv_head in E3. destruct (concat (skipn (S i) Cs) ++ R) as [|c cs']; [exact O3|]. unfold sigs in E3. cbn [filter] in E3. rewrite O3 in E3. discriminate. }
  destruct (sig_cut _ _ _ _ E3 S3 B3 O3) as [E4 E5]. exists C, y. split; [exact EC|]. split; [exact Ey|]. split; [rewrite Edl, Ed; reflexivity|]. split; [symmetry; exact Ebare|]. auto.
Qed.
Lemma removal_ok q i cs r : at_path x q = Some (Node K_PrefixDecl cs) -> complete x q -> stands_at x DLs q i -> located x t q r -> remove_prefix_declaration x t r = VDone [removal q].
Proof.
  intros E Cq St Lo. destruct (placed q i cs E Cq St) as (C & y & _ & _ & _ & _ & _ & _ & Eb). destruct Cq as (n & En & Hn). rewrite E in En. injection En as <-. destruct (trivia_ok (leaves_behind x q)) as (Et & Ft & Hb). destruct St as [Li Si].
  assert (exists yi, Forall2 declaration (firstn i DLs) yi) as [yi Fi] by (exists (firstn i ys); apply forall2_firstn, F).
  unfold remove_prefix_declaration. rewrite (removed err t x q cs (firstn i DLs) yi D E Hn Fi Si r _ _ Hcr Lo Et Ft Hb). cbn [vbind]. unfold removal. f_equal. f_equal. f_equal. f_equal. f_equal. f_equal. f_equal; [unfold text_at; rewrite E; symmetry; apply leaves_text|]. pose proof (opens_chunks (S i)) as O3. rewrite <- Eb in O3. destruct (beyond (leaves_behind x q)); [destruct O3|reflexivity].
Qed.
Lemma chunk_next i C : nth_error Cs i = Some C -> pre (S i) = pre i ++ C.
Proof.
  intros EC. unfold pre. rewrite <- app_assoc. f_equal. apply concat_next, EC.
Qed.
Lemma text_pre i : t = flat_map snd (pre i) ++ flat_map snd (concat (skipn i Cs) ++ R).
Proof. rewrite <- flat_map_app. refine (eq_trans _ (f_equal (flat_map snd) (pre_rest i))). rewrite <- (doc_leaves _ _ _ D), <- leaves_text. symmetry. exact (doc_text _ _ _ D). Qed.
Lemma removal_denotes q i cs : at_path x q = Some (Node K_PrefixDecl cs) -> complete x q -> stands_at x DLs q i -> edit_denotes t (removal q) (cut off i) /\ off i < off (S i).
Proof.
  intros E Cq St. destruct (placed q i cs E Cq St) as (C & y & EC & _ & _ & _ & Eb & Ec & _). pose proof (chunk_next _ _ EC) as Nx. assert (En : flat_map snd (pre (S i)) = flat_map snd (pre i) ++ flat_map snd C) by (rewrite Nx; apply flat_map_app).
  assert (P0 : 0 < length (flat_map snd C)). { assert (In C Cs) as HIn by (eapply nth_error_In; exact EC). specialize (HC C HIn). destruct C as [|[k w] C]; [destruct HC|]. assert (In (k, w) (lex err t)) as Hl. { rewrite Ex. apply in_app_iff. right. apply in_app_iff. left. apply in_concat. exists ((k, w) :: C). split; [exact HIn|left; reflexivity]. } apply lexeme_bytes in Hl. cbn [snd flat_map] in *. rewrite app_length. destruct w; [cbn in Hl; lia|cbn; lia]. }
  unfold off. rewrite En, app_length. split; [|lia]. unfold edit_denotes, removal, cut. cbn [ci cj cnew erange rstart rend new_text]. unfold off. rewrite Eb.
  assert (E1 : firstn (length (flat_map snd (pre i))) t = flat_map snd (pre i)) by (rewrite (text_pre i) at 1; apply firstn_exact). assert (E2 : firstn (length (flat_map snd (pre (S i)))) t = flat_map snd (pre (S i))) by (rewrite (text_pre (S i)) at 1; apply firstn_exact).
  split; [split; [rewrite En, app_length; lia|rewrite (text_pre (S i)), app_length; lia]|]. rewrite E1, E2. split; [reflexivity|]. split; [|reflexivity]. rewrite En, <- Ec, flat_map_app. unfold text_at. rewrite E, leaves_text. reflexivity.
Qed.
Lemma blank_pre q i cs : at_path x q = Some (Node K_PrefixDecl cs) -> complete x q -> stands_at x DLs q i -> blank_before x q -> blank_end (pre i).
Proof.
  intros E Cq St B. destruct (placed q i cs E Cq St) as (_ & _ & _ & _ & _ & _ & <- & _). destruct Cq as (n & En & Hn). rewrite E in En. injection En as <-. destruct St as [Li Si].
  assert (exists yi, Forall2 declaration (firstn i DLs) yi) as [yi Fi] by (exists (firstn i ys); apply forall2_firstn, F).
  exact (blank_last err t x q cs (firstn i DLs) yi D E Hn Fi Si B).
Qed.
Lemma stands_order q i q' i' : (exists cs, at_path x q = Some (Node K_PrefixDecl cs)) -> (exists cs, at_path x q' = Some (Node K_PrefixDecl cs)) -> complete x q -> stands_at x DLs q i -> stands_at x DLs q' i' -> doc_before q q' -> i < i'.
Proof.
  intros [cs E] [cs' E'] (n & En & Hn) [Li Si] [Li' Si'] Bf. rewrite E in En. injection En as <-. destruct (decl_form cs Hn) as (a & b & c & S1 & Eb). destruct (before_order _ _ Bf _ _ _ E E') as [[m Em]|(j & r & ->)].
  - destruct (Nat.lt_ge_cases i i') as [?|H]; [assumption|]. exfalso. apply (f_equal sigs) in Em. rewrite !PrologueSwap.sigs_app, Si, Si', S1 in Em. apply (f_equal (@length _)) in Em. rewrite !app_length in Em. cbn [length] in Em. apply Nat.lt_eq_cases in H as [H| ->]; [|lia]. pose proof (concat_firstn_lt _ _ _ _ F H Li'). lia.
  - exfalso. destruct (nth_error cs j) as [[k w|k ds]|] eqn:Ej.
    + rewrite at_path_app, E in E'. cbn [at_path] in E'. rewrite Ej in E'. destruct r; discriminate.
    + pose proof (in_bare K_PrefixDecl cs (bare same (Node k ds))) as B. rewrite Eb in B. destruct (bare_node k ds) as [l El]. rewrite El in B. assert (In (Node k l) [Tok K_PREFIX a; Tok K_PNAME_NS b; Tok K_IRIREF c]) as X. { apply B. exists (Node k ds). split; [eapply nth_error_In, Ej|]. split; [symmetry; exact El|]. intros ? ? X. discriminate. } cbn [In] in X. intuition discriminate.
    + rewrite at_path_app, E in E'. cbn [at_path] in E'. rewrite Ej in E'. discriminate.
Qed.
End place.
Lemma diagnostics_sorted err t x errs shorten order ds : doc_parse err t x errs -> any_order order -> diagnostics shorten order x errs t = Reply ds ->
  exists d3, ds = of_code UnusedPrefix ds ++ of_code UndeclaredPrefix ds ++ d3 /\ Forall (fun d => d_code d <> UnusedPrefix /\ d_code d <> UndeclaredPrefix) d3.
Proof.
  intros P O E. pose proof (reply_query _ _ _ _ _ _ _ P E) as Q. pose proof (doc_parse_tree _ _ _ _ P) as D.
  destruct (unused_ok _ _ _ D Q) as (d1 & E1 & C1 & R1). destruct (undeclared_ok _ _ _ D Q) as (d2 & E2 & C2 & R2). destruct (uncompacted_ok _ _ _ shorten D Q) as (d3 & E3 & C3 & R3).
  destruct (ungrouped_ok _ _ _ D Q) as (d4 & E4 & C4 & R4). destruct (invalid_projection_ok _ _ _ D Q) as (d5 & E5 & C5 & R5). destruct (same_subject_ok _ _ _ order D O) as (d6 & E6 & C6 & R6).
  destruct (syntax_error_ok _ _ _ _ P) as (d7 & E7 & R7). destruct (duplicate_ok _ _ _ D Q) as (d8 & E8 & C8 & R8). destruct (groupby_star_ok _ _ _ D) as (d9 & E9 & C9 & R9).
  assert (coded SyntaxError d7) as C7 by (destruct errs; [subst; constructor|destruct R7 as (d & -> & H & _); constructor; [exact H|constructor]]).
  rewrite (diagnostics_split shorten order x errs t d1 d2 d3 d4 d5 d6 d7 d8 d9 Q E1 E2 E3 E4 E5 E6 E7 E8 E9) in E. injection E as <-. exists (d3 ++ d4 ++ d5 ++ d6 ++ d7 ++ d8 ++ d9). split.
  - rewrite !of_code_app.
    repeat match goal with |- context [of_code ?c ?d] => match goal with C : coded c d |- _ => rewrite (of_code_all c d C) | C : coded ?c' d |- _ => rewrite (of_code_none c c' d C eq_refl) end end. rewrite !app_nil_r. reflexivity.
  - repeat (apply Forall_app; split); match goal with C : coded _ ?d |- Forall _ ?d => revert C; apply Forall_impl; intros a ->; split; discriminate end.
Qed.
Definition chars_of (C : list lexeme) : text := flat_map snd C.
Lemma chars_concat l : flat_map snd (concat l) = concat (map chars_of l).
Proof. induction l as [|C l IH]; [reflexivity|]. cbn [map concat]. rewrite flat_map_app, IH. reflexivity. Qed.
Lemma splice_front (f : text * text -> text) ps t cs : splice 0 t (map (fun pn => mkcedit 0 0 (f pn)) ps ++ cs) = flat_map f ps ++ splice 0 t cs.
Proof. induction ps as [|p ps IH]; [reflexivity|]. cbn [map app splice ci cj cnew firstn skipn Nat.sub flat_map]. rewrite IH, <- app_assoc. reflexivity. Qed.
Lemma tokens_decls err ps t : (forall p ns, In (p, ns) ps -> one_token K_PNAME_NS (p ++ [COLON]) /\ one_token K_IRIREF (iri_text ns)) ->
  tokens err (flat_map (fun pn => declaration_text (fst pn) (snd pn)) ps ++ t) = concat (map (fun pn => decl_tokens (fst pn) (snd pn)) ps) ++ tokens err t.
Proof.
  induction ps as [|[p ns] ps IH]; intros H; [reflexivity|]. cbn [flat_map map concat fst snd]. rewrite <- !app_assoc. destruct (H p ns (or_introl eq_refl)) as [H1 H2]. rewrite (tokens_decl err p ns _ H1 H2), IH; [reflexivity|]. intros. apply H. right. assumption.
Qed.
Lemma total_keep (f : tree -> nat) : forall l i rem picks, StronglySorted lt rem -> Forall2 (fun j y => i <= j /\ nth_error l (j - i) = Some y) rem picks -> total (map f l) = total (map f (keep rem i l)) + total (map f picks).
Proof.
  induction l as [|c l IH]; intros i rem picks St F.
  - destruct F as [|j y rem picks [_ H] _]; [reflexivity|]. destruct (j - i); discriminate.
  - destruct F as [|j y rem picks [Hj H] F]; [rewrite keep_none; cbn; lia|]. inversion St as [|? ? St' Fj]; subst. rewrite Forall_forall in Fj. destruct (Nat.eq_dec j i) as [->|N].
    + rewrite Nat.sub_diag in H. cbn in H. injection H as <-. cbn [keep existsb map total]. rewrite Nat.eqb_refl. cbn [orb]. rewrite keep_behind by lia. rewrite (IH (S i) rem picks St'); [lia|]. clear -F Fj. assert (G : forall j, In j rem -> i < j) by exact Fj. clear Fj. induction F as [|k y rem picks [H1 H2] F IHF]; constructor.
      * specialize (G k (or_introl eq_refl)). split; [lia|]. replace (k - i) with (S (k - S i)) in H2 by lia. exact H2.
      * apply IHF. intros; apply G; right; assumption.
    + assert (G : forall k, In k (j :: rem) -> i < k) by (intros k [<-|Hk]; [lia|specialize (Fj k Hk); lia]). assert (Er : existsb (Nat.eqb i) (j :: rem) = false) by (apply not_true_iff_false; intros X; apply existsb_exists in X as (k & Hk & X); apply Nat.eqb_eq in X; specialize (G k Hk); lia).
      assert (F2 : Forall2 (fun j y => i <= j /\ nth_error (c :: l) (j - i) = Some y) (j :: rem) (y :: picks)) by (constructor; auto). cbn [keep]. rewrite Er. cbn [map total]. rewrite (IH (S i) (j :: rem) (y :: picks) St); [cbn [map total]; lia|]. clear -F2 G. induction F2 as [|k y2 rem2 picks2 [H1 H2] F IHF]; constructor.
      * specialize (G k (or_introl eq_refl)). split; [lia|]. replace (k - i) with (S (k - S i)) in H2 by lia. exact H2.
      * apply IHF. intros; apply G; right; assumption.
Qed.
(** the tree of one declaration of [w] *)
Definition declares_one (w : text) (y : tree) : Prop := hits w y = 1 /\ forall v, v <> w -> hits v y = 0.
Lemma hits_named v ws picks : Forall2 declares_one ws picks -> NoDup ws -> (In v ws -> total (map (hits v) picks) = 1) /\ (~ In v ws -> total (map (hits v) picks) = 0).
Proof.
  induction 1 as [|w y ws picks [H1 H2] _ IH]; intros N; [split; [intros []|reflexivity]|]. inversion N as [|? ? N1 N2]; subst. destruct (IH N2) as [I1 I2]. cbn [map total In]. destruct (list_eq_dec N.eq_dec w v) as [->|Nv].
  - split; [intros _; rewrite H1, (I2 N1); reflexivity|tauto].
  - rewrite (H2 v) by congruence. split; [intros [?|H]; [congruence|rewrite (I1 H); reflexivity]|]. intros H. apply I2. tauto.
Qed.
Lemma prefix_one a b c p : prefix_part b p -> declares_one p (Node K_PrefixDecl [Tok K_PREFIX a; Tok K_PNAME_NS b; Tok K_IRIREF c]).
Proof.
  intros H. split.
  - cbn [hits map total]. replace (hit p _ _) with true; [reflexivity|]. symmetry. apply hit_iff. split; [reflexivity|]. exists b. split; [right; left; reflexivity|exact H].
  - intros v N. cbn [hits map total]. destruct (hit v _ _) eqn:Eh; [|reflexivity]. exfalso. apply hit_iff in Eh as (_ & u & Hin & Hu). destruct Hin as [X|[X|[X|[]]]]; try discriminate. injection X as <-. apply N. eapply prefix_part_fun; eassumption.
Qed.
(** ** C64 *)
(** [DLs] are the declarations the text starts with, all complete; [rest] is what follows. *)
Theorem C64_auto_fix_partial : forall err t x errs shorten order ds find am ru DLs ys rest,
  doc_parse err t x errs -> any_order order -> diagnostics shorten order x errs t = Reply ds -> cr_only_in_crlf t ->
  tokens err t = concat DLs ++ rest -> Forall2 declaration DLs ys -> rest <> [] ->
  (forall p ns, am = true -> says UndeclaredPrefix p ds -> find p = Some ns -> forallb iri_char ns = true) ->
  (forall q w, ru = true -> declares x q w -> says UnusedPrefix w ds -> complete x q /\ blank_before x q /\ exists i, stands_at x DLs q i) ->
  exists es t' ps rem, auto_fixes find am ru x t [] ds = VDone es /\ at_once t es t' /\ length es = length ps + length rem /\
    NoDup (map fst ps) /\ (forall p ns, In (p, ns) ps <-> am = true /\ says UndeclaredPrefix p ds /\ find p = Some ns) /\
    StronglySorted lt rem /\ (forall i, In i rem <-> ru = true /\ exists q w, stands_at x DLs q i /\ declares x q w /\ says UnusedPrefix w ds /\ forall q', declares x q' w -> q' = q \/ doc_before q q') /\
    tokens err t' = concat (map (fun pn => decl_tokens (fst pn) (snd pn)) ps) ++ concat (keep rem 0 DLs) ++ rest /\
    (DLs = [] \/ ps <> [] \/ keep rem 0 DLs <> [] -> exists x' errs', doc_parse err t' x' errs') /\
    forall x' errs', doc_parse err t' x' errs' -> exists z ds',
      bare same x = with_decls ys z /\ bare same x' = with_decls (map (fun pn => decl_tree (fst pn) (snd pn)) ps ++ keep rem 0 ys) z /\
      errors_shifted err t t' (length (concat DLs)) (3 * length ps + length (concat (keep rem 0 DLs))) errs errs' /\
      diagnostics shorten order x' errs' t' = Reply ds' /\
      (forall w, says UndeclaredPrefix w ds' <-> says UndeclaredPrefix w ds /\ ~ (am = true /\ exists ns, find w = Some ns)) /\
      (forall w, says UnusedPrefix w ds' <-> says UnusedPrefix w ds /\ (ru = false \/ exists q q', q <> q' /\ declares x q w /\ declares x q' w)).
Proof.
  intros err t x errs shorten order ds find am ru DLs ys rest P O E Hcr Et F Nr Hns Tidy. pose proof (doc_parse_tree _ _ _ _ P) as D. pose proof (reply_query _ _ _ _ _ _ _ P E) as Q.
  destruct (C47_unused_prefixes _ _ _ _ _ _ _ P O E) as (l1 & So1 & H1 & F1). destruct (C46_undeclared_prefixes_partial _ _ _ _ _ _ _ P O E) as (l2 & So2 & H2 & F2).
  destruct (diagnostics_sorted _ _ _ _ _ _ _ P O E) as (d3 & Eds & F3).
  assert (SU : forall w, says UnusedPrefix w ds <-> idle x w) by (intros w; apply (said_unused _ _ _ _ _ _ _ P O E)). assert (SM : forall w, says UndeclaredPrefix w ds <-> missing x w) by (intros w; apply (said_undeclared _ _ _ _ _ _ _ P O E)).
  (* the text in pieces *)
  destruct (trivia_ok (lex err t)) as (E0 & HT & HB). set (T0 := trivia (lex err t)) in *. set (B0 := beyond (lex err t)) in *.
  assert (SB : sigs B0 = concat DLs ++ rest). { rewrite <- Et. change (tokens err t) with (sigs (lex err t)). rewrite E0, PrologueSwap.sigs_app, (sigs_trivial _ HT). reflexivity. }
  destruct (chunks DLs ys B0 rest F SB Nr HB) as (Cs & R & EB & FC & SR & HC & HR). assert (Ex : lex err t = T0 ++ concat Cs ++ R) by (rewrite <- EB; exact E0).
  (* the lists *)
  assert (L1 : forall q w, In (q, w) (named l1) <-> declares x q w /\ forall p, ~ uses x p w).
  { intros q w. rewrite in_named, H1. split; [intros [(w' & Dq & X & N)|(_ & X & _)]; [injection X as <-; auto|discriminate]|]. intros [Dq N]. left. eauto. }
  assert (L1' : forall q w, In (q, w) (named l1) -> says UnusedPrefix w ds). { intros q w H. apply L1 in H as [Dq N]. apply SU. split; [apply declares_iff; eauto|]. rewrite <- uses_iff. intros [p Hp]. exact (N p Hp). }
  assert (L1'' : forall q w, declares x q w -> says UnusedPrefix w ds -> In (q, w) (named l1)). { intros q w Dq Hs. apply L1. split; [exact Dq|]. apply SU in Hs as [_ Hs]. intros p Hp. apply Hs, uses_iff. eauto. }
  assert (L2 : forall w, In w (map snd (named l2)) <-> says UndeclaredPrefix w ds).
  { intros w. rewrite SM. unfold missing. rewrite <- select_uses_iff, <- declares_iff. rewrite in_map_iff. split.
    - intros ([p w'] & <- & H). apply in_named, H2 in H as (Hs & w2 & U & X & N). injection X as <-. cbn [snd]. split; [eauto|]. intros [d Hd]. exact (N d Hd).
    - intros [(p & Hs & U) N]. exists (p, w). split; [reflexivity|]. apply in_named, H2. split; [exact Hs|]. exists w. split; [exact U|]. split; [reflexivity|]. intros d Hd. apply N. eauto. }
  assert (Disj : forall w, says UnusedPrefix w ds -> ~ says UndeclaredPrefix w ds) by (intros w Hu Hm; apply SU in Hu as [Hu _]; apply SM in Hm as [_ Hm]; contradiction).
  set (N := if ru then news [] (named l1) else []). set (M := if am then news (after [] (named l1)) (named l2) else []).
  assert (HN : forall q w, In (q, w) N <-> ru = true /\ declares x q w /\ says UnusedPrefix w ds /\ forall q', declares x q' w -> q' = q \/ doc_before q q').
  { intros q w. unfold N. destruct ru; [|split; [intros []|intros [X _]; discriminate]]. rewrite (news_first doc_before).
    - split.
      + intros (Hq & _ & Hf). pose proof (proj1 (L1 q w) Hq) as [Dq _]. split; [reflexivity|]. split; [exact Dq|]. split; [eapply L1'; exact Hq|]. intros q' Dq'. apply Hf. apply L1''; [exact Dq'|eapply L1'; exact Hq].
      + intros (_ & Dq & Hs & Hf). split; [apply L1''; assumption|]. split; [intros []|]. intros b Hb. apply Hf. apply L1 in Hb. apply Hb.
    - clear. intros a b H. induction H as [i j p q L|i p q _ IH|i p]; intros K; inversion K; subst; try lia; auto.
    - clear. intros a H. induction a as [|i a IH]; inversion H; subst; [lia|auto].
    - apply named_sorted, So1. }
  assert (SN : StronglySorted doc_before (map fst N)) by (unfold N; destruct ru; [apply news_sorted, named_sorted, So1|constructor]).
  assert (NN : NoDup (map snd N)) by (unfold N; destruct ru; [apply news_nodup|constructor]).
  assert (WN : forall w, In w (map snd N) <-> ru = true /\ says UnusedPrefix w ds).
  { intros w. unfold N. destruct ru; [|split; [intros []|intros [X _]; discriminate]]. rewrite news_in, in_map_iff. split.
    - intros [([q w'] & <- & H) _]. split; [reflexivity|]. eapply L1'; exact H.
    - intros [_ Hs]. split; [|intros []]. pose proof Hs as Hi. apply SU in Hi as [Hi _]. apply declares_iff in Hi as [q Hq]. exists (q, w). split; [reflexivity|apply L1''; assumption]. }
  assert (WM : forall w, In w (map snd M) <-> am = true /\ says UndeclaredPrefix w ds).
  { intros w. unfold M. destruct am; [|split; [intros []|intros [X _]; discriminate]]. rewrite news_in, in_after, L2. cbn [In]. split; [tauto|]. intros [_ Hs]. split; [exact Hs|]. intros [[]|H]. apply in_map_iff in H as ([q w'] & <- & H). apply L1' in H. exact (Disj _ H Hs). }
  assert (NM : NoDup (map snd M)) by (unfold M; destruct am; [apply news_nodup|constructor]).
  set (ps := flat_map (fun pw : path * text => match find (snd pw) with Some ns => [(snd pw, ns)] | None => [] end) M).
  assert (Hps : forall p ns, In (p, ns) ps <-> am = true /\ says UndeclaredPrefix p ds /\ find p = Some ns).
  { intros p ns. unfold ps. rewrite in_flat_map. split.
    - intros ([q w] & Hin & H). cbn [snd] in H. destruct (find w) as [n|] eqn:Ef; [|destruct H]. destruct H as [H|[]]. injection H as -> ->. assert (In p (map snd M)) as Hp by (apply (in_map snd) in Hin; exact Hin). apply WM in Hp as [? ?]. auto.
    - intros (Ha & Hs & Ef). assert (In p (map snd M)) as Hp by (apply WM; auto). apply in_map_iff in Hp as ([q w] & X & Hin). cbn [snd] in X. subst w. exists (q, p). split; [exact Hin|]. cbn [snd]. rewrite Ef. left. reflexivity. }
  assert (Nps : NoDup (map fst ps)).
  { unfold ps. clear -NM. induction M as [|[q w] M IH]; [constructor|]. cbn [map snd] in NM. inversion NM as [|? ? N1 N2]; subst. cbn [flat_map snd]. destruct (find w) as [n|]; [|apply IH, N2]. cbn [app map fst]. constructor; [|apply IH, N2]. intros H. apply N1. apply in_map_iff in H as ([p n'] & <- & H). apply in_flat_map in H as ([q' w'] & Hin & H). cbn [snd fst] in *. destruct (find w'); [|destruct H]. destruct H as [H|[]]. injection H as -> _. apply (in_map snd) in Hin. exact Hin. }
  assert (Good : forall q w, In (q, w) N -> (exists cs, at_path x q = Some (Node K_PrefixDecl cs)) /\ complete x q /\ blank_before x q /\ exists i, stands_at x DLs q i).
  { intros q w H. apply HN in H as (Hr & Dq & Hs & _). split; [apply Dq|]. apply (Tidy q w Hr Dq Hs). }
  assert (exists rem, Forall2 (fun qw i => stands_at x DLs (fst qw) i) N rem) as [rem FN].
  { clear -Good. induction N as [|[q w] N IH]; [exists []; constructor|]. destruct IH as [rem IH]; [intros q' w' H; apply (Good q' w'); right; exact H|]. destruct (Good q w (or_introl eq_refl)) as (_ & _ & _ & i & Hi). exists (i :: rem). constructor; [exact Hi|exact IH]. }
  assert (Srem : StronglySorted lt rem).
  { clear -FN SN Good D F HC. induction FN as [|[q w] i N rem Hi FN IH]; [constructor|]. cbn [map fst] in SN. inversion SN as [|? ? SN' Fq]; subst. assert (G' : forall q w, In (q, w) N -> (exists cs, at_path x q = Some (Node K_PrefixDecl cs)) /\ complete x q /\ blank_before x q /\ exists i, stands_at x DLs q i) by (intros; eapply Good; right; eassumption).
    constructor; [apply IH; assumption|]. apply Forall_forall. intros j Hj. destruct (Good q w (or_introl eq_refl)) as (A1 & A2 & _). destruct (forall2_in _ _ _ _ FN Hj) as ([q' w'] & Hq' & Sj). cbn [fst] in *. destruct (G' q' w' Hq') as (A3 & _). rewrite Forall_forall in Fq. assert (Bq : doc_before q q'); [|eapply stands_order with (q := q) (q' := q'); eassumption]. apply Fq. apply (in_map fst) in Hq'. exact Hq'. }
  assert (Hrem : forall i, In i rem <-> ru = true /\ exists q w, stands_at x DLs q i /\ declares x q w /\ says UnusedPrefix w ds /\ forall q', declares x q' w -> q' = q \/ doc_before q q').
  { intros i. split.
    - intros H. destruct (forall2_in _ _ _ _ FN H) as ([q w] & Hq & Si). apply HN in Hq as (Hr & Dq & Hs & Hf). split; [exact Hr|]. exists q, w. auto.
    - intros (Hr & q & w & Si & Dq & Hs & Hf). assert (In (q, w) N) as Hq by (apply HN; auto). destruct (forall2_in_l _ _ _ _ FN Hq) as (j & Hj & Sj). cbn [fst] in Sj. replace i with j; [exact Hj|]. destruct Si as [Li Si], Sj as [Lj Sj]. rewrite Si in Sj.
      destruct (Nat.lt_trichotomy i j) as [L|[L|L]]; [|congruence|]; [pose proof (concat_firstn_lt _ _ _ _ F L Li) as X|pose proof (concat_firstn_lt _ _ _ _ F L Lj) as X]; rewrite Sj in X; lia. }
  (* the edits *)
  set (ins := map (fun pn => mkedit origin (declaration_text (fst pn) (snd pn))) ps). set (dels := map (fun qw : path * text => removal x (fst qw)) N).
  assert (Run : auto_fixes find am ru x t [] ds = VDone (dels ++ ins)).
  { rewrite Eds. rewrite (auto_unused find am ru x t (removal x) _ l1 (of_code UnusedPrefix ds)).
    - rewrite (auto_undeclared find am ru x t _ l2 (of_code UndeclaredPrefix ds)).
      + rewrite auto_others by exact F3. cbn [vbind]. f_equal. rewrite app_nil_r. f_equal.
        * unfold dels, N. destruct ru; reflexivity.
        * unfold ins, ps, M. destruct am; [|reflexivity]. clear. induction (news (after [] (named l1)) (named l2)) as [|[q w] l IH]; [reflexivity|]. cbn [flat_map snd]. rewrite map_app, IH. unfold insertion. destruct (find w); reflexivity.
      + assert (Cd : Forall (fun d => d_code d = UndeclaredPrefix) (of_code UndeclaredPrefix ds)) by (apply Forall_forall; intros d Hd; apply in_of_code in Hd; apply Hd). clear -F2 Cd. induction F2 as [|[p dat] d l l' [A B] _ IH]; [constructor|]. inversion Cd; subst. constructor; auto.
      + intros [p dat] H. apply H2 in H as (_ & w & _ & -> & _). exact I.
    - assert (Cd : Forall (fun d => d_code d = UnusedPrefix) (of_code UnusedPrefix ds)) by (apply Forall_forall; intros d Hd; apply in_of_code in Hd; apply Hd).
      assert (Ok : ru = true -> forall p w r, In (p, DString w) l1 -> located x t p r -> remove_prefix_declaration x t r = VDone [removal x p]).
      { intros Hr p w r Hin Lo. apply in_named in Hin. pose proof (L1' _ _ Hin) as Hs. apply L1 in Hin as [Dp _]. destruct (Tidy p w Hr Dp Hs) as (A & _ & i & Si). destruct Dp as [[cs Ecs] _]. eapply removal_ok; eassumption. }
      clear -F1 Cd Ok. induction F1 as [|[p dat] d l l' [A B] _ IH]; [constructor|]. inversion Cd; subst. cbn [fst snd] in *. constructor; [|apply IH; [assumption|intros Hr p' w r Hin; apply (Ok Hr p' w r); right; exact Hin]]. split; [assumption|]. split; [exact A|]. cbn [fst snd]. intros Hr w ->. apply (Ok Hr p w); [left; reflexivity|exact B].
    - intros [p dat] H. apply H1 in H as [(w & _ & -> & _)|(_ & -> & _)]; exact I. }
  set (t' := flat_map (fun pn => declaration_text (fst pn) (snd pn)) ps ++ flat_map snd T0 ++ flat_map snd (concat (keep rem 0 Cs)) ++ flat_map snd R).
  assert (Rng : forall j, In j rem -> j < length Cs). { intros j Hj. rewrite (forall2_len _ _ _ FC). apply Hrem in Hj as (_ & q & w & [Lj _] & _). exact Lj. }
  assert (Once : at_once t (dels ++ ins) t').
  { exists (ins ++ dels), (map (fun pn => mkcedit 0 0 (declaration_text (fst pn) (snd pn))) ps ++ map (cut (off T0 Cs)) rem). split; [apply Permutation_app_comm|].
    assert (Den : Forall2 (fun e j => edit_denotes t e (cut (off T0 Cs) j) /\ off T0 Cs j < off T0 Cs (S j)) dels rem).
    { unfold dels. clear -FN Good D F Ex HT FC HC HR. induction FN as [|[q w] i N rem Hi FN IH]; [constructor|]. cbn [map fst] in *. constructor; [|apply IH; intros; eapply Good; right; eassumption]. destruct (Good q w (or_introl eq_refl)) as ([cs Ecs] & A & _). eapply removal_denotes; eassumption. }
    split; [|split; [|split]].
    - intros p. rewrite !filter_app. assert (filter (inserts_at p) dels = []) as ->; [|rewrite app_nil_r; reflexivity]. clear -Den. induction Den as [|e j dels rem [(B1 & B2 & B3 & _) L] _ IH]; [reflexivity|]. cbn [filter]. rewrite IH. destruct (inserts_at p e) eqn:I; [|reflexivity]. exfalso. cbn [cut ci cj] in *. unfold inserts_at in I. rewrite <- B2, <- B3 in I. rewrite !andb_true_iff, !Nat.eqb_eq in I. destruct I as [[I1 I2] [I3 I4]].
      assert (X : position_after (firstn (off T0 Cs j) t) = position_after (firstn (off T0 Cs (S j)) t)) by (destruct (position_after (firstn (off T0 Cs j) t)), (position_after (firstn (off T0 Cs (S j)) t)); cbn in *; congruence). apply position_after_inj in X; lia.
    - apply Forall2_app.
      + unfold ins. clear. induction ps as [|pn ps IH]; constructor; [|exact IH]. split; [cbn; lia|]. auto.
      + clear -Den. induction Den as [|e j dels rem [H _] _ IH]; constructor; assumption.
    - assert (Mono : forall i j, i <= j -> off T0 Cs i <= off T0 Cs j). { intros i j L. unfold off, pre. rewrite !flat_map_app, !app_length. apply Nat.add_le_mono_l. rewrite <- (firstn_skipn i (firstn j Cs)), firstn_firstn, (Nat.min_l _ _ L). rewrite concat_app, flat_map_app, app_length. lia. }
      clear -Srem Mono. induction ps as [|pn ps IH]; cbn [map app].
      + induction Srem as [|j rem _ IHs Fj]; [constructor|]. cbn [map]. constructor; [exact IHs|]. apply Forall_forall. intros c Hc. apply in_map_iff in Hc as (k & <- & Hk). rewrite Forall_forall in Fj. specialize (Fj k Hk). cbn [cut ci cj]. apply Mono. lia.
      + constructor; [exact IH|]. apply Forall_forall. intros c _. cbn. lia.
    - rewrite splice_front. unfold t'. f_equal. assert (Etx : t = flat_map snd T0 ++ concat (map chars_of Cs) ++ flat_map snd R).
      { rewrite (text_pre err t x T0 Cs R D Ex 0) at 1. unfold pre. cbn [firstn concat skipn]. rewrite app_nil_r, flat_map_app, chars_concat. reflexivity. }
      rewrite Etx at 1. assert (Ek : flat_map snd (concat (keep rem 0 Cs)) = concat (keep rem 0 (map chars_of Cs))) by (rewrite keep_map; apply chars_concat).
      rewrite Ek. symmetry. apply splice_kept; [exact Srem| | |].
      + intros j Hj. rewrite map_length. specialize (Rng j Hj). lia.
      + unfold off, pre. cbn [firstn concat]. rewrite app_nil_r. reflexivity.
      + intros k C HCk. cbn [Nat.add]. rewrite nth_error_map in HCk. destruct (nth_error Cs k) as [C0|] eqn:Ck; [|discriminate]. cbn in HCk. injection HCk as <-. unfold off. rewrite (chunk_next T0 Cs k C0 Ck), flat_map_app, app_length. reflexivity. }
  assert (Hlab : forall p ns, In (p, ns) ps -> ~ In COLON p /\ one_token K_PNAME_NS (p ++ [COLON]) /\ one_token K_IRIREF (iri_text ns)).
  { intros p ns H. apply Hps in H as (Ha & Hs & Ef). pose proof (iri_one_token ns (Hns p ns Ha Hs Ef)) as Hi. apply SM in Hs as [Hs _]. apply select_uses_iff in Hs as (u & _ & U). split; [|split; [exact (label_of_use _ _ _ _ _ D U)|exact Hi]]. destruct U as [_ (r & _ & Nc)]. exact Nc. }
  set (DLs' := map (fun pn => decl_tokens (fst pn) (snd pn)) ps ++ keep rem 0 DLs). set (ys' := map (fun pn => decl_tree (fst pn) (snd pn)) ps ++ keep rem 0 ys).
  assert (F' : Forall2 declaration DLs' ys'). { apply Forall2_app; [|apply keep_forall2, F]. clear. induction ps as [|pn ps IH]; constructor; [apply decl_tree_ok|exact IH]. }
  assert (Tk : tokens err t' = concat (map (fun pn => decl_tokens (fst pn) (snd pn)) ps) ++ concat (keep rem 0 DLs) ++ rest).
  { unfold t'. rewrite tokens_decls by (intros p ns H; apply Hlab in H; tauto). f_equal. rewrite <- SR. apply (tokens_kept err R rem Cs DLs T0 t 0 []); [exact Ex|exists []; constructor|apply sigs_trivial, HT|exact FC|eauto|].
    cbn [Nat.add]. intros j Hj _. apply existsb_exists in Hj as (k & Hk & X). apply Nat.eqb_eq in X. subst k. destruct (forall2_in _ _ _ _ FN Hk) as ([q w] & Hq & Sj). destruct (Good q w Hq) as ([cs Ecs] & A & B & _). change (blank_end (pre T0 Cs j)); eapply blank_pre with (DLs := DLs) (ys := ys); eassumption. }
  assert (Tk' : tokens err t' = concat DLs' ++ rest) by (unfold DLs'; rewrite concat_app, <- app_assoc; exact Tk).
  destruct (decls_changed err t t' x errs DLs ys DLs' ys' rest P Q F F' Et Tk') as [Ex' All].
  exists (dels ++ ins), t', ps, rem. split; [exact Run|]. split; [exact Once|]. split; [rewrite app_length; unfold dels, ins; rewrite !map_length, (forall2_len _ _ _ FN); apply Nat.add_comm|]. split; [exact Nps|]. split; [exact Hps|]. split; [exact Srem|]. split; [exact Hrem|]. split; [exact Tk|].
  split. { intros H. apply Ex'. destruct H as [H|[H|H]]; [left; exact H| |]; right; unfold DLs'; [destruct ps; [congruence|discriminate]|intros X; apply app_eq_nil in X as [_ X]; contradiction]. }
  intros x' errs' P'. destruct (All x' errs' P') as (Q' & z & B & B' & Es). destruct (all_parts _ _ _ _ shorten order P' O Q') as (ds' & E' & _). pose proof (doc_parse_tree _ _ _ _ P') as D'.
  exists z, ds'. split; [exact B|]. split; [exact B'|]. split. { eapply shifted_len; [exact Es|reflexivity|]. unfold DLs'. rewrite concat_app, app_length. f_equal. clear. induction ps as [|pn ps IH]; [reflexivity|]. cbn [map concat]. rewrite app_length, IH. cbn [length decl_tokens]. lia. }
  split; [exact E'|].
  destruct (bare_root _ Q) as [xs Exs]. assert (exists zs, z = Node K_QueryUnit zs) as [zs Ez] by (eapply (puts_rooted ys); rewrite <- B; exact Exs). subst z.
  assert (Us : forall w, used x' w <-> used x w).
  { intros w. rewrite <- (used_bare _ w (doc_plain_names _ _ _ D')), <- (used_bare _ w (doc_plain_names _ _ _ D)), B, B', (used_puts _ _ _ _ F), (used_puts _ _ _ _ F'). reflexivity. }
  assert (Ss : forall w, used_in_select x' w <-> used_in_select x w).
  { intros w. rewrite <- (used_in_select_bare _ w (doc_plain_names _ _ _ D')), <- (used_in_select_bare _ w (doc_plain_names _ _ _ D)), B, B', (used_in_select_puts _ _ _ _ F), (used_in_select_puts _ _ _ _ F'). reflexivity. }
  assert (exists picks, Forall2 (fun j y => 0 <= j /\ nth_error ys (j - 0) = Some y) rem picks /\ Forall2 declares_one (map snd N) picks) as (picks & Fp & Fq).
  { assert (Lbl : forall q w, In (q, w) N -> declares x q w) by (intros q w H; apply HN in H; tauto). clear -FN Good D F Ex HT FC HC HR Lbl. induction FN as [|[q w] i N rem Hi FN IH]; [exists []; split; constructor|]. destruct IH as (picks & I1 & I2); [intros; eapply Good; right; eassumption|intros; apply Lbl; right; assumption|].
    destruct (Good q w (or_introl eq_refl)) as ([cs Ecs] & A & _). cbn [fst] in Hi. assert (exists C y, nth_error Cs i = Some C /\ nth_error ys i = Some y /\ nth_error DLs i = Some (sigs (leaves (Node K_PrefixDecl cs))) /\ y = bare same (Node K_PrefixDecl cs)) as (_ & y & _ & Ey & _ & ->) by (edestruct placed as (C & y & A1 & A2 & A3 & A4 & _); try eassumption; exists C, y; auto). exists (bare same (Node K_PrefixDecl cs) :: picks). split; constructor; try assumption; [split; [lia|rewrite Nat.sub_0_r; exact Ey]|]. cbn [snd].
    destruct A as (n & En & Hn). rewrite Ecs in En. injection En as <-. destruct (decl_form cs Hn) as (a & b & c & _ & Eb). rewrite Eb. apply prefix_one. apply (label_only x q cs a b c w Ecs Eb). apply Lbl. left. reflexivity. }
  assert (Fn : Forall2 declares_one (map fst ps) (map (fun pn => decl_tree (fst pn) (snd pn)) ps)).
  { clear -Hlab. induction ps as [|[p ns] ps IH]; constructor; [|apply IH; intros; eapply Hlab; right; eassumption]. apply prefix_one. exists []. cbn [fst]. split; [reflexivity|]. eapply Hlab. left. reflexivity. }
  assert (Hx : forall w, hits w x = total (map (hits w) (keep rem 0 ys)) + total (map (hits w) picks) + hits w (Node K_QueryUnit zs)).
  { intros w. rewrite <- (hits_bare w x), B, hits_puts by discriminate. rewrite (total_keep (hits w) ys 0 rem picks Srem Fp). reflexivity. }
  assert (Hx' : forall w, hits w x' = total (map (hits w) (map (fun pn => decl_tree (fst pn) (snd pn)) ps)) + total (map (hits w) (keep rem 0 ys)) + hits w (Node K_QueryUnit zs)).
  { intros w. rewrite <- (hits_bare w x'), B', hits_puts by discriminate. unfold ys'. rewrite map_app, total_app. reflexivity. }
  assert (De : forall y w, declared y w <-> 0 < hits w y) by (intros y w; rewrite hits_pos, declares_iff; reflexivity).
  assert (Sel : forall w, used_in_select x w -> used x w) by (intros w H; apply select_uses_iff in H as (u & _ & U); apply uses_iff; eauto).
  assert (Inp : forall w, In w (map fst ps) <-> (am = true /\ exists ns, find w = Some ns) /\ missing x w).
  { intros w. rewrite in_map_iff. split.
    - intros ([p ns] & <- & H). apply Hps in H as (A & S0 & Ef). apply SM in S0. cbn [fst]. eauto.
    - intros [[A [ns Ef]] Hm]. exists (w, ns). split; [reflexivity|]. apply Hps. rewrite SM. auto. }
  assert (Inn : forall w, In w (map snd N) <-> ru = true /\ idle x w) by (intros w; rewrite WN, SU; reflexivity).
  pose proof (fun w => hits_named w _ _ Fn Nps) as Cn. pose proof (fun w => hits_named w _ _ Fq NN) as Cq.
  split; intros w; rewrite ?SM, ?SU; unfold says.
  - rewrite (said_undeclared _ _ _ _ _ _ _ P' O E'). unfold missing. rewrite Ss, !De. specialize (Hx w). specialize (Hx' w). destruct (Cn w) as [Cn1 Cn2], (Cq w) as [Cq1 Cq2]. specialize (Inp w). specialize (Inn w). unfold missing, idle in *. rewrite De in Inp, Inn. split.
    + intros [Hu Hno]. assert (~ In w (map snd N)) as N1 by (rewrite Inn; intros (_ & _ & K); apply K, Sel, Hu). specialize (Cq2 N1). split; [split; [exact Hu|lia]|]. intros Ha. assert (In w (map fst ps)) as K by (apply Inp; split; [exact Ha|split; [exact Hu|lia]]). specialize (Cn1 K). lia.
    + intros [[Hu Hno] Na]. split; [exact Hu|]. assert (~ In w (map fst ps)) as K by (rewrite Inp; tauto). specialize (Cn2 K). lia.
  - rewrite (said_unused _ _ _ _ _ _ _ P' O E'). unfold idle. rewrite Us, !De. pose proof (Hx w) as Hxw. pose proof (Hx' w) as Hxw'. destruct (Cn w) as [Cn1 Cn2], (Cq w) as [Cq1 Cq2]. specialize (Inp w). specialize (Inn w). unfold missing, idle in *. rewrite De in Inp, Inn.
    assert (Two : 1 < hits w x <-> exists q q', q <> q' /\ declares x q w /\ declares x q' w).
    { split.
      - intros L. assert (exists q, declares x q w) as [q Hq] by (apply hits_pos; lia). destruct (proj1 (hits_more w x q Hq) L) as (q' & Nq & Hq'). exists q. exists q'. auto.
      - intros (q & q' & Nq & Hq & Hq'). apply (hits_more w x q Hq). exists q'. auto. }
    rewrite <- Two. split.
    + intros [Hd Nu]. assert (~ In w (map fst ps)) as K by (rewrite Inp; intros (_ & K & _); apply Nu, Sel, K). specialize (Cn2 K). split; [split; [lia|exact Nu]|]. destruct ru; [right|left; reflexivity]. assert (In w (map snd N)) as K2 by (apply Inn; split; [reflexivity|split; [lia|exact Nu]]). specialize (Cq1 K2). lia.
    + intros [[Hd Nu] Hor]. split; [|exact Nu]. destruct Hor as [Hf|L]; [|destruct (in_dec (list_eq_dec N.eq_dec) w (map snd N)) as [K|K]; [specialize (Cq1 K)|specialize (Cq2 K)]; lia]. assert (~ In w (map snd N)) as K by (rewrite Inn, Hf; intros [X _]; discriminate). specialize (Cq2 K). lia.
Qed.
(** ** a case, and what is not claimed *)
Local Open Scope string_scope.
Local Open Scope list_scope.
Definition C64_query : text := chars "PREFIX a: <u>" ++ [NL] ++ chars "PREFIX g: <w> PREFIX b: <v>" ++ [NL] ++ chars "SELECT * { e:x g:p e:q }".
Definition plain_decl (p u : text) : list lexeme := [(K_PREFIX, chars "PREFIX"); (K_PNAME_NS, p ++ [COLON]); (K_IRIREF, u)].
Definition plain_tree (p u : text) : tree := Node K_PrefixDecl [Tok K_PREFIX (chars "PREFIX"); Tok K_PNAME_NS (p ++ [COLON]); Tok K_IRIREF u].
Definition said (ds : reply (list diag)) : list diag := match ds with Reply l => l | _ => [] end.
Definition C64_decls : list (list lexeme) := [plain_decl (chars "a") (chars "<u>"); plain_decl (chars "g") (chars "<w>"); plain_decl (chars "b") (chars "<v>")].
Definition edit_at (l c l' c' : nat) (w : text) : text_edit := mkedit (mkrange (mkpos l c) (mkpos l' c')) w.
Definition C64_said : list diag := said (diagnostics short same_order (tree_of C64_query) (errors_of C64_query) C64_query).
Definition about (c : code) (ws : list text) (d : diag) : bool := negb (code_eqb (d_code d) c) || match d_data d with DString w => mem w ws | _ => false end.
Lemma about_ok c ws w ds : forallb (about c ws) ds = true -> says c w ds -> In w ws.
Proof. intros H (d & Hd & Hc & Ep). rewrite forallb_forall in H. specialize (H d Hd). unfold about in H. rewrite Hc, Ep in H. replace (code_eqb c c) with true in H by (destruct c; reflexivity). apply mem_iff, H. Qed.
Lemma said_ok c w ds : existsb (fun d => code_eqb (d_code d) c && match d_data d with DString v => text_eqb v w | _ => false end) ds = true -> says c w ds.
Proof.
  intros H. apply existsb_exists in H as (d & Hd & H). apply andb_true_iff in H as [H1 H2]. exists d. split; [exact Hd|]. destruct (d_data d); try discriminate H2. apply text_eqb_iff in H2. subst. split; [|reflexivity]. destruct (d_code d), c; try discriminate H1; reflexivity.
Qed.
Definition C64_rest : list lexeme := skipn 9 (tokens (fun _ => 0) C64_query).
Example C64_witness :
  doc_parse (fun _ => 0) C64_query (tree_of C64_query) (errors_of C64_query) /\ any_order same_order /\ diagnostics short same_order (tree_of C64_query) (errors_of C64_query) C64_query = Reply C64_said /\ cr_only_in_crlf C64_query /\
  tokens (fun _ => 0) C64_query = concat C64_decls ++ C64_rest /\ Forall2 declaration C64_decls [plain_tree (chars "a") (chars "<u>"); plain_tree (chars "g") (chars "<w>"); plain_tree (chars "b") (chars "<v>")] /\ C64_rest <> [] /\
  (forall p ns, says UndeclaredPrefix p C64_said -> known_namespaces p = Some ns -> forallb iri_char ns = true) /\
  (forall q w, declares (tree_of C64_query) q w -> says UnusedPrefix w C64_said -> complete (tree_of C64_query) q /\ blank_before (tree_of C64_query) q /\ exists i, stands_at (tree_of C64_query) C64_decls q i) /\
  says UndeclaredPrefix (chars "e") C64_said /\ says UnusedPrefix (chars "a") C64_said /\ says UnusedPrefix (chars "b") C64_said /\
  auto_fixes known_namespaces true true (tree_of C64_query) C64_query [] C64_said = VDone [edit_at 0 0 1 0 []; edit_at 1 14 2 0 []; edit_at 0 0 0 0 (chars "PREFIX e: <http://e.org/>" ++ [NL])].
Proof.
  split; [apply parses_doc; vm_compute; reflexivity|]. split; [exact same_order_ok|]. split; [vm_compute; reflexivity|].
  split. { apply no_cr_crlf. intros H. vm_compute in H. intuition discriminate. }
  split; [vm_compute; reflexivity|]. split. { constructor; [apply is_prefix|]. constructor; [apply is_prefix|]. constructor; [apply is_prefix|constructor]. }
  split; [vm_compute; discriminate|]. split.
  { intros p ns Hp Hf. apply (about_ok _ [chars "e"]) in Hp; [|vm_compute; reflexivity]. destruct Hp as [<-|[]]. vm_compute in Hf. injection Hf as <-. vm_compute. reflexivity. }
  split.
  { intros q w Hq Hw. apply (about_ok _ [chars "a"; chars "b"]) in Hw; [|vm_compute; reflexivity]. apply declares_listed in Hq. destruct Hw as [<-|[<-|[]]].
    - assert (filter (hit_at (chars "a") (tree_of C64_query)) (node_paths (tree_of C64_query)) = [[0; 0; 0]]) as L by (vm_compute; reflexivity). rewrite L in Hq. destruct Hq as [<-|[]]. split; [|split].
      + eexists. split; [vm_compute; reflexivity|]. vm_compute. constructor.
      + intros a c H. assert (Ht : flat_map snd (leaves_before (tree_of C64_query) [0; 0; 0]) = []) by (vm_compute; reflexivity). rewrite Ht in H. destruct (app_cons_not_nil _ _ _ H).
      + exists 0. split; [cbn; lia|vm_compute; reflexivity].
    - assert (filter (hit_at (chars "b") (tree_of C64_query)) (node_paths (tree_of C64_query)) = [[0; 0; 4]]) as L by (vm_compute; reflexivity). rewrite L in Hq. destruct Hq as [<-|[]]. split; [|split].
      + eexists. split; [vm_compute; reflexivity|]. vm_compute. constructor.
      + intros a c H. assert (Ht : flat_map snd (leaves_before (tree_of C64_query) [0; 0; 4]) = (chars "PREFIX a: <u>" ++ [NL] ++ chars "PREFIX g: <w>") ++ [32%N]) by (vm_compute; reflexivity). rewrite Ht in H. apply app_inj_tail in H as [_ <-]. reflexivity.
      + exists 2. split; [cbn; lia|vm_compute; reflexivity]. }
  split; [apply said_ok; vm_compute; reflexivity|]. split; [apply said_ok; vm_compute; reflexivity|]. split; [apply said_ok; vm_compute; reflexivity|]. vm_compute. reflexivity.
Qed.
(** a prefix that is declared twice and not used is declared once afterwards: one run does not do all the work *)
Theorem C64_declared_twice_refuted : exists t t' ds ds' es,
  doc_parse (fun _ => 0) t (tree_of t) (errors_of t) /\ diagnostics short same_order (tree_of t) (errors_of t) t = Reply ds /\ auto_fixes known_namespaces true true (tree_of t) t [] ds = VDone es /\ at_once t es t' /\
  doc_parse (fun _ => 0) t' (tree_of t') (errors_of t') /\ diagnostics short same_order (tree_of t') (errors_of t') t' = Reply ds' /\ auto_fixes known_namespaces true true (tree_of t') t' [] ds' <> VDone [].
Proof.
  exists (chars "PREFIX a: <u> PREFIX a: <u> SELECT * { }"), (chars "PREFIX a: <u> SELECT * { }"). eexists _, _, _.
  split; [apply parses_doc; vm_compute; reflexivity|]. split; [vm_compute; reflexivity|]. split; [vm_compute; reflexivity|].
  split. { exists [edit_at 0 0 0 14 []], [mkcedit 0 14 []]. split; [apply Permutation_refl|]. split; [reflexivity|]. split; [constructor; [split; [cbn; lia|]; split; [reflexivity|split; reflexivity]|constructor]|]. split; [constructor; constructor|reflexivity]. }
  split; [apply parses_doc; vm_compute; reflexivity|]. split; [vm_compute; reflexivity|]. vm_compute. discriminate.
Qed.
