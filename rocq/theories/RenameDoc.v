(** The renamed tree and the text of the document after a rename. *)
From Coq Require Import String List Arith NArith Bool Lia Relations Sorted.
Import ListNotations.
From Verif Require Import ServerModel Kinds KindFacts ParserModel GrammarData ParserOutcome
  TextModel TextSpec TextProofs TextProps LexerRegex LexerModel LexerSpec LexerProps FormatData FormatModel FormatTree FormatText FormatWeave
  TreeModel TreePlace TreeShape VarModel VarUnion VarSpec VarRegions VarOcc VarDoc LexRename VarProps TreeRename.

(** ** the renamed tree *)
Section imap_facts.
Context {A B : Type}.
Lemma imap_nth (f : nat -> A -> B) l : forall i j, nth_error (imap f i l) j = option_map (f (i + j)) (nth_error l j).
Proof.
  induction l as [|x l IH]; intros i [|j]; cbn [imap nth_error option_map]; try reflexivity; [now rewrite Nat.add_0_r|]. rewrite IH. f_equal. f_equal. lia.
Qed.
Lemma imap_length (f : nat -> A -> B) l : forall i, length (imap f i l) = length l.
Proof. induction l as [|x l IH]; intros i; cbn; [reflexivity|]. now rewrite IH. Qed.
End imap_facts.
Lemma imap_f2 {A B} (R : A -> B -> Prop) (f : nat -> A -> B) l : forall i, (forall j x, nth_error l j = Some x -> R x (f (i + j) x)) -> Forall2 R l (imap f i l).
Proof.
  induction l as [|x l IH]; intros i H; cbn [imap]; constructor; [specialize (H 0 x eq_refl); rewrite Nat.add_0_r in H; exact H|].
  apply IH. intros j y Hy. replace (S i + j) with (i + S j) by lia. apply H. exact Hy.
Qed.
Lemma member_In l p : member l p = true <-> In p l.
Proof.
  unfold member. rewrite existsb_exists. split; [intros (q & H & E); apply path_eqb_eq in E; now subst|]. intros H. exists p. split; [exact H|]. apply path_eqb_eq. reflexivity.
Qed.
(** [sel] selects variables that are a token *)
Definition sound_sel (sel : path -> bool) (x : tree) : Prop :=
  forall p cs, sel p = true -> at_path x p = Some (Node K_Var cs) -> exists k w, cs = [Tok k w] /\ var_kind k.
Lemma sound_child sel k cs i c : sound_sel sel (Node k cs) -> nth_error cs i = Some c -> sound_sel (fun p => sel (i :: p)) c.
Proof. intros H E p ds S A. apply (H (i :: p) ds S). cbn [at_path]. rewrite E. exact A. Qed.
Lemma renamed_trel n x : forall sel, sound_sel sel x -> trel (lex_resp n) x (renamed_tree (QUESTION :: n) sel x).
Proof.
  induction x as [k w|k cs IH] using tree_ind'; intros sel H; cbn [renamed_tree].
  - change (trel (lex_resp n) (tok (k, w)) (tok (k, w))). constructor. left. reflexivity.
  - destruct (kind_eqb_spec k K_Var) as [->|_]; cbn [andb].
    + destruct (sel []) eqn:S.
      * destruct (H [] cs S eq_refl) as (kw & u & -> & Hk). constructor. constructor; [|constructor].
        change (trel (lex_resp n) (tok (kw, u)) (tok (K_VAR1, QUESTION :: n))). constructor. right. split; [exact Hk|reflexivity].
      * constructor. apply imap_f2. intros j c Hj. apply (nth_error_Forall _ _ _ _ IH Hj). eapply sound_child; [exact H|exact Hj].
    + constructor. apply imap_f2. intros j c Hj. apply (nth_error_Forall _ _ _ _ IH Hj). eapply sound_child; [exact H|exact Hj].
Qed.
Lemma trel_leaves lr x : forall y, trel lr x y -> Forall2 lr (leaves x) (leaves y).
Proof.
  induction x as [k w|k cs IH] using tree_ind'; intros y H.
  - inversion H as [[k1 w1] [k2 w2] Hab E1 E2|]; subst. constructor; [exact Hab|constructor].
  - inversion H as [|? ? cs' F]; subst. cbn [leaves]. clear H. revert cs' F. induction IH as [|c cs Hc _ IHl]; intros cs' F; inversion F; subst; [constructor|]. cbn [flat_map].
    apply Forall2_app; [apply Hc; assumption|apply IHl; assumption].
Qed.
(** trees of the same shape with the same tokens are the same *)
Lemma trel_unique lr x : forall y z, trel lr x y -> trel lr x z -> leaves y = leaves z -> y = z.
Proof.
  assert (forall c d, trel lr c d -> length (leaves c) = length (leaves d)) as L.
  { intros c d H. apply trel_leaves in H. induction H; cbn; congruence. }
  induction x as [k w|k cs IH] using tree_ind'; intros y z Hy Hz E.
  - inversion Hy as [a b Ha Ea Eb|]; subst. inversion Hz as [a' b' Ha' Ea' Eb'|]; subst. destruct b, b'. cbn in E. injection E as -> ->. reflexivity.
  - inversion Hy as [|? ? ys Fy]; subst. inversion Hz as [|? ? zs Fz]; subst. f_equal. cbn [leaves] in E. clear Hy Hz. revert ys zs Fy Fz E.
    induction IH as [|c cs Hc _ IHl]; intros ys zs Fy Fz E; inversion Fy as [|? y ? ys' H1 H2]; subst; inversion Fz as [|? z ? zs' H3 H4]; subst; [reflexivity|]. cbn [flat_map] in E.
    assert (leaves y = leaves z /\ flat_map leaves ys' = flat_map leaves zs') as [E1 E2].
    { pose proof (L _ _ H1). pose proof (L _ _ H3). assert (length (leaves y) = length (leaves z)) as Le by congruence. clear -E Le. revert E Le. generalize (leaves y) (leaves z).
      induction l as [|a l IH]; intros [|b m] E Le; cbn in *; try discriminate; [auto|]. injection E as -> E. destruct (IH m E) as [-> E2]; [lia|]. auto. }
    f_equal; [apply Hc; assumption|apply IHl; assumption].
Qed.
Lemma leaves_text' y : tree_text y = flat_map snd (leaves y).
Proof.
  induction y as [k w|k cs IH] using tree_ind'; cbn [tree_text leaves flat_map snd]; [now rewrite app_nil_r|]. induction IH as [|c cs Hc _ IHl]; [reflexivity|]. cbn [flat_map]. now rewrite flat_map_app, Hc, IHl.
Qed.
Theorem renamed_doc err t x sel n : doc_tree err t x -> Forall (fun l => fst l <> K_Error) (lex err t) -> is_valid_variable_name n = true -> sound_sel sel x ->
  doc_tree err (tree_text (renamed_tree (QUESTION :: n) sel x)) (renamed_tree (QUESTION :: n) sel x).
Proof.
  intros D Hne Hn S. set (y := renamed_tree (QUESTION :: n) sel x). pose proof (renamed_trel n x sel S) as T. fold y in T.
  pose proof (trel_leaves _ _ _ T) as F. rewrite (doc_leaves _ _ _ D) in F. destruct (lex_renamed err n Hn t _ Hne F) as [_ E]. rewrite <- leaves_text' in E.
  destruct (doc_tree_rel (lex_resp n)) with (err := err) (t := t) (t' := tree_text y) (x := x) as (x' & D' & T').
  - intros a b [<-|[[Ha|Ha] ->]]; [left; reflexivity| |]; unfold lkind; rewrite Ha; [left; reflexivity|right; split; reflexivity].
  - exact D.
  - rewrite E. exact F.
  - assert (x' = y) as <-; [|exact D']. eapply trel_unique; [exact T'|exact T|]. rewrite (doc_leaves _ _ _ D'). exact E.
Qed.

(** ** its text *)
Definition shifted (n : text) (base : nat) (x : tree) (b : path) : cedit := mkcedit (base + chars_before x b) (base + chars_before x b + length (text_at x b)) (QUESTION :: n).
Definition from (base : nat) (es : list cedit) : Prop := match es with [] => True | e :: _ => base <= ci e /\ ci e <= cj e end.
Lemma splice_skip a rest base es : from (base + length a) es -> splice base (a ++ rest) es = a ++ splice (base + length a) rest es.
Proof.
  destruct es as [|e es]; [reflexivity|]. cbn [from splice]. intros [H1 H2]. rewrite firstn_app, skipn_app. rewrite (firstn_all2 a) by lia. rewrite (skipn_all2 a) by lia.
  cbn [app]. rewrite <- app_assoc. do 2 f_equal; [f_equal; lia|]. f_equal. f_equal. f_equal. lia.
Qed.
Definition leafy (x : tree) : Prop := forall p cs, at_path x p = Some (Node K_Var cs) -> Forall (fun c => vars_below c = []) cs.
Lemma leafy_child k cs i c : leafy (Node k cs) -> nth_error cs i = Some c -> leafy c.
Proof. intros H E p ds A. apply (H (i :: p)). cbn [at_path]. rewrite E. exact A. Qed.
Lemma filter_concat_imap (sel : path -> bool) (f : tree -> list path) cs : forall i,
  filter sel (concat (imap (fun i c => map (cons i) (f c)) i cs)) = concat (imap (fun i c => map (cons i) (filter (fun p => sel (i :: p)) (f c))) i cs).
Proof.
  induction cs as [|c cs IH]; intros i; [reflexivity|]. cbn [imap concat]. rewrite filter_app, IH. f_equal. induction (f c) as [|p l IHl]; [reflexivity|]. cbn [map filter].
  destruct (sel (i :: p)); cbn [map]; now rewrite IHl.
Qed.
Lemma from_app base a b : from base a -> from base b -> from base (a ++ b).
Proof. destruct a; cbn; auto. Qed.
Lemma from_weaken base base' es : base <= base' -> from base' es -> from base es.
Proof. destruct es; cbn; [auto|]. lia. Qed.
Lemma renamed_text n x : forall sel base rest es, leafy x -> from (base + length (tree_text x)) es ->
  splice base (tree_text x ++ rest) (map (shifted n base x) (filter sel (vars_below x)) ++ es) =
  tree_text (renamed_tree (QUESTION :: n) sel x) ++ splice (base + length (tree_text x)) rest es.
Proof.
  induction x as [k w|k cs IH] using tree_ind'; intros sel base rest es Hl Hes; cbn [vars_below renamed_tree].
  - cbn [filter map app]. apply splice_skip, Hes.
  - assert (forall ds pre base' es', cs = pre ++ ds -> base' = base + length (flat_map tree_text pre) -> from (base' + length (flat_map tree_text ds)) es' ->
      splice base' (flat_map tree_text ds ++ rest) (map (shifted n base (Node k cs)) (concat (imap (fun i c => map (cons i) (filter (fun p => sel (i :: p)) (vars_below c))) (length pre) ds)) ++ es') =
      flat_map tree_text (imap (fun i c => renamed_tree (QUESTION :: n) (fun p => sel (i :: p)) c) (length pre) ds) ++ splice (base' + length (flat_map tree_text ds)) rest es') as K.
    { induction ds as [|d ds IHd]; intros pre base' es' Ec Eb He; [cbn [flat_map imap concat map app length]; now rewrite Nat.add_0_r|].
      assert (nth_error cs (length pre) = Some d) as Ed by (rewrite Ec, nth_error_app2, Nat.sub_diag by lia; reflexivity).
      assert (firstn (length pre) cs = pre) as Ef by (rewrite Ec, firstn_app, Nat.sub_diag, firstn_all; cbn [firstn]; apply app_nil_r).
      cbn [flat_map imap concat]. rewrite map_app, <- !app_assoc, map_map.
      assert (map (fun p => shifted n base (Node k cs) (length pre :: p)) (filter (fun p => sel (length pre :: p)) (vars_below d)) =
              map (shifted n base' d) (filter (fun p => sel (length pre :: p)) (vars_below d))) as ->.
      { apply map_ext. intros p. unfold shifted, text_at. cbn [chars_before at_path]. rewrite Ed, Ef, Eb. f_equal; lia. }
      rewrite (nth_error_Forall _ _ _ _ IH Ed).
      - f_equal. specialize (IHd (pre ++ [d]) (base' + length (tree_text d)) es'). rewrite app_length in IHd. cbn [length] in IHd. rewrite Nat.add_1_r in IHd.
        etransitivity; [apply IHd|].
        + rewrite Ec, <- app_assoc. reflexivity.
        + rewrite flat_map_app, app_length. cbn [flat_map]. rewrite app_nil_r. lia.
        + cbn [flat_map] in He. rewrite app_length in He. rewrite <- Nat.add_assoc. exact He.
        + f_equal. f_equal. rewrite app_length. lia.
      - eapply leafy_child; [exact Hl|exact Ed].
      - apply from_app.
        + assert (firstn (S (length pre)) cs = pre ++ [d]) as Ef1.
          { rewrite Ec. replace (S (length pre)) with (length pre + 1) by lia. rewrite firstn_app_2. reflexivity. }
          assert (Forall (fun e => base' + length (tree_text d) <= ci e /\ ci e <= cj e)
            (map (shifted n base (Node k cs)) (concat (imap (fun i c => map (cons i) (filter (fun p => sel (i :: p)) (vars_below c))) (S (length pre)) ds)))) as Hf.
          { apply Forall_forall. intros e He'. apply in_map_iff in He' as (q & <- & Hq).
            assert (exists j q', q = (S (length pre) + j) :: q') as (j & q' & ->).
            { clear -Hq. revert Hq. generalize (S (length pre)). induction ds as [|e ds IH]; intros i Hq; [destruct Hq|]. cbn [imap concat] in Hq. apply in_app_or in Hq as [Hq|Hq].
              - apply in_map_iff in Hq as (p & <- & _). exists 0, p. f_equal. lia.
              - destruct (IH _ Hq) as (j & q' & ->). exists (S j), q'. f_equal. lia. }
            unfold shifted. cbn [ci cj chars_before]. split; [|lia].
            assert (length (flat_map tree_text (firstn (S (length pre)) cs)) <= length (flat_map tree_text (firstn (S (length pre) + j) cs))) as Hle.
            { rewrite <- (firstn_skipn (S (length pre)) (firstn (S (length pre) + j) cs)), flat_map_app, app_length, firstn_firstn, Nat.min_l by lia. lia. }
            rewrite Ef1, flat_map_app, app_length in Hle. cbn [flat_map] in Hle. rewrite app_nil_r in Hle. lia. }
          destruct (map _ _) as [|e es0]; [exact I|]. inversion Hf; subst. assumption.
        + eapply from_weaken; [|exact He]. cbn [flat_map]. rewrite app_length. lia. }
    specialize (K cs [] base es eq_refl). cbn [length flat_map] in K. rewrite Nat.add_0_r in K. specialize (K eq_refl Hes).
    destruct (kind_eqb_spec k K_Var) as [->|Hk]; cbn [andb].
    + assert (concat (imap (fun i c => map (cons i) (vars_below c)) 0 cs) = []) as Ev.
      { specialize (Hl [] cs eq_refl). clear -Hl. generalize 0. induction Hl as [|c ds Hc _ IHl]; intros i; [reflexivity|]. cbn [imap concat]. rewrite Hc. apply IHl. }
      rewrite Ev, app_nil_r. destruct (sel []) eqn:S.
      * cbn [filter]. rewrite S. cbn [map app splice tree_text flat_map]. unfold shifted, text_at. cbn [chars_before at_path ci cj cnew tree_text].
        rewrite !Nat.add_0_r, Nat.sub_diag. cbn [firstn app]. rewrite app_nil_r. replace (base + length (flat_map tree_text cs) - base) with (length (flat_map tree_text cs)) by lia.
        rewrite skipn_app, skipn_all, Nat.sub_diag. reflexivity.
      * cbn [filter]. rewrite S. rewrite <- filter_concat_imap, Ev in K. exact K.
    + cbn [app]. rewrite filter_concat_imap. cbn [tree_text]. exact K.
Qed.
