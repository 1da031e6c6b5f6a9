(** Formatting of documents with comments: the text of the formatted document. *)
From Coq Require Import String List Arith NArith Bool Lia Sorting.Permutation Sorting.Sorted.
Import ListNotations.
From Verif Require Import Kinds KindFacts ParserSyntax ParserModel TextModel TextSpec TextProofs TextEditProofs LexerModel LexerSpec FormatData FormatModel FormatChain FormatSpec FormatTree FormatPieces FormatWeave FormatParse FormatComments FormatArrange FormatWoven FormatMerged.

(** ** all groups *)
Lemma merge_groups_ok t ib F : blanks ib -> full F -> tidy F -> sturdy F -> forall gs gcs, Forall2 (Forall2 (edit_denotes t)) gs gcs -> Forall (fun g => g <> [] /\ linked g) gcs -> Forall (Forall (fun c => firm F c [])) gcs ->
  forall cs es rest, Forall (waits t F) cs -> merge_groups t ib gs cs = FDone (es, rest) ->
  exists ds css used, cs = used ++ rest /\ Forall2 (edit_denotes t) es ds /\ Forall2 (eok F) ds css /\ Forall2 (fun d g => ci d = cfirst g /\ cj d = clast g) ds gcs /\ Permutation (concat css) (map c_text used).
Proof.
  intros Hib N T St gs gcs H. induction H as [|g gc gs gcs D H IH]; intros G Fm cs es rest W M; cbn [merge_groups] in M.
  - injection M as <- <-. exists [], [], []. cbn. repeat (split; [now constructor|]). constructor.
  - inversion G as [|? ? [Hne L] G']; subst. inversion Fm as [|? ? Fg Fm']; subst.
    destruct (fuse_ok t g gc D L) as (e & Ee & De); [intros ->; inversion D; subst; congruence|]. rewrite Ee in M. cbn [fbind] in M.
    destruct (merge_group t ib g (rstart (erange e)) cs) as [[g' cs']| |] eqn:Mg; try discriminate. cbn [fbind] in M.
    assert (Fg' : Forall2 (firm F) gc (map (fun _ => []) gc)) by (clear -Fg; induction Fg; constructor; auto).
    assert (Es : rstart (erange e) = position_after (firstn (cfirst gc) t)) by (symmetry; apply De).
    destruct (merge_group_ok t ib F Hib N T St cs W g gc _ g' cs' _ D L Hne Fg' Es Mg) as (gc' & css' & used & Q1 & Q2 & Q3 & Q4 & Q5 & Q6 & Q7 & Q8).
    destruct (fuse_ok t g' gc' Q2 Q3) as (e' & Ee' & De'); [intros ->; inversion Q2; subst; congruence|]. rewrite Ee' in M. cbn [fbind] in M.
    destruct (merge_groups t ib gs cs') as [[es' rest']| |] eqn:Ms; try discriminate. cbn [fbind] in M. injection M as <- <-.
    assert (W' : Forall (waits t F) cs') by (subst cs; apply Forall_app in W; tauto).
    destruct (IH G' Fm' cs' es' rest' W' Ms) as (ds & css & used' & -> & D' & E' & R' & P'). exists (fusec gc' :: ds), (concat css' :: css), (used ++ used').
    split; [rewrite <- app_assoc; exact Q1|]. split; [constructor; assumption|]. split; [|split].
    + constructor; [|exact E']. apply fuse_eok; auto. clear -Q5. induction Q5; constructor; auto using firm_eok.
    + constructor; [|exact R']. unfold fusec. cbn [ci cj]. auto.
    + cbn [concat]. rewrite map_app, Q8, P'. replace (concat (map (fun _ : cedit => []) gc)) with (@nil text) by (clear; induction gc; auto). now rewrite app_nil_r.
Qed.

(** ** the text *)
Definition keptc (p : fpiece) : Prop := fst (snd p) <> Gap -> rep (fst (snd p)) (snd (snd p)) (snd (snd p)).
Lemma wovenc_kept z Q : Forall keptc z -> wovenc true z Q [] (ftexts z).
Proof.
  induction 1 as [|[f [c w]] z H F IH]; [constructor; [constructor|now right]|]. change (ftexts ((f, (c, w)) :: z)) with (w ++ ftexts z). unfold keptc in H. cbn [fst snd] in H.
  destruct c; [exact (wc_keep true f w z Q [] [] [] _ eq_refl nothing IH)|..]; match goal with |- wovenc true ((_, (?c, _)) :: _) _ _ _ => exact (wc_piece true f c w [] w z Q [] [] _ ltac:(discriminate) nothing (fun _ => eq_refl) (H ltac:(discriminate)) IH) end.
Qed.
Lemma weavec F ds css : full F -> tidy F -> Forall keptc F -> Forall2 (eok F) ds css -> StronglySorted (fun x y => cj x <= ci y) ds ->
  forall at_ F0 F1, F = F0 ++ F1 -> at_ = length (ftexts F0) -> match ds with c :: _ => at_ <= ci c | [] => True end -> wovenc true F1 [] (concat css) (splice at_ (ftexts F1) ds).
Proof.
  intros N T K H. induction H as [|c cs ds css (G1 & run & G2 & (R1 & R2 & R3) & W) H IH]; intros S at_ F0 F1 E Ea Hc.
  - cbn [splice concat]. apply wovenc_kept. subst F. apply Forall_app in K. tauto.
  - apply StronglySorted_inv in S as [S SF]. destruct (full_prefix F F0 F1 G1 (run ++ G2) N E R1) as (z & -> & ->); [lia|].
    cbn [splice concat]. rewrite R2, R3. rewrite !ftexts_app, !app_length. subst at_.
    replace (length (ftexts F0) + length (ftexts z) - length (ftexts F0)) with (length (ftexts z)) by lia.
    replace (length (ftexts F0) + length (ftexts z) + length (ftexts run) - length (ftexts F0)) with (length (ftexts z ++ ftexts run)) by (rewrite app_length; lia).
    rewrite firstn_app, firstn_all, Nat.sub_diag, firstn_O, app_nil_r.
    replace (skipn (length (ftexts z ++ ftexts run)) (ftexts z ++ ftexts run ++ ftexts G2)) with (ftexts G2) by (rewrite app_assoc, skipn_app, skipn_all, Nat.sub_diag; reflexivity).
    assert (Kz : Forall keptc z) by (rewrite R1, !Forall_app in K; tauto).
    assert (T0 : tidy (z ++ run ++ G2)) by (apply (tidy_suffix F0); rewrite <- E; exact T).
    change (cs ++ concat css) with ([] ++ cs ++ concat css). apply wovenc_app; [now apply wovenc_kept| |rewrite app_nil_r; exact T0].
    apply wovenc_app; [rewrite app_nil_r; now apply wovenc_keep| |rewrite app_nil_r; apply (tidy_suffix z); exact T0].
    apply (IH S _ ((F0 ++ z) ++ run)).
    + rewrite R1, <- !app_assoc. reflexivity.
    + rewrite !ftexts_app, !app_length. lia.
    + destruct ds as [|d ds]; [exact Logic.I|]. inversion SF; subst. rewrite R3 in *. rewrite !ftexts_app, !app_length in *. lia.
Qed.

(** ** pieces back to tokens *)
Lemma filler_none b : filler [] b -> blanks b.
Proof. intros H. remember (@nil text) as cs eqn:E. induction H as [|c cs v Hc H IH|w cs v Hw H IH]; [constructor|constructor; [exact Hc|exact (IH E)]|discriminate]. Qed.
Lemma arranged_filler ds v : filler ds v -> forall ls cs out, arranged ls cs out -> arranged ls (ds ++ cs) (v ++ out).
Proof.
  intros F ls cs out H. induction H; [constructor; now apply filler_app|constructor; assumption|constructor; assumption|]. rewrite !app_assoc, <- (app_assoc (v ++ b)). constructor; auto. now apply filler_app.
Qed.
Lemma wovenc_inv f c p P Q cs out : wovenc true ((f, (c, p)) :: P) Q cs out -> c <> Gap ->
  exists b q out' cs0 cs', out = b ++ q ++ out' /\ cs = cs0 ++ cs' /\ filler cs0 b /\ (f = false -> cs0 = []) /\ rep c p q /\ wovenc true P Q cs' out'.
Proof. intros H Hc. inversion H; subst; try congruence. eauto 12. Qed.
Lemma wovenc_gap_inv f w P Q cs out : wovenc true ((f, (Gap, w)) :: P) Q cs out ->
  wovenc true P Q cs out \/ exists b out' cs0 cs', out = b ++ w ++ out' /\ cs = cs0 ++ cs' /\ filler cs0 b /\ wovenc true P Q cs' out'.
Proof. intros H. inversion H; subst; try congruence; [now left|]. right. eauto 12. Qed.
Lemma two_words_arranged k n w P cs out ls : In k two_words -> two_word_shape n w -> k <> K_WHITESPACE -> (forall cs out, wovenc true P [] cs out -> arranged ls cs out) ->
  wovenc true (match split_words n w with p :: r => (true, p) :: map (pair false) r | [] => [] end ++ P) [] cs out -> arranged ((k, w) :: ls) cs out.
Proof.
  intros Hk Hn Hw IH H. destruct (two_word_split _ _ Hn) as (m & E & Hm & Wm & Ew & _). rewrite E in H. cbn [app map] in H.
  apply wovenc_inv in H as (b1 & x & o1 & c1 & d1 & -> & -> & B1 & _ & R1 & H); [|discriminate].
  apply wovenc_inv in H as (b2 & m' & o2 & c2 & d2 & -> & -> & B2 & N2 & [R2 R2'] & H); [|discriminate]. specialize (N2 eq_refl); subst c2. apply filler_none in B2.
  apply wovenc_inv in H as (b3 & y & o3 & c3 & d3 & -> & -> & B3 & N3 & R3 & H); [|discriminate]. specialize (N3 eq_refl); subst c3. apply filler_none in B3. change (c1 ++ [] ++ [] ++ d3) with (c1 ++ d3).
  replace (b1 ++ x ++ b2 ++ m' ++ b3 ++ y ++ o3) with (b1 ++ (x ++ (b2 ++ m' ++ b3) ++ y) ++ o3) by (rewrite <- !app_assoc; reflexivity).
  apply arr_next; [exact Hw|exact B1| |auto]. rewrite Ew. apply words; auto.
  - intros Q. apply app_eq_nil in Q as [_ Q]. apply app_eq_nil in Q as [Q _]. contradiction.
  - apply Forall_app. split; [now apply blanks_white|]. apply Forall_app. split; [exact R2'|now apply blanks_white].
Qed.
Lemma wovenc_arranged ls : Forall (fun l => shape (fst l) (snd l)) ls -> forall cs out, wovenc true (flagged ls) [] cs out -> arranged ls cs out.
Proof.
  induction ls as [|[k w] ls IH]; intros F cs out H; [inversion H; subst; now constructor|]. inversion F as [|? ? Sh F']; subst. specialize (IH F'). cbn [fst snd] in Sh. unfold flagged in H. cbn [flat_map] in H. fold (flagged ls) in H. unfold flag_leaf in H. cbn [fst snd] in H.
  destruct Sh as (_ & _ & _ & Hs & Hk). destruct (signed_kind k) eqn:S.
  - unfold leaf_pieces in H. rewrite S in H. destruct (Hs eq_refl) as (c & r & -> & Hr & _). cbn [firstn skipn app map] in H.
    apply wovenc_inv in H as (b1 & x & o1 & c1 & d1 & -> & -> & B1 & _ & R1 & H); [|discriminate]. apply wovenc_inv in H as (b2 & y & o2 & c2 & d2 & -> & -> & B2 & N2 & R2 & H); [|discriminate]. specialize (N2 eq_refl); subst c2. apply filler_none in B2.
    cbn in R1, R2. subst x y. replace (b1 ++ [c] ++ b2 ++ r ++ o2) with (b1 ++ (c :: b2 ++ r) ++ o2) by (cbn; rewrite <- !app_assoc; reflexivity). change (c1 ++ [] ++ d2) with (c1 ++ d2).
    apply arr_next; [intros ->; discriminate|exact B1| |auto]. apply after_sign; [|exact B2]. destruct k; try discriminate; cbn; tauto.
  - assert (One : forall c, c <> Gap -> (forall q, rep c w q -> exists w' b', q = w' ++ b' /\ respelled k w w' /\ blanks b') -> k <> K_WHITESPACE -> wovenc true ((true, (c, w)) :: flagged ls) [] cs out -> arranged ((k, w) :: ls) cs out).
    { intros c Hc Hq Hw HW. apply wovenc_inv in HW as (b & q & o & c1 & d1 & -> & -> & B & _ & R & HW); [|exact Hc]. destruct (Hq q R) as (w' & b' & -> & R' & B'). rewrite <- (app_assoc w').
      constructor; auto. change d1 with ([] ++ d1). apply arranged_filler; [now apply blanks_filler|auto]. }
    assert (Two : forall n, In k two_words -> two_word_shape n w -> k <> K_WHITESPACE -> wovenc true (match split_words n w with p :: r => (true, p) :: map (pair false) r | [] => [] end ++ flagged ls) [] cs out -> arranged ((k, w) :: ls) cs out).
    { intros n H1 H2 H3. apply (two_words_arranged _ _ _ _ _ _ _ H1 H2 H3 IH). }
    assert (Other : k <> K_WHITESPACE -> wovenc true ((true, (if existsb (kind_eqb k) any_case then Case else Fix, w)) :: flagged ls) [] cs out -> arranged ((k, w) :: ls) cs out).
    { intros Hw. apply One; [destruct (existsb _ _); discriminate| |exact Hw]. intros q R. exists q, []. rewrite app_nil_r. split; [reflexivity|]. split; [|constructor].
      destruct (existsb (kind_eqb k) any_case) eqn:A; cbn in R; [apply other_case; [now apply any_case_In|exact R]|subst q; constructor]. }
    destruct (kind_eqb k K_WHITESPACE) eqn:KW.
    { apply kind_eqb_eq in KW. subst k. cbn in Hk. cbn [leaf_pieces signed_kind map app] in H. apply wovenc_gap_inv in H as [H|(b & o & c1 & d1 & -> & -> & B & H)]; [constructor; auto|]. constructor. rewrite app_assoc. apply arranged_filler; [|auto]. rewrite <- (app_nil_r c1). apply filler_app; [exact B|now apply blanks_filler]. }
    assert (Hw : k <> K_WHITESPACE) by (intros ->; discriminate).
    destruct (leaf_cases k S) as [E|E]; [rewrite E in H; exact (Other Hw H)|]. clear Other.
    destruct E as [<-|[<-|[<-|[<-|[<-|[<-|[<-|[]]]]]]]]; try congruence; try (apply proj1 in Hk; eapply Two; try eassumption; cbn; tauto).
    + cbn [leaf_pieces signed_kind map app] in H. apply wovenc_gap_inv in H as [H|(b & o & c1 & d1 & -> & -> & B & H)]; [apply arr_moved; auto|]. apply arr_next; auto. constructor.
    + eapply One; try exact H; try discriminate. intros q R. cbn in R. exists q, []. rewrite app_nil_r. split; [reflexivity|]. split; [|constructor]. destruct R as [-> | ->]; [constructor|].
      destruct Hk as (m & -> & Hm). now apply brackets.
    + eapply One; try exact H; try discriminate. intros q R. cbn in R. exists w. destruct R as [-> | ->]; [exists []; rewrite app_nil_r|exists sp]; (split; [reflexivity|split; [constructor|]]); [constructor|apply blanks_sp].
Qed.

(** ** the pieces of a document *)
Section pieces.
Context (ls : list lexeme) (Sh : Forall (fun l => shape (fst l) (snd l)) ls).
Lemma flag_text l : shape (fst l) (snd l) -> ftexts (flag_leaf l) = snd l.
Proof. intros H. unfold ftexts. rewrite unmark_leaf. now apply leaf_text. Qed.
Lemma flagged_text l : Forall (fun l => shape (fst l) (snd l)) l -> ftexts (flagged l) = ltext l.
Proof. induction 1 as [|x l H F IH]; [reflexivity|]. unfold flagged, ltext in *. cbn [flat_map]. rewrite ftexts_app, IH, flag_text by exact H. reflexivity. Qed.
Lemma leaf_tree l : pieces (Tok (fst l) (snd l)) = unmark (flag_leaf l).
Proof. now rewrite unmark_leaf. Qed.
Lemma flagged_full : full (flagged ls).
Proof.
  unfold full, flagged. apply Forall_flat_map. eapply Forall_impl; [|exact Sh]. intros l H. pose proof (pieces_nonempty (Tok (fst l) (snd l)) H) as P. rewrite leaf_tree in P. unfold unmark in P. now rewrite Forall_map in P.
Qed.
Lemma flagged_kept : Forall keptc (flagged ls).
Proof.
  unfold flagged. apply Forall_flat_map. eapply Forall_impl; [|exact Sh]. intros [k w] H. cbn [fst snd] in H.
  destruct (kind_eqb k K_Comment) eqn:E; [apply kind_eqb_eq in E; subst k; constructor; [intros X; cbn in X; congruence|constructor]|].
  assert (Q : quiet (Tok k w)) by (constructor; [cbn; intros ->; discriminate|constructor]). pose proof (kept_pieces (Tok k w) H Q) as P. change (Tok k w) with (Tok (fst (k, w)) (snd (k, w))) in P. rewrite leaf_tree in P. unfold unmark in P. rewrite Forall_map in P.
  eapply Forall_impl; [|exact P]. intros [f [c p]] Hk. unfold kept, keptc in *. cbn [fst snd] in *. intros Hc. destruct c; congruence || exact Hk.
Qed.
Definition solid_leaf (l : lexeme) : Prop := fst l <> K_WHITESPACE -> exists x r, snd l = x :: r /\ ~ white x.
Lemma flagged_sturdy : Forall solid_leaf ls -> sturdy (flagged ls).
Proof.
  intros So c p Hin Hc. unfold flagged in Hin. apply in_flat_map in Hin as ([k w] & Hl & Hin). rewrite Forall_forall in So, Sh. specialize (So _ Hl). specialize (Sh _ Hl). unfold solid_leaf in So. cbn [fst snd] in *.
  unfold flag_leaf in Hin. cbn [fst snd] in Hin. destruct (leaf_pieces k w) as [|q r] eqn:E; [destruct Hin|]. destruct Hin as [Hin|Hin]; [|apply in_map_iff in Hin as (? & ? & _); discriminate]. injection Hin as ->.
  assert (K : k <> K_WHITESPACE) by (intros ->; cbn in E; injection E as <- _ _; congruence). destruct (So K) as (x & r0 & -> & Hx).
  destruct (signed_kind k) eqn:Sk; [unfold leaf_pieces in E; rewrite Sk in E; injection E as <- <- _; split; [discriminate|]; cbn; eauto|].
  destruct (leaf_cases k Sk) as [Ek|Ek]; [rewrite Ek in E; remember (if existsb (kind_eqb k) any_case then Case else Fix) as c0 eqn:E0; injection E as <- <- _; split; [rewrite E0; destruct (existsb (kind_eqb k) any_case); discriminate|eauto]|].
  destruct Ek as [<-|[<-|[<-|[<-|[<-|[<-|[<-|[]]]]]]]]; try congruence; (unfold leaf_pieces in E; rewrite Sk in E; unfold split_words in E; injection E as <- <- _; first [congruence|split; [discriminate|cbn [firstn]; eauto]]).
Qed.
Lemma flagged_place t n : ltext ls = t -> n <= length t -> edge ls (byte_len (firstn n t)) -> place (flagged ls) n.
Proof.
  intros Et Hn (l1 & l2 & E & B). exists (flagged l1), (flagged l2). split; [rewrite E; unfold flagged; apply flat_map_app|]. split; [|apply fresh_flagged].
  rewrite E, Forall_app in Sh. rewrite flagged_text by apply Sh. assert (Ef : firstn n t = ltext l1).
  { eapply byte_len_app_inj with (y := skipn n t) (y' := ltext l2); [rewrite firstn_skipn, <- Et, E, ltext_app; reflexivity|exact B]. }
  rewrite <- Ef, firstn_length. lia.
Qed.
Lemma flagged_firm P c : P = unmark (flagged ls) -> ctyped P c -> firm (flagged ls) c [].
Proof.
  intros -> (p1 & run & p2 & E & Hi & Hj & G). unfold unmark in E. apply map_eq_app in E as (F1 & R & EF & E1 & E2). apply map_eq_app in E2 as (Fr & F2 & ER & E2 & E3). subst R.
  exists F1, Fr, F2. split; [|split; [apply good_wovenc; unfold unmark; rewrite E2; exact G|left; unfold unmark; rewrite E2; exact G]]. split; [exact EF|]. unfold ftexts. rewrite unmark_app. unfold unmark. rewrite E1, E2. auto.
Qed.
End pieces.

(** ** the groups of edits *)
Lemma edits_groups es t : es <> [] -> pw scompat es -> Forall (fun e => exists c, sdenotes t e c) es ->
  exists ts A cs acc gs, transform_edits es t = FDone ts /\ consolidate_edits (sort_edits ts) = rev acc /\ groups_ok t acc gs /\ Permutation es A /\ Forall2 (sdenotes t) A cs /\ (forall c, In c (concat gs) -> In c cs) /\ chain 0 (length t) (concat gs).
Proof.
  intros Hne P F. destruct (transform_edits_ok es t Hne P F) as (A & ts & cs & PA & HT & FA & FT).
  assert (Pc : pw ccompat cs).
  { assert (PA' : pw scompat A) by (eapply pw_perm; [|exact PA|exact P]; unfold scompat; intros; lia). clear -FA PA'.
    induction FA as [|e c A cs D FA IH]; [exact Logic.I|]. destruct PA' as [P1 P2]. split; [|auto]. clear IH P2.
    induction FA as [|f d A cs D' FA IH]; [constructor|]. inversion P1; subst. constructor; [eapply scompat_ccompat; eauto|auto]. }
  destruct (sort_edits_chain t ts cs FT Pc) as (cl & Pcl & Fcl & Scl).
  destruct (consolidate_ok t (sort_edits ts) cl Fcl Scl [] []) as (gs & Hgs & Hcat); [repeat constructor|discriminate|].
  rewrite app_nil_r in Hcat. exists ts, A, cs, (fold_left consolidate_step (sort_edits ts) []), gs. repeat (split; [assumption || reflexivity|]).
  assert (S2 : StronglySorted (fun x y => cj x <= ci y) (rev cl)) by (apply sorted_rev with (R := fun x y => cj y <= ci x); exact Scl).
  split.
  - intros c Hc. rewrite Hcat in Hc. apply in_rev, filter_In in Hc as [Hc _]. eapply Permutation_in; [apply Permutation_sym; exact Pcl|exact Hc].
  - rewrite Hcat. replace (rev (filter (fun c => negb (cempty c)) cl)) with (filter (fun c => negb (cempty c)) (rev cl)) by apply filter_rev. split.
    + apply Forall_forall. intros x Hx. apply filter_In in Hx as [Hx _]. apply in_rev in Hx. clear -Fcl Hx. induction Fcl as [|e c l cl D Fcl IH]; [destruct Hx|]. destruct Hx as [<-|Hx]; [|auto]. destruct D as ((D1 & D2) & _). unfold ordered. lia.
    + clear -S2. induction S2 as [|x l H IH Fx]; cbn [filter]; [constructor|]. destruct (cempty x); cbn [negb]; [exact IH|]. constructor; [exact IH|].
      apply Forall_forall. intros y Hy. apply filter_In in Hy as [Hy _]. rewrite Forall_forall in Fx. auto.
Qed.
Lemma same_ranges ds : forall gs, Forall2 (fun d g => ci d = cfirst g /\ cj d = clast g) ds gs -> StronglySorted cgap (map fusec gs) -> StronglySorted cgap ds.
Proof.
  intros gs H. induction H as [|d g ds gs [H1 H2] H IH]; intros S; [constructor|]. cbn [map] in S. apply StronglySorted_inv in S as [S SF]. constructor; [auto|]. clear IH S.
  induction H as [|d' g' ds gs [H3 H4] H IH]; [constructor|]. cbn [map] in SF. inversion SF as [|? ? S1 S2]; subst. constructor; [|auto]. unfold cgap, fusec in *. cbn [ci cj] in *. lia.
Qed.
Lemma free_leaves x : forall k w, In w (free_under k x) -> In (K_Comment, w) (leaves x).
Proof.
  induction x as [k' w'|k' cs IH] using tree_ind'; intros k w H; cbn [free_under leaves] in *.
  - destruct (kind_eqb k' K_Comment) eqn:E; [|destruct H]. apply kind_eqb_eq in E. subst k'. destruct (negb _); [|destruct H]. destruct H as [->|[]]. left. reflexivity.
  - apply in_flat_map in H as (c & Hc & H). apply in_flat_map. exists c. split; [exact Hc|]. rewrite Forall_forall in IH. exact (IH c Hc k' w H).
Qed.

(** ** a tree with comments *)
(** the edits for a comment that stands in front of all other edits *)
Definition leftover (ib : text) (c : comment) : list text_edit := [mkedit (mkrange (mkpos 0 0) (mkpos 0 0)) nl; mkedit (mkrange (c_pos c) (c_pos c)) (comment_text ib c)].
Theorem format_comments width s o k cs es : let root := Node k cs in let t := tree_text root in unit_kind k = true -> wf true root -> shapes root ->
  Forall solid_leaf (leaves root) -> Forall (fun l => fst l = K_Comment -> is_comment (snd l)) (leaves root) -> format_document width s o t root = FDone es ->
  exists es0 rest ds placed, es = es0 ++ flat_map (leftover (indent_string s o)) rest /\ Forall2 (edit_denotes t) (rev es0) ds /\ StronglySorted cgap ds /\
    arranged (leaves root) placed (splice 0 t ds) /\ Permutation (map c_text rest ++ placed) (free_comments root).
Proof.
  intros root t U W S So Cm H. set (ib := indent_string s o) in *. assert (Hib := indent_blank s o : blanks ib). unfold format_document in H. fold ib in H.
  set (es1 := all_edits width s ib root) in *. change es1 with (edits width s ib root 0 [] 0) in *.
  assert (Lay : laid 0 (pieces root) es1).
  { split; [apply (tree_fine width s ib Hib root true 0 [] 0 W)|apply (tree_typed width s ib Hib root true 0 [] 0 W)]; auto. }
  assert (Hne : es1 <> []) by now apply root_edit.
  set (es' := if keep_empty_lines s then merge_empty_lines es1 (all_empty_lines root) else es1) in *.
  assert (Lay' : laid 0 (pieces root) es' /\ es' <> []).
  { unfold es'. destruct (keep_empty_lines s); [|auto]. destruct (merge_empty_lines_laid 0 (pieces root) es1 (all_empty_lines root) Lay) as [H1 H2]. auto. }
  destruct Lay' as [[P T] Hne'].
  assert (Et : texts (pieces root) = t) by now apply pieces_text.
  assert (D : Forall (fun e => exists c, sdenotes t e c) es').
  { eapply Forall_impl; [|exact T]. intros e He. destruct (typed_denotes t _ e Et He) as (c & Hc & _). eauto. }
  change (fbind (transform_comments (all_comments s root) t) (fun comments => fbind (transform_edits es' t) (fun edits => merge_comments t ib (consolidate_edits (sort_edits edits)) comments)) = FDone es) in H.
  destruct (transform_comments (all_comments s root) t) as [cms| |] eqn:Tc; try discriminate. cbn [fbind] in H.
  destruct (edits_groups es' t Hne' P D) as (ts & A & cds & acc & gs & H1 & H2 & (G1 & G2 & G3) & H4 & H5 & H6 & H7). rewrite H1 in H. cbn [fbind] in H. rewrite H2 in H.
  unfold merge_comments in H. destruct (merge_groups t ib (rev acc) (rev cms)) as [[es0 rest]| |] eqn:M; try discriminate. cbn [fbind] in H. injection H as H.
  set (F := flagged (leaves root)). assert (Sh := proj1 (shapes_leaves root) S).
  assert (EF : unmark F = pieces root) by (unfold F; rewrite unmark_flagged, pieces_leaves; reflexivity).
  assert (Tx : ftexts F = t) by (unfold ftexts; now rewrite EF).
  assert (N : full F) by now apply flagged_full. assert (Td : tidy F) by apply tidy_flagged. assert (Sd : sturdy F) by now apply flagged_sturdy.
  assert (Ct : Forall (fun c => firm F c []) cds).
  { rewrite H4 in T. clear -H5 T Et EF. induction H5 as [|e c A cds He H5 IH]; [constructor|]. inversion T as [|? ? Te T']; subst. constructor; [|auto].
    destruct (typed_denotes t _ e Et Te) as (c' & Hd & Hc). rewrite (sdenotes_unique _ _ _ _ He Hd). eapply flagged_firm; [symmetry; exact EF|exact Hc]. }
  assert (Fg : Forall (Forall (fun c => firm F c [])) (rev gs)).
  { apply Forall_rev, Forall_forall. intros g Hg. apply Forall_forall. intros c Hc. rewrite Forall_forall in Ct. apply Ct, H6. apply in_concat. eauto. }
  (* the comments *)
  destruct (positions t _ _ Tc) as (ms & ns & Pm & Ln & Fc).
  assert (Tk : Permutation (map sc_text (all_comments s root)) (free_comments root)) by exact (taken s root true 0 [] 0 K_Error W eq_refl).
  assert (Ed : Forall (fun m => edge (leaves root) (sc_pos m)) (all_comments s root)).
  { pose proof (edges s root [] [] 0 [] 0 eq_refl) as E. cbn [app] in E. rewrite app_nil_r in E. exact E. }
  assert (Cx : map c_text cms = map sc_text ms).
  { clear -Fc Ln. revert ns Ln Fc. revert ms. induction cms as [|c cms IH]; intros ms ns Ln Fc; destruct ns as [|n ns]; try discriminate; inversion Fc as [|m x ms' l' Hm Fc']; subst; [reflexivity|]. cbn [map]. f_equal; [apply Hm|]. apply (IH _ ns); [cbn in Ln; lia|exact Fc']. }
  assert (Wt : Forall (waits t F) cms).
  { rewrite Pm in Ed; rewrite Pm in Tk. assert (Iq : Forall (fun m => is_comment (sc_text m)) ms).
    { apply Forall_forall. intros m Hm. rewrite Forall_forall in Cm. apply (Cm (K_Comment, sc_text m)); [|reflexivity]. apply (free_leaves root K_Error). eapply Permutation_in; [exact Tk|]. now apply in_map. }
    assert (Lt : ltext (leaves root) = t) by apply tree_leaves.
    clear -Fc Ln Ed Iq Sh Lt. revert ns Ln Fc Ed Iq. revert ms. induction cms as [|c cms IH]; intros ms ns Ln Fc Ed Iq; destruct ns as [|n ns]; try discriminate; [constructor|]. inversion Fc as [|m x ms' l' (Q1 & Q2 & Q3 & Q4) Fc']; subst. inversion Ed as [|? ? E1 Ed']; subst. inversion Iq as [|? ? I1 Iq']; subst. cbn [fst snd] in *. constructor; [|apply (IH ms' ns); auto].
    split; [rewrite Q1; exact I1|]. exists n. split; [exact Q2|]. split; [exact Q4|]. apply (flagged_place (leaves root) Sh (tree_text root)); auto. fold t. rewrite Q3. exact E1. }
  destruct (merge_groups_ok t ib F Hib N Td Sd (rev acc) (rev gs) (Forall2_rev' _ _ _ G1) (Forall_rev G2) Fg (rev cms) es0 rest (Forall_rev Wt) M) as (ds & css & used & E1 & E2 & E3 & E4 & E5).
  exists es0, rest, (rev ds), (concat (rev css)). split; [symmetry; exact H|]. split; [now apply Forall2_rev'|].
  assert (Sg : StronglySorted cgap (rev ds)). { apply (same_ranges (rev ds) gs); [rewrite <- (rev_involutive gs); now apply Forall2_rev'|]. eapply separated_before; eauto. }
  split; [exact Sg|]. split.
  - apply wovenc_arranged; [exact Sh|]. fold F. rewrite <- Tx. apply (weavec F (rev ds) (rev css) N Td (flagged_kept _ Sh)) with (F0 := []); auto.
    + now apply Forall2_rev'.
    + clear -Sg. induction Sg as [|x l Sg IH Fx]; constructor; auto. eapply Forall_impl; [|exact Fx]. unfold cgap. intros y. cbn beta. lia.
    + destruct (rev ds); [exact Logic.I|lia].
  - rewrite <- Tk, Pm, <- Cx. rewrite (Permutation_rev cms) at 1. rewrite E1, map_app.
    transitivity (map c_text rest ++ map c_text used); [apply Permutation_app_head|apply Permutation_app_comm]. rewrite <- E5. clear. induction css as [|a css IH]; [constructor|]. cbn [rev concat]. rewrite concat_app. cbn [concat]. rewrite app_nil_r, IH. apply Permutation_app_comm.
Qed.
