(** Pieces of tokens with comments between them. *)
From Coq Require Import String List Arith NArith Bool Lia Sorting.Permutation Sorting.Sorted.
Import ListNotations.
From Verif Require Import Kinds KindFacts ParserSyntax ParserModel TextModel TextSpec TextProofs TextEditProofs LexerModel LexerSpec FormatData FormatModel FormatChain FormatSpec FormatTree FormatPieces FormatWeave FormatParse FormatComments FormatArrange.

(** ** pieces, with a mark on the first of each token *)
Definition fpiece := (bool * piece)%type.
Definition unmark (F : list fpiece) : list piece := map snd F.
Definition ftexts (F : list fpiece) : text := texts (unmark F).
Definition flag_leaf (l : lexeme) : list fpiece := match leaf_pieces (fst l) (snd l) with p :: r => (true, p) :: map (pair false) r | [] => [] end.
Definition flagged (ls : list lexeme) : list fpiece := flat_map flag_leaf ls.
Definition fresh (F : list fpiece) : Prop := match F with (f, _) :: _ => f = true | [] => True end.
Definition tidy (F : list fpiece) : Prop := forall A f w B, F = A ++ (f, (Gap, w)) :: B -> f = true /\ fresh B.
Definition sturdy (F : list fpiece) : Prop := forall c p, In (true, (c, p)) F -> c <> Gap -> c <> Mid /\ exists x r, p = x :: r /\ ~ white x.
Lemma unmark_app A B : unmark (A ++ B) = unmark A ++ unmark B.
Proof. apply map_app. Qed.
Lemma ftexts_app A B : ftexts (A ++ B) = ftexts A ++ ftexts B.
Proof. unfold ftexts. rewrite unmark_app. apply texts_app. Qed.
Lemma unmark_leaf l : unmark (flag_leaf l) = leaf_pieces (fst l) (snd l).
Proof. unfold flag_leaf. destruct (leaf_pieces _ _) as [|p r]; [reflexivity|]. unfold unmark. cbn [map snd]. rewrite map_map. cbn. now rewrite map_id. Qed.
Lemma unmark_flagged ls : unmark (flagged ls) = flat_map (fun l => leaf_pieces (fst l) (snd l)) ls.
Proof. induction ls as [|l ls IH]; [reflexivity|]. unfold flagged in *. cbn [flat_map]. rewrite unmark_app, IH, unmark_leaf. reflexivity. Qed.
Lemma fresh_flagged ls : fresh (flagged ls).
Proof. induction ls as [|l ls IH]; [exact Logic.I|]. unfold flagged in *. cbn [flat_map]. unfold flag_leaf at 1. destruct (leaf_pieces _ _) as [|p r]; [exact IH|reflexivity]. Qed.
Lemma gap_leaf k w : (exists g, In (Gap, g) (leaf_pieces k w)) -> leaf_pieces k w = [(Gap, w)].
Proof.
  intros [g H]. unfold leaf_pieces in *. destruct (signed_kind k); [cbn in H; intuition discriminate|].
  destruct k; try reflexivity; try (destruct (existsb _ _) in H; cbn in H; intuition discriminate); cbn in H; intuition discriminate.
Qed.
Lemma tidy_flagged ls : tidy (flagged ls).
Proof.
  induction ls as [|l ls IH]; intros A f w B E; [destruct A; discriminate|]. unfold flagged in E. cbn [flat_map] in E. fold (flagged ls) in E. apply app_eq_app in E as (z & [[E1 E2]|[E1 E2]]).
  - destruct z as [|x z].
    + cbn [app] in E2. exact (IH [] f w B (eq_sym E2)).
    + injection E2 as <- ->. assert (H : exists g, In (Gap, g) (leaf_pieces (fst l) (snd l))) by (exists w; rewrite <- unmark_leaf, E1, unmark_app; apply in_app_iff; right; left; reflexivity).
      apply gap_leaf in H. unfold flag_leaf in E1. rewrite H in E1. cbn [map] in E1. destruct A as [|a A]; [|destruct A; discriminate]. cbn [app] in E1. injection E1 as <- _ <-. split; [reflexivity|]. apply fresh_flagged.
  - exact (IH z f w B E2).
Qed.
Lemma tidy_suffix A B : tidy (A ++ B) -> tidy B.
Proof. intros H X f w Y ->. apply (H (A ++ X) f w Y). now rewrite <- app_assoc. Qed.
Lemma sturdy_suffix A B : sturdy (A ++ B) -> sturdy B.
Proof. intros H c p Hin. apply H. apply in_app_iff. auto. Qed.

(** ** woven pieces with comments *)
(** [wovenc keep P Q cs out]: [out] are the pieces [P], followed by [Q], with blanks and the comments [cs] before the pieces; gaps are left out, or kept if [keep] *)
Inductive wovenc (keep : bool) : list fpiece -> list fpiece -> list text -> text -> Prop :=
| wc_end : forall Q cs b, filler cs b -> (fresh Q \/ cs = []) -> wovenc keep [] Q cs b
| wc_gap : forall f w P Q cs out, wovenc keep P Q cs out -> wovenc keep ((f, (Gap, w)) :: P) Q cs out
| wc_keep : forall f w P Q cs0 b cs out, keep = true -> filler cs0 b -> wovenc keep P Q cs out -> wovenc keep ((f, (Gap, w)) :: P) Q (cs0 ++ cs) (b ++ w ++ out)
| wc_piece : forall f c p b q P Q cs0 cs out, c <> Gap -> filler cs0 b -> (f = false -> cs0 = []) -> rep c p q -> wovenc keep P Q cs out -> wovenc keep ((f, (c, p)) :: P) Q (cs0 ++ cs) (b ++ q ++ out).
Lemma wovenc_filler keep cs b : filler cs b -> forall P Q ds v, wovenc keep P Q ds v -> tidy (P ++ Q) -> (fresh (P ++ Q) \/ cs = []) -> wovenc keep P Q (cs ++ ds) (b ++ v).
Proof.
  intros F P Q ds v H. induction H as [Q ds v G Hf|f w P Q ds v H IH|f w P Q cs0 b0 ds v K G H IH|f c p b0 q P Q cs0 ds v Hc G Hf R H IH]; intros T Fr.
  - constructor; [now apply filler_app|]. cbn [app] in Fr. destruct Fr as [Fr| ->]; [now left|exact Hf].
  - apply wc_gap. cbn [app] in T, Fr. destruct (T [] f w (P ++ Q) eq_refl) as [_ T']. apply IH; [exact (tidy_suffix [_] _ T)|]. destruct Fr; auto.
  - rewrite !app_assoc. rewrite <- (app_assoc (b ++ b0)). apply wc_keep; [exact K|now apply filler_app|exact H].
  - rewrite !app_assoc. rewrite <- (app_assoc (b ++ b0)). apply wc_piece; auto; [now apply filler_app|]. intros Ef. rewrite (Hf Ef), app_nil_r. cbn [app fresh] in Fr. destruct Fr as [Fr|Fr]; [congruence|exact Fr].
Qed.
Lemma wovenc_app keep P R Q ds v : forall cs u, wovenc keep P (Q ++ R) cs u -> wovenc keep Q R ds v -> tidy (P ++ Q ++ R) -> wovenc keep (P ++ Q) R (cs ++ ds) (u ++ v).
Proof.
  intros cs u H. remember (Q ++ R) as QR eqn:E. induction H as [S0 cs b G Hf|f w P S0 cs u H IH|f w P S0 cs0 b cs u K G H IH|f c p b q P S0 cs0 cs u Hc G Hf Rp H IH]; intros HQ T; subst S0; cbn [app] in *.
  - apply wovenc_filler; auto.
  - apply wc_gap. apply IH; auto. exact (tidy_suffix [_] _ T).
  - rewrite <- !app_assoc. apply wc_keep; auto. apply IH; auto. exact (tidy_suffix [_] _ T).
  - rewrite <- !app_assoc. apply wc_piece; auto. apply IH; auto. exact (tidy_suffix [_] _ T).
Qed.
Lemma wovenc_keep P Q cs u : wovenc false P Q cs u -> wovenc true P Q cs u.
Proof. induction 1; [apply wc_end|apply wc_gap|discriminate|apply wc_piece]; auto. Qed.
Lemma woven_gapsc keep run Q b : Forall is_gap (unmark run) -> blanks b -> wovenc keep run Q [] b.
Proof.
  induction run as [|[f [c w]] run IH]; intros H B; [constructor; [now apply blanks_filler|now right]|]. inversion H as [|? ? H1 H2]; subst. unfold is_gap in H1. cbn in H1. subst c. apply wc_gap. auto.
Qed.
Lemma good_wovenc keep run Q new : good (unmark run) new -> wovenc keep run Q [] new.
Proof.
  intros [[G B]|(c & p & b & q & E & Hc & Hb & -> & R)]; [now apply woven_gapsc|]. destruct run as [|[f x] [|]]; try discriminate. cbn in E. injection E as ->. rewrite <- (app_nil_r q). apply (wc_piece keep f c p b q [] Q [] []); auto; [now apply blanks_filler|]. constructor; [constructor|now right].
Qed.
Lemma fold_whites c : white (fold_char c) <-> white c.
Proof.
  unfold fold_char, upper, white. destruct (N.eqb_spec c 0x17F) as [->|]; [unfold char in *; lia|].
  destruct ((97 <=? c) && (c <=? 122))%N eqn:E; [|reflexivity]. apply andb_prop in E as [A B]. apply N.leb_le in A, B. unfold char in *. lia.
Qed.
(** a comment can be put in front *)
Lemma front P Q cs u : wovenc false P Q cs u -> tidy (P ++ Q) -> sturdy (P ++ Q) -> fresh (P ++ Q) ->
  exists cs0 b cs1 z, u = b ++ z /\ cs = cs0 ++ cs1 /\ filler cs0 b /\ opens_solid z /\ forall ds v, filler ds v -> wovenc false P Q (ds ++ cs1) (v ++ z).
Proof.
  intros H. induction H as [Q cs b G Hf|f w P Q cs u H IH|f w P Q cs0 b cs u K G H IH|f c p b q P Q cs0 cs u Hc G Hf R H IH]; intros T St Fr; cbn [app] in *.
  - exists cs, b, [], []. rewrite !app_nil_r. repeat (split; [now auto|]). split; [now left|]. intros ds v Hv. rewrite !app_nil_r. constructor; auto.
  - destruct (T [] f w (P ++ Q) eq_refl) as [_ T']. destruct (IH (tidy_suffix [_] _ T) (sturdy_suffix [_] _ St) T') as (cs0 & b & cs1 & z & E1 & E2 & H1 & H2 & H3). exists cs0, b, cs1, z. repeat (split; [assumption|]). intros ds v Hv. apply wc_gap. auto.
  - discriminate.
  - exists cs0, b, cs, (q ++ u). repeat (split; [now auto|]). cbn [fresh] in Fr. subst f. split.
    + destruct (St c p (or_introl eq_refl) Hc) as (Nm & x & r & -> & Hx). right. destruct c; cbn [rep] in R; try congruence.
      * destruct q as [|y q]; [discriminate|]. exists y, (q ++ u). split; [reflexivity|]. intros Hy. apply Hx. injection R as R _. apply fold_whites. rewrite R. apply fold_whites. exact Hy.
      * destruct R as [-> | ->]; eexists; eexists; (split; [reflexivity|]); [exact Hx|]. unfold white. lia.
      * destruct R as [-> | ->]; eexists; eexists; (split; [reflexivity|exact Hx]).
      * subst q. eexists; eexists; (split; [reflexivity|exact Hx]).
    + intros ds v Hv. apply wc_piece; auto. discriminate.
Qed.
