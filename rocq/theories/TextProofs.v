From Coq Require Import List Arith NArith Lia Bool Permutation Sorted.
Import ListNotations.
From Verif Require Import TextModel TextSpec.

#[global] Arguments utf16_len : simpl never.
(** ** basic facts *)
Lemma len_utf8_pos c : 1 <= len_utf8 c.
Proof. unfold len_utf8. repeat destruct (_ <? _)%N; lia. Qed.
Lemma len_utf16_pos c : 1 <= len_utf16 c.
Proof. unfold len_utf16. destruct (_ <? _)%N; lia. Qed.

Lemma byte_len_app a b : byte_len (a ++ b) = byte_len a + byte_len b.
Proof. induction a as [|c a IH]; cbn; [reflexivity|rewrite IH; lia]. Qed.

Lemma split_byte_app x y : split_byte (x ++ y) (byte_len x) = Some (x, y).
Proof.
  induction x as [|c x IH]; cbn [app byte_len].
  - destruct y; reflexivity.
  - pose proof (len_utf8_pos c). destruct (len_utf8 c + byte_len x) eqn:E; [lia|].
    cbn [split_byte]. destruct (Nat.ltb_spec (S n) (len_utf8 c)); [lia|].
    replace (S n - len_utf8 c) with (byte_len x) by lia. now rewrite IH.
Qed.
Lemma split_byte_sound t b x y : split_byte t b = Some (x, y) -> t = x ++ y /\ b = byte_len x.
Proof.
  revert b x y; induction t as [|c t IH]; intros b x y H; destruct b as [|b].
  - inversion H; subst; auto.
  - discriminate H.
  - inversion H; subst; auto.
  - cbn [split_byte] in H. destruct (Nat.ltb_spec (S b) (len_utf8 c)); [discriminate H|].
    destruct (split_byte t (S b - len_utf8 c)) as [[x' y']|] eqn:E; [|discriminate H].
    inversion H; subst. apply IH in E as [-> E]. split; [reflexivity|]. cbn [byte_len]. lia.
Qed.

Lemma replace_range_app x m y w :
  replace_range (x ++ m ++ y) (byte_len x) (byte_len x + byte_len m) w = Some (x ++ w ++ y).
Proof.
  unfold replace_range. destruct (Nat.ltb_spec (byte_len x + byte_len m) (byte_len x)); [lia|].
  rewrite split_byte_app. rewrite <- byte_len_app, app_assoc, split_byte_app. reflexivity.
Qed.

(** ** position order *)
Lemma pos_eqb_eq p q : pos_eqb p q = true <-> p = q.
Proof.
  unfold pos_eqb. destruct p, q; cbn. rewrite andb_true_iff, !Nat.eqb_eq.
  split; [intros [-> ->]; reflexivity | intros H; injection H; auto].
Qed.
Lemma pos_eqb_refl p : pos_eqb p p = true.
Proof. now apply pos_eqb_eq. Qed.
Lemma pos_eqb_neq p q : pos_eqb p q = false <-> p <> q.
Proof.
  rewrite <- pos_eqb_eq. destruct (pos_eqb p q); split; congruence.
Qed.

Lemma pos_ltb_lt p q : pos_ltb p q = true <-> pos_lt p q.
Proof.
  unfold pos_ltb, pos_cmp, pos_lt. destruct p as [l c], q as [l' c']; cbn.
  destruct (Nat.compare_spec l l'); [destruct (Nat.compare_spec c c')| |];
    split; intros; try discriminate; try lia; auto.
Qed.
Lemma pos_leb_le p q : pos_leb p q = true <-> pos_le p q.
Proof.
  unfold pos_leb, pos_cmp, pos_le, pos_lt. destruct p as [l c], q as [l' c']; cbn.
  destruct (Nat.compare_spec l l'); [destruct (Nat.compare_spec c c')| |];
    split; intros; try discriminate; subst; auto;
    match goal with H : _ \/ _ |- _ => destruct H as [H|H]; [lia|injection H; lia] end.
Qed.
Lemma pos_lt_irrefl p : ~ pos_lt p p.
Proof. unfold pos_lt; lia. Qed.
Lemma pos_lt_trans p q r : pos_lt p q -> pos_lt q r -> pos_lt p r.
Proof. unfold pos_lt; lia. Qed.
Lemma pos_le_refl p : pos_le p p.
Proof. right; reflexivity. Qed.
Lemma pos_le_trans p q r : pos_le p q -> pos_le q r -> pos_le p r.
Proof. unfold pos_le; intros [H|<-] [H'|<-]; auto; left; eapply pos_lt_trans; eauto. Qed.
Lemma pos_not_lt_le p q : ~ pos_lt p q -> pos_le q p.
Proof.
  destruct p as [l c], q as [l' c']; unfold pos_le, pos_lt; cbn; intros H.
  destruct (Nat.eq_dec l l'), (Nat.eq_dec c c'); subst; auto; left; lia.
Qed.
Lemma pos_le_lt_absurd p q : pos_le p q -> pos_lt q p -> False.
Proof. intros [H|<-] H'; [eapply pos_lt_irrefl, pos_lt_trans; eauto | eapply pos_lt_irrefl; eauto]. Qed.

(** ** position_after *)
Definition pstep (p : pos) (c : char) : pos :=
  if is_nl c then mkpos (S (line p)) 0 else mkpos (line p) (character p + len_utf16 c).

Lemma last_line_from_app acc a b :
  last_line_from acc (a ++ b) = last_line_from (last_line_from acc a) b.
Proof.
  revert acc; induction a as [|c a IH]; intros acc; cbn; [reflexivity|].
  destruct (N.eqb c NL); apply IH.
Qed.
Lemma utf16_len_app a b : utf16_len (a ++ b) = utf16_len a + utf16_len b.
Proof. unfold utf16_len. now rewrite map_app, list_sum_app. Qed.

Lemma utf16_len_cons c a : utf16_len (c :: a) = len_utf16 c + utf16_len a.
Proof. reflexivity. Qed.
Lemma utf16_len_nil : utf16_len [] = 0.
Proof. reflexivity. Qed.
Ltac u16 := rewrite ?utf16_len_app, ?utf16_len_cons, ?utf16_len_app, ?utf16_len_cons, ?utf16_len_nil in *.

Lemma position_after_snoc pre c : position_after (pre ++ [c]) = pstep (position_after pre) c.
Proof.
  unfold position_after, pstep, is_nl, last_line. rewrite last_line_from_app, count_occ_app. cbn.
  destruct (N.eqb_spec c NL) as [->|Hc].
  - destruct (N.eq_dec NL NL); [|congruence]. f_equal.
    rewrite Nat.add_comm; reflexivity.
  - destruct (N.eq_dec c NL); [congruence|]. cbn [line character].
    rewrite Nat.add_0_r. f_equal. rewrite utf16_len_app. unfold utf16_len at 2; cbn. lia.
Qed.
Lemma pstep_lt p c : pos_lt p (pstep p c).
Proof.
  unfold pstep, pos_lt. destruct (is_nl c); cbn; [lia|]. pose proof (len_utf16_pos c); lia.
Qed.
Lemma position_after_app_lt pre m : m <> [] -> pos_lt (position_after pre) (position_after (pre ++ m)).
Proof.
  induction m as [|c m IH] using rev_ind; [congruence|]. intros _.
  rewrite app_assoc, position_after_snoc.
  destruct m as [|d m].
  - rewrite app_nil_r. apply pstep_lt.
  - eapply pos_lt_trans; [apply IH; discriminate|apply pstep_lt].
Qed.
Lemma position_after_app_le pre m : pos_le (position_after pre) (position_after (pre ++ m)).
Proof.
  destruct m as [|c m]; [rewrite app_nil_r; apply pos_le_refl|left; apply position_after_app_lt; discriminate].
Qed.
Lemma position_after_nil : position_after [] = mkpos 0 0.
Proof. reflexivity. Qed.

Lemma firstn_le_app {A} (t : list A) i j : i <= j -> firstn j t = firstn i t ++ firstn (j - i) (skipn i t).
Proof.
  revert i j; induction t as [|c t IH]; intros i j H.
  - now rewrite !firstn_nil, skipn_nil, firstn_nil.
  - destruct i; cbn; [now rewrite Nat.sub_0_r|]. destruct j; [lia|]. cbn. now rewrite (IH i j) by lia.
Qed.

Lemma position_after_lt t i j : i < j -> i < length t ->
  pos_lt (position_after (firstn i t)) (position_after (firstn j t)).
Proof.
  intros H Hl. rewrite (firstn_le_app t i j) by lia. apply position_after_app_lt.
  intros E. apply (f_equal (@length _)) in E. rewrite firstn_length, skipn_length in E. cbn in E. lia.
Qed.
Lemma position_after_le t i j : i <= j -> pos_le (position_after (firstn i t)) (position_after (firstn j t)).
Proof. intros H. rewrite (firstn_le_app t i j) by lia. apply position_after_app_le. Qed.
Lemma position_after_lt_inv t i j : j <= length t ->
  pos_lt (position_after (firstn i t)) (position_after (firstn j t)) -> i < j.
Proof.
  intros Hj H. destruct (Nat.lt_ge_cases i j) as [|Hge]; [assumption|exfalso].
  eapply pos_le_lt_absurd; [apply (position_after_le t j i Hge)|exact H].
Qed.
Lemma position_after_inj t i j : i <= length t -> j <= length t ->
  position_after (firstn i t) = position_after (firstn j t) -> i = j.
Proof.
  intros Hi Hj E. destruct (Nat.lt_trichotomy i j) as [H|[H|H]]; [exfalso| assumption |exfalso].
  - apply (pos_lt_irrefl (position_after (firstn j t))). rewrite <- E at 1. apply position_after_lt; lia.
  - apply (pos_lt_irrefl (position_after (firstn j t))). rewrite <- E at 2. apply position_after_lt; lia.
Qed.

(** ** from_byte_index *)
Lemma from_byte_loop_stop cs n off p : off <= n -> from_byte_loop cs n off p = (n, p).
Proof. destruct cs as [|c cs]; cbn [from_byte_loop]; [reflexivity|]. intros H. destruct (Nat.ltb_spec n off); [lia|reflexivity]. Qed.

Lemma from_byte_loop_app mid : forall pre cs off, byte_len (pre ++ mid) <= off ->
  from_byte_loop (mid ++ cs) (byte_len pre) off (position_after pre) =
  from_byte_loop cs (byte_len (pre ++ mid)) off (position_after (pre ++ mid)).
Proof.
  induction mid as [|c mid IH]; intros pre cs off H; cbn [app]; [now rewrite app_nil_r|].
  cbn [from_byte_loop]. pose proof (len_utf8_pos c) as Hp.
  rewrite byte_len_app in H. cbn in H.
  destruct (Nat.ltb_spec (byte_len pre) off); [|lia].
  replace (byte_len pre + len_utf8 c) with (byte_len (pre ++ [c])) by (rewrite byte_len_app; cbn; lia).
  replace (if is_nl c then _ else _) with (position_after (pre ++ [c]))
    by (rewrite position_after_snoc; reflexivity).
  rewrite IH; rewrite <- app_assoc; [reflexivity|]. rewrite byte_len_app; cbn; lia.
Qed.

Lemma from_byte_index_boundary x y : from_byte_index (byte_len x) (x ++ y) = Some (position_after x).
Proof.
  unfold from_byte_index.
  change 0 with (byte_len []) at 1. change (mkpos 0 0) with (position_after []).
  rewrite from_byte_loop_app by reflexivity. cbn [app].
  rewrite from_byte_loop_stop by lia. now rewrite Nat.eqb_refl.
Qed.

Lemma from_byte_loop_sound cs : forall pre off n p,
  from_byte_loop cs (byte_len pre) off (position_after pre) = (n, p) ->
  exists mid rest, cs = mid ++ rest /\ n = byte_len (pre ++ mid) /\ p = position_after (pre ++ mid).
Proof.
  induction cs as [|c cs IH]; intros pre off n p H; cbn [from_byte_loop] in H.
  - apply pair_equal_spec in H as [<- <-]. exists [], []. rewrite !app_nil_r. auto.
  - destruct (byte_len pre <? off).
    + replace (byte_len pre + len_utf8 c) with (byte_len (pre ++ [c])) in H by (rewrite byte_len_app; cbn; lia).
      replace (if is_nl c then _ else _) with (position_after (pre ++ [c])) in H
        by (rewrite position_after_snoc; reflexivity).
      apply IH in H as (mid & rest & -> & -> & ->).
      exists (c :: mid), rest. rewrite <- !app_assoc. auto.
    + apply pair_equal_spec in H as [<- <-]. exists [], (c :: cs). rewrite app_nil_r. auto.
Qed.

Lemma from_byte_index_sound off t p : from_byte_index off t = Some p ->
  exists x y, t = x ++ y /\ off = byte_len x /\ p = position_after x.
Proof.
  unfold from_byte_index. destruct (from_byte_loop t 0 off (mkpos 0 0)) as [n q] eqn:E.
  destruct (Nat.eqb_spec n off) as [->|]; [|discriminate]. intros H; injection H as ->.
  change 0 with (byte_len []) in E at 1. change (mkpos 0 0) with (position_after []) in E.
  apply from_byte_loop_sound in E as (mid & rest & -> & -> & ->). exists mid, rest. auto.
Qed.

Lemma byte_len_app_inj x y x' y' : x ++ y = x' ++ y' -> byte_len x = byte_len x' -> x = x'.
Proof.
  revert x'; induction x as [|c x IH]; intros x' E B.
  - destruct x' as [|d x']; [reflexivity|]. cbn in B. pose proof (len_utf8_pos d); lia.
  - destruct x' as [|d x']; cbn in B; [pose proof (len_utf8_pos c); lia|].
    cbn in E. injection E as -> E. f_equal. eapply IH; eauto. lia.
Qed.

Lemma byte_len_app_le x y x' y' : x ++ y = x' ++ y' -> byte_len x <= byte_len x' -> exists m, x' = x ++ m.
Proof.
  revert x'; induction x as [|c x IH]; intros x' E B; [exists x'; reflexivity|].
  destruct x' as [|d x']; cbn in B; [pose proof (len_utf8_pos c); lia|].
  cbn in E. injection E as -> E. destruct (IH _ E ltac:(lia)) as [m ->]. exists m; reflexivity.
Qed.

Lemma from_byte_index_none off t :
  from_byte_index off t = None <-> (forall x y, t = x ++ y -> byte_len x <> off).
Proof.
  split.
  - intros H x y -> <-. rewrite from_byte_index_boundary in H. discriminate.
  - intros H. destruct (from_byte_index off t) as [p|] eqn:E; [|reflexivity].
    apply from_byte_index_sound in E as (x & y & -> & -> & ->). exfalso; eapply H; eauto.
Qed.

Lemma from_byte_index_monotone off off' t p p' :
  from_byte_index off t = Some p -> from_byte_index off' t = Some p' ->
  (off < off' <-> pos_ltb p p' = true) /\ (off = off' <-> p = p').
Proof.
  intros H H'. apply from_byte_index_sound in H as (x & y & -> & -> & ->).
  apply from_byte_index_sound in H' as (x' & y' & E & -> & ->).
  assert (Hlt : forall a b a' b', a ++ b = a' ++ b' -> byte_len a < byte_len a' ->
             pos_lt (position_after a) (position_after a')).
  { intros a b a' b' E1 B. destruct (byte_len_app_le _ _ _ _ E1 ltac:(lia)) as [m ->].
    apply position_after_app_lt. intros ->. rewrite app_nil_r in B. lia. }
  rewrite pos_ltb_lt. destruct (Nat.lt_trichotomy (byte_len x) (byte_len x')) as [L|[L|L]].
  - specialize (Hlt _ _ _ _ E L). split; split; intros; auto; try lia.
    match goal with K : position_after _ = _ |- _ => rewrite K in Hlt end. now apply pos_lt_irrefl in Hlt.
  - apply (byte_len_app_inj _ _ _ _ E) in L as ->. split; split; intros; auto; try lia.
    exfalso; eapply pos_lt_irrefl; eauto.
  - specialize (Hlt _ _ _ _ (eq_sym E) L). split; split; intros; auto; try lia.
    + exfalso; eapply pos_lt_irrefl, pos_lt_trans; eauto.
    + match goal with K : position_after _ = _ |- _ => rewrite K in Hlt end. now apply pos_lt_irrefl in Hlt.
Qed.

(** ** byte_index on texts where every '\r' starts a "\r\n" *)
Lemma no_cr_crlf t : no_cr t -> cr_only_in_crlf t.
Proof. intros H a b ->. exfalso. apply H. rewrite in_app_iff. right; left; reflexivity. Qed.
Lemma crlf_tail c t : cr_only_in_crlf (c :: t) -> cr_only_in_crlf t.
Proof. intros H a b ->. apply (H (c :: a) b). reflexivity. Qed.
Lemma crlf_app_r a b : cr_only_in_crlf (a ++ b) -> cr_only_in_crlf b.
Proof. induction a as [|c a IH]; [auto|]. cbn. intros H. apply IH. eapply crlf_tail; exact H. Qed.
Lemma crlf_head c t : cr_only_in_crlf (c :: t) -> is_cr c = true -> exists t', t = NL :: t'.
Proof. unfold is_cr. intros H E. apply N.eqb_eq in E as ->. apply (H [] t). reflexivity. Qed.
Lemma is_cr_spec c : is_cr c = false -> c <> CR.
Proof. unfold is_cr. intros E ->. rewrite N.eqb_refl in E. discriminate. Qed.

(** skipping columns lands exactly on a piece of the line *)
Lemma skip_cols_spec cs : forall target idx bi b, cr_only_in_crlf cs ->
  skip_cols target idx cs bi = Some b <->
  exists x y, cs = x ++ y /\ ~ In NL x /\ ~ In CR x /\ b = bi + byte_len x /\
     ((x = [] /\ target <= idx) \/
      (exists x' c, x = x' ++ [c] /\ idx + utf16_len x' < target <= idx + utf16_len x)).
Proof.
  induction cs as [|c cs IH]; intros target idx bi b Hcr.
  - cbn [skip_cols]. destruct (Nat.ltb_spec idx target) as [H|H].
    + split; [discriminate|]. intros (x & y & E & _ & _ & _ & K).
      destruct x; [|discriminate]. destruct K as [[_ K]|(x' & c & K & _)]; [lia|destruct x'; discriminate].
    + split.
      * intros E; injection E as <-. exists [], []. cbn. repeat split; auto.
      * intros (x & y & E & _ & _ & -> & K). destruct x; [|discriminate]. cbn. f_equal; lia.
  - cbn [skip_cols]. destruct (Nat.ltb_spec idx target) as [H|H].
    + unfold is_nl at 1. destruct (N.eqb_spec c NL) as [->|Hnl].
      * split; [discriminate|]. intros (x & y & E & Hn & _ & _ & K).
        destruct x as [|d x]; [destruct K as [[_ K]|(x' & c & K & _)]; [lia|destruct x'; discriminate]|].
        injection E as <- _. exfalso; apply Hn; left; reflexivity.
      * destruct (is_cr c) eqn:Ec.
        { destruct (crlf_head _ _ Hcr Ec) as [t' ->]. change (is_nl NL) with true. cbv iota.
          split; [discriminate|]. intros (x & y & E & _ & Hn & _ & K).
          destruct x as [|d x]; [destruct K as [[_ K]|(x' & d & K & _)]; [lia|destruct x'; discriminate]|].
          injection E as <- _. exfalso; apply Hn; left. unfold is_cr in Ec. now apply N.eqb_eq in Ec. }
        apply is_cr_spec in Ec. rewrite (IH _ _ _ _ (crlf_tail _ _ Hcr)). split.
        -- intros (x & y & -> & Hn & Hc & -> & K). exists (c :: x), y. cbn [byte_len].
           split; [reflexivity|]. split; [intros [K'|K']; [congruence|contradiction]|].
           split; [intros [K'|K']; [congruence|contradiction]|]. split; [lia|]. right.
           destruct K as [[-> K]|(x' & d & -> & K)].
           ++ exists [], c. u16. split; [reflexivity|lia].
           ++ exists (c :: x'), d. u16. split; [reflexivity|lia].
        -- intros (x & y & E & Hn & Hc & -> & K). destruct x as [|d x].
           ++ destruct K as [[_ K]|(x' & e & K & _)]; [lia|destruct x'; discriminate].
           ++ injection E as <- ->. exists x, y. cbn [byte_len]. split; [reflexivity|].
              split; [intros K'; apply Hn; right; exact K'|]. split; [intros K'; apply Hc; right; exact K'|].
              split; [lia|].
              destruct K as [[K _]|(x' & e & K & K')]; [discriminate|].
              destruct x' as [|f x'].
              ** injection K as <- ->. left. u16. split; [reflexivity|lia].
              ** injection K as <- ->. right. exists x', e. split; [reflexivity|].
                 cbn [app] in K'. u16. lia.
    + split.
      * intros E; injection E as <-. exists [], (c :: cs). cbn. repeat split; auto.
      * intros (x & y & E & _ & _ & -> & K). destruct K as [[-> _]|(x' & d & -> & K)]; [cbn; f_equal; lia|].
        lia.
Qed.

Lemma skip_lines_spec_n n : forall cs, length cs <= n -> forall k bi b rest, cr_only_in_crlf cs ->
  skip_lines k cs bi = Some (b, rest) <->
  exists x, cs = x ++ rest /\ b = bi + byte_len x /\ count_occ N.eq_dec x NL = k /\
            (x = [] \/ exists x', x = x' ++ [NL]).
Proof.
  induction n as [|n IH]; intros cs Hlen k bi b rest Hcr; (destruct cs as [|c cs]; [|cbn in Hlen; try lia]).
  1,2: destruct k; cbn; (split;
    [first [discriminate | intros E; injection E as <- <-; exists []; cbn; auto]
    |intros (x & E & -> & K & _); destruct x; [|discriminate]; cbn in E, K; subst; cbn; first [lia|f_equal; f_equal; lia]]).
  destruct k; cbn [skip_lines].
  - split.
    + intros E; injection E as <- <-. exists []. cbn. auto.
    + intros (x & E & -> & K & [->|(x' & ->)]).
      * cbn in E. subst. cbn. f_equal. f_equal. lia.
      * rewrite count_occ_app in K. cbn in K. lia.
  - pose proof (crlf_tail _ _ Hcr) as Hcr'. unfold is_nl at 1. destruct (N.eqb_spec c NL) as [->|Hnl].
    + rewrite (IH cs ltac:(lia) _ _ _ _ Hcr'). split.
      * intros (x & -> & -> & K & L). exists (NL :: x). cbn [app byte_len].
        split; [reflexivity|]. split; [unfold len_utf8, NL; cbn; lia|].
        split; [cbn; lia|]. right.
        destruct L as [->|(x' & ->)]; [exists []; reflexivity|exists (NL :: x'); reflexivity].
      * intros (x & E & -> & K & L). destruct x as [|d x]; [cbn in K; lia|].
        injection E as <- ->. exists x. split; [reflexivity|]. cbn [byte_len].
        split; [unfold len_utf8, NL; cbn; lia|]. cbn in K. split; [lia|].
        destruct L as [L|(x' & L)]; [discriminate|].
        destruct x' as [|e x']; [injection L as ->; auto|]. injection L as _ ->. right. exists x'; reflexivity.
    + destruct (is_cr c) eqn:Ec.
      { destruct (crlf_head _ _ Hcr Ec) as [t' ->]. change (is_nl NL) with true. cbv iota.
        unfold is_cr in Ec. apply N.eqb_eq in Ec as ->. cbn in Hlen.
        rewrite (IH t' ltac:(lia) _ _ _ _ (crlf_tail _ _ Hcr')). split.
        - intros (x & -> & -> & K & L). exists (CR :: NL :: x). cbn [app byte_len].
          split; [reflexivity|]. split; [unfold len_utf8, NL, CR; cbn; lia|].
          split; [cbn; lia|]. right.
          destruct L as [->|(x' & ->)]; [exists [CR]; reflexivity|exists (CR :: NL :: x'); reflexivity].
        - intros (x & E & -> & K & L). destruct x as [|d x]; [cbn in K; lia|].
          injection E as <- E. destruct x as [|d x]; [cbn in K; lia|]. injection E as <- ->.
          exists x. split; [reflexivity|]. cbn [byte_len].
          split; [unfold len_utf8, NL, CR; cbn; lia|]. cbn in K. split; [lia|].
          destruct L as [L|(x' & L)]; [discriminate|].
          destruct x' as [|e x']; [discriminate|]. injection L as _ L.
          destruct x' as [|e' x']; [injection L as ->; auto|]. injection L as _ ->. right. exists x'; reflexivity. }
      rewrite (IH cs ltac:(lia) _ _ _ _ Hcr'). split.
      * intros (x & -> & -> & K & L). exists (c :: x). cbn [app byte_len].
        split; [reflexivity|]. split; [lia|]. cbn. destruct (N.eq_dec c NL); [congruence|].
        split; [exact K|]. right. destruct L as [->|(x' & ->)]; [cbn in K; lia|exists (c :: x'); reflexivity].
      * intros (x & E & -> & K & L). destruct x as [|d x]; [cbn in K; lia|].
        injection E as <- ->. exists x. split; [reflexivity|]. cbn [byte_len]. split; [lia|].
        cbn in K. destruct (N.eq_dec c NL); [congruence|]. split; [exact K|].
        destruct L as [L|(x' & L)]; [discriminate|].
        destruct x' as [|e x']; [injection L as ->; congruence|]. injection L as _ ->. right. exists x'; reflexivity.
Qed.
Lemma skip_lines_spec cs k bi b rest : cr_only_in_crlf cs ->
  skip_lines k cs bi = Some (b, rest) <->
  exists x, cs = x ++ rest /\ b = bi + byte_len x /\ count_occ N.eq_dec x NL = k /\
            (x = [] \/ exists x', x = x' ++ [NL]).
Proof. apply (skip_lines_spec_n (length cs)). lia. Qed.

Lemma last_line_no_nl x : ~ In NL x -> last_line x = x.
Proof.
  intros H. unfold last_line. assert (G : forall acc, last_line_from acc x = acc ++ x).
  { induction x as [|c x IH]; intros acc; cbn; [now rewrite app_nil_r|].
    destruct (N.eqb_spec c NL) as [->|]; [exfalso; apply H; left; reflexivity|].
    rewrite IH; [now rewrite <- app_assoc|]. intros K; apply H; right; exact K. }
  rewrite G; reflexivity.
Qed.
Lemma count_no_nl x : ~ In NL x -> count_occ N.eq_dec x NL = 0.
Proof. intros H. now apply count_occ_not_In. Qed.

Lemma last_line_app_nl x y : ~ In NL y -> last_line (x ++ [NL] ++ y) = y.
Proof.
  intros H. unfold last_line. rewrite app_assoc, last_line_from_app, last_line_from_app. cbn.
  rewrite <- (last_line_no_nl y H) at 2. reflexivity.
Qed.

(** position of a prefix made of whole lines followed by a piece of one line *)
Lemma position_after_lines a x :
  (a = [] \/ exists a', a = a' ++ [NL]) -> ~ In NL x ->
  position_after (a ++ x) = mkpos (count_occ N.eq_dec a NL) (utf16_len x).
Proof.
  intros Ha Hx. unfold position_after. rewrite count_occ_app. pose proof (count_no_nl x Hx) as Hc0. unfold char, NL in *. rewrite Hc0, Nat.add_0_r.
  destruct Ha as [->|(a' & ->)]; [cbn [app]; now rewrite last_line_no_nl|].
  rewrite <- app_assoc, last_line_app_nl by exact Hx. reflexivity.
Qed.

(** every prefix splits into whole lines and a piece of the current line *)
Lemma split_last_line x : exists a b, x = a ++ b /\ ~ In NL b /\ (a = [] \/ exists a', a = a' ++ [NL]).
Proof.
  induction x as [|c x IH] using rev_ind; [exists [], []; cbn; auto|].
  destruct IH as (a & b & -> & Hb & Ha). destruct (N.eq_dec c NL) as [->|Hc].
  - exists ((a ++ b) ++ [NL]), []. rewrite app_nil_r. repeat split; auto. right. eexists; reflexivity.
  - exists a, (b ++ [c]). rewrite <- app_assoc. repeat split; auto.
    rewrite in_app_iff. cbn. intros [K|[K|[]]]; [contradiction|congruence].
Qed.

Lemma byte_index_unfold p t :
  byte_index p t = match skip_lines (line p) t 0 with
                   | Some (bi, rest) => skip_cols (character p) 0 rest bi
                   | None => None end.
Proof.
  destruct t as [|c t]; [|reflexivity]. cbn. destruct p as [l k]; cbn.
  destruct l; cbn; [|reflexivity]. destruct k; reflexivity.
Qed.

Lemma crlf_piece b y : cr_only_in_crlf (b ++ y) -> ~ In NL b ->
  ~ (exists b' y', b = b' ++ [CR] /\ y = NL :: y') -> ~ In CR b.
Proof.
  intros Hcr Hnl Hin Hc. apply in_split in Hc as (u & v & ->).
  destruct (Hcr u (v ++ y)) as [z Hz]; [now rewrite <- app_assoc|].
  destruct v as [|d v].
  - apply Hin. exists u, z. auto.
  - injection Hz as -> _. apply Hnl. rewrite in_app_iff. right; right; left; reflexivity.
Qed.

Lemma byte_index_of_position x y : cr_only_in_crlf (x ++ y) ->
  ~ (exists x' y', x = x' ++ [CR] /\ y = NL :: y') ->
  byte_index (position_after x) (x ++ y) = Some (byte_len x).
Proof.
  intros Hcr Hin. destruct (split_last_line x) as (a & b & -> & Hb & Ha).
  rewrite (position_after_lines a b Ha Hb), byte_index_unfold; cbn [line character].
  rewrite <- app_assoc in *.
  assert (Hl : skip_lines (count_occ N.eq_dec a NL) (a ++ b ++ y) 0 = Some (byte_len a, b ++ y)).
  { apply skip_lines_spec; [exact Hcr|]. exists a. auto. }
  rewrite Hl. apply crlf_app_r in Hcr.
  apply skip_cols_spec; [exact Hcr|]. exists b, y. rewrite byte_len_app. repeat split; auto.
  { apply (crlf_piece b y Hcr Hb). intros (b' & y' & -> & ->). apply Hin. exists (a ++ b'), y'.
    now rewrite <- app_assoc. }
  destruct b as [|c b]; [left; cbn; auto|right].
  destruct (exists_last (l := c :: b)) as (b' & d & E); [discriminate|]. rewrite E. exists b', d.
  split; [reflexivity|]. u16. pose proof (len_utf16_pos d). lia.
Qed.

(** converting a position that the code accepts: it is the position of a boundary,
    or lies strictly inside a surrogate pair, in which case the end of that
    character is returned *)
Lemma byte_index_sound p t b : cr_only_in_crlf t -> byte_index p t = Some b ->
  exists x y, t = x ++ y /\ b = byte_len x /\ ~ (exists x' y', x = x' ++ [CR] /\ y = NL :: y') /\
    (position_after x = p \/
     exists x' c, x = x' ++ [c] /\ len_utf16 c = 2 /\
       p = mkpos (line (position_after x')) (character (position_after x') + 1)).
Proof.
  intros Hcr. rewrite byte_index_unfold.
  destruct (skip_lines (line p) t 0) as [[bi rest]|] eqn:El; [|discriminate].
  apply skip_lines_spec in El as (a & -> & -> & Hk & Ha); [|exact Hcr].
  apply crlf_app_r in Hcr. intros Es.
  apply skip_cols_spec in Es as (x & y & -> & Hx & Hxc & -> & K); [|exact Hcr].
  exists (a ++ x), y. rewrite <- app_assoc, byte_len_app. split; [reflexivity|]. split; [lia|]. split.
  { intros (x' & y' & E & _). destruct x as [|c x] using rev_ind.
    - rewrite app_nil_r in E. destruct Ha as [->|(a' & ->)]; [destruct x'; discriminate|].
      apply app_inj_tail in E as [_ E]. discriminate.
    - rewrite app_assoc in E. apply app_inj_tail in E as [_ ->]. apply Hxc. rewrite in_app_iff. right; left; reflexivity. }
  destruct p as [l k]; cbn [line character] in *. subst l.
  rewrite (position_after_lines a x Ha Hx).
  destruct K as [[-> K]|(x' & c & -> & K)].
  - left. f_equal. u16. lia.
  - u16.
    assert (Hx' : ~ In NL x') by (intros H; apply Hx; rewrite in_app_iff; auto).
    destruct (Nat.eq_dec k (utf16_len x' + len_utf16 c)) as [E|Ne].
    + left. f_equal. u16. lia.
    + right. exists (a ++ x'), c. rewrite <- app_assoc. split; [reflexivity|].
      assert (len_utf16 c = 2) by (unfold len_utf16 in *; destruct (_ <? _)%N; lia).
      split; [assumption|]. rewrite (position_after_lines a x' Ha Hx'). cbn. f_equal. lia.
Qed.

(** ** apply_content_changes *)
Lemma cc_run_more f1 : forall s t f2, cc_run f1 s = Done t -> f1 <= f2 -> cc_run f2 s = Done t.
Proof.
  induction f1 as [|f1 IH]; intros s t f2 H Hle; cbn in H; [discriminate|].
  destruct f2 as [|f2]; [lia|]. cbn. destruct (cc_step s) as [o|s']; [exact H|]. apply IH; [exact H|lia].
Qed.

Lemma denotes_split t p i : denotes t p i ->
  exists x y, t = x ++ y /\ length x = i /\ position_after x = p /\
     ~ (exists x' y', x = x' ++ [CR] /\ y = NL :: y').
Proof.
  intros (Hi & Hp & Hn). exists (firstn i t), (skipn i t).
  rewrite firstn_skipn. repeat split; auto.
  - rewrite firstn_length. lia.
  - intros (x' & y' & E & E'). apply Hn. exists x', y'.
    split.
    + rewrite <- (firstn_skipn i t), E, E', <- app_assoc. reflexivity.
    + apply (f_equal (@length _)) in E. rewrite firstn_length, app_length in E. cbn in E. lia.
Qed.

(** scanning from the prefix [pre] to the prefix [pre ++ mid] of the current text,
    while the current change still lies ahead of every position passed *)
Lemma cc_scan n : forall mid pre post ch rest r st f,
  length mid <= n ->
  crange ch = Some r -> pos_le (rstart r) (rend r) ->
  pos_le (position_after (pre ++ mid)) (rend r) ->
  ~ (exists m y, pre ++ mid = m ++ [CR] /\ post = NL :: y) ->
  (forall m1 m2, mid = m1 ++ m2 -> m2 <> [] ->
     m1 = [] \/ ~ (exists x y, pre ++ m1 = x ++ [CR] /\ m2 ++ post = NL :: y) ->
     rstart r = position_after (pre ++ m1) -> st = byte_len (pre ++ m1)) ->
  exists f', f' <= length mid /\
  cc_run (f' + f) (mkcc (pre ++ mid ++ post) (ch :: rest) (position_after pre) (byte_len pre) st)
  = cc_run f (mkcc (pre ++ mid ++ post) (ch :: rest) (position_after (pre ++ mid)) (byte_len (pre ++ mid)) st).
Proof.
  induction n as [|n IH]; intros mid pre post ch rest r st f Hn Hr Hse He Hncr Hs.
  - destruct mid; [|cbn in Hn; lia]. exists 0. rewrite app_nil_r. split; [lia|reflexivity].
  - destruct mid as [|c mid]; [exists 0; rewrite app_nil_r; split; [lia|reflexivity]|].
    assert (Hlt : pos_lt (position_after pre) (position_after (pre ++ c :: mid)))
      by (apply position_after_app_lt; discriminate).
    assert (Hcur : pos_lt (position_after pre) (rend r)).
    { destruct He as [He|<-]; [eapply pos_lt_trans; eauto|exact Hlt]. }
    assert (Heq1 : (if pos_eqb (rstart r) (position_after pre) then byte_len pre else st) = st).
    { destruct (pos_eqb (rstart r) (position_after pre)) eqn:E1; [|reflexivity].
      apply pos_eqb_eq in E1. rewrite (Hs [] (c :: mid)); rewrite ?app_nil_r; auto; discriminate. }
    assert (Heq2 : pos_eqb (rend r) (position_after pre) = false).
    { apply pos_eqb_neq. intros E. rewrite E in Hcur. eapply pos_lt_irrefl; eauto. }
    assert (Hle1 : pos_leb (rstart r) (rend r) = true) by now apply pos_leb_le.
    assert (Hle2 : pos_leb (position_after pre) (rend r) = true) by (apply pos_leb_le; left; exact Hcur).
    assert (Hunf : forall k, cc_run (S k) (mkcc (pre ++ (c :: mid) ++ post) (ch :: rest) (position_after pre) (byte_len pre) st)
       = if is_nl c then cc_run k (mkcc (pre ++ (c :: mid) ++ post) (ch :: rest)
                (mkpos (S (line (position_after pre))) 0) (byte_len pre + len_utf8 c) st)
         else if is_cr c && match mid ++ post with d :: _ => is_nl d | [] => false end then
              cc_run k (mkcc (pre ++ (c :: mid) ++ post) (ch :: rest)
                (mkpos (S (line (position_after pre))) 0) (byte_len pre + 2) st)
         else cc_run k (mkcc (pre ++ (c :: mid) ++ post) (ch :: rest)
                (mkpos (line (position_after pre)) (character (position_after pre) + len_utf16 c)) (byte_len pre + len_utf8 c) st)).
    { intros k. cbn [cc_run]. unfold cc_step. cbn [cc_changes cc_text cc_cursor cc_boff cc_start].
      rewrite Hr, Hle1, Hle2, Heq1, Heq2. cbn [negb].
      rewrite split_byte_app. cbn [app].
      destruct (is_nl c); [reflexivity|].
      destruct (is_cr c && _); reflexivity. }
    destruct (is_nl c) eqn:Enl; [|destruct (is_cr c && match mid ++ post with d :: _ => is_nl d | [] => false end) eqn:Ecr].
    + (* '\n' *)
      destruct (IH mid (pre ++ [c]) post ch rest r st f) as (f' & Hf' & Hrun); auto.
      * cbn in Hn; lia.
      * now rewrite <- app_assoc.
      * rewrite <- app_assoc. exact Hncr.
      * intros m1 m2 -> H1 H2. rewrite <- app_assoc. apply (Hs ([c] ++ m1) m2); auto.
        right. rewrite app_assoc. destruct H2 as [->|H2]; [|exact H2].
        rewrite app_nil_r. intros (x & y & E1 & E2). apply app_inj_tail in E1 as [_ ->].
        unfold is_nl, CR, NL in Enl. discriminate.
      * exists (S f'). cbn [length]. split; [lia|]. cbn [Nat.add]. rewrite Hunf.
        rewrite <- !app_assoc in Hrun. cbn [app] in *. rewrite position_after_snoc in Hrun. unfold pstep in Hrun. rewrite Enl in Hrun.
        rewrite byte_len_app in Hrun. cbn [byte_len] in Hrun. rewrite Nat.add_0_r in Hrun. exact Hrun.
    + (* "\r\n" in one step *)
      apply andb_true_iff in Ecr as [Ecr Ed].
      destruct mid as [|d mid].
      { exfalso. cbn [app] in Ed. destruct post as [|d post]; [discriminate|]. apply Hncr. exists pre, post.
        unfold is_cr, is_nl in *. apply N.eqb_eq in Ecr, Ed. subst. auto. }
      cbn [app] in Ed.
      destruct (IH mid (pre ++ [c; d]) post ch rest r st f) as (f' & Hf' & Hrun); auto.
      * cbn in Hn; lia.
      * now rewrite <- app_assoc.
      * rewrite <- app_assoc. exact Hncr.
      * intros m1 m2 -> H1 H2. rewrite <- app_assoc. apply (Hs ([c; d] ++ m1) m2); auto.
        right. rewrite app_assoc. destruct H2 as [->|H2]; [|exact H2].
        rewrite app_nil_r. intros (x & y & E1 & E2). change [c; d] with ([c] ++ [d]) in E1.
        rewrite app_assoc in E1. apply app_inj_tail in E1 as [_ ->]. discriminate.
      * exists (S f'). cbn [length]. split; [lia|]. cbn [Nat.add]. rewrite Hunf.
        rewrite <- !app_assoc in Hrun. cbn [app] in *.
        assert (E : position_after (pre ++ [c; d]) = mkpos (S (line (position_after pre))) 0).
        { change [c; d] with ([c] ++ [d]). rewrite app_assoc, !position_after_snoc. unfold pstep. rewrite Ed, Enl. reflexivity. }
        rewrite E in Hrun. rewrite byte_len_app in Hrun. cbn [byte_len] in Hrun.
        replace (len_utf8 c + (len_utf8 d + 0)) with 2 in Hrun; [exact Hrun|].
        unfold is_cr, is_nl in *. apply N.eqb_eq in Ecr, Ed. subst. reflexivity.
    + (* ordinary character *)
      destruct (IH mid (pre ++ [c]) post ch rest r st f) as (f' & Hf' & Hrun); auto.
      * cbn in Hn; lia.
      * now rewrite <- app_assoc.
      * rewrite <- app_assoc. exact Hncr.
      * intros m1 m2 -> H1 H2. rewrite <- app_assoc. apply (Hs ([c] ++ m1) m2); auto.
        right. rewrite app_assoc. destruct H2 as [->|H2]; [|exact H2].
        rewrite app_nil_r. intros (x & y & E1 & E2). apply app_inj_tail in E1 as [_ ->].
        cbn [app] in Ecr. rewrite E2 in Ecr. cbn in Ecr. discriminate.
      * exists (S f'). cbn [length]. split; [lia|]. cbn [Nat.add]. rewrite Hunf.
        rewrite <- !app_assoc in Hrun. cbn [app] in *. rewrite position_after_snoc in Hrun. unfold pstep in Hrun. rewrite Enl in Hrun.
        rewrite byte_len_app in Hrun. cbn [byte_len] in Hrun. rewrite Nat.add_0_r in Hrun. exact Hrun.
Qed.

Lemma cc_start_irrelevant t ch rest r cur boff st f :
  crange ch = Some r -> rstart r = cur ->
  cc_run f (mkcc t (ch :: rest) cur boff st) = cc_run f (mkcc t (ch :: rest) cur boff boff).
Proof.
  intros Hr <-. destruct f as [|f]; [reflexivity|]. cbn [cc_run]. unfold cc_step; cbn [cc_changes cc_text cc_cursor cc_boff cc_start].
  rewrite Hr, pos_eqb_refl. reflexivity.
Qed.

Lemma app_prefix_le {A} (x y x' y' : list A) : x ++ y = x' ++ y' -> length x <= length x' ->
  exists m, x' = x ++ m /\ y = m ++ y'.
Proof.
  revert x'; induction x as [|c x IH]; intros x' E L; [exists x'; auto|].
  destruct x' as [|d x']; cbn in L; [lia|]. cbn in E. injection E as -> E.
  destruct (IH _ E ltac:(lia)) as (m & -> & ->). exists m; auto.
Qed.

Lemma cc_total_cons t ch chs : cc_total t (ch :: chs) = length t + length (ctext ch) + list_sum (map (fun c => length (ctext c)) chs).
Proof. unfold cc_total. cbn [map]. change (list_sum (?a :: ?b)) with (a + list_sum b). cbn [list_sum fold_right]. unfold list_sum. lia. Qed.

Lemma origin_le p : pos_le (position_after []) p.
Proof. apply pos_not_lt_le. change (position_after []) with (mkpos 0 0). unfold pos_lt; cbn; lia. Qed.

Definition ahead (chs : list change) (cur : pos) : Prop :=
  match chs with
  | [] => True
  | ch :: _ => match crange ch with None => True | Some r => pos_le cur (rstart r) end
  end.

Lemma cc_main t chs t' : changes_effect t chs t' -> forall M pre post st,
  t = pre ++ post -> ahead chs (position_after pre) -> cc_total t chs <= M ->
  exists f, f <= S (length chs) * S (S M) /\
    cc_run f (mkcc t chs (position_after pre) (byte_len pre) st) = Done t'.
Proof.
  induction 1 as [t|t ch chs t1 t2 He Hes IH]; intros M pre post st Ht Ha HM.
  - exists 1. split; [cbn; lia|reflexivity].
  - destruct He as [t w|t s e w i j Hs He Hij].
    + destruct (IH M [] w 0) as (f & Hf & Hrun); [reflexivity| |rewrite cc_total_cons in HM; unfold cc_total; cbn [ctext] in HM; lia|].
      { destruct chs as [|c2 chs]; cbn; [exact I|]. destruct (crange c2); [|exact I].
        apply origin_le. }
      exists (S f). split; [cbn [length]; rewrite Nat.mul_succ_l; lia|]. exact Hrun.
    + destruct (denotes_split _ _ _ Hs) as (x & y & Ex & Lx & Px & Nx).
      destruct (denotes_split _ _ _ He) as (x2 & y2 & Ex2 & Lx2 & Px2 & Nx2).
      assert (E12 : x ++ y = x2 ++ y2) by congruence.
      destruct (app_prefix_le _ _ _ _ E12 ltac:(lia)) as (m & -> & ->). clear E12.
      cbn in Ha.
      assert (Lpre : length pre <= length x).
      { destruct (Nat.le_gt_cases (length pre) (length x)) as [|Hgt]; [assumption|exfalso].
        assert (E : x ++ m ++ y2 = pre ++ post) by congruence.
        destruct (app_prefix_le _ _ _ _ E ltac:(lia)) as (m' & -> & _).
        eapply pos_le_lt_absurd; [exact Ha|]. rewrite <- Px.
        apply position_after_app_lt. intros ->. rewrite app_nil_r in Hgt. lia. }
      assert (E : pre ++ post = x ++ m ++ y2) by congruence.
      destruct (app_prefix_le _ _ _ _ E Lpre) as (a & -> & ->). clear E.
      set (ch := mkchange (Some (mkrange s e)) w) in *.
      assert (Hse : pos_le s e).
      { rewrite <- Px, <- Px2. apply position_after_app_le. }
      (* the new text *)
      assert (Et1 : firstn i t ++ w ++ skipn j t = (pre ++ a) ++ w ++ y2).
      { rewrite Ex2 at 2. rewrite <- Lx2, skipn_app, skipn_all, Nat.sub_diag. cbn [app skipn].
        rewrite Ex, <- Lx, firstn_app, firstn_all, Nat.sub_diag. cbn [firstn]. now rewrite app_nil_r. }
      rewrite Et1 in IH.
      assert (HM1 : cc_total ((pre ++ a) ++ w ++ y2) chs <= M).
      { rewrite cc_total_cons in HM. unfold cc_total. rewrite Ex in HM. unfold ch in HM; cbn [ctext] in HM. rewrite !app_length in *. lia. }
      assert (Lt : length (pre ++ a) + length m <= M).
      { rewrite cc_total_cons in HM. rewrite Ex in HM. rewrite !app_length in *. lia. }
      (* where the loop continues after this change *)
      assert (Hnext : exists f2, f2 <= S (length chs) * S (S M) /\
                cc_run f2 (if needs_reset chs s
                  then mkcc ((pre ++ a) ++ w ++ y2) chs (mkpos 0 0) 0 (byte_len (pre ++ a))
                  else mkcc ((pre ++ a) ++ w ++ y2) chs s (byte_len (pre ++ a)) (byte_len (pre ++ a))) = Done t2).
      { destruct (needs_reset chs s) eqn:Er.
        - apply (IH M [] ((pre ++ a) ++ w ++ y2)); [reflexivity| |exact HM1].
          unfold ahead. destruct chs as [|c2 chs]; [exact I|]. destruct (crange c2); [|exact I].
          apply origin_le.
        - rewrite <- Px. apply (IH M (pre ++ a) (w ++ y2)); [reflexivity| |exact HM1].
          unfold ahead, needs_reset in *. destruct chs as [|c2 chs]; [exact I|]. destruct (crange c2); [|discriminate].
          apply pos_not_lt_le. rewrite Px, <- pos_ltb_lt. congruence. }
      destruct Hnext as (f2 & Hf2 & Hrun2).
      (* scan 2: start to end *)
      destruct (cc_scan (length m) m (pre ++ a) y2 ch chs (mkrange s e) (byte_len (pre ++ a)) (S f2))
        as (g2 & Hg2 & Hs2); auto; cbn [rstart rend].
      { rewrite Px2. apply pos_le_refl. }
      { intros m1 m2 -> Hne _ Es. rewrite <- Px in Es.
        destruct m1 as [|c m1]; [now rewrite app_nil_r|exfalso].
        assert (Hl : pos_lt (position_after (pre ++ a)) (position_after ((pre ++ a) ++ c :: m1)))
          by (apply position_after_app_lt; discriminate).
        rewrite <- Es in Hl. eapply pos_lt_irrefl; eauto. }
      (* scan 1: cursor to start *)
      destruct (cc_scan (length a) a pre (m ++ y2) ch chs (mkrange s e) st (g2 + S f2))
        as (g1 & Hg1 & Hs1); auto; cbn [rstart rend].
      { now rewrite Px. }
      { intros m1 m2 -> Hne _ Es. exfalso.
        assert (Hl : pos_lt (position_after (pre ++ m1)) (position_after ((pre ++ m1) ++ m2)))
          by (apply position_after_app_lt; exact Hne).
        rewrite <- app_assoc, Px, Es in Hl. eapply pos_lt_irrefl; eauto. }
      exists (g1 + (g2 + S f2)). split.
      { rewrite app_length in Lt. cbn [length]. rewrite Nat.mul_succ_l. lia. }
      rewrite Ex. rewrite <- !app_assoc in *. rewrite Hs1.
      rewrite (cc_start_irrelevant _ ch chs (mkrange s e)); [|reflexivity|cbn; symmetry; exact Px].
      rewrite Hs2. cbn [cc_run]. unfold cc_step; cbn [cc_changes cc_text cc_cursor cc_boff cc_start].
      unfold ch at 1. cbn [crange rstart rend].
      rewrite (proj2 (pos_leb_le _ _) Hse). cbn [negb].
      rewrite Px2, (proj2 (pos_leb_le _ _) (pos_le_refl e)). cbn [negb].
      rewrite pos_eqb_refl.
      assert (Hst : (if pos_eqb s e then byte_len (pre ++ a ++ m) else byte_len (pre ++ a)) = byte_len (pre ++ a)).
      { destruct (pos_eqb s e) eqn:Ese; [|reflexivity]. apply pos_eqb_eq in Ese.
        destruct m as [|c m]; [now rewrite app_nil_r|]. exfalso.
        assert (Hl : pos_lt (position_after (pre ++ a)) (position_after ((pre ++ a) ++ c :: m)))
          by (apply position_after_app_lt; discriminate).
        rewrite <- app_assoc, Px, Px2, Ese in Hl. eapply pos_lt_irrefl; eauto. }
      rewrite Hst.
      replace (pre ++ a ++ m ++ y2) with ((pre ++ a) ++ m ++ y2) by now rewrite <- app_assoc.
      replace (byte_len (pre ++ a ++ m)) with (byte_len (pre ++ a) + byte_len m)
        by (rewrite <- byte_len_app, <- app_assoc; reflexivity).
      rewrite replace_range_app. unfold ch. cbn [ctext].
      rewrite <- app_assoc. destruct (needs_reset chs s); exact Hrun2.
Qed.

Lemma apply_content_changes_effect t chs t' :
  changes_effect t chs t' -> apply_content_changes t chs = Done t'.
Proof.
  intros H. unfold apply_content_changes.
  destruct (cc_main t chs t' H (cc_total t chs) [] t 0) as (f & Hf & Hrun); auto.
  - unfold ahead. destruct chs as [|c2 chs]; [exact I|]. destruct (crange c2); [|exact I].
    apply origin_le.
  - eapply cc_run_more; [exact Hrun|]. unfold cc_fuel. lia.
Qed.

(** the end position of a change does not exist: the scan never reaches it *)
Lemma cc_no_end n : forall post pre ch rest r st f,
  length post <= n -> n < f ->
  crange ch = Some r ->
  ~ (exists x y, pre = x ++ [CR] /\ post = NL :: y) ->
  (forall j, ~ denotes (pre ++ post) (rend r) j) ->
  cc_run f (mkcc (pre ++ post) (ch :: rest) (position_after pre) (byte_len pre) st) = Panic.
Proof.
  induction n as [|n IH]; intros post pre ch rest r st f Hn Hf Hr Hncr Hno;
    (destruct f as [|f]; [lia|]); cbn [cc_run]; unfold cc_step;
    cbn [cc_changes cc_text cc_cursor cc_boff cc_start]; rewrite Hr;
    (destruct (pos_leb (rstart r) (rend r)); [cbn [negb]|reflexivity]);
    (destruct (pos_leb (position_after pre) (rend r)); [cbn [negb]|reflexivity]); cbv zeta.
  all: assert (Hne : pos_eqb (rend r) (position_after pre) = false)
    by (apply pos_eqb_neq; intros E; apply (Hno (length pre)); split; [rewrite app_length; lia|];
        rewrite firstn_app, firstn_all, Nat.sub_diag; cbn [firstn]; rewrite app_nil_r; split; [now symmetry|];
        intros (x & y & E1 & E2); apply Hncr;
        assert (E3 : pre = x ++ [CR]);
        [apply (f_equal (firstn (length pre))) in E1;
         rewrite firstn_app, firstn_all, Nat.sub_diag in E1; cbn [firstn] in E1; rewrite app_nil_r in E1;
         rewrite E1, E2; change (x ++ [CR; NL] ++ y) with (x ++ [CR] ++ NL :: y); rewrite app_assoc;
         replace (S (length x)) with (length (x ++ [CR])) by (rewrite app_length; cbn; lia);
         rewrite firstn_app, firstn_all, Nat.sub_diag; cbn [firstn]; now rewrite app_nil_r
        |subst pre; exists x, y; split; [reflexivity|];
         rewrite <- app_assoc in E1; apply app_inv_head in E1; cbn in E1; now injection E1]).
  all: rewrite Hne, split_byte_app.
  - destruct post; [reflexivity|cbn in Hn; lia].
  - destruct post as [|c post]; [reflexivity|]. cbn in Hn.
    match goal with |- context [mkcc _ _ _ _ ?x] => set (st' := x) end.
    destruct (is_nl c) eqn:Enl; [|destruct (is_cr c && match post with d :: _ => is_nl d | [] => false end) eqn:Ecr].
    + specialize (IH post (pre ++ [c]) ch rest r st' f). rewrite <- app_assoc in IH. cbn [app] in IH.
      rewrite position_after_snoc in IH. unfold pstep in IH. rewrite Enl, byte_len_app in IH. cbn [byte_len] in IH.
      rewrite Nat.add_0_r in IH. apply IH; auto; try lia.
      intros (x & y & E1 & E2). apply app_inj_tail in E1 as [_ ->]. discriminate.
    + apply andb_true_iff in Ecr as [Ecr Ed]. destruct post as [|d post]; [discriminate|].
      cbn in Hn.
      specialize (IH post (pre ++ [c; d]) ch rest r st' f). rewrite <- app_assoc in IH. cbn [app] in IH.
      assert (E : position_after (pre ++ [c; d]) = mkpos (S (line (position_after pre))) 0).
      { change [c; d] with ([c] ++ [d]). rewrite app_assoc, !position_after_snoc. unfold pstep. rewrite Ed, Enl. reflexivity. }
      rewrite E, byte_len_app in IH. cbn [byte_len] in IH.
      replace (len_utf8 c + (len_utf8 d + 0)) with 2 in IH
        by (unfold is_cr, is_nl in *; apply N.eqb_eq in Ecr, Ed; subst; reflexivity).
      apply IH; auto; try lia.
      intros (x & y & E1 & E2). change [c; d] with ([c] ++ [d]) in E1.
      rewrite app_assoc in E1. apply app_inj_tail in E1 as [_ ->]. discriminate.
    + specialize (IH post (pre ++ [c]) ch rest r st' f). rewrite <- app_assoc in IH. cbn [app] in IH.
      rewrite position_after_snoc in IH. unfold pstep in IH. rewrite Enl, byte_len_app in IH. cbn [byte_len] in IH.
      rewrite Nat.add_0_r in IH. apply IH; auto; try lia.
      intros (x & y & E1 & E2). apply app_inj_tail in E1 as [_ ->]. rewrite E2 in Ecr. discriminate.
Qed.

Lemma change_bad_end_panics t s e w rest :
  (forall j, ~ denotes t e j) ->
  apply_content_changes t (mkchange (Some (mkrange s e)) w :: rest) = Panic.
Proof.
  intros H. unfold apply_content_changes. change 0 with (byte_len []) at 2.
  change (mkpos 0 0) with (position_after []). change t with ([] ++ t) at 2.
  eapply cc_no_end with (n := length t); auto; cbn [crange]; eauto.
  - unfold cc_fuel, cc_total. cbn [length]. rewrite !Nat.mul_succ_l. lia.
  - intros (x & y & E & _). destruct x; discriminate.
Qed.

(** the start position of the change does not exist: everything before its end goes *)
Lemma change_bad_start_deletes t s e w j :
  denotes t e j -> (forall i, ~ denotes t s i) -> pos_le s e ->
  apply_content_changes t [mkchange (Some (mkrange s e)) w] = Done (w ++ skipn j t).
Proof.
  intros He Hs Hle.
  destruct (denotes_split _ _ _ He) as (x & y & -> & <- & Px & Nx).
  rewrite skipn_app, skipn_all, Nat.sub_diag. cbn [skipn app].
  set (ch := mkchange _ w).
  destruct (cc_scan (length x) x [] y ch [] (mkrange s e) 0 2) as (g & Hg & Hrun); auto; cbn [app rstart rend].
  - rewrite Px. apply pos_le_refl.
  - intros m1 m2 -> Hne Hnc E. exfalso. rewrite <- app_assoc in *. apply (Hs (length m1)). split; [rewrite app_length; lia|].
    rewrite firstn_app, firstn_all, Nat.sub_diag. cbn [firstn]. rewrite app_nil_r. split; [now symmetry|].
    intros (a & b & E1 & E2). destruct Hnc as [->|Hnc]; [cbn in E2; lia|]. apply Hnc. exists a, b.
    change (a ++ [CR; NL] ++ b) with (a ++ [CR] ++ NL :: b) in E1. rewrite <- ?app_assoc in E1.
    rewrite (app_assoc a [CR]) in E1.
    destruct (app_prefix_le m1 (m2 ++ y) (a ++ [CR]) (NL :: b) E1) as (q & E3 & E4).
    { rewrite app_length; cbn; lia. }
    assert (q = []) as ->.
    { apply (f_equal (@length _)) in E3. rewrite !app_length in E3. cbn in E3. destruct q; [reflexivity|cbn in E3; lia]. }
    rewrite app_nil_r in E3. auto.
  - unfold apply_content_changes. apply cc_run_more with (f1 := g + 2).
    + cbn [app] in Hrun. change (mkpos 0 0) with (position_after []). change (cc_run (g + 2) (mkcc (x ++ y) [ch] (position_after []) (byte_len []) 0) = Done (w ++ y)).
      rewrite Hrun. cbn [cc_run]. unfold cc_step. cbn [cc_changes cc_text cc_cursor cc_boff cc_start].
      unfold ch. cbn [crange rstart rend ctext]. rewrite (proj2 (pos_leb_le _ _) Hle), Px.
      rewrite (proj2 (pos_leb_le _ _) (pos_le_refl e)). cbn [negb]. cbv zeta.
      assert (Hse : pos_eqb s e = false).
      { apply pos_eqb_neq. intros ->. eapply Hs; eauto. }
      rewrite Hse, pos_eqb_refl.
      pose proof (replace_range_app [] x y w) as Hr. cbn [app byte_len Nat.add] in Hr. rewrite Hr.
      cbn [needs_reset]. reflexivity.
    + unfold cc_fuel, cc_total. cbn [length]. rewrite app_length. rewrite !Nat.mul_succ_l. lia.
Qed.
