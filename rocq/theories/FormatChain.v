(** From compatible byte edits to the text edits of the response: transform_edits, the sort, consolidate_edits. *)
From Coq Require Import List Arith NArith Bool Lia Sorting.Permutation Sorting.Sorted.
Import ListNotations.
From Verif Require Import TextModel TextSpec TextProofs TextEditProofs Kinds FormatData FormatModel.

(** ** pairwise relations *)
Fixpoint pw {A} (R : A -> A -> Prop) (l : list A) : Prop := match l with [] => True | x :: r => Forall (R x) r /\ pw R r end.
Lemma pw_app {A} (R : A -> A -> Prop) a b : (forall x y, R x y -> R y x) ->
  pw R (a ++ b) <-> pw R a /\ pw R b /\ (forall x y, In x a -> In y b -> R x y).
Proof.
  intros S. induction a as [|x a IH]; cbn.
  - split; [intros H|intros (_ & H & _); exact H]. split; [exact I|]. split; [exact H|]. intros ? ? [].
  - rewrite Forall_app, IH. split.
    + intros ((H1 & H2) & H3 & H4 & H5). split; [split; assumption|]. split; [exact H4|]. rewrite Forall_forall in H2.
      intros u v [<-|Hu] Hv; auto.
    + intros ((H1 & H2) & H3 & H4). split; [split; [exact H1|]|].
      * apply Forall_forall. intros v Hv. apply H4; [now left|exact Hv].
      * split; [exact H2|]. split; [exact H3|]. intros u v Hu Hv. apply H4; [now right|exact Hv].
Qed.
Lemma pw_perm {A} (R : A -> A -> Prop) a b : (forall x y, R x y -> R y x) -> Permutation a b -> pw R a -> pw R b.
Proof.
  intros S P. induction P; cbn; auto.
  - intros [H1 H2]. split; [now rewrite <- P|auto].
  - intros (H1 & H2 & H3). inversion H1; subst. repeat split; auto.
Qed.
Lemma pw_impl {A} (R Q : A -> A -> Prop) l : (forall x y, R x y -> Q x y) -> pw R l -> pw Q l.
Proof. intros H. induction l as [|x l IH]; cbn; [auto|]. intros [H1 H2]. split; [eapply Forall_impl; [|exact H1]; auto|auto]. Qed.
Lemma sorted_pw {A} (R : A -> A -> Prop) l : StronglySorted R l -> pw R l.
Proof. induction 1; cbn; auto. Qed.
Lemma pw_sorted {A} (R : A -> A -> Prop) l : pw R l -> StronglySorted R l.
Proof. induction l as [|x l IH]; cbn; [constructor|]. intros [H1 H2]. constructor; auto. Qed.
Lemma sorted_rev {A} (R : A -> A -> Prop) l : StronglySorted R l -> StronglySorted (fun a b => R b a) (rev l).
Proof.
  induction 1 as [|x l H IH F]; [constructor|]. cbn [rev]. clear H. rewrite Forall_forall in F.
  assert (F' : forall y, In y (rev l) -> R x y) by (intros y Hy; apply F, in_rev, Hy). clear F.
  induction (rev l) as [|y r IHr]; cbn; [repeat constructor|].
  apply StronglySorted_inv in IH as [IH F]. constructor.
  - apply IHr; [exact IH|]. intros z Hz. apply F'. now right.
  - apply Forall_app. split; [exact F|]. constructor; [|constructor]. apply F'. now left.
Qed.

Lemma skipn_skipn {A} a b (l : list A) : skipn a (skipn b l) = skipn (a + b) l.
Proof. revert l. induction b as [|b IH]; intros l; [now rewrite Nat.add_0_r|]. rewrite Nat.add_succ_r. destruct l; [now rewrite !skipn_nil|]. apply IH. Qed.
Lemma filter_rev {A} (f : A -> bool) l : filter f (rev l) = rev (filter f l).
Proof.
  assert (G : forall a b, filter f (a ++ b) = filter f a ++ filter f b) by (induction a as [|x a IH]; intros b; cbn; [reflexivity|]; destruct (f x); cbn; now rewrite IH).
  induction l as [|x l IH]; [reflexivity|]. cbn [rev filter]. rewrite G, IH. cbn. destruct (f x); cbn; [reflexivity|now rewrite app_nil_r].
Qed.

(** ** sort_by *)
Section sort.
Context {A : Type} (cmp : A -> A -> comparison) (le : A -> A -> Prop).
Hypothesis cmp_le : forall a b, cmp a b <> Gt -> le a b.
Hypothesis cmp_gt : forall a b, cmp a b = Gt -> le b a.
Hypothesis le_trans : forall a b c, le a b -> le b c -> le a c.
Lemma sorted_insert_perm e l : Permutation (e :: l) (sorted_insert cmp e l).
Proof.
  induction l as [|x l IH]; cbn; [reflexivity|]. destruct (cmp e x); try reflexivity.
  rewrite perm_swap. constructor. exact IH.
Qed.
Lemma sort_by_perm l : Permutation l (sort_by cmp l).
Proof. induction l as [|x l IH]; cbn; [constructor|]. rewrite <- sorted_insert_perm. now constructor. Qed.
Lemma sorted_insert_sorted e l : StronglySorted le l -> StronglySorted le (sorted_insert cmp e l).
Proof.
  induction 1 as [|x l H IH F]; cbn; [repeat constructor|].
  assert (D : cmp e x <> Gt -> StronglySorted le (e :: x :: l)).
  { intros D. constructor; [constructor; assumption|]. constructor; [now apply cmp_le|].
    eapply Forall_impl; [|exact F]. intros y. apply le_trans. now apply cmp_le. }
  destruct (cmp e x) eqn:E; try (apply D; discriminate). constructor; [exact IH|].
  rewrite <- sorted_insert_perm. constructor; [now apply cmp_gt|exact F].
Qed.
Lemma sort_by_sorted l : StronglySorted le (sort_by cmp l).
Proof. induction l as [|x l IH]; cbn; [constructor|]. now apply sorted_insert_sorted. Qed.
End sort.
Lemma sort_edits_perm es : Permutation es (sort_edits es).
Proof.
  induction es as [|e es IH]; [constructor|]. unfold sort_edits. cbn [fold_right]. fold (sort_edits es). rewrite IH at 1. clear.
  induction (sort_edits es) as [|x l IH]; cbn; [reflexivity|].
  destruct (edit_cmp e x); try reflexivity. rewrite perm_swap. now constructor.
Qed.

(** ** byte edits and indexed edits *)
Definition scompat (e f : sedit) : Prop := s_to e <= s_from f \/ s_to f <= s_from e.
Definition sdenotes (t : text) (e : sedit) (c : cedit) : Prop :=
  exists a b r, t = a ++ b ++ r /\ s_from e = byte_len a /\ s_to e = byte_len (a ++ b) /\ c = mkcedit (length a) (length (a ++ b)) (s_new e).
Definition ccompat (x y : cedit) : Prop := cj x <= ci y \/ cj y <= ci x.
Lemma len_utf8_pos c : 0 < len_utf8 c.
Proof. unfold len_utf8. repeat (destruct (_ <? _)%N; [lia|]). lia. Qed.
Lemma prefix_bytes t : forall a b x y, t = a ++ x -> t = b ++ y -> byte_len a <= byte_len b -> length a <= length b.
Proof.
  induction t as [|c t IH]; intros a b x y Ea Eb H.
  - symmetry in Ea. apply app_eq_nil in Ea as [-> _]. cbn. lia.
  - destruct a as [|c1 a]; [cbn; lia|]. destruct b as [|c2 b].
    + cbn in H. pose proof (len_utf8_pos c1). lia.
    + injection Ea as <- Ea. injection Eb as <- Eb. cbn in *. apply le_n_S. apply (IH a b x y Ea Eb). lia.
Qed.
Lemma prefix_le : forall a x b y, a ++ x = b ++ y -> byte_len a <= byte_len b -> exists z, b = a ++ z /\ x = z ++ y.
Proof.
  induction a as [|c a IH]; intros x b y E H; [exists b; auto|].
  destruct b as [|d b]; [cbn in H; pose proof (len_utf8_pos c); lia|]. injection E as <- E. cbn in H.
  destruct (IH x b y E) as (z & -> & ->); [lia|]. exists z. auto.
Qed.
Lemma scompat_ccompat t e f c d : scompat e f -> sdenotes t e c -> sdenotes t f d -> ccompat c d.
Proof.
  intros H (a & b & r & E1 & F1 & T1 & ->) (a' & b' & r' & E2 & F2 & T2 & ->). unfold scompat, ccompat in *. cbn. rewrite F1, T1, F2, T2 in H.
  destruct H as [H|H]; [left; eapply prefix_bytes with (t := t) (x := r) (y := b' ++ r')|right; eapply prefix_bytes with (t := t) (x := r') (y := b ++ r)];
    rewrite <- ?app_assoc; eauto.
Qed.

(** ** transform_edits *)
Definition after (e f : sedit) : Prop := s_to e < s_to f \/ s_to e = s_to f /\ s_from e <= s_from f.
Lemma transform_sorted es : StronglySorted after (rev (sort_by (fun a b => then_cmp (Nat.compare (s_to b) (s_to a)) (Nat.compare (s_from b) (s_from a))) es)).
Proof.
  apply sorted_rev with (R := fun a b => after b a). apply sort_by_sorted; unfold after, then_cmp.
  - intros a b. destruct (Nat.compare_spec (s_to b) (s_to a)); [destruct (Nat.compare_spec (s_from b) (s_from a))| |]; intros; try congruence; lia.
  - intros a b. destruct (Nat.compare_spec (s_to b) (s_to a)); [destruct (Nat.compare_spec (s_from b) (s_from a))| |]; intros; try congruence; lia.
  - lia.
Qed.
(** compatible and sorted: a chain *)
Lemma chain_of es : Forall (fun e => s_from e <= s_to e) es -> StronglySorted after es -> pw scompat es -> StronglySorted (fun e f => s_to e <= s_from f) es.
Proof.
  intros O. induction 1 as [|e es H IH F]; intros P; [constructor|]. destruct P as [P1 P2]. inversion O; subst. constructor; [auto|].
  rewrite Forall_forall in *. intros f Hf. specialize (F f Hf). specialize (P1 f Hf). specialize (H3 f Hf). unfold after, scompat in *. lia.
Qed.
Lemma advance_pos_pstep p c : advance_pos p c = pstep p c.
Proof. reflexivity. Qed.
Definition ready (pre : text) (off : nat) (marker : pos) (es : list sedit) : Prop :=
  match es with
  | [] => True
  | e :: _ => off <= s_to e /\ (off <= s_from e \/ exists a b, pre = a ++ b /\ s_from e = byte_len a /\ marker = position_after a)
  end.
Lemma tr_here_ok pre suf es : forall marker, StronglySorted (fun e f => s_to e <= s_from f) es ->
  Forall (fun e => exists c, sdenotes (pre ++ suf) e c) es -> ready pre (byte_len pre) marker es ->
  exists done rest m dn cs, tr_here (byte_len pre) (position_after pre) marker es = (done, rest, m) /\ es = dn ++ rest /\
    Forall2 (sdenotes (pre ++ suf)) dn cs /\ Forall2 (edit_denotes (pre ++ suf)) done cs /\ ready pre (byte_len pre) m rest /\
    match rest with [] => True | e :: _ => byte_len pre < s_to e end.
Proof.
  induction es as [|e es IH]; intros marker S F R.
  - exists [], [], marker, [], []. cbn. repeat split; constructor.
  - cbn [tr_here]. inversion F as [|? ? (c & a & b & r & E & Hf & Ht & Hc) F']; subst. apply StronglySorted_inv in S as [S SF].
    destruct R as [R1 R2].
    set (mk := if byte_len pre =? s_from e then position_after pre else marker).
    assert (M : s_from e <= byte_len pre -> mk = position_after a).
    { intros Hle. unfold mk. destruct (Nat.eqb_spec (byte_len pre) (s_from e)) as [Q|Q].
      - f_equal. apply byte_len_app_inj with (y := suf) (y' := b ++ r); [exact E|congruence].
      - destruct R2 as [R2|(a' & b' & Ep & Ef & Em)]; [lia|]. rewrite Em. f_equal.
        apply byte_len_app_inj with (y := b' ++ suf) (y' := b ++ r); [rewrite <- E, Ep; now rewrite <- app_assoc|congruence]. }
    destruct (Nat.eqb_spec (byte_len pre) (s_to e)) as [Q|Q].
    + assert (Hpre : pre = a ++ b). { apply byte_len_app_inj with (y := suf) (y' := r); [rewrite <- app_assoc; exact E|congruence]. }
      assert (Hle : s_from e <= byte_len pre). { rewrite Hf, Hpre, byte_len_app. lia. }
      destruct (IH mk S F') as (done & rest & m & dn & cs & E1 & E2 & E3 & E4 & E5 & E6).
      { destruct es as [|f es]; [exact I|]. inversion SF; subst. inversion F' as [|? ? (c' & a' & b' & r' & _ & Hf' & Ht' & _) _]; subst.
        rewrite byte_len_app in Ht'. unfold ready. split; [|left]; lia. }
      rewrite E1. exists (mkedit (mkrange mk (position_after pre)) (s_new e) :: done), rest, m, (e :: dn), (mkcedit (length a) (length (a ++ b)) (s_new e) :: cs).
      repeat split; auto.
      * cbn. now rewrite E2.
      * constructor; [|exact E3]. exists a, b, r. auto.
      * constructor; [|exact E4]. unfold edit_denotes. cbn. rewrite E, app_length, !app_length. split; [lia|].
        rewrite <- app_length. split; [|split; [|reflexivity]].
        -- rewrite firstn_app, firstn_all, Nat.sub_diag, firstn_O, app_nil_r. symmetry. now apply M.
        -- rewrite app_assoc, firstn_app, firstn_all, Nat.sub_diag, firstn_O, app_nil_r. now rewrite Hpre.
    + exists [], (e :: es), mk, [], []. repeat split; auto; try (constructor; fail); [|lia].
      destruct (Nat.le_gt_cases (byte_len pre) (s_from e)) as [L|G]; [now left|right].
      assert (G' : s_from e <= byte_len pre) by lia. destruct R2 as [R2|(a' & b' & Ep & Ef & Em)]; [lia|].
      exists a', b'. repeat split; auto. rewrite (M G'). f_equal.
      apply byte_len_app_inj with (y := b ++ r) (y' := b' ++ suf); [rewrite <- E, Ep; now rewrite <- app_assoc|congruence].
Qed.
Lemma tr_scan_ok suf : forall pre marker es, StronglySorted (fun e f => s_to e <= s_from f) es ->
  Forall (fun e => exists c, sdenotes (pre ++ suf) e c) es -> ready pre (byte_len pre) marker es ->
  exists l cs, tr_scan suf (byte_len pre) (position_after pre) marker es = FDone l /\ Forall2 (sdenotes (pre ++ suf)) es cs /\ Forall2 (edit_denotes (pre ++ suf)) l cs.
Proof.
  induction suf as [|c suf IH]; intros pre marker es S F R;
    destruct (tr_here_ok pre _ es marker S F R) as (done & rest & m & dn & cs & E1 & E2 & E3 & E4 & E5 & E6); cbn [tr_scan]; rewrite E1.
  - destruct rest as [|e rest].
    + rewrite app_nil_r in E2. subst dn. eauto.
    + exfalso. subst es. rewrite Forall_app in F. destruct F as [_ F]. inversion F as [|? ? (c & a & b & r & E & Hf & Ht & _) _]; subst.
      rewrite app_nil_r in E. rewrite E in E6. rewrite app_assoc, (byte_len_app (a ++ b)) in E6. lia.
  - destruct rest as [|e rest].
    + rewrite app_nil_r in E2. subst dn. eauto.
    + subst es. rewrite Forall_app in F. destruct F as [_ F].
      assert (Sr : StronglySorted (fun e f => s_to e <= s_from f) (e :: rest)).
      { clear -S. induction dn as [|x dn IH]; [exact S|]. apply StronglySorted_inv in S as [S _]. auto. }
      replace (byte_len pre + len_utf8 c) with (byte_len (pre ++ [c])) by (rewrite byte_len_app; cbn; lia).
      rewrite advance_pos_pstep, <- position_after_snoc.
      destruct (IH (pre ++ [c]) m (e :: rest)) as (l & cs' & H1 & H2 & H3).
      * exact Sr.
      * rewrite <- app_assoc. exact F.
      * inversion F as [|? ? (c' & a & b & r & E & Hf & Ht & _) _]; subst. destruct E5 as [_ E5].
        assert (P : exists z, a ++ b = (pre ++ [c]) ++ z).
        { destruct (prefix_le pre (c :: suf) (a ++ b) r) as (z & Hz & Hs); [rewrite <- app_assoc; exact E|lia|].
          destruct z as [|d z]; [rewrite app_nil_r in Hz; rewrite Ht, Hz in E6; lia|]. injection Hs as <- _. exists z. rewrite Hz, <- app_assoc. reflexivity. }
        destruct P as (z & P). split; [rewrite Ht, P, (byte_len_app (pre ++ [c])); lia|].
        destruct E5 as [E5|(a' & b' & Ep & Ef & Em)].
        -- destruct (Nat.eq_dec (s_from e) (byte_len pre)) as [Q|Q].
           ++ right. exists pre, [c]. repeat split; [exact Q|]. clear -E1 Q E6.
              (* the marker was set when the edit was met *)
              assert (G : forall es done mk, tr_here (byte_len pre) (position_after pre) mk es = (done, e :: rest, m) -> m = position_after pre).
              { clear E1. induction es as [|x es IH]; intros d0 mk H; cbn in H; [discriminate|].
                destruct (byte_len pre =? s_to x) eqn:T.
                - destruct (tr_here _ _ _ es) as [[d r'] m'] eqn:K. injection H as <- -> ->. eapply IH, K.
                - injection H as <- -> -> <-. rewrite Q, Nat.eqb_refl. reflexivity. }
              eapply G, E1.
           ++ left. destruct (prefix_le pre (c :: suf) a (b ++ r)) as (y & Hy & Hs); [exact E|lia|].
              destruct y as [|d y]; [rewrite app_nil_r in Hy; congruence|]. injection Hs as <- _. rewrite Hf, Hy, !byte_len_app. cbn. lia.
        -- right. exists a', (b' ++ [c]). rewrite Ep, <- app_assoc. auto.
      * rewrite <- app_assoc in H2, H3. cbn [app] in H2, H3. rewrite H1. cbn [fbind]. exists (done ++ l), (cs ++ cs'). split; [reflexivity|].
        split; apply Forall2_app; assumption.
Qed.
Theorem transform_edits_ok es t : es <> [] -> pw scompat es -> Forall (fun e => exists c, sdenotes t e c) es ->
  exists A l cs, Permutation es A /\ transform_edits es t = FDone l /\ Forall2 (sdenotes t) A cs /\ Forall2 (edit_denotes t) l cs.
Proof.
  intros Hne P F. unfold transform_edits. set (A := rev (sort_by _ es)).
  assert (PA : Permutation es A). { unfold A. rewrite <- Permutation_rev. apply sort_by_perm. }
  assert (SA : StronglySorted after A) by apply transform_sorted.
  assert (FA : Forall (fun e => exists c, sdenotes t e c) A). { rewrite <- PA. exact F. }
  assert (C : StronglySorted (fun e f => s_to e <= s_from f) A).
  { apply chain_of; [|exact SA|eapply pw_perm; [|exact PA|exact P]; unfold scompat; intros; lia].
    eapply Forall_impl; [|exact FA]. intros e (c & a & b & r & _ & Hf & Ht & _). rewrite Hf, Ht, byte_len_app. lia. }
  destruct A as [|e A0] eqn:EA.
  - apply Permutation_sym, Permutation_nil in PA. contradiction.
  - destruct (tr_scan_ok t [] (mkpos 0 0) (e :: A0) C FA) as (l & cs & H1 & H2 & H3).
    + split; [cbn; lia|left; cbn; lia].
    + exists (e :: A0), l, cs. auto.
Qed.

(** ** the sort *)
Definition edit_after (a b : text_edit) : Prop :=
  pos_lt (rstart (erange b)) (rstart (erange a)) \/ rstart (erange b) = rstart (erange a) /\ pos_le (rend (erange b)) (rend (erange a)).
Lemma sort_edits_sort_by es : sort_edits es = sort_by edit_cmp es.
Proof.
  induction es as [|e es IH]; [reflexivity|]. unfold sort_edits, sort_by in *. cbn [fold_right]. rewrite IH. clear.
  induction (fold_right (sorted_insert edit_cmp) [] es) as [|x l IH]; cbn; [reflexivity|]. now rewrite IH.
Qed.
Lemma pos_cmp_spec p q : CompareSpec (p = q) (pos_lt p q) (pos_lt q p) (pos_cmp p q).
Proof.
  destruct p as [l c], q as [l' c']. unfold pos_cmp, pos_lt. cbn. destruct (Nat.compare_spec l l'); [destruct (Nat.compare_spec c c')| |]; constructor; subst; auto; lia.
Qed.
Lemma sort_edits_sorted es : StronglySorted edit_after (sort_edits es).
Proof.
  rewrite sort_edits_sort_by. apply sort_by_sorted; unfold edit_after, edit_cmp.
  - intros a b. destruct (pos_cmp_spec (rstart (erange b)) (rstart (erange a))) as [E|L|G]; [|auto|congruence]. rewrite E.
    destruct (pos_cmp_spec (rend (erange b)) (rend (erange a))) as [E'|L|G]; intros; [|auto|congruence]; right; split; auto; [rewrite E'; apply pos_le_refl|now left].
  - intros a b. destruct (pos_cmp_spec (rstart (erange b)) (rstart (erange a))) as [E|L|G]; [|discriminate|auto]. rewrite E.
    destruct (pos_cmp_spec (rend (erange b)) (rend (erange a))) as [E'|L|G]; intros; [discriminate|discriminate|]. right. split; [reflexivity|now left].
  - intros a b c [H|[H H']] [K|[K K']].
    + left. eapply pos_lt_trans; eauto.
    + left. now rewrite K.
    + left. now rewrite <- H.
    + right. split; [congruence|]. eapply pos_le_trans; eauto.
Qed.
Lemma Forall2_perm {A B} (R : A -> B -> Prop) l l' m : Permutation l l' -> Forall2 R l m -> exists m', Permutation m m' /\ Forall2 R l' m'.
Proof.
  intros P. revert m. induction P; intros m H.
  - inversion H; subst. exists []. split; constructor.
  - inversion H; subst. destruct (IHP _ H4) as (m' & P' & F). exists (y :: m'). split; constructor; auto.
  - inversion H as [|? a ? r Ha Hr]; subst. inversion Hr as [|? b ? r' Hb Hr']; subst. exists (b :: a :: r'). split; [constructor|repeat constructor; auto].
  - destruct (IHP1 _ H) as (m1 & Q1 & F1). destruct (IHP2 _ F1) as (m2 & Q2 & F2). exists m2. split; [etransitivity; eauto|exact F2].
Qed.
Lemma denotes_order t e f c d : edit_denotes t e c -> edit_denotes t f d -> edit_after e f -> ccompat c d -> cj d <= ci c.
Proof.
  intros ((C1 & C2) & C3 & C4 & _) ((D1 & D2) & D3 & D4 & _) H K. unfold ccompat in K. destruct K as [K|K]; [|exact K].
  destruct H as [H|[H H']].
  - rewrite <- C3, <- D3 in H. apply position_after_lt_inv in H; lia.
  - rewrite <- C3, <- D3 in H. apply position_after_inj in H; [|lia|lia].
    rewrite <- C4, <- D4 in H'. assert (cj d <= cj c); [|lia].
    destruct (Nat.le_gt_cases (cj d) (cj c)) as [|G]; [assumption|]. exfalso. eapply pos_le_lt_absurd; [exact H'|]. apply position_after_lt; lia.
Qed.
(** the edits from the last to the first, and the places they denote *)
Lemma sort_edits_chain t es cs : Forall2 (edit_denotes t) es cs -> pw ccompat cs ->
  exists cl, Permutation cs cl /\ Forall2 (edit_denotes t) (sort_edits es) cl /\ StronglySorted (fun x y => cj y <= ci x) cl.
Proof.
  intros F P. destruct (Forall2_perm _ _ _ _ (sort_edits_perm es) F) as (cl & Pc & Fc). exists cl. split; [exact Pc|]. split; [exact Fc|].
  assert (P' : pw ccompat cl) by (eapply pw_perm; [|exact Pc|exact P]; unfold ccompat; intros; lia).
  pose proof (sort_edits_sorted es) as S. clear -Fc P' S. induction Fc as [|e c l cl D Fc IH]; [constructor|].
  apply StronglySorted_inv in S as [S SF]. destruct P' as [P1 P2]. constructor; [auto|]. clear IH S P2.
  induction Fc as [|f d l cl D' Fc IH]; [constructor|]. inversion SF; subst. inversion P1; subst. constructor; [eapply denotes_order; eauto|auto].
Qed.

(** ** consolidate_edits *)
Definition cempty (c : cedit) : bool := (ci c =? cj c) && match cnew c with [] => true | _ => false end.
Definition cfirst (g : list cedit) : nat := match g with [] => 0 | c :: _ => ci c end.
Definition clast (g : list cedit) : nat := match g with [] => 0 | c :: _ => cj (last g c) end.
Fixpoint linked (g : list cedit) : Prop := match g with c :: ((d :: _) as r) => cj c = ci d /\ linked r | _ => True end.
Definition ordered (c : cedit) : Prop := ci c <= cj c.
Definition fusec (g : list cedit) : cedit := mkcedit (cfirst g) (clast g) (flat_map cnew g).
Lemma denotes_empty t e c : edit_denotes t e c -> edit_is_empty e = cempty c.
Proof.
  intros ((C1 & C2) & C3 & C4 & C5). unfold edit_is_empty, cempty. rewrite C5. f_equal. rewrite <- C3, <- C4.
  destruct (Nat.eqb_spec (ci c) (cj c)) as [E|N].
  - rewrite E. apply pos_eqb_eq. reflexivity.
  - destruct (pos_eqb _ _) eqn:E; [|reflexivity]. apply pos_eqb_eq, position_after_inj in E; lia.
Qed.
Lemma denotes_eqb t e f c d : edit_denotes t e c -> edit_denotes t f d -> pos_eqb (rstart (erange e)) (rend (erange f)) = (ci c =? cj d).
Proof.
  intros ((C1 & C2) & C3 & C4 & C5) ((D1 & D2) & D3 & D4 & D5). rewrite <- C3, <- D4. destruct (Nat.eqb_spec (ci c) (cj d)) as [->|N].
  - now apply pos_eqb_eq.
  - destruct (pos_eqb _ _) eqn:E; [|reflexivity]. apply pos_eqb_eq, position_after_inj in E; lia.
Qed.
Lemma denotes_eqb_start t e f c d : edit_denotes t e c -> edit_denotes t f d -> pos_eqb (rstart (erange e)) (rstart (erange f)) = (ci c =? ci d).
Proof.
  intros ((C1 & C2) & C3 & C4 & C5) ((D1 & D2) & D3 & D4 & D5). rewrite <- C3, <- D3. destruct (Nat.eqb_spec (ci c) (ci d)) as [->|N].
  - now apply pos_eqb_eq.
  - destruct (pos_eqb _ _) eqn:E; [|reflexivity]. apply pos_eqb_eq, position_after_inj in E; lia.
Qed.
Fixpoint separated (gs : list (list cedit)) : Prop :=
  match gs with g :: ((h :: _) as r) => clast g < cfirst h /\ separated r | _ => True end.
Definition groups_ok (t : text) (acc : list (list text_edit)) (gs : list (list cedit)) : Prop :=
  Forall2 (Forall2 (edit_denotes t)) acc gs /\ Forall (fun g => g <> [] /\ linked g) gs /\ separated gs.
Lemma last_cons {A} (x d d' : A) r : last (x :: r) d = last (x :: r) d'.
Proof. revert x. induction r as [|y r IH]; intros x; [reflexivity|]. change (last (y :: r) d = last (y :: r) d'). apply IH. Qed.
Lemma consolidate_ok t es cl : Forall2 (edit_denotes t) es cl -> StronglySorted (fun x y => cj y <= ci x) cl ->
  forall acc gs, groups_ok t acc gs -> (forall g r, gs = g :: r -> Forall (fun c => cj c <= cfirst g) cl) ->
  exists gs', groups_ok t (fold_left consolidate_step es acc) gs' /\ concat gs' = rev (filter (fun c => negb (cempty c)) cl) ++ concat gs.
Proof.
  induction 1 as [|e c es cl D F IH]; intros S acc gs Hg Hb.
  - exists gs. split; [exact Hg|reflexivity].
  - apply StronglySorted_inv in S as [S SF]. cbn [fold_left filter]. destruct Hg as (G1 & G2 & G3).
    pose proof (proj1 D) as Hc. unfold consolidate_step at 2. rewrite (denotes_empty _ _ _ D). destruct (cempty c) eqn:Em; cbn [negb].
    + destruct (IH S acc gs) as (gs' & H1 & H2); [repeat split; assumption| |exists gs'; split; assumption].
      intros g r Eg. specialize (Hb g r Eg). now inversion Hb.
    + assert (New : forall gs0 acc0, groups_ok t acc0 gs0 -> concat gs0 = c :: concat gs -> (forall g r, gs0 = g :: r -> cfirst g = ci c) ->
         exists gs', groups_ok t (fold_left consolidate_step es acc0) gs' /\ concat gs' = rev (c :: filter (fun c => negb (cempty c)) cl) ++ concat gs).
      { intros gs0 acc0 Hok Hcat Hf. destruct (IH S acc0 gs0 Hok) as (gs' & H1 & H2).
        - intros g r Eg. rewrite (Hf g r Eg). exact SF.
        - exists gs'. split; [exact H1|]. cbn [rev]. rewrite <- app_assoc. cbn [app]. rewrite <- Hcat. exact H2. }
      destruct G1 as [|g0 gc acc gs Hgg G1].
      * apply New with (gs0 := [[c]]); [|reflexivity|intros g r E; injection E as <- <-; reflexivity].
        split; [apply Forall2_cons; [apply Forall2_cons; [exact D|apply Forall2_nil]|apply Forall2_nil]|]. split; [apply Forall_cons; [split; [discriminate|exact I]|apply Forall_nil]|exact I].
      * inversion G2 as [|? ? [Hne Hl] G2']; subst. destruct Hgg as [|n cn g0 gc Dn Hgg]; [congruence|].
        specialize (Hb _ _ eq_refl). inversion Hb as [|? ? Hcb _]; subst. cbn [cfirst] in Hcb.
        rewrite (denotes_eqb _ _ _ _ _ Dn D). destruct (Nat.eqb_spec (ci cn) (cj c)) as [E|N].
        -- apply New with (gs0 := (c :: cn :: gc) :: gs); [|reflexivity|intros g r Eg; injection Eg as <- <-; reflexivity].
           split; [apply Forall2_cons; [apply Forall2_cons; [exact D|apply Forall2_cons; assumption]|exact G1]|]. split.
           ++ constructor; [|exact G2']. split; [discriminate|]. cbn. split; [auto|exact Hl].
           ++ destruct gs as [|h gs]; [exact I|]. destruct G3 as [G3 G4]. split; [|exact G4]. change (clast (c :: cn :: gc)) with (cj (last (cn :: gc) c)). rewrite (last_cons cn c cn). exact G3.
        -- rewrite (denotes_eqb_start _ _ _ _ _ Dn D). replace (ci cn =? ci c) with false by (symmetry; apply Nat.eqb_neq; lia). rewrite andb_false_r.
           apply New with (gs0 := [c] :: (cn :: gc) :: gs); [|reflexivity|intros g r Eg; injection Eg as <- <-; reflexivity].
           split; [apply Forall2_cons; [apply Forall2_cons; [exact D|apply Forall2_nil]|apply Forall2_cons; [apply Forall2_cons; assumption|exact G1]]|].
           split; [apply Forall_cons; [split; [discriminate|exact I]|exact G2]|].
           split; [cbn; lia|exact G3].
Qed.
Lemma fuse_ok t g gc : Forall2 (edit_denotes t) g gc -> linked gc -> g <> [] -> exists e, fuse g = FDone e /\ edit_denotes t e (fusec gc).
Proof.
  intros F Hl Hne. destruct F as [|e c g gc D F]; [congruence|]. cbn [fuse]. eexists. split; [reflexivity|].
  unfold edit_denotes, fusec. cbn [erange rstart rend new_text ci cj cnew cfirst].
  assert (K : forall e c, edit_denotes t e c -> forall g gc, Forall2 (edit_denotes t) g gc -> linked (c :: gc) ->
     ci c <= clast (c :: gc) <= length t /\ position_after (firstn (clast (c :: gc)) t) = rend (erange (last (e :: g) e))
     /\ flat_map new_text (e :: g) = flat_map cnew (c :: gc)).
  { clear. intros e c D g gc F. revert e c D. induction F as [|f d g gc Df F IH]; intros e c D Hl.
    - destruct D as ((C1 & C2) & C3 & C4 & C5). cbn. rewrite C5. repeat split; auto; lia.
    - destruct Hl as [Hl Hl']. destruct (IH f d Df Hl') as (H1 & H2 & H3). destruct D as ((C1 & C2) & C3 & C4 & C5).
      change (clast (c :: d :: gc)) with (cj (last (d :: gc) c)). change (last (e :: f :: g) e) with (last (f :: g) e).
      rewrite (last_cons d c d), (last_cons f e f). unfold clast in H1, H2. repeat split; try lia; [exact H2|].
      cbn [flat_map]. rewrite C5. f_equal. exact H3. }
  destruct (K e c D g gc F Hl) as (H1 & H2 & H3). destruct D as ((C1 & C2) & C3 & C4 & C5). repeat split; try lia; auto.
Qed.
Lemma merge_groups_plain t ib gs gcs : groups_ok t gs gcs -> exists es, merge_groups t ib gs [] = FDone (es, []) /\ Forall2 (edit_denotes t) es (map fusec gcs).
Proof.
  intros (F & G & _). revert G. induction F as [|g gc gs gcs Fg F IH]; intros G; [exists []; split; constructor|].
  inversion G as [|? ? [Hne Hl] G']; subst. destruct (fuse_ok t g gc Fg Hl) as (e & He & De); [intros ->; inversion Fg; subst; congruence|].
  destruct (IH G') as (es & H1 & H2). exists (e :: es). cbn [merge_groups]. rewrite He. cbn [fbind merge_group]. rewrite He. cbn [fbind]. rewrite H1.
  split; [reflexivity|]. constructor; assumption.
Qed.
Lemma Forall2_rev' {A B} (R : A -> B -> Prop) l m : Forall2 R l m -> Forall2 R (rev l) (rev m).
Proof. induction 1; cbn; [constructor|]. apply Forall2_app; [assumption|repeat constructor; assumption]. Qed.

(** ** the resulting text *)
Lemma splice_join at_ t x y r : at_ <= ci x -> ordered x -> cj x = ci y -> ordered y ->
  splice at_ t (x :: y :: r) = splice at_ t (mkcedit (ci x) (cj y) (cnew x ++ cnew y) :: r).
Proof.
  unfold ordered. intros Ha Hx E Hy. cbn. rewrite E, Nat.sub_diag, firstn_O, skipn_skipn, <- !app_assoc. cbn [app]. replace (cj y - ci y + (ci y - at_)) with (cj y - at_) by lia. reflexivity.
Qed.
Lemma splice_drop at_ t x r : at_ <= ci x -> cempty x = true -> ci x <= length t + at_ -> match r with y :: _ => cj x <= ci y /\ ordered y | [] => True end ->
  splice at_ t (x :: r) = splice at_ t r.
Proof.
  unfold ordered, cempty. intros Ha He Hl Hr. apply andb_prop in He as [E1 E2]. apply Nat.eqb_eq in E1. destruct (cnew x) eqn:En; [|discriminate].
  cbn. rewrite En. cbn [app]. rewrite <- E1. destruct r as [|y r]; cbn; [apply firstn_skipn|].
  destruct Hr as [H1 H2]. rewrite skipn_skipn, app_assoc. replace (cj y - ci x + (ci x - at_)) with (cj y - at_) by lia. f_equal.
  rewrite (firstn_le_app t (ci x - at_) (ci y - at_)) by lia. do 2 f_equal. lia.
Qed.
Definition chain (at_ n : nat) (cs : list cedit) : Prop :=
  Forall (fun c => at_ <= ci c /\ ordered c /\ cj c <= n) cs /\ StronglySorted (fun x y => cj x <= ci y) cs.
Lemma chain_inv at_ n c cs : chain at_ n (c :: cs) -> at_ <= ci c /\ ordered c /\ cj c <= n /\ chain (cj c) n cs.
Proof.
  intros [F S]. inversion F as [|? ? (H1 & H2 & H3) F']; subst. apply StronglySorted_inv in S as [S SF]. repeat split; auto.
  rewrite Forall_forall in *. intros x Hx. specialize (F' x Hx). specialize (SF x Hx). tauto.
Qed.
Lemma splice_filter cs : forall at_ t, chain at_ (length t + at_) cs -> splice at_ t (filter (fun c => negb (cempty c)) cs) = splice at_ t cs.
Proof.
  induction cs as [|c cs IH]; intros at_ t H; [reflexivity|]. apply chain_inv in H as (H1 & H2 & H3 & H4). unfold ordered in H2.
  assert (I1 : splice (cj c) (skipn (cj c - at_) t) (filter (fun c => negb (cempty c)) cs) = splice (cj c) (skipn (cj c - at_) t) cs).
  { apply IH. replace (length (skipn (cj c - at_) t) + cj c) with (length t + at_) by (rewrite skipn_length; lia). exact H4. }
  cbn [filter]. destruct (cempty c) eqn:E; cbn [negb].
  - rewrite splice_drop; [|exact H1|exact E|lia|destruct cs as [|y cs]; [exact I|]; apply chain_inv in H4; tauto].
    apply IH. destruct H4 as [F S]. split; [|exact S]. eapply Forall_impl; [|exact F]. unfold ordered. intros y. cbn beta. lia.
  - cbn [splice]. now rewrite I1.
Qed.
Lemma chain_app_r at_ n a : forall b, chain at_ n (a ++ b) -> chain at_ n b.
Proof. intros b [F S]. apply Forall_app in F as [_ F]. split; [exact F|]. clear F. induction a as [|x a IH]; [exact S|]. apply StronglySorted_inv in S as [S _]. auto. Qed.
Lemma splice_fusec g : forall at_ t r, g <> [] -> linked g -> Forall ordered g -> at_ <= cfirst g -> splice at_ t (g ++ r) = splice at_ t (fusec g :: r).
Proof.
  intros at_ t r. destruct g as [|c g]; [congruence|]. intros _. revert c. induction g as [|d g IH]; intros c Hl Ho Ha.
  - destruct c as [i j w]. unfold fusec. cbn. now rewrite app_nil_r.
  - destruct Hl as [E Hl]. inversion Ho as [|? ? Oc Ho']; subst. inversion Ho' as [|? ? Od Ho'']; subst. unfold ordered in Oc, Od. cbn [cfirst] in Ha.
    change ((c :: d :: g) ++ r) with (c :: d :: (g ++ r)). rewrite splice_join by (unfold ordered; assumption).
    specialize (IH (mkcedit (ci c) (cj d) (cnew c ++ cnew d))). change (mkcedit (ci c) (cj d) (cnew c ++ cnew d) :: g ++ r) with ((mkcedit (ci c) (cj d) (cnew c ++ cnew d) :: g) ++ r).
    rewrite IH.
    + unfold fusec. cbn [cfirst ci]. f_equal. f_equal. f_equal; [|cbn; now rewrite app_assoc].
      change (clast (c :: d :: g)) with (cj (last (d :: g) c)). destruct g as [|x g]; [reflexivity|].
      change (cj (last (x :: g) (mkcedit (ci c) (cj d) (cnew c ++ cnew d))) = cj (last (x :: g) c)). f_equal. apply last_cons.
    + destruct g as [|x g]; [exact I|]. exact Hl.
    + constructor; [unfold ordered; cbn; lia|exact Ho''].
    + exact Ha.
Qed.
Lemma splice_groups gs : forall at_ t, Forall (fun g => g <> [] /\ linked g) gs -> chain at_ (length t + at_) (concat gs) ->
  splice at_ t (concat gs) = splice at_ t (map fusec gs).
Proof.
  induction gs as [|g gs IH]; intros at_ t G H; [reflexivity|]. inversion G as [|? ? [Hne Hl] G']; subst. cbn [concat map].
  assert (Fo : Forall ordered g). { destruct H as [F _]. cbn in F. apply Forall_app in F as [F _]. eapply Forall_impl; [|exact F]. cbn. tauto. }
  assert (Ha : at_ <= cfirst g). { destruct g as [|c g]; [congruence|]. cbn in H. apply chain_inv in H. tauto. }
  rewrite splice_fusec by assumption. cbn [splice]. do 2 f_equal. apply IH; [exact G'|].
  (* the rest starts behind the group *)
  assert (K : forall g at0, g <> [] -> chain at0 (length t + at_) (g ++ concat gs) -> at0 <= clast g <= length t + at_ /\ chain (clast g) (length t + at_) (concat gs)).
  { clear. intros g. induction g as [|c g IH]; intros at0 Hne H; [congruence|]. apply chain_inv in H as (H1 & H2 & H3 & H4). unfold ordered in H2. destruct g as [|d g].
    - cbn in *. split; [lia|exact H4].
    - change (clast (c :: d :: g)) with (cj (last (d :: g) c)). rewrite (last_cons d c d). destruct (IH (cj c) ltac:(discriminate) H4) as [I1 I2].
      split; [unfold clast in I1; lia|exact I2]. }
  destruct (K g at_ Hne H) as [K1 K2]. unfold fusec. cbn [cj]. replace (length (skipn (clast g - at_) t) + clast g) with (length t + at_) by (rewrite skipn_length; lia).
  exact K2.
Qed.
(** edits with at least one character between them *)
Definition cgap (a b : cedit) : Prop := cj a < ci b /\ ci b <= cj b.
Lemma cgap_before l : Forall (fun c => ci c <= cj c) l -> StronglySorted cgap l -> StronglySorted before l.
Proof.
  intros F S. induction S as [|a l S IH H]; [constructor|]. inversion F as [|? ? Fa F']; subst. constructor; [auto|]. rewrite Forall_forall in *. intros b Hb. specialize (H b Hb). unfold cgap, before in *. lia.
Qed.
Lemma separated_before n gs : Forall (fun g => g <> [] /\ linked g) gs -> separated gs -> chain 0 n (concat gs) -> StronglySorted cgap (map fusec gs).
Proof.
  intros G S C.
  assert (B : forall g, In g gs -> cfirst g <= clast g).
  { intros g Hg. destruct C as [F _]. rewrite Forall_forall in *. destruct (G g Hg) as [Hne Hl].
    assert (Fo : Forall ordered g). { apply Forall_forall. intros c Hc. apply (F c). apply in_concat. eauto. }
    clear -Fo Hl Hne. destruct g as [|c g]; [congruence|]. clear Hne. revert c Fo Hl. induction g as [|d g IH]; intros c Fo Hl.
    - inversion Fo; subst. exact H1.
    - inversion Fo as [|? ? O1 Fo']; subst. destruct Hl as [E Hl]. specialize (IH d Fo' Hl).
      change (clast (c :: d :: g)) with (cj (last (d :: g) c)). rewrite (last_cons d c d). unfold clast in IH. cbn in *. unfold ordered in O1. lia. }
  clear C G. induction gs as [|g gs IH]; [constructor|]. cbn [map].
  assert (S' : separated gs) by (destruct gs; [exact I|apply S]). specialize (IH S' (fun x H => B x (or_intror H))). constructor; [exact IH|].
  destruct gs as [|h gs]; [constructor|]. destruct S as [S _]. pose proof (B g (or_introl eq_refl)) as B1. pose proof (B h (or_intror (or_introl eq_refl))) as B2.
  assert (Hh : cgap (fusec g) (fusec h)) by (unfold cgap, fusec; cbn; lia). cbn [map] in *. constructor; [exact Hh|].
  apply StronglySorted_inv in IH as [_ IH]. eapply Forall_impl; [|exact IH]. intros c. unfold cgap in *. cbn in *. lia.
Qed.

(** ** everything together, for a document without comments *)
Theorem plain_edits_ok es t ib : es <> [] -> pw scompat es -> Forall (fun e => exists c, sdenotes t e c) es ->
  exists ts out A cs ds,
    transform_edits es t = FDone ts /\ merge_comments t ib (consolidate_edits (sort_edits ts)) [] = FDone out /\ Permutation es A /\ Forall2 (sdenotes t) A cs /\ StronglySorted (fun x y => cj x <= ci y) cs /\ Forall2 (edit_denotes t) (rev out) ds /\ StronglySorted cgap ds /\ splice 0 t ds = splice 0 t cs.
Proof.
  intros Hne P F. destruct (transform_edits_ok es t Hne P F) as (A & ts & cs & PA & HT & FA & FT).
  assert (Pc : pw ccompat cs).
  { assert (PA' : pw scompat A) by (eapply pw_perm; [|exact PA|exact P]; unfold scompat; intros; lia). clear -FA PA'.
    induction FA as [|e c A cs D FA IH]; [exact I|]. destruct PA' as [P1 P2]. split; [|auto]. clear IH P2.
    induction FA as [|f d A cs D' FA IH]; [constructor|]. inversion P1; subst. constructor; [eapply scompat_ccompat; eauto|auto]. }
  destruct (sort_edits_chain t ts cs FT Pc) as (cl & Pcl & Fcl & Scl).
  destruct (consolidate_ok t (sort_edits ts) cl Fcl Scl [] []) as (gs & Hgs & Hcat); [repeat constructor|discriminate|].
  rewrite app_nil_r in Hcat.
  assert (S2 : StronglySorted (fun x y => cj x <= ci y) (rev cl)) by (apply sorted_rev with (R := fun x y => cj y <= ci x); exact Scl).
  assert (Hch : chain 0 (length t) (rev cl)).
  { split; [|exact S2]. apply Forall_rev. clear -Fcl. induction Fcl as [|e c l cl D Fcl IH]; constructor; [|exact IH].
    destruct D as ((D1 & D2) & _). unfold ordered. lia. }
  assert (Hch' : chain 0 (length t) (concat gs)).
  { rewrite Hcat. replace (rev (filter (fun c => negb (cempty c)) cl)) with (filter (fun c => negb (cempty c)) (rev cl)) by apply filter_rev.
    destruct Hch as [C1 C2]. split.
    - apply Forall_forall. intros x Hx. apply filter_In in Hx as [Hx _]. rewrite Forall_forall in C1. auto.
    - clear -C2. induction C2 as [|x l H IH Fx]; cbn [filter]; [constructor|]. destruct (cempty x); cbn [negb]; [exact IH|]. constructor; [exact IH|].
      apply Forall_forall. intros y Hy. apply filter_In in Hy as [Hy _]. rewrite Forall_forall in Fx. auto. }
  (* consolidate_edits returns the groups from the last to the first *)
  unfold consolidate_edits. set (acc := fold_left consolidate_step (sort_edits ts) []) in *.
  assert (Hm : exists out, merge_groups t ib (rev acc) [] = FDone (out, []) /\ Forall2 (edit_denotes t) out (map fusec (rev gs))).
  { destruct Hgs as (G1 & G2 & _). clear -G1 G2. assert (G1' := Forall2_rev' _ _ _ G1). assert (G2' := Forall_rev G2). revert G1' G2'.
    generalize (rev acc) as a, (rev gs) as g. clear. intros a g F. induction F as [|g gc gs gcs Fg F IH]; intros G; [exists []; split; constructor|].
    inversion G as [|? ? [Hne Hl] G']; subst. destruct (fuse_ok t g gc Fg Hl) as (e & He & De); [intros ->; inversion Fg; subst; congruence|].
    destruct (IH G') as (es & H1 & H2). exists (e :: es). cbn [merge_groups]. rewrite He. cbn [fbind merge_group]. rewrite He. cbn [fbind]. rewrite H1.
    split; [reflexivity|]. constructor; assumption. }
  destruct Hm as (out & Hm & Hd).
  assert (PcA : Permutation cs (rev cl)) by (rewrite <- Permutation_rev; exact Pcl).
  destruct (Forall2_perm (fun c e => sdenotes t e c) cs (rev cl) A PcA) as (A' & PA' & FA'); [clear -FA; induction FA; constructor; auto|].
  exists ts, out, A', (rev cl), (map fusec gs). split; [exact HT|]. split.
  { unfold merge_comments. change (rev (@nil comment)) with (@nil comment). change (fold_left consolidate_step (sort_edits ts) []) with acc. rewrite Hm. cbn. now rewrite app_nil_r. }
  split; [now rewrite PA|]. split; [clear -FA'; induction FA'; constructor; auto|]. split; [exact S2|]. split.
  { rewrite <- (rev_involutive gs), map_rev. apply Forall2_rev'. exact Hd. }
  destruct Hgs as (G1 & G2 & G3). split; [eapply separated_before; eauto|].
  rewrite <- splice_groups; [|exact G2|rewrite Nat.add_0_r; exact Hch']. rewrite Hcat.
  replace (rev (filter (fun c => negb (cempty c)) cl)) with (filter (fun c => negb (cempty c)) (rev cl)) by apply filter_rev.
  apply splice_filter. rewrite Nat.add_0_r. exact Hch.
Qed.
