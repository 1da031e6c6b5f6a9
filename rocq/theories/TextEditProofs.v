From Coq Require Import List Arith NArith Lia Bool Permutation Sorted.
Import ListNotations.
From Verif Require Import TextModel TextSpec TextProofs.

(** ** the stable sort *)
Lemma pos_cmp_antisym p q : pos_cmp q p = CompOpp (pos_cmp p q).
Proof.
  unfold pos_cmp. rewrite (Nat.compare_antisym (line p) (line q)), (Nat.compare_antisym (character p) (character q)).
  destruct (line p ?= line q); cbn; auto.
Qed.
Lemma edit_cmp_antisym a b : edit_cmp b a = CompOpp (edit_cmp a b).
Proof.
  unfold edit_cmp. rewrite (pos_cmp_antisym (rstart (erange b)) (rstart (erange a))).
  rewrite (pos_cmp_antisym (rend (erange b)) (rend (erange a))).
  destruct (pos_cmp (rstart (erange b)) (rstart (erange a))); cbn; auto.
Qed.

Lemma sort_insert_mid e l1 l2 :
  Forall (fun x => edit_cmp x e = Lt) l1 -> Forall (fun y => edit_cmp e y = Lt) l2 ->
  sort_insert e (l1 ++ l2) = l1 ++ e :: l2.
Proof.
  intros H1 H2. induction H1 as [|x l1 Hx _ IH]; cbn.
  - destruct l2 as [|y l2]; [reflexivity|]. cbn. inversion H2; subst. now rewrite H1.
  - rewrite edit_cmp_antisym, Hx. cbn. now rewrite IH.
Qed.

Lemma StronglySorted_app_inv {A} (R : A -> A -> Prop) l1 l2 :
  StronglySorted R (l1 ++ l2) -> StronglySorted R l1 /\ StronglySorted R l2 /\
  (forall x y, In x l1 -> In y l2 -> R x y).
Proof.
  induction l1 as [|a l1 IH]; cbn; intros H.
  - repeat split; auto. constructor. intros x y [].
  - apply StronglySorted_inv in H as [H F]. apply IH in H as (Ha & Hb & Hc).
    rewrite Forall_app in F. destruct F as [F1 F2].
    repeat split; auto. constructor; auto.
    intros x y [<-|Hx] Hy; [rewrite Forall_forall in F2; auto|auto].
Qed.
Lemma StronglySorted_app_intro {A} (R : A -> A -> Prop) l1 l2 :
  StronglySorted R l1 -> StronglySorted R l2 ->
  (forall x y, In x l1 -> In y l2 -> R x y) -> StronglySorted R (l1 ++ l2).
Proof.
  induction l1 as [|a l1 IH]; cbn; intros H1 H2 H; [assumption|].
  apply StronglySorted_inv in H1 as [H1 F]. constructor; [apply IH; auto|].
  rewrite Forall_app. split; [assumption|]. apply Forall_forall. auto.
Qed.

Lemma sort_edits_unique es : forall l,
  Permutation es l -> StronglySorted (fun a b => edit_cmp a b = Lt) l -> sort_edits es = l.
Proof.
  induction es as [|e es IH]; intros l P S.
  - apply Permutation_nil in P. now subst.
  - destruct (in_split e l) as (l1 & l2 & ->).
    { eapply Permutation_in; [exact P|left; reflexivity]. }
    apply Permutation_cons_app_inv in P.
    apply StronglySorted_app_inv in S as (S1 & S2 & S3).
    apply StronglySorted_inv in S2 as [S2 F2].
    unfold sort_edits. cbn [fold_right]. fold (sort_edits es).
    rewrite (IH (l1 ++ l2)); [|assumption|apply StronglySorted_app_intro; auto].
    + apply sort_insert_mid; [|assumption]. apply Forall_forall. intros x Hx. apply S3; [assumption|left; reflexivity].
    + intros x y Hx Hy. apply S3; [assumption|right; assumption].
Qed.

Lemma StronglySorted_rev {A} (R : A -> A -> Prop) l :
  StronglySorted R l -> StronglySorted (fun a b => R b a) (rev l).
Proof.
  induction l as [|a l IH]; cbn; intros H; [constructor|].
  apply StronglySorted_inv in H as [H F]. apply StronglySorted_app_intro; [auto|repeat constructor|].
  intros x y Hx [<-|[]]. rewrite Forall_forall in F. apply F. now apply in_rev.
Qed.

(** ** the line table *)
Lemma line_lengths_app a : forall b acc cnt,
  line_lengths (a ++ b) acc cnt = let '(acc', cnt') := line_lengths a acc cnt in line_lengths b acc' cnt'.
Proof.
  induction a as [|c a IH]; intros b acc cnt; cbn; [reflexivity|].
  destruct (is_nl c); apply IH.
Qed.
Definition breaks (t : text) : list nat := fst (line_lengths t [] 0).
Lemma line_lengths_position t :
  position_after t = mkpos (length (breaks t)) (snd (line_lengths t [] 0)).
Proof.
  induction t as [|c t IH] using rev_ind; [reflexivity|].
  rewrite position_after_snoc, IH. unfold pstep, breaks. rewrite line_lengths_app.
  destruct (line_lengths t [] 0) as [acc cnt]. cbn.
  destruct (is_nl c); cbn; [|reflexivity]. rewrite app_length. cbn. f_equal. lia.
Qed.
Lemma breaks_snoc t c :
  breaks (t ++ [c]) = if is_nl c then breaks t ++ [character (position_after t)] else breaks t.
Proof.
  rewrite line_lengths_position. unfold breaks. rewrite line_lengths_app.
  destruct (line_lengths t [] 0) as [acc cnt]. cbn. destruct (is_nl c); reflexivity.
Qed.

(** ** the backward sweep *)
Definition ste (txt : text) (es : list text_edit) (pre : text) (en : nat) : te_state :=
  mkte txt es (position_after pre) en (byte_len pre) (rev pre) (rev (breaks pre)).

Lemma te_back m : forall pre txt e es en f,
  pos_le (rstart (erange e)) (position_after pre) ->
  (forall m1 m2, m = m1 ++ m2 -> m1 <> [] -> rend (erange e) = position_after (pre ++ m1) -> en = byte_len (pre ++ m1)) ->
  te_run (length m + f) (ste txt (e :: es) (pre ++ m) en) = te_run f (ste txt (e :: es) pre en).
Proof.
  induction m as [|c m IH] using rev_ind; intros pre txt e es en f Hs He.
  - now rewrite app_nil_r.
  - rewrite app_length. cbn [length]. replace (length m + 1 + f) with (S (length m + f)) by lia.
    assert (Hgo : te_run (length m + f) (ste txt (e :: es) (pre ++ m) en) = te_run f (ste txt (e :: es) pre en)).
    { apply IH; [exact Hs|]. intros m1 m2 -> Hm1. apply (He m1 (m2 ++ [c])); [now rewrite app_assoc|exact Hm1]. }
    rewrite <- Hgo. clear Hgo. unfold ste.
    cbn [te_run]. unfold te_step. cbn [te_edits te_cursor te_text te_boff te_end te_rev te_breaks]. cbv zeta.
    assert (Hlt : pos_lt (rstart (erange e)) (position_after (pre ++ m ++ [c]))).
    { destruct Hs as [Hs| ->]; [eapply pos_lt_trans; [exact Hs|]|]; apply position_after_app_lt;
        intros K; apply (f_equal (@length _)) in K; rewrite app_length in K; cbn in K; lia. }
    rewrite (proj2 (pos_leb_le _ _)) by (left; exact Hlt). cbn [negb].
    assert (Hen : (if pos_eqb (rend (erange e)) (position_after (pre ++ m ++ [c])) then byte_len (pre ++ m ++ [c]) else en) = en).
    { destruct (pos_eqb _ _) eqn:E; [|reflexivity]. apply pos_eqb_eq in E. symmetry. apply (He (m ++ [c]) []).
      - now rewrite app_nil_r.
      - intros K; apply (f_equal (@length _)) in K; rewrite app_length in K; cbn in K; lia.
      - exact E. }
    rewrite Hen.
    assert (Hne : pos_eqb (rstart (erange e)) (position_after (pre ++ m ++ [c])) = false).
    { apply pos_eqb_neq. intros K. rewrite K in Hlt. eapply pos_lt_irrefl; eauto. }
    rewrite Hne. rewrite app_assoc. rewrite (rev_app_distr (pre ++ m) [c]). cbn [rev app].
    rewrite breaks_snoc, position_after_snoc, byte_len_app. cbn [byte_len]. unfold pstep.
    destruct (is_nl c) eqn:Enl.
    + rewrite rev_app_distr. cbn [rev app line character].
      destruct (Nat.eqb_spec (S (line (position_after (pre ++ m)))) 0); [lia|].
      destruct (Nat.ltb_spec (byte_len (pre ++ m) + (len_utf8 c + 0)) (len_utf8 c)); [lia|].
      replace (S (line (position_after (pre ++ m))) - 1) with (line (position_after (pre ++ m))) by lia.
      replace (byte_len (pre ++ m) + (len_utf8 c + 0) - len_utf8 c) with (byte_len (pre ++ m)) by lia.
      destruct (position_after (pre ++ m)); reflexivity.
    + cbn [line character].
      destruct (Nat.ltb_spec (character (position_after (pre ++ m)) + len_utf16 c) (len_utf16 c)); [lia|].
      destruct (Nat.ltb_spec (byte_len (pre ++ m) + (len_utf8 c + 0)) (len_utf8 c)); [lia|].
      replace (character (position_after (pre ++ m)) + len_utf16 c - len_utf16 c) with (character (position_after (pre ++ m))) by lia.
      replace (byte_len (pre ++ m) + (len_utf8 c + 0) - len_utf8 c) with (byte_len (pre ++ m)) by lia.
      destruct (position_after (pre ++ m)); reflexivity.
Qed.

Lemma te_end_irrelevant txt e es pre en f : rend (erange e) = position_after pre ->
  te_run f (ste txt (e :: es) pre en) = te_run f (ste txt (e :: es) pre (byte_len pre)).
Proof.
  intros H. destruct f; [reflexivity|]. cbn [te_run]. unfold te_step, ste. cbn [te_edits te_cursor te_text te_boff te_end te_rev te_breaks]. cbv zeta.
  rewrite H, pos_eqb_refl. reflexivity.
Qed.

(** ** what the sweep computes *)
Lemma skipn_skipn' {A} (l : list A) n m : skipn n (skipn m l) = skipn (m + n) l.
Proof.
  revert l; induction m as [|m IH]; intros l; cbn; [reflexivity|].
  destruct l as [|a l]; [now rewrite !skipn_nil|apply IH].
Qed.

Lemma splice_snoc cs : forall at_ t c K,
  Forall (fun e => cj e <= ci c) cs -> StronglySorted (fun a b => cj a <= ci b) cs ->
  Forall (fun e => ci e <= cj e) cs -> Forall (fun e => at_ <= ci e) cs ->
  at_ <= ci c -> ci c <= cj c -> cj c <= K -> K <= at_ + length t ->
  splice at_ (firstn (K - at_) t) (cs ++ [c]) =
  splice at_ (firstn (ci c - at_) t) cs ++ cnew c ++ firstn (K - cj c) (skipn (cj c - at_) t).
Proof.
  induction cs as [|e cs IH]; intros at_ t c K H1 H2 H3 H4 H5 H6 H7 H8; cbn.
  - rewrite firstn_firstn, Nat.min_l by lia. f_equal. f_equal.
    rewrite skipn_firstn_comm. f_equal. lia.
  - inversion H1; inversion H3; inversion H4; subst. apply StronglySorted_inv in H2 as [H2 F].
    rewrite !firstn_firstn, !Nat.min_l by lia. rewrite <- app_assoc. f_equal. rewrite <- app_assoc. f_equal.
    rewrite !skipn_firstn_comm.
    replace (K - at_ - (cj e - at_)) with (K - cj e) by lia.
    replace (ci c - at_ - (cj e - at_)) with (ci c - cj e) by lia.
    rewrite IH; auto; try lia.
    + f_equal. f_equal. rewrite skipn_skipn'. do 2 f_equal. lia.
    + rewrite skipn_length. lia.
Qed.

Lemma te_main t : forall cs es K D en f,
  Forall2 (edit_denotes t) es cs ->
  StronglySorted (fun a b => cj a <= ci b) cs -> Forall (fun c => cj c <= K) cs -> K <= length t ->
  K + length cs < f ->
  te_run f (ste (firstn K t ++ D) (rev es) (firstn K t) en) = Done (splice 0 (firstn K t) cs ++ D).
Proof.
  intros cs; induction cs as [|c cs IH] using rev_ind; intros es K D en f HF HS HK Hlen Hf.
  - inversion HF; subst. cbn. destruct f; [lia|]. reflexivity.
  - apply Forall2_app_inv_r in HF as (es1 & es2 & HF & HF2 & ->).
    inversion HF2 as [|e ? l ? Hd Hn]; subst. inversion Hn; subst. clear HF2 Hn.
    rewrite rev_app_distr. cbn [rev app].
    apply StronglySorted_app_inv in HS as (HS & _ & Hlast).
    apply Forall_app in HK as [HK HKc]. inversion HKc as [|? ? Hc]; subst. clear HKc.
    destruct Hd as ((Hij & Hj) & Ps & Pe & Hnew).
    rewrite app_length in Hf. cbn in Hf.
    (* t up to K = a ++ b ++ d *)
    set (a := firstn (ci c) t). set (b := firstn (cj c - ci c) (skipn (ci c) t)).
    set (d := firstn (K - cj c) (skipn (cj c) t)).
    assert (Eab : firstn (cj c) t = a ++ b) by (apply firstn_le_app; lia).
    assert (EK : firstn K t = (a ++ b) ++ d) by (rewrite <- Eab; apply firstn_le_app; lia).
    assert (La : length a = ci c) by (unfold a; rewrite firstn_length; lia).
    assert (Lb : length b = cj c - ci c) by (unfold b; rewrite firstn_length, skipn_length; lia).
    assert (Ld : length d = K - cj c) by (unfold d; rewrite firstn_length, skipn_length; lia).
    rewrite Eab in Pe. fold a in Ps.
    rewrite EK.
    (* K back to cj *)
    replace f with (length d + (length b + S (f - length d - length b - 1))) by lia.
    rewrite te_back.
    2:{ rewrite <- Ps. apply position_after_app_le. }
    2:{ intros m1 m2 Ed Hm1 E. exfalso. rewrite <- Pe in E.
        pose proof (position_after_app_lt (a ++ b) m1 Hm1) as Hl. rewrite <- E in Hl. eapply pos_lt_irrefl; eauto. }
    rewrite te_end_irrelevant by (symmetry; exact Pe).
    (* cj back to ci *)
    rewrite te_back.
    2:{ rewrite <- Ps. apply pos_le_refl. }
    2:{ intros m1 m2 Eb Hm1 E. rewrite Eb. destruct m2 as [|x m2]; [now rewrite app_nil_r|exfalso].
        rewrite <- Pe, Eb in E.
        pose proof (position_after_app_lt (a ++ m1) (x :: m2) ltac:(discriminate)) as Hl.
        rewrite <- app_assoc, E in Hl. eapply pos_lt_irrefl; eauto. }
    (* the replacement *)
    cbn [te_run]. unfold te_step, ste. cbn [te_edits te_cursor te_text te_boff te_end te_rev te_breaks]. cbv zeta.
    rewrite <- Ps, (proj2 (pos_leb_le _ _) (pos_le_refl _)). cbn [negb].
    rewrite pos_eqb_refl.
    assert (Hen : (if pos_eqb (rend (erange e)) (position_after a) then byte_len a else byte_len (a ++ b))
                  = byte_len a + byte_len b).
    { rewrite <- Pe, byte_len_app. destruct (pos_eqb _ _) eqn:E; [|reflexivity]. apply pos_eqb_eq in E.
      destruct b as [|x b']; [cbn; lia|exfalso].
      pose proof (position_after_app_lt a (x :: b') ltac:(discriminate)) as Hl. rewrite E in Hl. eapply pos_lt_irrefl; eauto. }
    rewrite Hen. rewrite <- !app_assoc. rewrite replace_range_app.
    assert (Hsp : splice 0 (firstn K t) (cs ++ [c]) = splice 0 a cs ++ cnew c ++ d).
    { pose proof (splice_snoc cs 0 t c K) as Hs. rewrite !Nat.sub_0_r in Hs. apply Hs; auto; try lia.
      - apply Forall_forall. intros x Hx. apply Hlast; [assumption|left; reflexivity].
      - clear - HF. induction HF as [|? ? ? ? H _ IH]; constructor; auto. destruct H; lia.
      - apply Forall_forall. intros; lia. }
    specialize (IH es1 (ci c) (cnew c ++ d ++ D) (byte_len a + byte_len b) (f - length d - length b - 1)).
    fold a in IH. unfold ste in IH. rewrite Hnew. rewrite IH; auto; try lia.
    + replace (a ++ b ++ d) with (firstn K t) by (now rewrite EK, <- app_assoc).
      rewrite Hsp. now rewrite <- !app_assoc.
    + apply Forall_forall. intros x Hx. apply Hlast; [assumption|left; reflexivity].
Qed.

Lemma ensure_final_newline_spec s :
  (ends_with_newline s /\ ensure_final_newline s = s) \/
  (~ ends_with_newline s /\ ensure_final_newline s = s ++ [NL]).
Proof.
  unfold ensure_final_newline, ends_with_newline.
  destruct s as [|c s _] using rev_ind; cbn.
  - right. split; [|reflexivity]. intros (t & E). destruct t; discriminate.
  - rewrite rev_app_distr. cbn. unfold is_nl. destruct (N.eqb_spec c NL) as [->|Hc].
    + left. split; [eexists; reflexivity|reflexivity].
    + right. split; [|reflexivity]. intros (t & E). apply app_inj_tail in E as [_ E]. congruence.
Qed.

Lemma Forall2_len {A B} (R : A -> B -> Prop) l l' : Forall2 R l l' -> length l = length l'.
Proof. induction 1; cbn; congruence. Qed.

Lemma apply_text_edits_sorted t es es' cs :
  sort_edits es = rev es' -> length es = length es' ->
  Forall2 (edit_denotes t) es' cs -> StronglySorted (fun a b => cj a <= ci b) cs ->
  apply_text_edits t es = Done (ensure_final_newline (splice 0 t cs)).
Proof.
  intros Hsort Hlen HF HS. unfold apply_text_edits.
  pose proof (line_lengths_position t) as Hp. unfold breaks in Hp.
  destruct (line_lengths t [] 0) as [br cnt] eqn:El. cbn in Hp.
  assert (Hcur : match rev t with
           | c :: _ => if is_nl c then mkpos (length br) 0 else mkpos (length br) cnt
           | [] => mkpos (length br) cnt end = position_after t).
  { rewrite Hp. destruct t as [|c t _] using rev_ind; cbn; [reflexivity|]. rewrite rev_app_distr. cbn.
    rewrite line_lengths_app in El. destruct (line_lengths t [] 0) as [b0 c0]. cbn in El.
    destruct (is_nl c); [|reflexivity]. inversion El; subst. reflexivity. }
  rewrite Hcur.
  pose proof (te_main t cs es' (length t) [] (byte_len t) (S (length t + length es))) as M.
  rewrite firstn_all in M. rewrite app_nil_r in M. unfold ste, breaks in M. rewrite El in M. cbn [fst] in M.
  rewrite Hsort. rewrite M; auto.
  - now rewrite app_nil_r.
  - clear - HF. induction HF as [|? ? ? ? H _ IH]; constructor; auto. destruct H as [H _]; lia.
  - rewrite Hlen, (Forall2_len _ _ _ HF). lia.
Qed.

Lemma before_sorted_le cs : StronglySorted before cs -> StronglySorted (fun a b => cj a <= ci b) cs.
Proof.
  induction 1 as [|c cs _ IH F]; constructor; auto.
  eapply Forall_impl; [|exact F]. intros x [H _]. exact H.
Qed.

Lemma pos_cmp_lt p q : pos_lt p q -> pos_cmp p q = Lt.
Proof. intros H. apply pos_ltb_lt in H. unfold pos_ltb in H. destruct (pos_cmp p q); congruence. Qed.
Lemma pos_cmp_refl p : pos_cmp p p = Eq.
Proof. unfold pos_cmp. now rewrite !Nat.compare_refl. Qed.

Lemma before_sorted_edits t es cs : Forall2 (edit_denotes t) es cs -> StronglySorted before cs ->
  StronglySorted (fun a b => edit_cmp b a = Lt) es.
Proof.
  induction 1 as [|e c es cs Hd HF IH]; intros HS; [constructor|].
  apply StronglySorted_inv in HS as [HS F]. constructor; [auto|]. clear IH HS.
  induction HF as [|e' c' es cs Hd' HF IH]; constructor; [|apply IH; inversion F; auto].
  inversion F as [|? ? Hb _]; subst. destruct Hb as [_ Hb].
  destruct Hd as ((Ha1 & Ha2) & Ha3 & Ha4 & _). destruct Hd' as ((Hb1 & Hb2) & Hb3 & Hb4 & _).
  unfold edit_cmp. rewrite <- Ha3, <- Ha4, <- Hb3, <- Hb4. destruct Hb as [Hb|[Hb Hb']].
  - rewrite pos_cmp_lt; [reflexivity|]. apply position_after_lt; lia.
  - rewrite Hb, pos_cmp_refl. apply pos_cmp_lt, position_after_lt; lia.
Qed.

Lemma apply_text_edits_effect t es es' cs :
  Permutation es es' -> Forall2 (edit_denotes t) es' cs -> StronglySorted before cs ->
  apply_text_edits t es = Done (ensure_final_newline (splice 0 t cs)).
Proof.
  intros P HF HS. apply apply_text_edits_sorted with (es' := es'); auto.
  - apply sort_edits_unique; [rewrite <- Permutation_rev; exact P|].
    apply StronglySorted_rev with (R := fun a b => edit_cmp b a = Lt). eapply before_sorted_edits; eauto.
  - now apply Permutation_length.
  - now apply before_sorted_le.
Qed.

Lemma two_inserts_reversed a b x y p : position_after x = p ->
  apply_text_edits (x ++ y) [mkedit (mkrange p p) a; mkedit (mkrange p p) b] =
  Done (ensure_final_newline (x ++ b ++ a ++ y)).
Proof.
  intros <-. set (p := position_after x). set (i := length x).
  rewrite (apply_text_edits_sorted (x ++ y) _ [mkedit (mkrange p p) b; mkedit (mkrange p p) a]
             [mkcedit i i b; mkcedit i i a]).
  - unfold i. cbn. rewrite !Nat.sub_0_r, Nat.sub_diag, firstn_app, firstn_all, Nat.sub_diag.
    cbn. rewrite app_nil_r. rewrite skipn_app, skipn_all, Nat.sub_diag. reflexivity.
  - cbn. unfold edit_cmp. cbn. rewrite pos_cmp_refl. reflexivity.
  - reflexivity.
  - assert (H : forall w, edit_denotes (x ++ y) (mkedit (mkrange p p) w) (mkcedit i i w)).
    { intros w. unfold edit_denotes, i; cbn. rewrite app_length, firstn_app, firstn_all, Nat.sub_diag. cbn.
      rewrite app_nil_r. repeat split; lia. }
    repeat constructor; apply H.
  - repeat constructor.
Qed.

(** ** Range::overlaps *)
Lemma overlaps_symmetric a b : overlaps a b = overlaps b a.
Proof. unfold overlaps. apply andb_comm. Qed.
Lemma overlaps_common a b :
  pos_lt (rstart a) (rend a) -> pos_lt (rstart b) (rend b) ->
  (overlaps a b = true <-> exists p, in_range p a /\ in_range p b).
Proof.
  intros Ha Hb. unfold overlaps, in_range. rewrite andb_true_iff, !pos_ltb_lt. split.
  - intros [H1 H2]. destruct (pos_ltb (rstart a) (rstart b)) eqn:E.
    + apply pos_ltb_lt in E. exists (rstart b). repeat split; auto; [left; exact E|apply pos_le_refl].
    + exists (rstart a). repeat split; auto; [apply pos_le_refl|].
      apply pos_not_lt_le. rewrite <- pos_ltb_lt. congruence.
  - intros (p & [H1 H2] & [H3 H4]). split.
    + destruct H1 as [H1| ->]; [eapply pos_lt_trans; eauto|exact H4].
    + destruct H3 as [H3| ->]; [eapply pos_lt_trans; eauto|exact H2].
Qed.
