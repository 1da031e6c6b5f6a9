(** The union-find structure of find_variable_occurrences: [find] ends and does not change the classes, [union]
    merges two of them.  Generic facts; the properties are in VarProps.v. *)
From Coq Require Import String List Arith NArith Bool Lia Relations.
Import ListNotations.
From Verif Require Import ServerModel Kinds ParserModel TextModel LexerSpec FormatData FormatModel TreeModel VarModel.

(** from [i], [n] steps up lead to the root [r] *)
Inductive climbs (par : list nat) : nat -> nat -> nat -> Prop :=
| climbs_root i : nth_error par i = Some i -> climbs par i 0 i
| climbs_step i j n r : nth_error par i = Some j -> j <> i -> climbs par j n r -> climbs par i (S n) r.
Definition forest (par : list nat) : Prop := forall i, i < length par -> exists n r, climbs par i n r.
Definition same (par : list nat) (i j : nat) : Prop := exists r n m, climbs par i n r /\ climbs par j m r.

Lemma climbs_det par i n r : climbs par i n r -> forall m s, climbs par i m s -> m = n /\ s = r.
Proof.
  induction 1 as [i E|i j n r E Hne Hc IH]; intros m s H; inversion H; subst.
  - split; reflexivity.
  - congruence.
  - congruence.
  - assert (j0 = j) by congruence. subst. destruct (IH _ _ H2). subst. split; reflexivity.
Qed.
Lemma climbs_lt par i n r : climbs par i n r -> i < length par.
Proof. intros H. apply nth_error_Some. inversion H; subst; congruence. Qed.
Lemma climbs_end par i n r : climbs par i n r -> nth_error par r = Some r.
Proof. induction 1; assumption. Qed.
Lemma climbs_end_root par i n r : climbs par i n r -> climbs par r 0 r.
Proof. intros H. apply climbs_root. eapply climbs_end, H. Qed.

(** the nodes met on the way are all different, so there are at most [length par] of them *)
Lemma climbs_trail par i n r : climbs par i n r ->
  exists l, length l = S n /\ NoDup l /\ forall x, In x l -> x < length par /\ exists m, m <= n /\ climbs par x m r.
Proof.
  induction 1 as [i E|i j n r E Hne Hc IH].
  - exists [i]. split; [reflexivity|]. split; [constructor; [easy|constructor]|]. intros x [<-|[]]. split.
    + apply nth_error_Some. congruence.
    + exists 0. split; [lia|]. apply climbs_root, E.
  - destruct IH as (l & Hl & Hnd & Hin). exists (i :: l). split; [cbn; lia|]. split.
    + constructor; [|exact Hnd]. intros Hi. destruct (Hin _ Hi) as (_ & m & Hm & Hcm).
      destruct (climbs_det _ _ _ _ Hcm _ _ (climbs_step _ _ _ _ _ E Hne Hc)). lia.
    + intros x [<-|Hx].
      * split; [eapply climbs_lt, climbs_step; eassumption|]. exists (S n). split; [lia|]. eapply climbs_step; eassumption.
      * destruct (Hin _ Hx) as (Hlt & m & Hm & Hcm). split; [exact Hlt|]. exists m. split; [lia|exact Hcm].
Qed.
Lemma climbs_short par i n r : climbs par i n r -> n < length par.
Proof.
  intros H. destruct (climbs_trail _ _ _ _ H) as (l & Hl & Hnd & Hin).
  assert (length l <= length (List.seq 0 (length par))) as Hle.
  { apply NoDup_incl_length; [exact Hnd|]. intros x Hx. apply in_seq. destruct (Hin _ Hx). lia. }
  rewrite seq_length in Hle. lia.
Qed.

Lemma set_nth_length {A} n (x : A) l : length (set_nth n x l) = length l.
Proof. revert n; induction l as [|y l IH]; intros [|n]; cbn; [reflexivity|reflexivity|reflexivity|]. rewrite IH. reflexivity. Qed.
Lemma set_nth_eq {A} n (x : A) l : n < length l -> nth_error (set_nth n x l) n = Some x.
Proof. revert n; induction l as [|y l IH]; intros [|n] H; cbn in *; try lia; [reflexivity|]. apply IH. lia. Qed.
Lemma set_nth_neq {A} n m (x : A) l : m <> n -> nth_error (set_nth n x l) m = nth_error l m.
Proof. revert n m; induction l as [|y l IH]; intros [|n] [|m] H; cbn; try reflexivity; try congruence. apply IH. congruence. Qed.

(** [par'] has the same roots, at most as far away *)
Definition shortens (par par' : list nat) : Prop :=
  length par' = length par /\ forall j m s, climbs par j m s -> exists m', m' <= m /\ climbs par' j m' s.
Lemma shortens_refl par : shortens par par.
Proof. split; [reflexivity|]. intros j m s H. exists m. split; [lia|exact H]. Qed.
Lemma shortens_trans a b c : shortens a b -> shortens b c -> shortens a c.
Proof.
  intros [L1 H1] [L2 H2]. split; [congruence|]. intros j m s H. destruct (H1 _ _ _ H) as (m1 & Hm1 & Hc1).
  destruct (H2 _ _ _ Hc1) as (m2 & Hm2 & Hc2). exists m2. split; [lia|exact Hc2].
Qed.
(** one step of path halving *)
Lemma halving par i q qq n r :
  nth_error par i = Some q -> q <> i -> nth_error par q = Some qq -> climbs par i n r -> shortens par (set_nth i qq par).
Proof.
  intros Ei Hne Eq Hi. split; [apply set_nth_length|]. assert (i < length par) as Hlt by (eapply climbs_lt, Hi).
  intros j m. revert j. induction m as [m IH] using lt_wf_ind. intros j s H.
  destruct (Nat.eq_dec j i) as [->|Hj].
  - inversion H; subst; [congruence|]. assert (j = q) by congruence. subst j. clear H0 H1.
    inversion H2; subst.
    + assert (qq = s) by congruence. subst qq. exists 1. split; [lia|]. eapply climbs_step; [apply set_nth_eq, Hlt|exact Hne|].
      apply climbs_root. rewrite set_nth_neq by exact Hne. exact Eq.
    + assert (j = qq) by congruence. subst j.
      destruct (IH n1 ltac:(lia) _ _ H3) as (m' & Hm' & Hc'). exists (S m'). split; [lia|].
      eapply climbs_step; [apply set_nth_eq, Hlt| |exact Hc'].
      intros ->. destruct (climbs_det _ _ _ _ H3 _ _ H). lia.
  - inversion H; subst.
    + exists 0. split; [lia|]. apply climbs_root. rewrite set_nth_neq by exact Hj. exact H0.
    + destruct (IH n0 ltac:(lia) _ _ H2) as (m' & Hm' & Hc'). exists (S m'). split; [lia|].
      eapply climbs_step; [rewrite set_nth_neq by exact Hj; eassumption|assumption|exact Hc'].
Qed.
Lemma find_ok gas : forall par i n r, climbs par i n r -> n < gas -> exists par', uf_find gas par i = VDone (r, par') /\ shortens par par'.
Proof.
  induction gas as [|gas IH]; intros par i n r H Hg; [lia|]. cbn [uf_find]. inversion H; subst.
  - unfold index. rewrite H0. cbn [vbind]. rewrite Nat.eqb_refl. exists par. split; [reflexivity|apply shortens_refl].
  - assert (exists qq, nth_error par j = Some qq) as [qq Eq] by (inversion H2; subst; eauto).
    unfold index. rewrite H0. cbn [vbind]. rewrite (proj2 (Nat.eqb_neq _ _) H1), Eq. cbn [vbind].
    pose proof (halving _ _ _ _ _ _ H0 H1 Eq H) as Hs.
    assert (exists m, climbs par qq m r /\ m <= n0) as (m & Hqq & Hm).
    { inversion H2; subst; [assert (qq = r) by congruence; subst; exists 0; split; [apply climbs_root; assumption|lia]|].
      assert (j0 = qq) by congruence. subst. exists n. split; [assumption|lia]. }
    destruct (proj2 Hs _ _ _ Hqq) as (m' & Hm' & Hc').
    destruct (IH _ _ _ _ Hc' ltac:(lia)) as (par' & E & Hs'). exists par'. split; [exact E|]. eapply shortens_trans; eassumption.
Qed.
Lemma find_full par i n r : climbs par i n r -> exists par', uf_find (S (length par)) par i = VDone (r, par') /\ shortens par par'.
Proof. intros H. eapply find_ok; [exact H|]. pose proof (climbs_short _ _ _ _ H). lia. Qed.

Lemma shortens_forest par par' : shortens par par' -> forest par -> forest par'.
Proof. intros [L H] F i Hi. rewrite L in Hi. destruct (F i Hi) as (n & r & Hc). destruct (H _ _ _ Hc) as (m & _ & Hc'). eauto. Qed.
Lemma shortens_root par par' i n r : shortens par par' -> forest par -> climbs par' i n r -> exists m, climbs par i m r.
Proof.
  intros [L H] F Hc. assert (i < length par) as Hi by (rewrite <- L; eapply climbs_lt, Hc). destruct (F i Hi) as (m & s & Hs).
  destruct (H _ _ _ Hs) as (m' & _ & Hc'). destruct (climbs_det _ _ _ _ Hc _ _ Hc'). subst. eauto.
Qed.
Lemma shortens_same par par' : shortens par par' -> forest par -> forall i j, same par' i j <-> same par i j.
Proof.
  intros Hs F i j. split.
  - intros (r & n & m & Hi & Hj). destruct (shortens_root _ _ _ _ _ Hs F Hi) as [n' Hi']. destruct (shortens_root _ _ _ _ _ Hs F Hj) as [m' Hj'].
    exists r, n', m'. split; assumption.
  - intros (r & n & m & Hi & Hj). destruct (proj2 Hs _ _ _ Hi) as (n' & _ & Hi'). destruct (proj2 Hs _ _ _ Hj) as (m' & _ & Hj').
    exists r, n', m'. split; assumption.
Qed.

Lemma same_refl par i : forest par -> i < length par -> same par i i.
Proof. intros F Hi. destruct (F i Hi) as (n & r & H). exists r, n, n. split; exact H. Qed.
Lemma same_sym par i j : same par i j -> same par j i.
Proof. intros (r & n & m & H1 & H2). exists r, m, n. split; assumption. Qed.
Lemma same_trans par i j k : same par i j -> same par j k -> same par i k.
Proof.
  intros (r & n & m & H1 & H2) (s & n' & m' & H3 & H4). destruct (climbs_det _ _ _ _ H2 _ _ H3). subst. exists r, n, m'. split; assumption.
Qed.
Lemma same_lt par i j : same par i j -> i < length par /\ j < length par.
Proof. intros (r & n & m & H1 & H2). split; eapply climbs_lt; eassumption. Qed.

Lemma new_forest n : forest (uf_new n) /\ forall i j, same (uf_new n) i j <-> i = j /\ i < n.
Proof.
  unfold uf_new. assert (forall i, i < n -> climbs (List.seq 0 n) i 0 i) as Hc.
  { intros i Hi. apply climbs_root. rewrite (nth_error_nth' _ 0) by (rewrite seq_length; exact Hi). rewrite seq_nth by exact Hi. reflexivity. }
  split.
  - intros i Hi. rewrite seq_length in Hi. exists 0, i. apply Hc, Hi.
  - intros i j. split.
    + intros (r & a & b & H1 & H2). pose proof (climbs_lt _ _ _ _ H1) as L1. pose proof (climbs_lt _ _ _ _ H2) as L2. rewrite seq_length in *.
      destruct (climbs_det _ _ _ _ H1 _ _ (Hc _ L1)). destruct (climbs_det _ _ _ _ H2 _ _ (Hc _ L2)). subst. split; [reflexivity|exact L2].
    + intros [-> Hj]. exists j, 0, 0. split; apply Hc, Hj.
Qed.

(** linking one root below another *)
Lemma link_climbs par ru rv :
  climbs par ru 0 ru -> climbs par rv 0 rv -> ru <> rv -> forall j n s, climbs par j n s ->
  exists m, climbs (set_nth ru rv par) j m (if s =? ru then rv else s).
Proof.
  intros Hu Hv Hne j n s H. pose proof (climbs_lt _ _ _ _ Hu) as Lu.
  assert (climbs (set_nth ru rv par) rv 0 rv) as Hv'.
  { apply climbs_root. rewrite set_nth_neq by congruence. eapply climbs_end, Hv. }
  induction H as [j E|j k n s E Hjk Hc IH].
  - destruct (Nat.eqb_spec j ru) as [->|Hj].
    + exists 1. eapply climbs_step; [apply set_nth_eq, Lu|congruence|exact Hv'].
    + exists 0. apply climbs_root. rewrite set_nth_neq by exact Hj. exact E.
  - destruct IH as [m IH]. exists (S m). eapply climbs_step; [|exact Hjk|exact IH].
    rewrite set_nth_neq; [exact E|]. intros ->. apply climbs_end in Hu. congruence.
Qed.
Lemma union_ok par u v :
  forest par -> u < length par -> v < length par ->
  exists par', uf_union (S (length par)) par u v = VDone par' /\ length par' = length par /\ forest par' /\
    forall i j, same par' i j <-> same par i j \/ (same par i u /\ same par v j) \/ (same par i v /\ same par u j).
Proof.
  intros F Hu Hv. destruct (F u Hu) as (nu & ru & Cu). destruct (find_full _ _ _ _ Cu) as (p1 & E1 & S1).
  assert (forest p1) as F1 by (eapply shortens_forest; eassumption).
  destruct (F1 v ltac:(destruct S1; lia)) as (nv & rv & Cv1). destruct (shortens_root _ _ _ _ _ S1 F Cv1) as [nv' Cv].
  destruct (find_full _ _ _ _ Cv1) as (p2 & E2 & S2).
  assert (shortens par p2) as S3 by (eapply shortens_trans; eassumption).
  assert (forest p2) as F2 by (eapply shortens_forest; eassumption).
  assert (forall i j, same p2 i j <-> same par i j) as Hs2 by (apply shortens_same; assumption).
  unfold uf_union. rewrite E1. cbn [vbind]. rewrite (proj1 S1) in E2. rewrite E2. cbn [vbind].
  destruct (Nat.eqb_spec ru rv) as [->|Hne].
  - exists p2. split; [reflexivity|]. split; [apply S3|]. split; [exact F2|]. intros i j. rewrite Hs2. split; [tauto|].
    assert (same par u v) as Huv by (exists rv, nu, nv'; split; assumption).
    intros [H|[[H1 H2]|[H1 H2]]]; [exact H| |].
    + eapply same_trans; [exact H1|]. eapply same_trans; [exact Huv|exact H2].
    + eapply same_trans; [exact H1|]. eapply same_trans; [apply same_sym, Huv|exact H2].
  - exists (set_nth ru rv p2). split; [reflexivity|]. split; [rewrite set_nth_length; apply S3|].
    destruct (proj2 S3 _ _ _ Cu) as (mu & _ & Cu2). destruct (proj2 S3 _ _ _ Cv) as (mv & _ & Cv2).
    pose proof (link_climbs p2 ru rv (climbs_end_root _ _ _ _ Cu2) (climbs_end_root _ _ _ _ Cv2) Hne) as HL.
    split.
    { intros i Hi. rewrite set_nth_length in Hi. destruct (F2 i Hi) as (n & s & Hc). destruct (HL _ _ _ Hc) as [m Hm]. eauto. }
    assert (forall i j a b n m, climbs p2 i n a -> climbs p2 j m b ->
              (same (set_nth ru rv p2) i j <-> (if a =? ru then rv else a) = (if b =? ru then rv else b))) as Hrt.
    { intros i j a b n m Hi Hj. destruct (HL _ _ _ Hi) as [n' Hi']. destruct (HL _ _ _ Hj) as [m' Hj']. split.
      - intros (r & x & y & Hx & Hy). destruct (climbs_det _ _ _ _ Hi' _ _ Hx). destruct (climbs_det _ _ _ _ Hj' _ _ Hy). congruence.
      - intros E. rewrite E in Hi'. eexists _, n', m'. split; eassumption. }
    assert (forall i j a b n m, climbs p2 i n a -> climbs p2 j m b -> (same par i j <-> a = b)) as Hro.
    { intros i j a b n m Hi Hj. rewrite <- Hs2. split.
      - intros (r & x & y & Hx & Hy). destruct (climbs_det _ _ _ _ Hi _ _ Hx). destruct (climbs_det _ _ _ _ Hj _ _ Hy). congruence.
      - intros ->. exists b, n, m. split; assumption. }
    intros i j. split.
    + intros H. destruct (same_lt _ _ _ H) as [Li Lj]. rewrite set_nth_length in Li, Lj.
      destruct (F2 i Li) as (n & a & Ci). destruct (F2 j Lj) as (m & b & Cj).
      apply (Hrt _ _ _ _ _ _ Ci Cj) in H. rewrite (Hro _ _ _ _ _ _ Ci Cj), (Hro _ _ _ _ _ _ Ci Cu2), (Hro _ _ _ _ _ _ Cv2 Cj), (Hro _ _ _ _ _ _ Ci Cv2), (Hro _ _ _ _ _ _ Cu2 Cj).
      destruct (Nat.eqb_spec a ru), (Nat.eqb_spec b ru); subst; auto.
    + intros H. assert (i < length p2 /\ j < length p2) as [Li Lj].
      { rewrite (proj1 S3). destruct H as [H|[[H1 H2]|[H1 H2]]]; [apply same_lt in H; tauto| |]; apply same_lt in H1, H2; tauto. }
      destruct (F2 i Li) as (n & a & Ci). destruct (F2 j Lj) as (m & b & Cj). apply (Hrt _ _ _ _ _ _ Ci Cj).
      rewrite (Hro _ _ _ _ _ _ Ci Cj), (Hro _ _ _ _ _ _ Ci Cu2), (Hro _ _ _ _ _ _ Cv2 Cj), (Hro _ _ _ _ _ _ Ci Cv2), (Hro _ _ _ _ _ _ Cu2 Cj) in H.
      destruct H as [->|[[-> <-]|[-> <-]]]; [reflexivity| |]; rewrite ?Nat.eqb_refl; destruct (Nat.eqb_spec rv ru); congruence.
Qed.
