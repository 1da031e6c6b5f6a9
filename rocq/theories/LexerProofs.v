(** Lemmas about the lexer. *)
From Coq Require Import List Arith NArith Bool Lia.
Import ListNotations.
From Verif Require Import Kinds KindFacts TextModel LexerRegex LexerData LexerModel.

(** ** derivatives *)
Lemma nullable_matches r : nullable r = true <-> matches r [].
Proof.
  split.
  - induction r; cbn [nullable]; intros H; try discriminate.
    + constructor.
    + apply andb_prop in H as [H1 H2]. change (@nil char) with (@nil char ++ @nil char). constructor; auto.
    + apply orb_prop in H as [H|H]; [apply m_alt_l|apply m_alt_r]; auto.
    + constructor.
  - intros H. remember [] as w eqn:E. induction H; cbn [nullable]; try reflexivity; try discriminate.
    + apply app_eq_nil in E as [-> ->]. now rewrite IHmatches1, IHmatches2.
    + now rewrite IHmatches.
    + rewrite IHmatches by assumption. apply orb_true_r.
Qed.
Lemma matches_cat a b w : matches (cat a b) w <-> matches (Cat a b) w.
Proof.
  unfold cat. destruct a; try reflexivity. split.
  - intros H. change w with ([] ++ w). constructor; [constructor|exact H].
  - intros H. inversion H as [| |? ? u v Hu Hv| | | |]; subst. inversion Hu; subst. exact Hv.
Qed.
Lemma matches_cat_inv a b w : matches (Cat a b) w -> exists u v, w = u ++ v /\ matches a u /\ matches b v.
Proof. inversion 1; subst; eauto. Qed.
Lemma star_cons a : forall w, matches (Star a) w -> w = [] \/
  exists c u v, w = c :: u ++ v /\ matches a (c :: u) /\ matches (Star a) v.
Proof.
  intros w H. remember (Star a) as r eqn:E. induction H; try discriminate; injection E as ->; [now left|].
  destruct u as [|c u]; [cbn; auto|]. right. exists c, u, v. auto.
Qed.
Lemma pd_correct c r : forall w, matches r (c :: w) <-> exists r', In r' (pd c r) /\ matches r' w.
Proof.
  induction r as [|rs|a IHa b IHb|a IHa b IHb|a IHa]; intros w; cbn [pd].
  - split; [inversion 1|intros (r' & [] & _)].
  - split.
    + inversion 1; subst. match goal with K : in_class _ _ = true |- _ => rewrite K end. exists Eps. split; [now left|constructor].
    + intros (r' & Hr & Hm). destruct (in_class c rs) eqn:E; [|destruct Hr]. destruct Hr as [<-|[]]. inversion Hm; subst. now constructor.
  - split.
    + intros H. apply matches_cat_inv in H as (u & v & E & Hu & Hv). destruct u as [|d u].
      * cbn in E. subst v. apply nullable_matches in Hu. apply IHb in Hv as (r' & Hr & Hm). exists r'. split; [|exact Hm].
        apply in_or_app. right. now rewrite Hu.
      * injection E as <- ->. apply IHa in Hu as (r' & Hr & Hm). exists (cat r' b). split.
        -- apply in_or_app. left. apply in_map_iff. eauto.
        -- apply matches_cat. now constructor.
    + intros (r' & Hr & Hm). apply in_app_or in Hr as [Hr|Hr].
      * apply in_map_iff in Hr as (x & <- & Hx). apply matches_cat, matches_cat_inv in Hm as (u & v & -> & Hu & Hv).
        change (c :: u ++ v) with ((c :: u) ++ v). constructor; [apply IHa; eauto|exact Hv].
      * destruct (nullable a) eqn:En; [|destruct Hr]. apply nullable_matches in En.
        change (c :: w) with ([] ++ c :: w). constructor; [exact En|apply IHb; eauto].
  - split.
    + inversion 1; subst; [apply IHa in H3 as (r' & ? & ?)|apply IHb in H3 as (r' & ? & ?)]; exists r'; split; try assumption; apply in_or_app; auto.
    + intros (r' & Hr & Hm). apply in_app_or in Hr as [Hr|Hr]; [apply m_alt_l, IHa|apply m_alt_r, IHb]; eauto.
  - split.
    + intros H. apply star_cons in H as [H|(d & u & v & E & Hu & Hv)]; [discriminate|]. injection E as <- ->.
      apply IHa in Hu as (r' & Hr & Hm). exists (cat r' (Star a)). split; [apply in_map_iff; eauto|]. apply matches_cat. now constructor.
    + intros (r' & Hr & Hm). apply in_map_iff in Hr as (x & <- & Hx). apply matches_cat, matches_cat_inv in Hm as (u & v & -> & Hu & Hv).
      change (c :: u ++ v) with ((c :: u) ++ v). constructor; [apply IHa; eauto|exact Hv].
Qed.
Lemma class_eqb_eq a : forall b, class_eqb a b = true <-> a = b.
Proof.
  induction a as [|[x y] a IH]; intros [|[x' y'] b]; cbn; split; try congruence; try discriminate.
  - intros H. apply andb_prop in H as [H H3]. apply andb_prop in H as [H1 H2]. apply N.eqb_eq in H1, H2. apply IH in H3. congruence.
  - intros H. injection H as -> -> ->. rewrite !N.eqb_refl. now apply IH.
Qed.
Lemma re_eqb_eq a : forall b, re_eqb a b = true <-> a = b.
Proof.
  induction a as [|rs|a1 IH1 a2 IH2|a1 IH1 a2 IH2|a IH]; intros [|rs'|b1 b2|b1 b2|b]; cbn; split; try congruence; try discriminate.
  - intros H. apply class_eqb_eq in H. congruence.
  - intros H. injection H as ->. now apply class_eqb_eq.
  - intros H. apply andb_prop in H as [H1 H2]. apply IH1 in H1. apply IH2 in H2. congruence.
  - intros H. injection H as -> ->. apply andb_true_intro. split; [now apply IH1|now apply IH2].
  - intros H. apply andb_prop in H as [H1 H2]. apply IH1 in H1. apply IH2 in H2. congruence.
  - intros H. injection H as -> ->. apply andb_true_intro. split; [now apply IH1|now apply IH2].
  - intros H. apply IH in H. congruence.
  - intros H. injection H as ->. now apply IH.
Qed.
Lemma re_dedup_In r l : In r (re_dedup l) <-> In r l.
Proof.
  induction l as [|x l IH]; [reflexivity|]. cbn [re_dedup].
  destruct (existsb (re_eqb x) (re_dedup l)) eqn:E.
  - rewrite IH. split; [now right|]. intros [<-|H]; [|exact H]. apply existsb_exists in E as (y & Hy & Exy).
    apply re_eqb_eq in Exy. subst y. now apply IH.
  - cbn. now rewrite IH.
Qed.
Definition matches_any (l : list re) (w : text) : Prop := exists r, In r l /\ matches r w.
Lemma pd_set_correct c l w : matches_any l (c :: w) <-> matches_any (pd_set c l) w.
Proof.
  unfold matches_any, pd_set. split.
  - intros (r & Hr & Hm). apply pd_correct in Hm as (r' & Hr' & Hm). exists r'. split; [|exact Hm]. apply re_dedup_In, in_flat_map. eauto.
  - intros (r' & Hr & Hm). apply re_dedup_In, in_flat_map in Hr as (r & Hr & Hr'). exists r. split; [exact Hr|]. apply pd_correct. eauto.
Qed.
Lemma existsb_nullable l : existsb nullable l = true <-> matches_any l [].
Proof. rewrite existsb_exists. unfold matches_any. split; intros (r & H1 & H2); exists r; (split; [exact H1|now apply nullable_matches]). Qed.

(** ** the longest match *)
(** [n] characters of [t] are a match of the rule *)
Definition rule_match (r : re) (wb : bool) (t : text) (n : nat) : Prop :=
  n <= length t /\ matches r (firstn n t) /\ (wb = true -> at_boundary (skipn n t) = true).
Definition set_match (l : list re) (wb : bool) (t : text) (n : nat) : Prop :=
  n <= length t /\ matches_any l (firstn n t) /\ (wb = true -> at_boundary (skipn n t) = true).
Lemma set_match_S l wb c t n : set_match l wb (c :: t) (S n) <-> set_match (pd_set c l) wb t n.
Proof. unfold set_match. cbn [firstn skipn length]. rewrite pd_set_correct. intuition lia. Qed.
Lemma set_match_0 l wb t : set_match l wb t 0 <-> existsb nullable l && (negb wb || at_boundary t) = true.
Proof.
  unfold set_match. cbn [firstn skipn]. rewrite andb_true_iff, existsb_nullable, orb_true_iff, negb_true_iff.
  destruct wb; intuition (try lia; try discriminate; auto).
Qed.
Lemma longest_from_spec wb : forall t l n best,
  match longest_from wb l t n best with
  | Some m => (m = match best with Some b => b | None => 0 end /\ best <> None /\ (forall i, ~ set_match l wb t i))
              \/ (exists i, m = n + i /\ set_match l wb t i /\ forall j, set_match l wb t j -> j <= i)
  | None => best = None /\ forall i, ~ set_match l wb t i
  end.
Proof.
  assert (G : forall t l n best, (forall i, ~ set_match l wb t (S i)) ->
    match (if existsb nullable l && (negb wb || at_boundary t) then Some n else best) with
    | Some m => (m = match best with Some b => b | None => 0 end /\ best <> None /\ (forall i, ~ set_match l wb t i))
              \/ (exists i, m = n + i /\ set_match l wb t i /\ forall j, set_match l wb t j -> j <= i)
    | None => best = None /\ forall i, ~ set_match l wb t i
    end).
  { intros t l n best H. destruct (existsb nullable l && (negb wb || at_boundary t)) eqn:E.
    - right. exists 0. split; [lia|]. split; [now apply set_match_0|]. intros [|j] Hj; [lia|]. now apply H in Hj.
    - assert (Z : forall i, ~ set_match l wb t i).
      { intros [|i]; [|apply H]. intros K. apply set_match_0 in K. congruence. }
      destruct best; [left; repeat split; auto; discriminate|auto]. }
  induction t as [|c t IH]; intros l n best.
  - cbn [longest_from]. destruct l; apply G; intros i (K & _); cbn in K; lia.
  - cbn [longest_from]. destruct l as [|r l].
    + apply G. intros i (_ & (r & [] & _) & _).
    + set (L := r :: l) in *. specialize (IH (pd_set c L) (S n) (if existsb nullable L && (negb wb || at_boundary (c :: t)) then Some n else best)).
      destruct (longest_from wb (pd_set c L) t (S n) _) as [m|] eqn:E.
      * destruct IH as [(Hm & Hb & Hn)|(i & -> & Hi & Hj)].
        -- assert (N : forall i, ~ set_match L wb (c :: t) (S i)) by (intros i K; apply set_match_S in K; now apply Hn in K).
           specialize (G (c :: t) L n best N). destruct (existsb nullable L && (negb wb || at_boundary (c :: t))); [subst m; exact G|].
           destruct best; [subst m; exact G|congruence].
        -- right. exists (S i). split; [lia|]. split; [now apply set_match_S|]. intros [|j] K; [lia|]. apply set_match_S, Hj in K. lia.
      * destruct IH as (Hb & Hn).
        assert (N : forall i, ~ set_match L wb (c :: t) (S i)) by (intros i K; apply set_match_S in K; now apply Hn in K).
        specialize (G (c :: t) L n best N). destruct (existsb nullable L && (negb wb || at_boundary (c :: t))); [discriminate|]. subst best. exact G.
Qed.
Lemma set_match_one r wb t n : set_match [r] wb t n <-> rule_match r wb t n.
Proof.
  unfold set_match, rule_match, matches_any. split.
  - intros (H1 & (x & [<-|[]] & H2) & H3). auto.
  - intros (H1 & H2 & H3). split; [exact H1|]. split; [|exact H3]. exists r. split; [now left|exact H2].
Qed.
Lemma longest_spec r wb t :
  match longest r wb t with
  | Some n => rule_match r wb t n /\ forall m, rule_match r wb t m -> m <= n
  | None => forall m, ~ rule_match r wb t m
  end.
Proof.
  unfold longest. pose proof (longest_from_spec wb t [r] 0 None) as H. destruct (longest_from _ _ _ _ _) as [n|].
  - destruct H as [(_ & H & _)|(i & -> & H & K)]; [congruence|]. cbn [Nat.add]. split; [now apply set_match_one|].
    intros m Hm. apply K. now apply set_match_one.
  - destruct H as [_ H]. intros m Hm. apply (H m). now apply set_match_one.
Qed.
Lemma longest_rule_spec rules t :
  match longest_rule rules t with
  | Some (k, n) => (exists r wb, In (k, r, wb) rules /\ rule_match r wb t n) /\
                   forall k' r' wb' m, In (k', r', wb') rules -> rule_match r' wb' t m -> m <= n
  | None => forall k r wb m, In (k, r, wb) rules -> ~ rule_match r wb t m
  end.
Proof.
  induction rules as [|[[k r] wb] rules IH]; cbn [longest_rule]; [intros ? ? ? ? []|].
  pose proof (longest_spec r wb t) as L. destruct (longest r wb t) as [n|].
  - destruct L as [L1 L2]. destruct (longest_rule rules t) as [[k' n']|].
    + destruct IH as [(r' & wb' & I1 & I2) I3]. destruct (Nat.leb_spec n' n).
      * split; [exists r, wb; split; [now left|exact L1]|]. intros ? ? ? m [E|Hin] Hm; [injection E as <- <- <-; auto|].
        specialize (I3 _ _ _ _ Hin Hm). lia.
      * split; [exists r', wb'; split; [now right|exact I2]|]. intros ? ? ? m [E|Hin] Hm; [injection E as <- <- <-; specialize (L2 _ Hm); lia|eauto].
    + split; [exists r, wb; split; [now left|exact L1]|]. intros ? ? ? m [E|Hin] Hm; [injection E as <- <- <-; auto|].
      exfalso. exact (IH _ _ _ _ Hin Hm).
  - destruct (longest_rule rules t) as [[k' n']|].
    + destruct IH as [(r' & wb' & I1 & I2) I3]. split; [exists r', wb'; split; [now right|exact I2]|].
      intros ? ? ? m [E|Hin] Hm; [injection E as <- <- <-; exfalso; exact (L _ Hm)|eauto].
    + intros ? ? ? m [E|Hin] Hm; [injection E as <- <- <-; exact (L _ Hm)|exact (IH _ _ _ _ Hin Hm)].
Qed.

(** ** checking regular expressions for a common word *)
Fixpoint classes (r : re) : list (list (N * N)) :=
  match r with
  | Eps => [] | Cls rs => [rs]
  | Cat a b => classes a ++ (if nullable a then classes b else [])
  | Alt a b => classes a ++ classes b
  | Star a => classes a
  end.
Definition bounds (cs : list (list (N * N))) : list N := 0%N :: flat_map (fun rs => flat_map (fun r => [fst r; N.succ (snd r)]) rs) cs.
(** the greatest of [bs] up to [c] *)
Definition floor_in (bs : list N) (c : N) : N := fold_right (fun b m => if (b <=? c)%N && (m <=? b)%N then b else m) 0%N bs.
Lemma floor_in_In bs c : In 0%N bs -> In (floor_in bs c) bs.
Proof.
  intros H0. assert (G : forall l, floor_in l c = 0%N \/ In (floor_in l c) l).
  { induction l as [|b l IH]; [now left|]. cbn [floor_in fold_right]. fold (floor_in l c).
    destruct ((b <=? c)%N && (floor_in l c <=? b)%N); [right; now left|]. destruct IH; [now left|right; now right]. }
  destruct (G bs) as [->|K]; assumption.
Qed.
Lemma floor_in_le bs c : (floor_in bs c <= c)%N.
Proof.
  induction bs as [|b l IH]; cbn; [lia|]. fold (floor_in l c). destruct (_ && _) eqn:E; [|exact IH].
  apply andb_prop in E as [E _]. now apply N.leb_le in E.
Qed.
Lemma floor_in_max bs c b : In b bs -> (b <= c)%N -> (b <= floor_in bs c)%N.
Proof.
  induction bs as [|x l IH]; [intros []|]. intros [->|H] Hb; cbn; fold (floor_in l c).
  - destruct (N.leb_spec b c); [|lia]. cbn. destruct (N.leb_spec (floor_in l c) b); lia.
  - specialize (IH H Hb). destruct (_ && _) eqn:E; [|exact IH]. apply andb_prop in E as [_ E]. apply N.leb_le in E. lia.
Qed.
Lemma in_class_floor rs bs c : (forall r, In r rs -> In (fst r) bs /\ In (N.succ (snd r)) bs) -> in_class c rs = in_class (floor_in bs c) rs.
Proof.
  intros H. unfold in_class. induction rs as [|[a b] rs IH]; [reflexivity|]. cbn [existsb fst snd].
  rewrite IH by (intros r Hr; apply H; now right). f_equal. destruct (H (a, b) (or_introl eq_refl)) as [H1 H2]. cbn in H1, H2.
  pose proof (floor_in_le bs c).
  destruct (N.leb_spec a c), (N.leb_spec c b), (N.leb_spec a (floor_in bs c)), (N.leb_spec (floor_in bs c) b); try reflexivity; exfalso; try lia;
    try (match goal with Ha : (a <= c)%N |- _ => pose proof (floor_in_max bs c a H1 Ha); lia end);
    assert (N.succ b <= c)%N as K by lia; pose proof (floor_in_max bs c _ H2 K); lia.
Qed.
Lemma pd_floor r bs c : (forall rs x, In rs (classes r) -> In x rs -> In (fst x) bs /\ In (N.succ (snd x)) bs) -> pd c r = pd (floor_in bs c) r.
Proof.
  induction r as [|rs|a IHa b IHb|a IHa b IHb|a IHa]; intros H; cbn [pd classes] in *.
  - reflexivity.
  - rewrite (in_class_floor rs bs c); [reflexivity|]. intros x Hx. apply (H rs); [now left|exact Hx].
  - rewrite IHa by (intros rs x Hr; apply (H rs); apply in_or_app; now left).
    destruct (nullable a); [|reflexivity]. rewrite IHb; [reflexivity|]. intros rs x Hr; apply (H rs); apply in_or_app; now right.
  - rewrite IHa, IHb; [reflexivity| |]; intros rs x Hr; apply (H rs); apply in_or_app; auto.
  - rewrite IHa; [reflexivity|exact H].
Qed.
Definition n_dedup (l : list N) : list N := fold_right (fun c l => if existsb (N.eqb c) l then l else c :: l) [] l.
Lemma n_dedup_In c l : In c (n_dedup l) <-> In c l.
Proof.
  unfold n_dedup. induction l as [|x l IH]; [reflexivity|]. cbn [fold_right]. destruct (existsb _ _) eqn:E.
  - rewrite IH. split; [now right|]. intros [<-|H]; [|exact H]. apply existsb_exists in E as (y & Hy & Exy). apply N.eqb_eq in Exy. subst y. now apply IH.
  - cbn. now rewrite IH.
Qed.
Definition pair_eqb (x y : re * re) : bool := re_eqb (fst x) (fst y) && re_eqb (snd x) (snd y).
Definition pair_in (x : re * re) (l : list (re * re)) : bool := existsb (pair_eqb x) l.
Lemma pair_in_In x l : pair_in x l = true <-> In x l.
Proof.
  unfold pair_in. rewrite existsb_exists. split.
  - intros (y & Hy & E). unfold pair_eqb in E. apply andb_prop in E as [E1 E2]. apply re_eqb_eq in E1, E2. destruct x, y; cbn in *; subst. exact Hy.
  - intros H. exists x. split; [exact H|]. unfold pair_eqb. apply andb_true_intro. split; now apply re_eqb_eq.
Qed.
Definition successors (p : re * re) : list (re * re) :=
  flat_map (fun c => match pd c (fst p) with [] => [] | l => list_prod l (pd c (snd p)) end) (n_dedup (bounds (classes (fst p) ++ classes (snd p)))).
Lemma successors_complete p c x y : In x (pd c (fst p)) -> In y (pd c (snd p)) -> In (x, y) (successors p).
Proof.
  intros Hx Hy. unfold successors. apply in_flat_map. set (bs := bounds (classes (fst p) ++ classes (snd p))).
  assert (B : forall rs z, In rs (classes (fst p) ++ classes (snd p)) -> In z rs -> In (fst z) bs /\ In (N.succ (snd z)) bs).
  { intros rs z Hr Hz. split; right; apply in_flat_map; exists rs; (split; [exact Hr|]); apply in_flat_map; exists z; (split; [exact Hz|]); cbn; auto. }
  exists (floor_in bs c). split; [apply n_dedup_In, floor_in_In; now left|].
  rewrite (pd_floor _ bs c) in Hx by (intros rs z Hr; apply B; apply in_or_app; auto).
  rewrite (pd_floor _ bs c) in Hy by (intros rs z Hr; apply B; apply in_or_app; auto).
  destruct (pd (floor_in bs c) (fst p)) as [|q l]; [destruct Hx|]. now apply in_prod.
Qed.
Fixpoint explore (fuel : nat) (todo seen : list (re * re)) : option (list (re * re)) :=
  match fuel with
  | 0 => None
  | S fuel =>
    match todo with
    | [] => Some seen
    | p :: todo => if pair_in p seen then explore fuel todo seen else explore fuel (successors p ++ todo) (p :: seen)
    end
  end.
(** certified: the pairs are closed under successors and none accepts the empty word on both sides *)
Definition disjoint_cert (l : list (re * re)) : bool :=
  forallb (fun p => negb (nullable (fst p) && nullable (snd p)) && forallb (fun q => pair_in q l) (successors p)) l.
Definition disjoint_re (a b : re) : bool :=
  match explore 2000 [(a, b)] [] with Some l => pair_in (a, b) l && disjoint_cert l | None => false end.
Lemma disjoint_re_sound a b : disjoint_re a b = true -> forall w, matches a w -> matches b w -> False.
Proof.
  unfold disjoint_re. destruct (explore _ _ _) as [l|]; [|discriminate]. intros H. apply andb_prop in H as [H0 H]. apply pair_in_In in H0.
  unfold disjoint_cert in H. rewrite forallb_forall in H.
  assert (G : forall w x y, In (x, y) l -> matches x w -> matches y w -> False).
  { induction w as [|c w IH]; intros x y Hin Hx Hy; specialize (H _ Hin); apply andb_prop in H as [H1 H2]; cbn [fst snd] in H1.
    - apply nullable_matches in Hx, Hy. rewrite Hx, Hy in H1. discriminate.
    - apply pd_correct in Hx as (x' & Hx' & Mx), Hy as (y' & Hy' & My). rewrite forallb_forall in H2.
      eapply IH; [|exact Mx|exact My]. apply pair_in_In, H2. eapply (successors_complete (x, y)); eassumption. }
  intros w. exact (G w a b H0).
Qed.
(** ... which is quick to see if they begin with different characters *)
Lemma matches_first r w : matches r w -> match w with [] => nullable r = true | c :: _ => exists rs, In rs (classes r) /\ in_class c rs = true end.
Proof.
  induction 1 as [|c rs E|a b u v H1 IH1 H2 IH2|a b u H1 IH1|a b u H1 IH1|a|a u v H1 IH1 H2 IH2]; cbn [nullable classes]; try reflexivity.
  - exists rs. split; [left; reflexivity|exact E].
  - destruct u as [|c u]; cbn [app].
    + destruct v as [|c v]; [rewrite IH1, IH2; reflexivity|]. destruct IH2 as (rs & Hr & E). exists rs. split; [|exact E]. apply in_or_app. right. rewrite IH1. exact Hr.
    + destruct IH1 as (rs & Hr & E). exists rs. split; [|exact E]. apply in_or_app. left. exact Hr.
  - destruct u as [|c u]; [rewrite IH1; reflexivity|]. destruct IH1 as (rs & Hr & E). exists rs. split; [|exact E]. apply in_or_app. left. exact Hr.
  - destruct u as [|c u]; [rewrite IH1; apply orb_true_r|]. destruct IH1 as (rs & Hr & E). exists rs. split; [|exact E]. apply in_or_app. right. exact Hr.
  - destruct u as [|c u]; cbn [app]; [destruct v as [|c v]; [reflexivity|exact IH2]|]. destruct IH1 as (rs & Hr & E). exists rs. split; [exact Hr|exact E].
Qed.
Definition apart_first (a b : re) : bool :=
  negb (nullable a && nullable b) &&
  forallb (fun rs => forallb (fun ss => forallb (fun x => forallb (fun y => (snd x <? fst y)%N || (snd y <? fst x)%N) ss) rs) (classes b)) (classes a).
Lemma apart_first_sound a b : apart_first a b = true -> forall w, matches a w -> matches b w -> False.
Proof.
  unfold apart_first. intros H w Ha Hb. apply andb_prop in H as [H1 H2]. apply negb_true_iff in H1. apply matches_first in Ha, Hb. destruct w as [|c w]; [rewrite Ha, Hb in H1; discriminate|].
  destruct Ha as (rs & Hrs & Ea), Hb as (ss & Hss & Eb). rewrite forallb_forall in H2. specialize (H2 _ Hrs). rewrite forallb_forall in H2. specialize (H2 _ Hss).
  unfold in_class in Ea, Eb. apply existsb_exists in Ea as (x & Hx & Ex), Eb as (y & Hy & Ey). rewrite forallb_forall in H2. specialize (H2 _ Hx). rewrite forallb_forall in H2. specialize (H2 _ Hy).
  apply andb_prop in Ex as [X1 X2], Ey as [Y1 Y2]. apply N.leb_le in X1, X2, Y1, Y2. apply orb_prop in H2 as [H2|H2]; apply N.ltb_lt in H2; lia.
Qed.
(** ... or if one of some characters occurs in every word of one and none in any word of the other *)
Fixpoint avoids (c : char) (r : re) : bool :=
  match r with
  | Eps => true
  | Cls rs => negb (in_class c rs)
  | Cat a b | Alt a b => avoids c a && avoids c b
  | Star a => avoids c a
  end.
Lemma avoids_ok c r w : matches r w -> avoids c r = true -> ~ In c w.
Proof.
  induction 1 as [|d rs E|a b u v H1 IH1 H2 IH2|a b u H1 IH1|a b u H1 IH1|a|a u v H1 IH1 H2 IH2]; cbn [avoids] in *; intros A Hin.
  - exact Hin.
  - destruct Hin as [<-|[]]. apply negb_true_iff in A. congruence.
  - apply andb_prop in A as [A1 A2]. apply in_app_or in Hin as [Hin|Hin]; [exact (IH1 A1 Hin)|exact (IH2 A2 Hin)].
  - apply andb_prop in A as [A1 A2]. exact (IH1 A1 Hin).
  - apply andb_prop in A as [A1 A2]. exact (IH1 A2 Hin).
  - exact Hin.
  - apply in_app_or in Hin as [Hin|Hin]; [exact (IH1 A Hin)|exact (IH2 A Hin)].
Qed.
Fixpoint needs (cs : list N) (r : re) : bool :=
  match r with
  | Eps | Star _ => false
  | Cls rs => forallb (fun x => N.eqb (fst x) (snd x) && existsb (N.eqb (fst x)) cs) rs
  | Cat a b => needs cs a || needs cs b
  | Alt a b => needs cs a && needs cs b
  end.
Lemma needs_ok cs r w : matches r w -> needs cs r = true -> exists c, In c cs /\ In c w.
Proof.
  induction 1 as [|d rs E|a b u v H1 IH1 H2 IH2|a b u H1 IH1|a b u H1 IH1|a|a u v H1 IH1 H2 IH2]; cbn [needs] in *; intros A; try discriminate.
  - exists d. split; [|left; reflexivity]. unfold in_class in E. apply existsb_exists in E as (x & Hx & E). rewrite forallb_forall in A. specialize (A _ Hx). apply andb_prop in A as [A1 A2], E as [E1 E2]. apply N.eqb_eq in A1.
    apply N.leb_le in E1, E2. apply existsb_exists in A2 as (c & Hc & Ec). apply N.eqb_eq in Ec. assert (d = c) as -> by (unfold char in *; lia). exact Hc.
  - apply orb_prop in A as [A|A]; [destruct (IH1 A) as (c & Hc & Hi)|destruct (IH2 A) as (c & Hc & Hi)]; exists c; (split; [exact Hc|]); apply in_or_app; auto.
  - apply andb_prop in A as [A _]. auto.
  - apply andb_prop in A as [_ A]. auto.
Qed.
Definition told (cs : list N) (a b : re) : bool := forallb (fun c => avoids c a) cs && needs cs b.
Lemma told_sound cs a b : told cs a b = true -> forall w, matches a w -> matches b w -> False.
Proof.
  intros H w Ha Hb. apply andb_prop in H as [H1 H2]. destruct (needs_ok _ _ _ Hb H2) as (c & Hc & Hi). rewrite forallb_forall in H1. exact (avoids_ok _ _ _ Ha (H1 _ Hc) Hi).
Qed.
(** the colon of a name, the point and the exponent of a number *)
Definition quick (a b : re) : bool := apart_first a b || existsb (fun cs => told cs a b || told cs b a) [[58]; [46]; [69; 101]]%N.
Lemma quick_sound a b : quick a b = true -> forall w, matches a w -> matches b w -> False.
Proof.
  unfold quick. intros H w Ha Hb. apply orb_prop in H as [H|H]; [eapply apart_first_sound; eassumption|]. apply existsb_exists in H as (cs & _ & H). apply orb_prop in H as [H|H]; eapply told_sound; eassumption.
Qed.
Fixpoint all_disjoint (rules : list (kind * re * bool)) : bool :=
  match rules with
  | [] => true
  | (k, r, _) :: rules => forallb (fun x => if quick r (snd (fst x)) then true else disjoint_re r (snd (fst x))) rules && all_disjoint rules
  end.
Lemma all_disjoint_sound rules : all_disjoint rules = true -> forall k r wb k' r' wb' w,
  In (k, r, wb) rules -> In (k', r', wb') rules -> matches r w -> matches r' w -> (k, r, wb) = (k', r', wb').
Proof.
  induction rules as [|[[k0 r0] wb0] rules IH]; [intros _ ? ? ? ? ? ? ? []|]. intros H. cbn [all_disjoint] in H. apply andb_prop in H as [H1 H2].
  rewrite forallb_forall in H1. intros k r wb k' r' wb' w [E|Hi] [E'|Hi'] M M'.
  - congruence.
  - injection E as <- <- <-. exfalso. specialize (H1 _ Hi'). cbn [fst snd] in H1. destruct (quick _ _) eqn:Q in H1; [eapply quick_sound; eassumption|eapply disjoint_re_sound; eassumption].
  - injection E' as <- <- <-. exfalso. specialize (H1 _ Hi). cbn [fst snd] in H1. destruct (quick _ _) eqn:Q in H1; [eapply quick_sound; eassumption|eapply disjoint_re_sound; eassumption].
  - eauto.
Qed.

(** ** checking inclusion of languages *)
Definition inc_state := (re * list re)%type.
Fixpoint res_eqb (a b : list re) : bool :=
  match a, b with [], [] => true | x :: a, y :: b => re_eqb x y && res_eqb a b | _, _ => false end.
Lemma res_eqb_eq a : forall b, res_eqb a b = true <-> a = b.
Proof.
  induction a as [|x a IH]; intros [|y b]; cbn; split; try congruence; try discriminate.
  - intros H. apply andb_prop in H as [H1 H2]. apply re_eqb_eq in H1. apply IH in H2. congruence.
  - intros H. injection H as -> ->. apply andb_true_intro. split; [now apply re_eqb_eq|now apply IH].
Qed.
Definition inc_in (x : inc_state) (l : list inc_state) : bool := existsb (fun y => re_eqb (fst x) (fst y) && res_eqb (snd x) (snd y)) l.
Lemma inc_in_In x l : inc_in x l = true <-> In x l.
Proof.
  unfold inc_in. rewrite existsb_exists. split.
  - intros (y & Hy & E). apply andb_prop in E as [E1 E2]. apply re_eqb_eq in E1. apply res_eqb_eq in E2. destruct x, y; cbn in *; subst. exact Hy.
  - intros H. exists x. split; [exact H|]. apply andb_true_intro. split; [now apply re_eqb_eq|now apply res_eqb_eq].
Qed.
Definition inc_succ (p : inc_state) : list inc_state :=
  flat_map (fun c => match pd c (fst p) with [] => [] | l => let b := pd_set c (snd p) in map (fun a => (a, b)) l end)
           (n_dedup (bounds (classes (fst p) ++ flat_map classes (snd p)))).
Lemma pd_set_floor bs l c : (forall rs x, In rs (flat_map classes l) -> In x rs -> In (fst x) bs /\ In (N.succ (snd x)) bs) ->
  pd_set c l = pd_set (floor_in bs c) l.
Proof.
  intros H. unfold pd_set. f_equal. induction l as [|r l IH]; [reflexivity|]. cbn [flat_map] in *.
  rewrite <- (pd_floor r bs c), IH; [reflexivity| |]; intros rs x Hr; apply H; apply in_or_app; auto.
Qed.
Lemma inc_succ_complete p c a : In a (pd c (fst p)) -> In (a, pd_set c (snd p)) (inc_succ p).
Proof.
  intros Ha. unfold inc_succ. apply in_flat_map. set (bs := bounds (classes (fst p) ++ flat_map classes (snd p))).
  assert (B : forall rs z, In rs (classes (fst p) ++ flat_map classes (snd p)) -> In z rs -> In (fst z) bs /\ In (N.succ (snd z)) bs).
  { intros rs z Hr Hz. split; right; apply in_flat_map; exists rs; (split; [exact Hr|]); apply in_flat_map; exists z; (split; [exact Hz|]); cbn; auto. }
  exists (floor_in bs c). split; [apply n_dedup_In, floor_in_In; now left|].
  rewrite (pd_floor _ bs c) in Ha by (intros rs z Hr; apply B; apply in_or_app; auto).
  rewrite (pd_set_floor bs _ c) by (intros rs z Hr; apply B; apply in_or_app; auto).
  destruct (pd (floor_in bs c) (fst p)) as [|q l]; [destruct Ha|].
  cbv zeta. apply in_map_iff. exists a. split; [reflexivity|exact Ha].
Qed.
Fixpoint inc_explore (fuel : nat) (todo seen : list inc_state) : option (list inc_state) :=
  match fuel with
  | 0 => None
  | S fuel =>
    match todo with
    | [] => Some seen
    | p :: todo => if inc_in p seen then inc_explore fuel todo seen else inc_explore fuel (inc_succ p ++ todo) (p :: seen)
    end
  end.
Definition inc_cert (l : list inc_state) : bool :=
  forallb (fun p => (negb (nullable (fst p)) || existsb nullable (snd p)) && forallb (fun q => inc_in q l) (inc_succ p)) l.
Definition included (a b : re) : bool :=
  match inc_explore 4000 [(a, [b])] [] with Some l => inc_in (a, [b]) l && inc_cert l | None => false end.
Lemma included_sound a b : included a b = true -> forall w, matches a w -> matches b w.
Proof.
  unfold included. destruct (inc_explore _ _ _) as [l|]; [|discriminate]. intros H. apply andb_prop in H as [H0 H]. apply inc_in_In in H0.
  unfold inc_cert in H. rewrite forallb_forall in H.
  assert (G : forall w x y, In (x, y) l -> matches x w -> matches_any y w).
  { induction w as [|c w IH]; intros x y Hin Hx; specialize (H _ Hin); apply andb_prop in H as [H1 H2]; cbn [fst snd] in H1.
    - apply nullable_matches in Hx. rewrite Hx in H1. apply existsb_nullable. exact H1.
    - apply pd_correct in Hx as (x' & Hx' & Mx). rewrite forallb_forall in H2. apply pd_set_correct.
      eapply IH; [|exact Mx]. apply inc_in_In, H2. exact (inc_succ_complete (x, y) c x' Hx'). }
  intros w M. destruct (G w a [b] H0 M) as (r & [<-|[]] & Hr). exact Hr.
Qed.

(** ** checking that no word of [a] followed by a character of [cs] starts a word of [b] *)
(** over-approximated: no derivative is left *)
Definition ext_cert (cs : list N) (l : list (re * re)) : bool :=
  forallb (fun p => (negb (nullable (fst p)) || forallb (fun c => match pd c (snd p) with [] => true | _ => false end) cs)
                    && forallb (fun q => pair_in q l) (successors p)) l.
Definition not_extended (cs : list N) (a b : re) : bool :=
  if forallb (fun c => avoids c b) cs || negb (nullable a) && apart_first a b then true else
  match explore 4000 [(a, b)] [] with Some l => pair_in (a, b) l && ext_cert cs l | None => false end.
Lemma not_extended_sound cs a b : not_extended cs a b = true -> forall w c v, In c cs -> matches a w -> matches b (w ++ c :: v) -> False.
Proof.
  unfold not_extended. intros H. destruct (_ || _) eqn:Q in H; [clear H; apply orb_prop in Q as [H|H]|clear Q].
  { intros w c v Hc _ M. rewrite forallb_forall in H. refine (avoids_ok _ _ _ M (H _ Hc) _). apply in_or_app. right. left. reflexivity. }
  { intros w c v _ Ha Hb. apply andb_prop in H as [Hn H]. apply negb_true_iff in Hn. pose proof (matches_first _ _ Ha) as Fa. destruct w as [|d w]; [congruence|]. destruct Fa as (rs & Hrs & Ea). apply matches_first in Hb. destruct Hb as (ss & Hss & Eb).
    unfold apart_first in H. apply andb_prop in H as [_ H2]. rewrite forallb_forall in H2. specialize (H2 _ Hrs). rewrite forallb_forall in H2. specialize (H2 _ Hss).
    unfold in_class in Ea, Eb. apply existsb_exists in Ea as (x & Hx & Ex), Eb as (y & Hy & Ey). rewrite forallb_forall in H2. specialize (H2 _ Hx). rewrite forallb_forall in H2. specialize (H2 _ Hy).
    apply andb_prop in Ex as [X1 X2], Ey as [Y1 Y2]. apply N.leb_le in X1, X2, Y1, Y2. apply orb_prop in H2 as [H2|H2]; apply N.ltb_lt in H2; lia. }
  destruct (explore _ _ _) as [l|]; [|discriminate]. apply andb_prop in H as [H0 H]. apply pair_in_In in H0.
  unfold ext_cert in H. rewrite forallb_forall in H.
  assert (G : forall w x y c v, In c cs -> In (x, y) l -> matches x w -> matches y (w ++ c :: v) -> False).
  { induction w as [|d w IH]; intros x y c v Hc Hin Hx Hy; specialize (H _ Hin); apply andb_prop in H as [H1 H2]; cbn [fst snd] in H1.
    - apply nullable_matches in Hx. rewrite Hx in H1. cbn [negb orb] in H1. rewrite forallb_forall in H1. specialize (H1 _ Hc).
      apply pd_correct in Hy as (y' & Hy' & _). destruct (pd c y); [destruct Hy'|discriminate].
    - change ((d :: w) ++ c :: v) with (d :: (w ++ c :: v)) in Hy.
      apply pd_correct in Hx as (x' & Hx' & Mx), Hy as (y' & Hy' & My). rewrite forallb_forall in H2.
      eapply (IH x' y' c v Hc); [|exact Mx|exact My]. apply pair_in_In, H2. eapply (successors_complete (x, y)); eassumption. }
  intros w c v Hc Ha Hb. exact (G w a b c v Hc H0 Ha Hb).
Qed.
