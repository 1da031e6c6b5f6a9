(** The regions of find_variable_occurrences, and the result. *)
From Coq Require Import String List Arith NArith Bool Lia Relations Sorted.
Import ListNotations.
From Verif Require Import ServerModel Kinds KindFacts ParserModel TextModel LexerSpec FormatData FormatModel FormatTree TreeModel VarModel VarUnion VarSpec VarRegions.

(** ** registration *)
Definition extends (a b : list path) : Prop := exists l, b = a ++ l.
Lemma extends_refl a : extends a a.
Proof. exists []. rewrite app_nil_r. reflexivity. Qed.
Lemma extends_trans a b c : extends a b -> extends b c -> extends a c.
Proof. intros [l ->] [m ->]. exists (l ++ m). rewrite app_assoc. reflexivity. Qed.
Lemma extends_nth a b i x : extends a b -> nth_error a i = Some x -> nth_error b i = Some x.
Proof. intros [l ->] E. rewrite nth_error_app1; [exact E|]. apply nth_error_Some. congruence. Qed.
Lemma extends_in a b x : extends a b -> In x a -> In x b.
Proof. intros [l ->] H. apply in_or_app. left. exact H. Qed.

Definition numbered (st : list path * regions_map) : Prop := forall p i, lookup (snd st) p = Some i <-> nth_error (fst st) i = Some p.
Lemma region_ok st b st' i : numbered st -> register_region st b = (st', i) ->
  numbered st' /\ extends (fst st) (fst st') /\ nth_error (fst st') i = Some b /\ (forall x, In x (fst st') -> In x (fst st) \/ x = b).
Proof.
  destruct st as [regions ids]. intros N E. cbn in E. destruct (lookup ids b) as [j|] eqn:L; injection E as <- <-; cbn [fst snd].
  - split; [exact N|]. split; [apply extends_refl|]. split; [apply N, L|]. auto.
  - split; [|split; [exists [b]; reflexivity|]; split].
    + intros p i. cbn [snd fst lookup]. destruct (path_eqb b p) eqn:B.
      * apply path_eqb_eq in B. subst p. split.
        -- intros H. injection H as <-. rewrite nth_error_app2, Nat.sub_diag by lia. reflexivity.
        -- intros H. destruct (lt_dec i (length regions)) as [Hi|Hi].
           ++ rewrite nth_error_app1 in H by exact Hi. apply N in H. cbn in H. congruence.
           ++ rewrite nth_error_app2 in H by lia. destruct (i - length regions) as [|k] eqn:K; [f_equal; lia|]. destruct k; discriminate.
      * rewrite (N p i). cbn [fst]. destruct (lt_dec i (length regions)) as [Hi|Hi].
        -- rewrite nth_error_app1 by exact Hi. reflexivity.
        -- rewrite nth_error_app2 by lia. split; intros H.
           ++ exfalso. apply Hi. apply nth_error_Some. congruence.
           ++ destruct (i - length regions) as [|k]; [|destruct k; discriminate]. injection H as ->. rewrite (proj2 (path_eqb_eq p p) eq_refl) in B. discriminate.
    + rewrite nth_error_app2, Nat.sub_diag by lia. reflexivity.
    + intros x H. apply in_app_or in H as [H|[H|[]]]; auto.
Qed.
Lemma all_ok bs : forall st inn st' r, numbered st -> register_all st bs inn = (st', r) ->
  numbered st' /\ extends (fst st) (fst st') /\ (forall b, In b bs -> In b (fst st')) /\ (forall x, In x (fst st') -> In x (fst st) \/ In x bs) /\
  match inn with Some i => r = Some i | None => match bs with [] => r = None | b :: _ => exists i, r = Some i /\ nth_error (fst st') i = Some b end end.
Proof.
  induction bs as [|b bs IH]; intros st inn st' r N E; cbn [register_all] in E.
  - injection E as <- <-. split; [exact N|]. split; [apply extends_refl|]. split; [intros ? []|]. split; [auto|]. destruct inn; reflexivity.
  - destruct (register_region st b) as [st1 i] eqn:R. destruct (region_ok _ _ _ _ N R) as (N1 & X1 & I1 & B1).
    destruct (IH _ _ _ _ N1 E) as (N2 & X2 & In2 & B2 & R2). split; [exact N2|]. split; [eapply extends_trans; eassumption|].
    split; [|split].
    + intros x [<-|H]; [|apply In2, H]. eapply extends_in; [exact X2|]. eapply nth_error_In, I1.
    + intros x H. destruct (B2 _ H) as [H'|H']; [|right; right; exact H']. destruct (B1 _ H') as [H''| ->]; [left; exact H''|right; left; reflexivity].
    + destruct inn as [j|]; [exact R2|]. exists i. split; [exact R2|]. eapply extends_nth; eassumption.
Qed.
Lemma find_filter {A} (f : A -> bool) l : find f l = match filter f l with x :: _ => Some x | [] => None end.
Proof. induction l as [|x l IH]; [reflexivity|]. cbn. destruct (f x); [reflexivity|exact IH]. Qed.
Lemma regions_ok t st p st' i : numbered st -> nth_error (fst st) 0 = Some [] -> register_regions t st p = (st', i) ->
  numbered st' /\ extends (fst st) (fst st') /\ nth_error (fst st') i = Some (scope t p) /\
  (forall q r, p = q ++ r -> sub_select t q -> In q (fst st')) /\
  (forall x, In x (fst st') -> In x (fst st) \/ (sub_select t x /\ exists r, p = x ++ r)).
Proof.
  intros N Z E. unfold register_regions in E. destruct (register_all st (filter (boundary t) (ancestors p)) None) as [st1 r] eqn:R.
  injection E as <- <-. destruct (all_ok _ _ _ _ _ N R) as (N1 & X1 & In1 & B1 & R1). split; [exact N1|]. split; [exact X1|]. split; [|split].
  - unfold scope. rewrite find_filter. destruct (filter (boundary t) (ancestors p)) as [|b bs].
    + subst r. eapply extends_nth; eassumption.
    + destruct R1 as (i & -> & H). exact H.
  - intros q s -> H. apply In1. apply filter_In. split; [apply in_ancestors; eauto|apply boundary_spec, H].
  - intros x H. destruct (B1 _ H) as [H'|H']; [left; exact H'|right]. apply filter_In in H' as [H1 H2]. split; [apply boundary_spec, H2|apply in_ancestors, H1].
Qed.
Lemma occurrences_ok t occ : forall st st' is, numbered st -> nth_error (fst st) 0 = Some [] -> register_occurrences t st occ = (st', is) ->
  numbered st' /\ extends (fst st) (fst st') /\ Forall2 (fun p i => nth_error (fst st') i = Some (scope t p)) occ is /\
  (forall p q r, In p occ -> p = q ++ r -> sub_select t q -> In q (fst st')) /\
  (forall x, In x (fst st') -> In x (fst st) \/ (sub_select t x /\ exists p r, In p occ /\ p = x ++ r)).
Proof.
  induction occ as [|p occ IH]; intros st st' is N Z E; cbn [register_occurrences] in E.
  - injection E as <- <-. split; [exact N|]. split; [apply extends_refl|]. split; [constructor|]. split; [intros ? ? ? []|]. auto.
  - destruct (register_regions t st p) as [st1 i] eqn:R. destruct (register_occurrences t st1 occ) as [st2 js] eqn:O. injection E as <- <-.
    destruct (regions_ok _ _ _ _ _ N Z R) as (N1 & X1 & I1 & C1 & B1).
    destruct (IH _ _ _ N1 (extends_nth _ _ _ _ X1 Z) O) as (N2 & X2 & F2 & C2 & B2).
    split; [exact N2|]. split; [eapply extends_trans; eassumption|]. split; [|split].
    + constructor; [|exact F2]. eapply extends_nth; eassumption.
    + intros p' q r [<-|H] Ep Hq; [|eapply C2; eassumption]. eapply extends_in; [exact X2|]. eapply C1; eassumption.
    + intros x H. destruct (B2 _ H) as [H'|(Hs & p' & r & Hp & Ex)].
      * destruct (B1 _ H') as [H''|(Hs & r & Ex)]; [left; exact H''|right]. split; [exact Hs|]. exists p, r. split; [left; reflexivity|exact Ex].
      * right. split; [exact Hs|]. exists p', r. split; [right; exact Hp|exact Ex].
Qed.

(** ** the loop over the regions *)
Definition edge (t : tree) (name : text) (ids : regions_map) (regions : list path) (id : nat) (a b : nat) : Prop :=
  exists k r, a = id + k /\ nth_error regions k = Some r /\ projects t name r = true /\ b = parent_region_id t ids r.
Lemma rst_incl {A} (R S : relation A) : (forall x y, R x y -> clos_refl_sym_trans _ S x y) -> forall x y, clos_refl_sym_trans _ R x y -> clos_refl_sym_trans _ S x y.
Proof. intros H x y. induction 1; [apply H; assumption|apply rst_refl|apply rst_sym; assumption|eapply rst_trans; eassumption]. Qed.
Lemma connect_ok t name ids : forall regions id par,
  forest par -> id + length regions <= length par -> (forall r, In r regions -> parent_region_id t ids r < length par) ->
  exists par', connect t name ids id regions par = VDone par' /\ length par' = length par /\ forest par' /\
    (forall i j, same par' i j -> clos_refl_sym_trans _ (fun a b => same par a b \/ edge t name ids regions id a b) i j) /\
    (forall i j, same par i j \/ edge t name ids regions id i j -> same par' i j).
Proof.
  induction regions as [|r rs IH]; intros id par F L P; cbn [connect].
  - exists par. split; [reflexivity|]. split; [reflexivity|]. split; [exact F|]. split.
    + intros i j H. apply rst_step. left. exact H.
    + intros i j [H|(k & r & _ & E & _)]; [exact H|]. destruct k; discriminate.
  - cbn [length] in L.
    assert (exists par1, (if projects t name r then uf_union (S (length par)) par id (parent_region_id t ids r) else VDone par) = VDone par1 /\
              length par1 = length par /\ forest par1 /\
              (forall i j, same par1 i j -> clos_refl_sym_trans _ (fun a b => same par a b \/ edge t name ids (r :: rs) id a b) i j) /\
              (forall i j, same par i j -> same par1 i j) /\ (projects t name r = true -> same par1 id (parent_region_id t ids r))) as (par1 & E1 & L1 & F1 & G1 & K1 & M1).
    { destruct (projects t name r) eqn:Pr.
      - destruct (union_ok par id (parent_region_id t ids r) F ltac:(lia) ltac:(apply P; left; reflexivity)) as (par1 & E1 & L1 & F1 & S1).
        assert (edge t name ids (r :: rs) id id (parent_region_id t ids r)) as He.
        { exists 0, r. split; [lia|]. split; [reflexivity|]. split; [exact Pr|reflexivity]. }
        exists par1. split; [exact E1|]. split; [exact L1|]. split; [exact F1|]. split; [|split].
        + intros i j H. apply S1 in H as [H|[[H1 H2]|[H1 H2]]].
          * apply rst_step. left. exact H.
          * eapply rst_trans; [apply rst_step; left; exact H1|]. eapply rst_trans; [apply rst_step; right; exact He|]. apply rst_step. left. exact H2.
          * eapply rst_trans; [apply rst_step; left; exact H1|]. eapply rst_trans; [apply rst_sym, rst_step; right; exact He|]. apply rst_step. left. exact H2.
        + intros i j H. apply S1. left. exact H.
        + intros _. apply S1. right. left. split; apply same_refl; try exact F; [lia|]. apply P. left. reflexivity.
      - exists par. split; [reflexivity|]. split; [reflexivity|]. split; [exact F|]. split; [|split].
        + intros i j H. apply rst_step. left. exact H.
        + auto.
        + discriminate. }
    rewrite E1. cbn [vbind].
    destruct (IH (S id) par1 F1 ltac:(lia) ltac:(intros x Hx; rewrite L1; apply P; right; exact Hx)) as (par2 & E2 & L2 & F2 & G2 & K2).
    exists par2. split; [exact E2|]. split; [congruence|]. split; [exact F2|]. split.
    + intros i j H. apply G2 in H. revert i j H. apply rst_incl. intros x y [H|(k & q & -> & E & Pq & ->)]; [apply G1, H|].
      apply rst_step. right. exists (S k), q. split; [lia|]. split; [exact E|]. split; [exact Pq|reflexivity].
    + intros i j [H|(k & q & -> & E & Pq & ->)]; [apply K2; left; apply K1, H|]. destruct k as [|k]; cbn in E.
      * injection E as <-. rewrite Nat.add_0_r. apply K2. left. apply M1, Pq.
      * apply K2. right. exists k, q. split; [lia|]. split; [exact E|]. split; [exact Pq|reflexivity].
Qed.
Lemma position_in p l : In p l -> exists i, position p l = Some i /\ nth_error l i = Some p.
Proof.
  induction l as [|q l IH]; intros H; [destruct H|]. cbn [position]. destruct (path_eqb q p) eqn:E.
  - apply path_eqb_eq in E. subst. exists 0. split; reflexivity.
  - destruct H as [->|H]; [rewrite (proj2 (path_eqb_eq p p) eq_refl) in E; discriminate|]. destruct (IH H) as (i & -> & Hi). exists (S i). split; [reflexivity|exact Hi].
Qed.
Lemma component_ok c l : forall par, forest par -> (forall p r, In (p, r) l -> r < length par) ->
  exists ps, in_component par c l = VDone ps /\ exists f, ps = map fst (filter f l) /\ forall p r n s, In (p, r) l -> climbs par r n s -> (f (p, r) = true <-> s = c).
Proof.
  induction l as [|[p r] l IH]; intros par F B; cbn [in_component].
  - exists []. split; [reflexivity|]. exists (fun _ => true). split; [reflexivity|]. intros ? ? ? ? [].
  - destruct (F r) as (n & s & Hc); [eapply B; left; reflexivity|]. destruct (find_full _ _ _ _ Hc) as (par1 & E1 & S1). rewrite E1. cbn [vbind].
    destruct (IH par1) as (ps & E2 & f & Ef & Hf).
    { eapply shortens_forest; eassumption. }
    { intros q k H. rewrite (proj1 S1). eapply B. right. exact H. }
    rewrite E2. cbn [vbind].
    exists (if s =? c then p :: ps else ps). split; [reflexivity|].
    exists (fun q => match uf_find (S (length par)) par (snd q) with VDone (s, _) => s =? c | _ => false end).
    assert (forall q k m u, climbs par k m u -> (match uf_find (S (length par)) par (snd (q : path, k)) with VDone (s, _) => s =? c | _ => false end) = (u =? c)) as Hg.
    { intros q k m u H. destruct (find_full _ _ _ _ H) as (x & Ex & _). cbn [snd]. rewrite Ex. reflexivity. }
    split.
    + cbn [filter map]. rewrite (Hg p r n s Hc). assert (ps = map fst (filter (fun q => match uf_find (S (length par)) par (snd q) with VDone (s, _) => s =? c | _ => false end) l)) as ->.
      { rewrite Ef. f_equal. apply filter_ext_in. intros [q k] Hin. destruct (F k) as (m & u & Hu); [eapply B; right; exact Hin|].
        rewrite (Hg q k m u Hu). destruct (proj2 S1 _ _ _ Hu) as (m' & _ & Hu'). pose proof (Hf q k m' u Hin Hu') as Hiff.
        destruct (f (q, k)), (Nat.eqb_spec u c); try reflexivity; destruct Hiff as [Ha Hb]; [specialize (Ha eq_refl)|specialize (Hb e)]; congruence. }
      destruct (s =? c); reflexivity.
    + intros q k m u _ Hu. rewrite (Hg q k m u Hu). apply Nat.eqb_eq.
Qed.

Lemma text_eqb_eq a b : text_eqb a b = true <-> a = b.
Proof. unfold text_eqb. destruct (list_eq_dec N.eq_dec a b); split; congruence. Qed.
Lemma projects_spec t name p : sub_select t p -> (projects t name p = true <-> exports t name p).
Proof.
  intros [cs E]. unfold projects, exports. rewrite E. cbn [is_node tkind select_like andb].
  rewrite existsb_exists. split.
  - intros (v & Hv & H). apply text_eqb_eq in H. exists (Node K_SubSelect cs), v. split; [reflexivity|]. split; assumption.
  - intros (x & v & Ex & Hv & H). injection Ex as <-. exists v. split; [exact Hv|]. apply text_eqb_eq, H.
Qed.
Lemma shares_iff t name s u : shares t name s u <-> exists q i, s = q ++ [i] /\ sub_select t s /\ exports t name s /\ u = scope t q.
Proof.
  split.
  - intros [q i v Hs He Hi]. exists q, i. split; [reflexivity|]. split; [exact Hs|]. split; [exact He|]. apply in_scope_iff, Hi.
  - intros (q & i & -> & Hs & He & ->). apply shares_up; [exact Hs|exact He|]. apply in_scope_scope.
Qed.
Lemma in_occurrences t name p : In p (occurrences_of t name) <-> variable t p /\ name_at t p = name.
Proof. unfold occurrences_of. rewrite filter_In, in_vars_below, text_eqb_eq. reflexivity. Qed.

Lemma Forall2_nth {A B} (R : A -> B -> Prop) l m : Forall2 R l m -> forall i a, nth_error l i = Some a -> exists b, nth_error m i = Some b /\ R a b.
Proof. induction 1 as [|x y l m H F IH]; intros [|i] a E; cbn in *; try discriminate; [injection E as <-; eauto|]. apply IH, E. Qed.
Lemma Forall2_combine {A B} (R : A -> B -> Prop) l m : Forall2 R l m -> forall a b, In (a, b) (combine l m) -> R a b.
Proof. induction 1 as [|x y l m H F IH]; intros a b Hin; [destruct Hin|]. destruct Hin as [E|Hin]; [injection E as <- <-; exact H|apply IH, Hin]. Qed.
Lemma in_combine_Forall2 {A B} (R : A -> B -> Prop) l m : Forall2 R l m -> forall a, In a l -> exists b, In (a, b) (combine l m).
Proof. induction 1 as [|x y l m H F IH]; intros a Hin; [destruct Hin|]. destruct Hin as [->|Hin]; [exists y; left; reflexivity|]. destruct (IH _ Hin) as [b Hb]. exists b. right. exact Hb. Qed.
Lemma sorted_combine {A B} (R : A -> A -> Prop) (f : A * B -> bool) l : StronglySorted R l -> forall m, StronglySorted R (map fst (filter f (combine l m))).
Proof.
  induction 1 as [|x l Hs IH Hx]; intros [|y m]; cbn; try constructor. destruct (f (x, y)); cbn [map fst]; [|apply IH]. constructor; [apply IH|].
  apply Forall_forall. intros z Hz. apply in_map_iff in Hz as ([z' k] & <- & Hz). apply filter_In in Hz as [Hz _]. apply in_combine_l in Hz. eapply Forall_forall in Hx; eassumption.
Qed.

Theorem occurrences_are_class t a : variable t a ->
  exists l, find_variable_occurrences t a = VDone l /\ StronglySorted doc_before l /\ forall b, In b l <-> same_variable t a b.
Proof.
  intros Ha. unfold find_variable_occurrences. set (name := name_at t a). set (occ := occurrences_of t name).
  destruct (register_occurrences t ([[]], [([], 0)]) occ) as [[regions ids] occr] eqn:O.
  assert (numbered ([[]], [([], 0)])) as N0.
  { intros p i. cbn [fst snd lookup]. destruct (path_eqb [] p) eqn:E.
    - apply path_eqb_eq in E. subst p. split; [intros H; injection H as <-; reflexivity|]. destruct i as [|[|i]]; [reflexivity|discriminate|discriminate].
    - split; [discriminate|]. destruct i as [|[|i]]; [|discriminate|discriminate]. intros H. injection H as <-. discriminate. }
  destruct (occurrences_ok t occ _ _ _ N0 eq_refl O) as (N & X & F2 & C & B). cbn [fst snd] in *.
  pose proof (extends_nth _ _ 0 [] X eq_refl) as Z.
  (* every region but the root is a sub-select *)
  assert (forall r, In r regions -> r = [] \/ sub_select t r) as Hreg.
  { intros r H. destruct (B _ H) as [[<-|[]]|[Hs _]]; auto. }
  assert (forall p q r, In p regions -> p = q ++ r -> sub_select t q -> In q regions) as Hclosed.
  { intros p q r H -> Hq. destruct (B _ H) as [[E|[]]|(_ & p' & r' & Hp & ->)].
    - symmetry in E. apply app_eq_nil in E as [-> ->]. eapply nth_error_In, Z.
    - eapply C; [exact Hp| |exact Hq]. rewrite <- app_assoc. reflexivity. }
  assert (forall q i, In (q ++ [i]) regions -> nth_error regions (parent_region_id t ids (q ++ [i])) = Some (scope t q)) as Hpid.
  { intros q i H. unfold parent_region_id. rewrite parent_snoc. unfold scope. destruct (find (boundary t) (ancestors q)) as [s|] eqn:E; [|exact Z].
    apply find_some in E as [H1 H2]. apply in_ancestors in H1 as [r ->]. apply boundary_spec in H2.
    assert (In s regions) as Hs. { eapply Hclosed; [exact H| |exact H2]. rewrite <- app_assoc. reflexivity. }
    apply In_nth_error in Hs as [k Hk]. pose proof Hk as Hk'. apply N in Hk'. cbn [snd] in Hk'. rewrite Hk'. exact Hk. }
  assert (forall r, In r regions -> parent_region_id t ids r < length regions) as Hpl.
  { intros r H. destruct r as [|i q _] using rev_ind.
    - cbn. destruct regions; [discriminate|cbn; lia].
    - apply nth_error_Some. rewrite (Hpid _ _ H). discriminate. }
  destruct (new_forest (length regions)) as [F0 S0].
  assert (length (uf_new (length regions)) = length regions) as Ln by (unfold uf_new; apply seq_length).
  destruct (connect_ok t name ids regions 0 (uf_new (length regions)) F0 ltac:(lia) ltac:(rewrite Ln; exact Hpl)) as (par & Ec & Lp & Fp & G & K).
  rewrite Ec. cbn [vbind].
  assert (In a occ) as Hina by (apply in_occurrences; split; [exact Ha|reflexivity]).
  destruct (position_in _ _ Hina) as (ia & -> & Hia). destruct (Forall2_nth _ _ _ F2 _ _ Hia) as (ra & Era & Hra).
  unfold index. rewrite Era. cbn [vbind].
  assert (ra < length par) as Lra. { rewrite Lp, Ln. apply nth_error_Some. congruence. }
  destruct (Fp ra Lra) as (na & ca & Hca). destruct (find_full _ _ _ _ Hca) as (par1 & E1 & S1). rewrite E1. cbn [vbind].
  assert (forest par1) as F1 by (eapply shortens_forest; eassumption).
  assert (forall p r, In (p, r) (combine occ occr) -> nth_error regions r = Some (scope t p)) as Hcomb by (apply Forall2_combine, F2).
  destruct (component_ok ca (combine occ occr) par1 F1) as (ps & -> & f & -> & Hf).
  { intros p r H. rewrite (proj1 S1), Lp, Ln. apply nth_error_Some. rewrite (Hcomb _ _ H). discriminate. }
  eexists. split; [reflexivity|]. split; [apply sorted_combine, StronglySorted_filter, vars_below_sorted|].
  (* classes of ids and classes of scopes *)
  assert (forall i j, same par i j -> forall p q, nth_error regions i = Some p -> nth_error regions j = Some q -> clos_refl_sym_trans _ (shares t name) p q) as Hto.
  { intros i j H p q Hp Hq. apply G in H.
    assert (i = j \/ exists p q, nth_error regions i = Some p /\ nth_error regions j = Some q /\ clos_refl_sym_trans _ (shares t name) p q) as H'.
    { clear p q Hp Hq. induction H as [x y H|x|x y _ IH|x y z _ IH1 _ IH2].
      - destruct H as [H|(k & r & -> & Ek & Pk & ->)]; [left; apply S0 in H; tauto|]. pose proof (nth_error_In _ _ Ek) as Hin.
        destruct r as [|i0 q _] using rev_ind.
        + left. cbn. pose proof Ek as Ek'. apply N in Ek'. apply N in Z. cbn [snd] in *. congruence.
        + right. exists (q ++ [i0]), (scope t q). split; [exact Ek|]. split; [apply Hpid, Hin|].
          assert (sub_select t (q ++ [i0])) as Hs. { destruct (Hreg _ Hin) as [E|Hs]; [destruct q; discriminate|exact Hs]. }
          apply rst_step. apply shares_iff. exists q, i0. split; [reflexivity|]. split; [exact Hs|]. split; [apply projects_spec; assumption|reflexivity].
      - left. reflexivity.
      - destruct IH as [->|(p & q & Hp & Hq & H)]; [left; reflexivity|right]. exists q, p. split; [exact Hq|]. split; [exact Hp|]. apply rst_sym, H.
      - destruct IH1 as [->|(p & q & Hp & Hq & H)]; [exact IH2|]. destruct IH2 as [->|(p' & q' & Hp' & Hq' & H')]; right; [eauto 6|].
        assert (p' = q) by congruence. subst p'. exists p, q'. split; [exact Hp|]. split; [exact Hq'|]. eapply rst_trans; eassumption. }
    destruct H' as [->|(p' & q' & Hp' & Hq' & H')]; [assert (p = q) by congruence; subst; apply rst_refl|].
    assert (p' = p) by congruence. assert (q' = q) by congruence. subst. exact H'. }
  assert (forall p q, clos_refl_sym_trans _ (shares t name) p q -> p = q \/ exists i j, nth_error regions i = Some p /\ nth_error regions j = Some q /\ same par i j) as Hfrom.
  { intros p q H. induction H as [x y H|x|x y _ IH|x y z _ IH1 _ IH2].
    - apply shares_iff in H as (q & i & -> & Hs & He & ->). right.
      assert (In (q ++ [i]) regions) as Hin.
      { destruct He as (x & v & Ex & Hv & Hn). eapply (C ((q ++ [i]) ++ v)); [|reflexivity|exact Hs]. apply in_occurrences. split; [|exact Hn].
        apply visible_variable in Hv as [ds Hv]. exists ds. rewrite at_path_app, Ex. exact Hv. }
      apply In_nth_error in Hin as [k Hk]. pose proof (nth_error_In _ _ Hk) as Hin. exists k, (parent_region_id t ids (q ++ [i])).
      split; [exact Hk|]. split; [apply Hpid, Hin|]. apply K. right. exists k, (q ++ [i]). split; [lia|]. split; [exact Hk|]. split; [apply projects_spec; assumption|reflexivity].
    - left. reflexivity.
    - destruct IH as [->|(i & j & Hi & Hj & H)]; [left; reflexivity|right]. exists j, i. split; [exact Hj|]. split; [exact Hi|]. apply same_sym, H.
    - destruct IH1 as [->|(i & j & Hi & Hj & H)]; [exact IH2|]. destruct IH2 as [->|(i' & j' & Hi' & Hj' & H')]; right; [eauto 6|].
      assert (i' = j) by (apply N in Hi', Hj; congruence). subst i'. exists i, j'. split; [exact Hi|]. split; [exact Hj'|]. eapply same_trans; eassumption. }
  intros b. rewrite in_map_iff. split.
  - intros ([b' r] & <- & H). cbn [fst]. apply filter_In in H as [Hin Hfb]. pose proof (in_combine_l _ _ _ _ Hin) as Hocc. apply in_occurrences in Hocc as [Hv Hn].
    pose proof (Hcomb _ _ Hin) as Hr. destruct (F1 r) as (n & s & Hs). { rewrite (proj1 S1), Lp, Ln. apply nth_error_Some. congruence. }
    apply (Hf _ _ _ _ Hin Hs) in Hfb. subst s. destruct (shortens_root _ _ _ _ _ S1 Fp Hs) as [n' Hs'].
    split; [exact Ha|]. split; [exact Hv|]. split; [symmetry; exact Hn|]. exists (scope t a), (scope t b').
    split; [apply in_scope_scope|]. split; [apply in_scope_scope|]. fold name. eapply Hto; [|exact Hra|exact Hr]. exists ca, na, n'. split; assumption.
  - intros (_ & Hv & Hn & sa & sb & Hsa & Hsb & Hclos). fold name in Hn, Hclos. apply in_scope_iff in Hsa, Hsb. subst sa sb.
    assert (In b occ) as Hinb by (apply in_occurrences; split; [exact Hv|symmetry; exact Hn]).
    destruct (in_combine_Forall2 _ _ _ F2 _ Hinb) as [r Hin]. pose proof (Hcomb _ _ Hin) as Hr.
    exists (b, r). split; [reflexivity|]. apply filter_In. split; [exact Hin|].
    assert (same par ra r) as Hsame.
    { destruct (Hfrom _ _ Hclos) as [E|(i & j & Hi & Hj & H)].
      - rewrite E in Hra. assert (ra = r) by (apply N in Hra, Hr; cbn [snd] in *; congruence). subst r. exists ca, na, na. split; assumption.
      - assert (i = ra) by (apply N in Hi, Hra; cbn [snd] in *; congruence). assert (j = r) by (apply N in Hj, Hr; cbn [snd] in *; congruence). subst. exact H. }
    destruct Hsame as (c & n1 & n2 & H1 & H2). destruct (climbs_det _ _ _ _ H1 _ _ Hca) as [-> ->].
    destruct (proj2 S1 _ _ _ H2) as (n3 & _ & H3). apply (Hf _ _ _ _ Hin H3). reflexivity.
Qed.
