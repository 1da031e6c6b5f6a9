(** Replacing the names of variables does not change how the rest of a text is read. *)
From Coq Require Import String List Arith NArith Bool Lia.
Import ListNotations.
From Verif Require Import Kinds KindFacts TextModel LexerRegex LexerData LexerModel LexerSpec LexerProofs LexerProps VarModel.

Definition sigil (c : char) : bool := N.eqb c QUESTION || N.eqb c DOLLAR.
Definition names (a : text) : Prop := forallb var_char a = true.
(** [u] and [u'] are the same but for names behind '?' or '$', and that sigil itself *)
Inductive resp : text -> text -> Prop :=
| resp_nil : resp [] []
| resp_chr c u u' : resp u u' -> resp (c :: u) (c :: u')
| resp_var s s' a b u u' : sigil s = true -> sigil s' = true -> names a -> names b -> (a = [] <-> b = []) -> resp u u' -> resp (s :: a ++ u) (s' :: b ++ u').
Lemma resp_sym u u' : resp u u' -> resp u' u.
Proof. induction 1; [constructor|constructor; assumption|]. constructor; try assumption. tauto. Qed.
Lemma resp_refl u : resp u u.
Proof. induction u; constructor; assumption. Qed.
Lemma resp_app u u' v v' : resp u u' -> resp v v' -> resp (u ++ v) (u' ++ v').
Proof. induction 1; intros Hv; cbn [app]; [exact Hv|constructor; auto|]. rewrite <- !app_assoc. constructor; auto. Qed.

(** ** definitions without a sigil behind the first character *)
Fixpoint no_sigil (r : re) : bool :=
  match r with
  | Eps => true
  | Cls rs => negb (in_class QUESTION rs) && negb (in_class DOLLAR rs)
  | Cat a b | Alt a b => no_sigil a && no_sigil b
  | Star a => no_sigil a
  end.
Definition late_free (r : re) : bool := no_sigil r || match r with Cls _ => true | Cat (Cls _) b => no_sigil b | _ => false end.
Definition bare (w : text) : Prop := forallb (fun c => negb (sigil c)) w = true.
Lemma bare_app u v : bare (u ++ v) <-> bare u /\ bare v.
Proof. unfold bare. rewrite forallb_app, andb_true_iff. reflexivity. Qed.
Lemma no_sigil_bare r w : matches r w -> no_sigil r = true -> bare w.
Proof.
  induction 1 as [|c rs H|a b u v Ha IHa Hb IHb|a b u Ha IHa|a b u Hb IHb|a|a u v Ha IHa Hb IHb]; cbn [no_sigil]; intros N; try reflexivity.
  - unfold bare, sigil. cbn [forallb]. rewrite andb_true_r. apply andb_prop in N as [N1 N2]. apply negb_true_iff in N1, N2. apply negb_true_iff.
    destruct (N.eqb_spec c QUESTION) as [->|_]; [congruence|]. destruct (N.eqb_spec c DOLLAR) as [->|_]; [congruence|]. reflexivity.
  - apply andb_prop in N as [N1 N2]. apply bare_app. auto.
  - apply andb_prop in N as [N1 N2]. auto.
  - apply andb_prop in N as [N1 N2]. auto.
  - apply bare_app. split; [apply IHa, N|apply IHb]. exact N.
Qed.
Lemma late_free_bare r c w : late_free r = true -> matches r (c :: w) -> bare w.
Proof.
  unfold late_free. intros H M. apply orb_prop in H as [H|H].
  - apply no_sigil_bare in M; [|exact H]. change (c :: w) with ([c] ++ w) in M. apply bare_app in M. apply M.
  - destruct r as [|rs|[|rs| | |] b| |]; try discriminate.
    + inversion M; subst. reflexivity.
    + apply matches_cat_inv in M as (u & v & E & Hu & Hv). inversion Hu; subst. injection E as -> ->. eapply no_sigil_bare; eassumption.
Qed.
Lemma resp_bare u u' : resp u u' -> bare u' -> u = u'.
Proof.
  induction 1 as [|c u u' H IH|s s' a b u u' Hs Hs' Ha Hb Hab H IH]; intros B; [reflexivity| |].
  - change (c :: u') with ([c] ++ u') in B. apply bare_app in B as [_ B]. f_equal. auto.
  - exfalso. unfold bare in B. cbn [forallb] in B. rewrite Hs' in B. discriminate.
Qed.

(** ** definitions with sigils in the middle: sets of derivatives *)
Definition start_ranges : list (N * N) :=
  [(0x41, 0x5A); (0x61, 0x7A); (0xC0, 0xD6); (0xD8, 0xF6); (0xF8, 0x2FF); (0x370, 0x37D); (0x37F, 0x1FFF); (0x200C, 0x200D); (0x2070, 0x218F); (0x2C00, 0x2FEF); (0x3001, 0xD7FF);
   (0xF900, 0xFDCF); (0xFDF0, 0xFFFD); (0x10000, 0xEFFFF); (95, 95); (48, 57)]%N.
Definition name_ranges : list (N * N) := start_ranges ++ [(0xB7, 0xB7); (0x300, 0x36F); (0x203F, 0x2040)]%N.
Lemma eqb_between (c n : N) : (N.eqb c n = (n <=? c)%N && (c <=? n)%N).
Proof. destruct (N.eqb_spec c n) as [->|H]; [rewrite N.leb_refl; reflexivity|]. symmetry. apply andb_false_iff. destruct (N.leb_spec n c); [right|left; reflexivity]. apply N.leb_gt. lia. Qed.
Lemma var_start_ranges c : var_start c = in_class c start_ranges.
Proof.
  unfold var_start. rewrite !eqb_between. unfold in_class, start_ranges. cbn [existsb fst snd]. rewrite orb_false_r.
  repeat match goal with |- context [(?a <=? c)%N && (c <=? ?b)%N] => generalize ((a <=? c)%N && (c <=? b)%N); intro end.
  repeat match goal with b : bool |- _ => destruct b; [rewrite ?orb_true_r, ?orb_true_l; reflexivity|rewrite ?orb_false_r, ?orb_false_l] end. reflexivity.
Qed.
Lemma var_char_ranges c : var_char c = in_class c name_ranges.
Proof.
  unfold var_char. rewrite var_start_ranges, eqb_between. unfold in_class, name_ranges. rewrite existsb_app. cbn [existsb fst snd]. rewrite orb_false_r, !orb_assoc. reflexivity.
Qed.
Definition set_reps (l : list re) : list N := n_dedup (bounds (flat_map classes l)).
Definition set_succ (l : list re) : list (list re) := map (fun c => pd_set c l) (set_reps l).
Lemma bounds_ok cs rs x : In rs cs -> In x rs -> In (fst x) (bounds cs) /\ In (N.succ (snd x)) (bounds cs).
Proof. intros Hr Hx. split; right; apply in_flat_map; exists rs; (split; [exact Hr|]); apply in_flat_map; exists x; (split; [exact Hx|]); cbn; auto. Qed.
Lemma set_succ_complete l c : In (pd_set c l) (set_succ l).
Proof.
  unfold set_succ, set_reps. apply in_map_iff. exists (floor_in (bounds (flat_map classes l)) c). split.
  - symmetry. apply pd_set_floor. intros rs x. apply bounds_ok.
  - apply n_dedup_In, floor_in_In. left. reflexivity.
Qed.
Definition set_in (l : list re) (s : list (list re)) : bool := existsb (res_eqb l) s.
Lemma set_in_In l s : set_in l s = true <-> In l s.
Proof.
  unfold set_in. rewrite existsb_exists. split.
  - intros (y & Hy & E). apply res_eqb_eq in E. subst. exact Hy.
  - intros H. exists l. split; [exact H|now apply res_eqb_eq].
Qed.
Definition reps_in (ranges : list (N * N)) (l : list re) : list N := filter (fun c => in_class c ranges) (n_dedup (bounds (ranges :: flat_map classes l))).
Lemma reps_in_complete ranges l c : in_class c ranges = true -> exists d, In d (reps_in ranges l) /\ pd_set c l = pd_set d l.
Proof.
  intros Hc. exists (floor_in (bounds (ranges :: flat_map classes l)) c). split.
  - apply filter_In. split; [apply n_dedup_In, floor_in_In; left; reflexivity|].
    rewrite <- in_class_floor; [exact Hc|]. intros x Hx. apply (bounds_ok _ ranges); [left; reflexivity|exact Hx].
  - apply pd_set_floor. intros rs x Hr Hx. apply (bounds_ok _ rs); [right; exact Hr|exact Hx].
Qed.
Definition to_one (l s : list re) : bool := forallb (fun c => res_eqb (pd_set c l) s) (reps_in name_ranges l).
Lemma to_one_all l s : to_one l s = true -> forall x, In x (reps_in name_ranges l) -> res_eqb (pd_set x l) s = true.
Proof. unfold to_one. generalize (reps_in name_ranges l). intros reps H. apply forallb_forall. exact H. Qed.
Lemma var_char_in c : var_char c = true -> in_class c name_ranges = true.
Proof. rewrite <- var_char_ranges. auto. Qed.
Lemma name_reps_complete l c : in_class c name_ranges = true -> exists d, In d (reps_in name_ranges l) /\ pd_set c l = pd_set d l.
Proof. exact (reps_in_complete _ l _). Qed.
Lemma to_one_sound l s c : to_one l s = true -> var_char c = true -> pd_set c l = s.
Proof.
  intros H Hc. apply var_char_in, (name_reps_complete l) in Hc. destruct Hc as (d & Hd & E). rewrite E. apply res_eqb_eq. exact (to_one_all _ _ H _ Hd).
Qed.
(** both sigils lead to the same place, and from there on all names to one other *)
Definition sigil_ok (l : list re) : bool :=
  let q := pd_set QUESTION l in let s := pd_set 97%N q in
  res_eqb q (pd_set DOLLAR l) && to_one q s && to_one s s.
Fixpoint set_explore (fuel : nat) (todo seen : list (list re)) : option (list (list re)) :=
  match fuel with
  | 0 => None
  | S fuel => match todo with
              | [] => Some seen
              | l :: todo => if set_in l seen then set_explore fuel todo seen else set_explore fuel (set_succ l ++ todo) (l :: seen)
              end
  end.
Definition states (r : re) : list (list re) := match set_explore 3000 (set_succ [r]) [] with Some l => l | None => [] end.
Definition names_free (r : re) : bool :=
  let l := states r in forallb (fun s => set_in s l) (set_succ [r]) && forallb (fun s => sigil_ok s && forallb (fun s' => set_in s' l) (set_succ s)) l.
Lemma run_names l s a v : to_one l s = true -> to_one s s = true -> names a -> a <> [] -> (matches_any l (a ++ v) <-> matches_any s v).
Proof.
  intros H1 H2 Ha Hn. destruct a as [|c a]; [congruence|]. unfold names in Ha. cbn [forallb] in Ha. apply andb_prop in Ha as [Hc Ha]. cbn [app].
  rewrite pd_set_correct, (to_one_sound _ _ _ H1 Hc). clear Hn H1 Hc c. induction a as [|c a IH]; [reflexivity|]. cbn [forallb] in Ha. apply andb_prop in Ha as [Hc Ha].
  cbn [app]. rewrite pd_set_correct, (to_one_sound _ _ _ H2 Hc). apply IH, Ha.
Qed.
Lemma names_free_sound r : names_free r = true -> forall c u u', resp u u' -> matches r (c :: u') -> matches r (c :: u).
Proof.
  intros H c u u' Hr M. unfold names_free in H. set (l := states r) in *. apply andb_prop in H as [H0 H]. rewrite forallb_forall in H0, H.
  assert (C : forall s d, In s l -> In (pd_set d s) l).
  { intros s d Hs. specialize (H _ Hs). apply andb_prop in H as [_ H]. rewrite forallb_forall in H. apply set_in_In, H, set_succ_complete. }
  assert (G : forall s, In s l -> matches_any s u' -> matches_any s u).
  { clear M. induction Hr as [|d u u' Hr IH|s1 s2 a b u u' Hs1 Hs2 Ha Hb Hab Hr IH]; intros s Hs.
    - auto.
    - intros M. apply pd_set_correct in M. apply pd_set_correct. apply IH; [apply C, Hs|exact M].
    - pose proof (H _ Hs) as K. apply andb_prop in K as [K _]. unfold sigil_ok in K. apply andb_prop in K as [K K3]. apply andb_prop in K as [K1 K2]. apply res_eqb_eq in K1.
      assert (forall d, sigil d = true -> pd_set d s = pd_set QUESTION s) as Q.
      { intros d Hd. unfold sigil in Hd. apply orb_prop in Hd as [Hd|Hd]; apply N.eqb_eq in Hd; subst d; [reflexivity|symmetry; exact K1]. }
      intros M. apply pd_set_correct in M. apply pd_set_correct. rewrite Q in * by assumption. destruct a as [|x a].
      + rewrite (proj1 Hab eq_refl) in M. cbn [app] in *. apply IH; [apply C, Hs|exact M].
      + assert (b <> []) as Hb' by (intros E; apply Hab in E; discriminate). apply (run_names _ _ _ _ K2 K3 Hb Hb') in M.
        apply (run_names _ _ _ _ K2 K3 Ha ltac:(discriminate)). apply IH; [apply C, C, Hs|exact M]. }
  assert (matches_any [r] (c :: u')) as M1 by (exists r; split; [left; reflexivity|exact M]).
  apply pd_set_correct in M1. apply G in M1; [|apply set_in_In, H0, set_succ_complete]. apply pd_set_correct in M1 as (x & [<-|[]] & Hx). exact Hx.
Qed.
Definition indifferent (x : kind * re * bool) : bool := late_free (snd (fst x)) || (negb (snd x) && names_free (snd (fst x))).
Lemma rules_indifferent : forallb indifferent lexer_rules = true.
Proof. vm_cast_no_check (eq_refl true). Qed.
Lemma rule_resp k r wb c u u' : In (k, r, wb) lexer_rules -> resp u u' -> matches r (c :: u') -> matches r (c :: u) /\ (wb = true -> bare u').
Proof.
  intros Hin Hr M. pose proof rules_indifferent as P. rewrite forallb_forall in P. specialize (P _ Hin). unfold indifferent in P. cbn [fst snd] in P. apply orb_prop in P as [P|P].
  - pose proof (late_free_bare _ _ _ P M) as B. rewrite (resp_bare _ _ Hr B). split; [exact M|]. intros _. exact B.
  - apply andb_prop in P as [P1 P2]. split; [eapply names_free_sound; eassumption|]. intros ->. discriminate.
Qed.

(** ** the longest match *)
Lemma app_cut {A} (a b c d : list A) : a ++ b = c ++ d -> (exists e, c = a ++ e /\ b = e ++ d) \/ (exists e, a = c ++ e /\ d = e ++ b).
Proof.
  revert c; induction a as [|x a IH]; intros c E; [left; exists c; split; [reflexivity|exact E]|]. destruct c as [|y c]; [right; exists (x :: a); split; [reflexivity|symmetry; exact E]|].
  injection E as -> E. destruct (IH _ E) as [(e & -> & ->)|(e & -> & ->)]; [left|right]; exists e; split; reflexivity.
Qed.
Lemma names_app a b : names (a ++ b) <-> names a /\ names b.
Proof. unfold names. rewrite forallb_app, andb_true_iff. reflexivity. Qed.
Lemma resp_cut t t' : resp t t' -> forall u' v', t' = u' ++ v' -> exists u v, t = u ++ v /\ resp u u' /\ (u' <> [] -> u <> []) /\ (bare u' -> resp v v').
Proof.
  induction 1 as [|c t t' H IH|s s' a b t t' Hs Hs' Ha Hb Hab H IH]; intros u' v' E.
  - symmetry in E. apply app_eq_nil in E as [-> ->]. exists [], []. split; [reflexivity|]. split; [constructor|]. split; [congruence|]. constructor.
  - destruct u' as [|d u']; [cbn in E; subst v'; exists [], (c :: t); split; [reflexivity|]; split; [constructor|]; split; [congruence|]; intros _; constructor; exact H|].
    injection E as <- E. destruct (IH _ _ E) as (u & v & -> & R & N & B). exists (c :: u), v. split; [reflexivity|]. split; [constructor; exact R|]. split; [discriminate|].
    intros B'. change (c :: u') with ([c] ++ u') in B'. apply bare_app in B' as [_ B']. auto.
  - destruct u' as [|d u']; [cbn in E; subst v'; exists [], (s :: a ++ t); split; [reflexivity|]; split; [constructor|]; split; [congruence|]; intros _; constructor; assumption|].
    injection E as <- E. assert (~ bare (s' :: u')) as NB by (unfold bare; cbn [forallb]; rewrite Hs'; discriminate). destruct (app_cut _ _ _ _ E) as [(e & -> & E')|(e & -> & ->)].
    + destruct (IH _ _ E') as (u & v & -> & R & _ & _). exists (s :: a ++ u), v. split; [cbn; rewrite <- app_assoc; reflexivity|].
      split; [constructor; assumption|]. split; [discriminate|]. intros B. contradiction.
    + apply names_app in Hb as [Hb _]. destruct u' as [|x u'].
      * exists [s], (a ++ t). split; [reflexivity|]. split; [apply (resp_var s s' [] [] [] []); [exact Hs|exact Hs'|reflexivity|reflexivity|tauto|constructor]|]. split; [discriminate|]. intros B. contradiction.
      * assert (a <> []) as Hne by (intros ->; destruct Hab as [Hab _]; discriminate (Hab eq_refl)).
        exists (s :: a), t. split; [reflexivity|]. split; [|split; [discriminate|]; intros B; contradiction].
        rewrite <- (app_nil_r a), <- (app_nil_r (x :: u')). constructor; try assumption; [|constructor]. split; [congruence|discriminate].
Qed.
Lemma sigil_not_word c : sigil c = true -> word_char c = false.
Proof. unfold sigil. intros H. apply orb_prop in H as [H|H]; apply N.eqb_eq in H; subst; reflexivity. Qed.
Lemma sigil_not_name c : sigil c = true -> var_char c = false.
Proof. unfold sigil. intros H. apply orb_prop in H as [H|H]; apply N.eqb_eq in H; subst; reflexivity. Qed.
Lemma resp_boundary v v' : resp v v' -> at_boundary v = at_boundary v'.
Proof. intros H. destruct H as [|c u u' H|s s' a b u u' Hs Hs' _ _ _ _]; [reflexivity|reflexivity|]. cbn [at_boundary]. rewrite (sigil_not_word _ Hs), (sigil_not_word _ Hs'). reflexivity. Qed.
Lemma firstn_exact {A} (a b : list A) : firstn (length a) (a ++ b) = a.
Proof. rewrite firstn_app, Nat.sub_diag, firstn_all. cbn [firstn]. apply app_nil_r. Qed.
Lemma skipn_exact {A} (a b : list A) : skipn (length a) (a ++ b) = b.
Proof. rewrite skipn_app, Nat.sub_diag, skipn_all. reflexivity. Qed.
Lemma some_match_intro k r wb w v : In (k, r, wb) lexer_rules -> matches r w -> (wb = true -> at_boundary v = true) -> some_match k (w ++ v) (length w).
Proof.
  intros Hin M B. exists r, wb. split; [exact Hin|]. split; [rewrite app_length; lia|]. rewrite firstn_exact, skipn_exact. split; [exact M|exact B].
Qed.
Lemma some_match_elim k t n : some_match k t n -> exists r wb w v, In (k, r, wb) lexer_rules /\ t = w ++ v /\ length w = n /\ matches r w /\ (wb = true -> at_boundary v = true).
Proof.
  intros (r & wb & Hin & L & M & B). exists r, wb, (firstn n t), (skipn n t). split; [exact Hin|]. split; [symmetry; apply firstn_skipn|]. split; [rewrite firstn_length; lia|]. split; [exact M|exact B].
Qed.
Lemma no_longer c w rest rest' : resp rest rest' -> (forall k m, some_match k ((c :: w) ++ rest) m -> m <= length (c :: w)) ->
  forall k m, some_match k ((c :: w) ++ rest') m -> m <= length (c :: w).
Proof.
  intros R H k m Hm. destruct (le_lt_dec m (length (c :: w))) as [L|L]; [exact L|exfalso]. destruct (some_match_elim _ _ _ Hm) as (r & wb & z & v' & Hin & E & Lz & M & B).
  destruct (app_cut _ _ _ _ E) as [(u' & -> & E')|(e & E' & ->)].
  - destruct (resp_cut _ _ R _ _ E') as (u & v & -> & Ru & Nu & Bu). cbn [app] in M.
    destruct (rule_resp k r wb c (w ++ u) (w ++ u') Hin (resp_app _ _ _ _ (resp_refl w) Ru) M) as [M' Hwb].
    assert (some_match k (((c :: w) ++ u) ++ v) (length ((c :: w) ++ u))) as K.
    { apply some_match_intro with (r := r) (wb := wb); [exact Hin|exact M'|]. intros Ewb. specialize (Hwb Ewb). apply bare_app in Hwb as [_ Hwb].
      rewrite (resp_boundary _ _ (Bu Hwb)). apply B, Ewb. }
    rewrite <- app_assoc in K. apply H in K. rewrite !app_length in *. destruct u' as [|x u']; [cbn [length] in *; lia|].
    assert (u <> []) as Hu by (apply Nu; discriminate). destruct u; [congruence|]. cbn [length] in *. lia.
  - rewrite E', app_length in L. lia.
Qed.
Lemma same_match k w rest rest' : resp rest rest' -> some_match k (w ++ rest) (length w) -> some_match k (w ++ rest') (length w).
Proof.
  intros R H. destruct (some_match_elim _ _ _ H) as (r & wb & z & v & Hin & E & L & M & B).
  assert (z = w /\ v = rest) as [-> ->]. { apply (f_equal (firstn (length w))) in E as E1. rewrite firstn_exact, <- L, firstn_exact in E1. subst z. apply app_inv_head in E. auto. }
  apply some_match_intro with (r := r) (wb := wb); [exact Hin|exact M|]. intros Ewb. rewrite <- (resp_boundary _ _ R). apply B, Ewb.
Qed.

(** ** variables *)
Definition var_kind (k : kind) : Prop := k = K_VAR1 \/ k = K_VAR2.
Definition sigil_of (k : kind) : char := match k with K_VAR1 => QUESTION | _ => DOLLAR end.
(** of the definitions only those of the variables go on behind a sigil *)
Definition short (c : char) (x : kind * re * bool) : bool :=
  forallb (fun r => match r with Eps => true | _ => false end) (pd c (snd (fst x))) || kind_eqb (fst (fst x)) (if N.eqb c QUESTION then K_VAR1 else K_VAR2).
Lemma short_checked : forallb (short QUESTION) lexer_rules && forallb (short DOLLAR) lexer_rules = true.
Proof. vm_compute. reflexivity. Qed.
Lemma sigil_start k k' r wb c w : var_kind k -> In (k', r, wb) lexer_rules -> matches r (sigil_of k :: c :: w) -> k' = k.
Proof.
  intros Hk Hin M. pose proof short_checked as C. apply andb_prop in C as [C1 C2]. rewrite forallb_forall in C1, C2.
  apply pd_correct in M as (r' & Hr' & M).
  assert (forall d, d = sigil_of k -> short d (k', r, wb) = true -> k' = if N.eqb d QUESTION then K_VAR1 else K_VAR2) as G.
  { intros d -> H. unfold short in H. cbn [fst snd] in H. apply orb_prop in H as [H|H]; [|apply kind_eqb_eq, H].
    rewrite forallb_forall in H. specialize (H _ Hr'). destruct r'; try discriminate. inversion M. }
  destruct Hk as [-> | ->]; [apply (G QUESTION eq_refl), C1, Hin|apply (G DOLLAR eq_refl), C2, Hin].
Qed.
Definition var_re (k : kind) : re := Cat (Chr (sigil_of k)) varname.
Lemma var_rule k r wb w : var_kind k -> In (k, r, wb) lexer_rules -> matches r w -> matches (var_re k) w.
Proof.
  intros Hk Hin M. pose proof within_checked as C. rewrite forallb_forall in C.
  assert (accepts_within k = true) as A by (apply C; destruct Hk as [-> | ->]; cbn; tauto). unfold accepts_within in A.
  assert (terminal k = Some (var_re k)) as T by (destruct Hk as [-> | ->]; reflexivity). rewrite T, forallb_forall in A.
  eapply included_sound; [|exact M]. apply A, rules_of_In. eauto.
Qed.
Lemma var_rule_wb : forallb (fun x => negb (snd x) || negb (kind_eqb (fst (fst x)) K_VAR1 || kind_eqb (fst (fst x)) K_VAR2)) lexer_rules = true.
Proof. vm_compute. reflexivity. Qed.
Lemma var_matched k w : var_kind k -> matches (var_re k) w -> exists r, In (k, r, false) lexer_rules /\ matches r w.
Proof.
  intros Hk M. pose proof covers_checked as C. rewrite forallb_forall in C.
  assert (covers k = true) as A by (apply C; apply in_or_app; right; destruct Hk as [-> | ->]; cbn; tauto). unfold covers in A.
  assert (terminal k = Some (var_re k)) as T by (destruct Hk as [-> | ->]; reflexivity). rewrite T in A. apply existsb_exists in A as (r & Hr & Hi).
  apply rules_of_In in Hr as (wb & Hr). exists r. split; [|eapply included_sound; eassumption]. pose proof var_rule_wb as W. rewrite forallb_forall in W. specialize (W _ Hr). cbn [fst snd] in W.
  destruct wb; [|exact Hr]. exfalso. destruct Hk as [-> | ->]; discriminate.
Qed.
Fixpoint one (r : re) : option (list (N * N)) :=
  match r with
  | Cls rs => Some rs
  | Alt a b => match one a, one b with Some x, Some y => Some (x ++ y) | _, _ => None end
  | _ => None
  end.
Lemma one_matches r : forall rs w, one r = Some rs -> (matches r w <-> exists c, w = [c] /\ in_class c rs = true).
Proof.
  induction r as [|rs0|a IHa b IHb|a IHa b IHb|a IHa]; intros rs w E; cbn [one] in E; try discriminate.
  - injection E as ->. split; [intros H; inversion H; subst; eauto|]. intros (c & -> & H). constructor. exact H.
  - destruct (one a) as [ra|]; [|discriminate]. destruct (one b) as [rb|]; [|discriminate]. injection E as <-. unfold in_class in *. split.
    + intros H. inversion H as [| | |? ? ? H'|? ? ? H'| |]; subst; [apply (IHa _ w eq_refl) in H' as (c & -> & H')|apply (IHb _ w eq_refl) in H' as (c & -> & H')]; exists c; (split; [reflexivity|]);
        rewrite existsb_app, H'; [reflexivity|apply orb_true_r].
    + intros (c & -> & H). rewrite existsb_app in H. apply orb_prop in H as [H|H]; [apply m_alt_l, (IHa _ _ eq_refl)|apply m_alt_r, (IHb _ _ eq_refl)]; exists c; split; (reflexivity || exact H).
Qed.
Lemma forallb_same {A} (f g : A -> bool) l : (forall x, f x = g x) -> forallb f l = forallb g l.
Proof. intros H. induction l as [|x l IH]; [reflexivity|]. cbn. rewrite H, IH. reflexivity. Qed.
Lemma star_one r rs w : one r = Some rs -> (matches (Star r) w <-> forallb (fun c => in_class c rs) w = true).
Proof.
  intros E. split.
  - intros H. remember (Star r) as s eqn:Es. induction H; try discriminate; [reflexivity|]. injection Es as ->. apply (one_matches _ _ _ E) in H as (c & -> & H). cbn. rewrite H. apply IHmatches2. reflexivity.
  - induction w as [|c w IH]; intros H; [constructor|]. cbn in H. apply andb_prop in H as [H1 H2]. apply (m_star r [c] w); [|apply IH, H2]. apply (one_matches _ _ _ E). eauto.
Qed.
Definition start_class : list (N * N) := match one (Alt pn_chars_u digit) with Some rs => rs | None => [] end.
Definition name_class : list (N * N) := match one (alts [pn_chars_u; digit; rng 0xB7 0xB7; rng 0x300 0x36F; rng 0x203F 0x2040]) with Some rs => rs | None => [] end.
Lemma var_start_class c : var_start c = in_class c start_class.
Proof.
  unfold var_start. rewrite !eqb_between. unfold in_class. change start_class with
    [(0x41, 0x5A); (0x61, 0x7A); (0xC0, 0xD6); (0xD8, 0xF6); (0xF8, 0x2FF); (0x370, 0x37D); (0x37F, 0x1FFF); (0x200C, 0x200D); (0x2070, 0x218F); (0x2C00, 0x2FEF); (0x3001, 0xD7FF);
     (0xF900, 0xFDCF); (0xFDF0, 0xFFFD); (0x10000, 0xEFFFF); (95, 95); (48, 57)]%N. cbn [existsb fst snd]. rewrite orb_false_r.
  apply eq_true_iff_eq. rewrite !orb_true_iff. tauto.
Qed.
Lemma var_char_class c : var_char c = in_class c name_class.
Proof.
  unfold var_char. rewrite var_start_class, !eqb_between. unfold in_class. change name_class with (start_class ++ [(0xB7, 0xB7); (0x300, 0x36F); (0x203F, 0x2040)]%N).
  rewrite existsb_app. cbn [existsb fst snd]. rewrite orb_false_r, !orb_assoc. reflexivity.
Qed.
Lemma varname_iff w : matches varname w <-> is_valid_variable_name w = true.
Proof.
  apply iff_sym.
  unfold varname. assert (one (Alt pn_chars_u digit) = Some start_class) as E1 by reflexivity.
  assert (one (alts [pn_chars_u; digit; rng 0xB7 0xB7; rng 0x300 0x36F; rng 0x203F 0x2040]) = Some name_class) as E2 by reflexivity. split.
  - destruct w as [|c r]; [discriminate|]. cbn [is_valid_variable_name]. intros H. apply andb_prop in H as [H1 H2]. apply (m_cat _ _ [c] r).
    + apply (one_matches _ _ _ E1). exists c. split; [reflexivity|]. rewrite <- var_start_class. exact H1.
    + apply (star_one _ _ _ E2). rewrite <- H2. apply forallb_same. intros d. symmetry. apply var_char_class.
  - intros H. inversion H as [| |? ? u v H1 H2| | | |]; subst. apply (one_matches _ _ _ E1) in H1 as (c & -> & H1). cbn [app is_valid_variable_name]. rewrite var_start_class, H1.
    apply (star_one _ _ _ E2) in H2. cbn [andb]. rewrite (forallb_same _ _ v var_char_class). exact H2.
Qed.
Lemma var_re_iff k w : matches (var_re k) w <-> exists a, w = sigil_of k :: a /\ is_valid_variable_name a = true.
Proof.
  unfold var_re, Chr. split.
  - intros M. apply matches_cat_inv in M as (u & v & -> & Hu & Hv). inversion Hu as [|c rs I| | | | |]; subst. cbn [in_class existsb fst snd] in I. rewrite orb_false_r, <- eqb_between in I.
    apply N.eqb_eq in I. subst c. exists v. split; [reflexivity|]. apply varname_iff, Hv.
  - intros (a & -> & H). apply varname_iff in H. apply (m_cat _ _ [sigil_of k] a); [|exact H]. constructor. cbn [in_class existsb fst snd]. rewrite orb_false_r, <- eqb_between. apply N.eqb_refl.
Qed.
Lemma valid_names a : is_valid_variable_name a = true -> names a /\ a <> [].
Proof.
  destruct a as [|c a]; [discriminate|]. cbn [is_valid_variable_name]. intros H. apply andb_prop in H as [H1 H2]. split; [|discriminate]. unfold names. cbn [forallb]. rewrite H2, andb_true_r.
  unfold var_char. rewrite H1. reflexivity.
Qed.
Lemma valid_more a d : is_valid_variable_name a = true -> var_char d = true -> is_valid_variable_name (a ++ [d]) = true.
Proof. destruct a as [|c a]; [discriminate|]. cbn [app is_valid_variable_name]. intros H Hd. apply andb_prop in H as [H1 H2]. rewrite H1, forallb_app, H2. cbn [forallb]. rewrite Hd. reflexivity. Qed.
Lemma sigil_of_sigil k : sigil (sigil_of k) = true.
Proof. unfold sigil_of. destruct k; reflexivity. Qed.

(** a token and what it may become *)
Definition lex_resp (n : text) (x x' : lexeme) : Prop := x = x' \/ (var_kind (fst x) /\ x' = (K_VAR1, QUESTION :: n)).
Theorem lex_renamed err n : is_valid_variable_name n = true -> forall t ls', Forall (fun l => fst l <> K_Error) (lex err t) -> Forall2 (lex_resp n) (lex err t) ls' ->
  resp t (flat_map snd ls') /\ lex err (flat_map snd ls') = ls'.
Proof.
  intros Hn t. pattern t, (lex err t). revert t. apply lex_ind.
  - intros ls' _ F. inversion F; subst. split; [constructor|reflexivity].
  - intros t k m Ht M L Lm IH ls' Hne F. inversion F as [|x x' l l' Hx F']; subst. inversion Hne as [|? ? _ Hne']; subst. destruct (IH _ Hne' F') as [R E]. clear IH F F' Hne Hne'.
    set (w := firstn m t) in *. set (rest := skipn m t) in *. assert (t = w ++ rest) as Et by (symmetry; apply firstn_skipn). assert (length w = m) as Lw by (unfold w; rewrite firstn_length; lia).
    clearbody w rest. subst t m. assert (0 < length w) as Pw by (eapply some_match_pos, M). destruct Hx as [<-|[Hk ->]]; cbn [flat_map snd].
    + split; [apply resp_app; [apply resp_refl|exact R]|]. destruct w as [|c w]; [cbn in Pw; lia|]. rewrite lex_step by discriminate.
      assert (longest_rule lexer_rules ((c :: w) ++ flat_map snd l') = Some (k, length (c :: w))) as ->.
      { apply longest_rule_some. split; [eapply same_match; [exact R|exact M]|]. eapply no_longer; [exact R|exact L]. }
      rewrite firstn_exact, skipn_exact, E. reflexivity.
    + cbn [fst] in Hk. destruct (some_match_elim _ _ _ M) as (r & wb & z & v & Hin & Ez & Lz & Mz & _).
      assert (z = w /\ v = rest) as [-> ->]. { apply (f_equal (firstn (length w))) in Ez as E1. rewrite firstn_exact, <- Lz, firstn_exact in E1. subst z. apply app_inv_head in Ez. auto. }
      apply (var_rule _ _ _ _ Hk Hin) in Mz. apply var_re_iff in Mz as (a & -> & Ha). split.
      { destruct (valid_names _ Ha) as [Na Ea], (valid_names _ Hn) as [Nn En]. cbn [app]. constructor; [apply sigil_of_sigil|reflexivity|exact Na|exact Nn|tauto|exact R]. }
      rewrite lex_step by discriminate.
      assert (longest_rule lexer_rules ((QUESTION :: n) ++ flat_map snd l') = Some (K_VAR1, length (QUESTION :: n))) as ->.
      { apply longest_rule_some. split.
        - destruct (var_matched K_VAR1 (QUESTION :: n)) as (r' & Hin' & M'); [left; reflexivity|apply var_re_iff; exists n; auto|]. eapply some_match_intro; [exact Hin'|exact M'|discriminate].
        - intros k' m Hm. destruct (le_lt_dec m (length (QUESTION :: n))) as [Lm'|Lm']; [exact Lm'|exfalso].
          destruct (some_match_elim _ _ _ Hm) as (r' & wb' & z & v' & Hin' & E' & Lz' & M' & _). destruct (app_cut _ _ _ _ E') as [(u' & -> & Eu)|(e & Ee & _)].
          2: { rewrite Ee, app_length in Lm'. lia. }
          destruct (valid_names _ Hn) as [_ En]. destruct n as [|c n]; [congruence|].
          assert (k' = K_VAR1) as -> by (eapply (sigil_start K_VAR1); [left; reflexivity|exact Hin'|exact M']).
          apply (var_rule K_VAR1 _ _ _ (or_introl eq_refl) Hin') in M'. apply var_re_iff in M' as (b & Eb & Hb). injection Eb as <-.
          destruct u' as [|d u']; [rewrite app_nil_r in Lz'; cbn [length] in *; lia|].
          assert (var_char d = true) as Hd by (apply valid_names in Hb as [Hb _]; change (c :: n ++ d :: u') with ((c :: n) ++ d :: u') in Hb; apply names_app in Hb as [_ Hb]; unfold names in Hb; cbn [forallb] in Hb; apply andb_prop in Hb; tauto).
          rewrite Eu in R. assert (exists rest', rest = d :: rest') as [rest' ->].
          { inversion R as [|x u0 u1 R'|s s' a0 b0 u0 u1 Hs Hs' _ _ _ _ Es Es']; subst; [eauto|]. rewrite (sigil_not_name _ Hs') in Hd. discriminate. }
          destruct (var_matched k (sigil_of k :: a ++ [d]) Hk) as (r2 & Hin2 & M2); [apply var_re_iff; exists (a ++ [d]); split; [reflexivity|]; apply valid_more; assumption|].
          assert (some_match k ((sigil_of k :: a ++ [d]) ++ rest') (length (sigil_of k :: a ++ [d]))) as K by (eapply some_match_intro; [exact Hin2|exact M2|discriminate]).
          cbn [app] in K. rewrite <- app_assoc in K. apply L in K. cbn [length] in K. rewrite app_length in K. cbn in K. lia. }
      rewrite firstn_exact, skipn_exact, E. reflexivity.
  - intros t _ _ _ ls' Hne _. inversion Hne as [|? ? H _]; subst. exfalso. apply H. reflexivity.
Qed.
Theorem lex_var_text err t k w : In (k, w) (lex err t) -> var_kind k -> exists a, w = sigil_of k :: a /\ is_valid_variable_name a = true.
Proof.
  intros Hin Hk. revert Hin. pattern t, (lex err t). revert t. apply lex_ind; [intros []| |].
  - intros t k0 m _ M _ Lm IH [E|Hin]; [|exact (IH Hin)]. injection E as -> <-. destruct (some_match_elim _ _ _ M) as (r & wb & z & v & Hr & Ez & Lz & Mz & _).
    assert (firstn m t = z) as -> by (rewrite Ez, <- Lz; apply firstn_exact). apply (var_rule _ _ _ _ Hk Hr) in Mz. apply var_re_iff, Mz.
  - intros t _ _ IH [E|Hin]; [|exact (IH Hin)]. injection E as <- _. destruct Hk; discriminate.
Qed.
