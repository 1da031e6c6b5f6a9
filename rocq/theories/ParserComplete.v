(** Completeness: on a derivable token sequence the parser reads everything without an
    error, without running out of looks, and builds the derivation. *)
From Coq Require Import List Arith Bool Lia.
Import ListNotations.
From Verif Require Import Kinds KindFacts GrammarSpec ParserSyntax GrammarData UngramData ParserModel ParserTree
  ParserTerm ParserChecks ParserBuild ParserLL GrammarFacts.

(** no error marker, no error node *)
Fixpoint clean (t : ptree) : bool :=
  match t with
  | PLeaf _ => true
  | PNode k ts => negb (kind_eqb k K_Error) && forallb clean ts
  | PErr _ => false
  end.
Definition cleans (ts : list ptree) : bool := forallb clean ts.

Lemma le_res_ok {A} (x y : res A) a : le_res x y -> x = Ok a -> y = Ok a.
Proof. intros [E|E] K; congruence. Qed.
Lemma ex_more g g' s rest f x : g <= g' -> ex rule_of g s rest f = Ok x -> ex rule_of g' s rest f = Ok x.
Proof. intros Hg. apply le_res_ok. now apply ex_gas. Qed.
Lemma ex_arms_more g g' c a rest f x : g <= g' -> ex_arms rule_of g c a rest f = Ok x -> ex_arms rule_of g' c a rest f = Ok x.
Proof. intros Hg. apply le_res_ok. now apply ex_gas. Qed.
Lemma ex_rule_more g g' r rest f x : g <= g' -> ex_rule rule_of g r rest f = Ok x -> ex_rule rule_of g' r rest f = Ok x.
Proof. intros Hg. apply le_res_ok. now apply ex_gas. Qed.

Definition word (ts : list tree) : list kind := flat_map leaves ts.
Lemma word_app a b : word (a ++ b) = word a ++ word b.
Proof. apply flat_map_app. Qed.

(** enough looks to start, and what is left at the end *)
Definition starts (ts : list tree) (b : budget) (f : nat) : Prop :=
  match ts with [] => z b <= f | _ => p b <= f end.
Definition ends (ts : list tree) (b : budget) (f f' : nat) : Prop :=
  match ts with [] => f <= f' + z b | _ => max_fuel <= f' + q b end.
Definition noeof (w : list kind) : Prop := ~ In K_Eof w.
Lemma noeof_app a b : noeof (a ++ b) <-> noeof a /\ noeof b.
Proof. unfold noeof. rewrite in_app_iff. tauto. Qed.

Definition result (ts : list tree) (b : budget) (f : nat) (pts : list ptree) (f' : nat) : Prop :=
  cleans pts = true /\ ptrees (prunes pts) = ts /\ f' <= max_fuel /\ ends ts b f f'.

Definition P_stmt (n : nat) (s : stmt) : Prop := forall ts F tail f,
  dh denoted n (denote s) ts -> chk NT FT FO s F = true -> bok NT BT s = true ->
  In (look tail) F -> noeof (word ts ++ tail) -> f <= max_fuel -> starts ts (bud NT BT s) f ->
  exists gas pts f', ex rule_of gas s (word ts ++ tail) f = Ok (false, (pts, tail, f'))
    /\ result ts (bud NT BT s) f pts f'.
Definition P_arms (n : nat) (a : arms) : Prop := forall ts F prev tail f,
  dh denoted n (denote_arms a) ts -> chk_arms NT FT FO a F prev = true -> bok_arms NT BT a = true ->
  In (look tail) F -> noeof (word ts ++ tail) -> f <= max_fuel -> starts ts (bud_arms NT BT a) f ->
  ~ In (look (word ts ++ tail)) prev /\
  exists gas pts f', ex_arms rule_of gas (look (word ts ++ tail)) a (word ts ++ tail) f = Ok (false, (pts, tail, f'))
    /\ result ts (bud_arms NT BT a) f pts f'.
Definition P_rule (n : nat) (r : kind) : Prop := forall ts tail f,
  dh denoted n (GNode r) ts -> In (look tail) (FO r) -> noeof (word ts ++ tail) -> f <= max_fuel -> starts ts (BT r) f ->
  exists gas pts f', ex_rule rule_of gas r (word ts ++ tail) f = Ok (pts, tail, f') /\ result ts (BT r) f pts f'.

Lemma word_nil n e ts : dh denoted n e ts -> word ts = [] -> ts = [].
Proof. apply dh_leaves_nil. Qed.
(** a non-empty derivation shows a FIRST token *)
Lemma look_first n e ts tail : dh denoted n e ts -> ts <> [] -> In (look (word ts ++ tail)) (first NT FT e).
Proof.
  intros H Hne. destruct (word ts) as [|k w] eqn:E; [exfalso; now apply Hne, (word_nil _ _ _ H)|].
  cbn. eapply dh_first; eassumption.
Qed.
Lemma look_ahead n e ts tail F : dh denoted n e ts -> In (look tail) F -> In (look (word ts ++ tail)) (ahead NT FT e F).
Proof.
  intros H HF. unfold ahead. destruct ts as [|t ts'] eqn:E.
  - rewrite (dh_nul _ _ _ H) by reflexivity. apply in_union. now right.
  - rewrite <- E in *. assert (K : In (look (word ts ++ tail)) (first NT FT e)) by (eapply look_first; [eassumption|now rewrite E]).
    destruct (nul NT e); [apply in_union; now left|assumption].
Qed.

Lemma max_fuel_val : max_fuel = 1024. Proof. reflexivity. Qed.

Lemma cleans_app a b : cleans (a ++ b) = cleans a && cleans b.
Proof. apply forallb_app. Qed.
Lemma ptrees_app a b : ptrees (a ++ b) = ptrees a ++ ptrees b.
Proof. apply flat_map_app. Qed.

(** [While], given its body *)
Lemma while_complete n fs s : P_stmt n s -> forall ts F tail f,
  dh denoted n (GRep (denote s)) ts -> chk NT FT FO (While fs s) F = true -> bok NT BT (While fs s) = true ->
  In (look tail) F -> noeof (word ts ++ tail) -> f <= max_fuel -> starts ts (bud NT BT (While fs s)) f ->
  exists gas pts f', ex rule_of gas (While fs s) (word ts ++ tail) f = Ok (false, (pts, tail, f'))
    /\ result ts (bud NT BT (While fs s)) f pts f'.
Proof.
  intros Hs ts F tail f D Hc Hb HF Hn Hf Hst.
  cbn [chk] in Hc. rewrite !andb_true_iff in Hc. destruct Hc as [[[Hfs Hdis] Hnul] Hc].
  apply negb_true_iff in Hnul. cbn [bok] in Hb. apply andb_true_iff in Hb as [Hb Hbq]. apply Nat.leb_le in Hbq.
  pose proof (subset_In _ _ Hfs) as Hfs'. pose proof (disjoint_In _ _ Hdis) as Hdis'.
  remember (GRep (denote s)) as e eqn:Ee. revert f Hf Hst.
  induction D as [| | | | | | | | |n a|n a u v D1 _ D2 IH]; try discriminate; injection Ee as ->; intros f Hf Hst.
  - exists 1. cbn [starts bud z] in Hst. destruct f as [|f]; [lia|]. exists [], f. cbn [word flat_map app ex tnth bind].
    assert (E : kind_in (look tail) fs = false) by (apply kind_in_false; auto). rewrite E.
    split; [reflexivity|]. repeat split; [lia|cbn; lia].
  - assert (Hu : u <> []) by (intros ->; rewrite (dh_nul _ _ _ D1) in Hnul by reflexivity; discriminate).
    rewrite word_app, <- app_assoc in *. pose proof Hn as Hn0. apply noeof_app in Hn as [Hnu Hnv].
    assert (Hf1 : 1 + p (bud NT BT s) <= f).
    { destruct u as [|t u']; [congruence|]. cbn [app starts bud p] in Hst. lia. }
    destruct f as [|f]; [lia|].
    destruct (Hs u (union (first NT FT (denote s)) F) (word v ++ tail) f D1 Hc Hb) as (g1 & pts1 & f1 & E1 & C1 & T1 & L1 & En1).
    { destruct v as [|t v'] eqn:Ev; [apply in_union; now right|]. rewrite <- Ev in *. apply in_union. left.
      change (first NT FT (denote s)) with (first NT FT (GRep (denote s))). eapply look_first; [eassumption|]. now rewrite Ev. }
    { assumption. } { lia. } { destruct u as [|t u']; [congruence|]. cbn [starts]. lia. }
    assert (Hq1 : max_fuel <= f1 + q (bud NT BT s)) by (destruct u; [congruence|exact En1]).
    destruct (IH Hs eq_refl Hnv f1 L1) as (g2 & pts2 & f2 & E2 & C2 & T2 & L2 & En2).
    { rewrite max_fuel_val in *. destruct v; cbn [starts bud z p]; lia. }
    exists (S (Nat.max g1 g2)), (pts1 ++ pts2), f2.
    assert (Ein : kind_in (look (word u ++ word v ++ tail)) fs = true).
    { apply kind_in_In, Hfs'. eapply look_first; eassumption. }
    cbn [ex tnth bind]. rewrite Ein.
    rewrite (ex_more g1 (Nat.max g1 g2)) with (x := (false, (pts1, word v ++ tail, f1))) by (lia || exact E1).
    cbn [bind].
    assert (Elen : (length (word v ++ tail) =? length (word u ++ word v ++ tail)) = false).
    { apply Nat.eqb_neq. rewrite (app_length (word u)). destruct (word u) eqn:Ew; [exfalso; apply Hu; eapply word_nil; eassumption|cbn; lia]. }
    rewrite Elen.
    rewrite (ex_more g2 (Nat.max g1 g2)) with (x := (false, (pts2, tail, f2))) by (lia || exact E2).
    cbn [bind]. split; [reflexivity|]. split; [now rewrite cleans_app, C1, C2|].
    split; [now rewrite prunes_app, ptrees_app, T1, T2|]. split; [assumption|].
    destruct u as [|t u']; [congruence|]. cbn [app ends bud q].
    destruct v; cbn [ends bud q z] in En2; lia.
Qed.

Lemma bud_arm fs s a : bud_arms NT BT (Arm fs s a) =
  mkbudget (Nat.max (z (bud NT BT s)) (z (bud_arms NT BT a))) (Nat.max (p (bud NT BT s)) (p (bud_arms NT BT a)))
           (Nat.max (q (bud NT BT s)) (q (bud_arms NT BT a))).
Proof. reflexivity. Qed.
Lemma bud_seq a b : bud NT BT (Seq a b) =
  mkbudget (if nul NT (denote a) && nul NT (denote b) then z (bud NT BT a) + z (bud NT BT b) else 0)
           (Nat.max (p (bud NT BT a)) (if nul NT (denote a) then z (bud NT BT a) + p (bud NT BT b) else 0))
           (Nat.max (q (bud NT BT b)) (if nul NT (denote b) then q (bud NT BT a) + z (bud NT BT b) else 0)).
Proof. reflexivity. Qed.
Lemma bud_match a : bud NT BT (Match a) =
  mkbudget (if nul NT (denote_arms a) then S (z (bud_arms NT BT a)) else 0) (S (p (bud_arms NT BT a))) (q (bud_arms NT BT a)).
Proof. reflexivity. Qed.

(** a nullable alternative with the lookahead of its follower falls through to [_ => {}] *)
Lemma arm_complete n fs s a : P_stmt n s -> P_arms n a -> P_arms n (Arm fs s a).
Proof.
  intros Hs IH ts F prev tail f D Hc Hb HF Hn Hf Hst. rewrite bud_arm in *.
  cbn [chk_arms] in Hc. rewrite !andb_true_iff in Hc. destruct Hc as [[[[Hfs Hprev] Hc] Hnul] Hrest].
  cbn [bok_arms] in Hb. apply andb_true_iff in Hb as [Hb Hba].
  pose proof (subset_In _ _ Hfs) as Hfs'. pose proof (disjoint_In _ _ Hprev) as Hprev'.
  (* the two sources of a derivation *)
  assert (K : dh denoted n (denote s) ts \/ (match a with ArmEnd _ => False | _ => dh denoted n (denote_arms a) ts end)).
  { destruct a; cbn [denote_arms] in D; [|now left]. inversion D; subst; auto. }
  destruct K as [K|K].
  - destruct ts as [|t ts'] eqn:Ets.
    + (* empty *)
      rewrite (dh_nul _ _ _ K) in Hnul by reflexivity. destruct a as [|[|]]; try discriminate.
      rewrite !andb_true_iff in Hnul. destruct Hnul as [[Hd1 Hd2] Heof].
      pose proof (disjoint_In _ _ Hd1) as Hd1'. pose proof (disjoint_In _ _ Hd2) as Hd2'. cbn [word flat_map app].
      split; [auto|]. exists 2, [], f. cbn [ex_arms].
      assert (E1 : kind_in (look tail) fs = false) by (apply kind_in_false; auto). rewrite E1.
      assert (E2 : kind_eqb (look tail) K_Eof = false).
      { destruct (kind_eqb_spec (look tail) K_Eof) as [E|]; [|reflexivity]. rewrite E in HF. apply negb_true_iff, kind_in_false in Heof. contradiction. }
      rewrite E2. cbn. split; [reflexivity|]. repeat split; [assumption|cbn; lia].
    + rewrite <- Ets in *. assert (Hne : ts <> []) by (now rewrite Ets).
      pose proof (look_first _ _ _ tail K Hne) as Hl. split; [auto|].
      destruct (Hs ts F tail f K Hc Hb HF Hn Hf) as (g & pts & f' & E & C & T & L & En).
      { subst ts. cbn [starts p] in *. lia. }
      exists (S g), pts, f'. cbn [ex_arms]. assert (E1 : kind_in (look (word ts ++ tail)) fs = true) by (apply kind_in_In; auto).
      rewrite E1. split; [assumption|]. split; [assumption|]. split; [assumption|]. split; [assumption|].
      subst ts. cbn [ends q] in *. lia.
  - destruct a as [fs' s' a'|] eqn:Ea; [|contradiction]. rewrite <- Ea in *. clear Ea.
    destruct ts as [|t ts'] eqn:Ets.
    + destruct (IH [] F (fs ++ prev) tail f K Hrest Hba HF Hn Hf) as (Hp & g & pts & f' & E & C & T & L & En).
      { cbn [starts z] in *. lia. }
      cbn [word flat_map app] in *. rewrite in_app_iff in Hp. split; [tauto|]. exists (S g), pts, f'. cbn [ex_arms].
      assert (E1 : kind_in (look tail) fs = false) by (apply kind_in_false; tauto). rewrite E1. split; [assumption|].
      repeat split; try assumption. cbn [ends z] in *. lia.
    + rewrite <- Ets in *. destruct (IH ts F (fs ++ prev) tail f K Hrest Hba HF Hn Hf) as (Hp & g & pts & f' & E & C & T & L & En).
      { subst ts. cbn [starts p] in *. lia. }
      rewrite in_app_iff in Hp. split; [tauto|]. exists (S g), pts, f'. cbn [ex_arms].
      assert (E1 : kind_in (look (word ts ++ tail)) fs = false) by (apply kind_in_false; tauto). rewrite E1. split; [assumption|].
      repeat split; try assumption. subst ts. cbn [ends q] in *. lia.
Qed.

Scheme stmt_ind2 := Induction for stmt Sort Prop
  with arms_ind2 := Induction for arms Sort Prop.
Combined Scheme stmt_arms_ind from stmt_ind2, arms_ind2.

Lemma rule_facts r R : rule_of r = Some R ->
  chk NT FT FO (r_body R) (FO r) = true /\
  (forall fs, r_escape R = Some fs -> forall k, In k (first NT FT (denote (r_body R))) -> In k fs) /\
  NT r = nul NT (denote (r_body R)) /\
  (r_unit R = true -> forall k, In k (FO r) -> k = K_Eof) /\
  kind_eqb (r_kind R) K_Error = false /\ r_kind R = r /\
  bok NT BT (r_body R) = true /\
  z (bud_rule NT BT R) <= z (BT r) /\ p (bud_rule NT BT R) <= p (BT r) /\ q (bud_rule NT BT R) <= q (BT r) /\
  q (bud_rule NT BT R) <= max_fuel.
Proof.
  intros ER. pose proof (rule_kind_ok _ _ ER) as Hk. pose proof (bok_rules_ok _ _ ER) as Hb.
  apply chk_rules_ok in ER. unfold chk_rule in ER. rewrite !andb_true_iff in ER.
  destruct ER as [[[[[A B] C] _] D] E]. unfold bok_rule in Hb. rewrite !andb_true_iff in Hb.
  destruct Hb as [[[[Hb1 Hb2] Hb3] Hb4] Hb5]. apply Nat.leb_le in Hb2, Hb3, Hb4, Hb5. apply eqb_prop in C.
  repeat split; try assumption.
  - intros fs Efs. rewrite Efs in B. apply andb_true_iff in B as [B _]. now apply subset_In.
  - intros Eu k Hk'. rewrite Eu in D. cbn [negb orb] in D. apply subset_In with (k := k) in D; [|assumption].
    destruct D as [D|[]]. now symmetry.
  - now apply negb_true_iff.
Qed.

Lemma rule_complete n : (forall s, P_stmt n s) -> forall r, P_rule (S n) r.
Proof.
  intros Hs r ts tail f D HF Hn Hf Hst.
  assert (K : exists R ts', rule_of r = Some R /\ dh denoted n (denote (r_body R)) ts' /\ word ts = word ts' /\
     ((ts' = [] /\ ts = []) \/ (ts' <> [] /\ ts = [Node r ts']))).
  { inversion D as [| |n0 r0 e ts' HG H Hne| n0 r0 e HG H| | | | | | |]; subst; unfold denoted in HG;
      (destruct (rule_of r) as [R|] eqn:ER; [|discriminate]); injection HG as <-.
    - exists R, ts'. repeat split; auto. cbn. now rewrite app_nil_r.
    - exists R, []. repeat split; auto. }
  destruct K as (R & ts' & ER & D' & Ew & Hts). clear D.
  destruct (rule_facts r R ER) as (Hc & Hesc & HNT & Hunit & Hkerr & Hkind & Hbok & Hz & Hp & Hq & Hq2).
  rewrite Ew in *.
  set (rest := word ts' ++ tail) in *.
  (* the escape test *)
  set (ec := match r_escape R with Some _ => 1 | None => 0 end).
  assert (Hec : ec <= f).
  { unfold ec. destruct (r_escape R) eqn:Ee; [|lia]. destruct Hts as [[-> ->]|[Hne ->]].
    - cbn [starts] in Hst. unfold bud_rule in Hz. rewrite Ee in Hz. cbn [z] in Hz.
      rewrite (dh_nul _ _ _ D') in Hz by reflexivity. lia.
    - cbn [starts] in Hst. unfold bud_rule in Hp. rewrite Ee in Hp. cbn [p] in Hp. lia. }
  assert (Hgo : exists go, (match r_escape R with
                  | Some fs => let* (c, f) := tnth rest f in Ok (kind_in c fs, f)
                  | None => Ok (true, f)
                  end) = Ok (go, f - ec) /\ (go = false -> ts = [] /\ ts' = [] /\ ec = 1)).
  { unfold ec in *. destruct (r_escape R) as [fs|] eqn:Ee.
    - destruct f as [|f]; [lia|]. cbn [tnth bind]. eexists. rewrite Nat.sub_succ, Nat.sub_0_r. split; [reflexivity|].
      intros Ek. destruct Hts as [[-> ->]|[Hne ->]]; [auto|]. exfalso. apply kind_in_false in Ek. apply Ek.
      eapply Hesc; [reflexivity|]. now apply look_first with (n := n).
    - exists true. rewrite Nat.sub_0_r. split; [reflexivity|discriminate]. }
  destruct Hgo as (go & Ego & Hgo). destruct go.
  2:{ destruct (Hgo eq_refl) as (-> & -> & Hec1). exists 1, [], (f - ec). cbn [ex_rule]. rewrite ER, Ego. cbn [bind].
      split; [reflexivity|]. repeat split; [lia|]. cbn [ends starts] in *.
      unfold bud_rule in Hz. cbn [z] in Hz. rewrite (dh_nul _ _ _ D') in Hz by reflexivity.
      unfold ec in *. destruct (r_escape R); lia. }
  clear Hgo.
  set (uc := if r_unit R then 1 else 0).
  assert (Hst' : starts ts' (bud NT BT (r_body R)) (f - ec) /\ (ts' = [] -> z (bud NT BT (r_body R)) + uc <= f - ec)).
  { unfold bud_rule in Hz, Hp. cbn [z p] in Hz, Hp. fold ec uc in Hz, Hp. destruct Hts as [[-> ->]|[Hne ->]].
    - rewrite (dh_nul _ _ _ D') in Hz by reflexivity. cbn [starts] in *. split; [|intros _]; lia.
    - destruct ts'; [congruence|]. cbn [starts] in *. split; [lia|discriminate]. }
  destruct Hst' as [Hst' Hst0].
  destruct (Hs (r_body R) ts' (FO r) tail (f - ec) D' Hc Hbok HF Hn) as (g & pts & f1 & E & C & T & L & En); [lia|assumption|].
  assert (Hf1 : uc <= f1).
  { unfold bud_rule in Hq2. cbn [q] in Hq2. fold uc in Hq2. destruct ts'; cbn [ends] in En; [specialize (Hst0 eq_refl)|]; lia. }
  assert (Hlv : pleavess pts = word ts').
  { pose proof E as E'. apply (proj1 (ex_reads rule_of g)) in E'; [|lia]. destruct E' as (E' & _). unfold rest in E'.
    now apply app_inv_tail in E'. }
  exists (S g), [PNode (r_kind R) pts], (f1 - uc). cbn [ex_rule]. rewrite ER, Ego. cbn [bind]. fold rest in E. rewrite E. cbn [bind].
  split.
  { unfold uc in *. destruct (r_unit R).
    - destruct f1 as [|f1]; [lia|]. cbn [tnth bind]. rewrite (Hunit eq_refl _ HF), kind_eqb_refl, Nat.sub_succ, Nat.sub_0_r. reflexivity.
    - now rewrite Nat.sub_0_r. }
  split; [cbn; rewrite Hkerr; cbn; fold (cleans pts); now rewrite C|].
  split.
  { cbn [prunes flat_map prune]. fold (pleavess pts) (prunes pts). rewrite Hlv, Hkind, app_nil_r.
    destruct Hts as [[-> ->]|[Hne ->]]; [exact T|]. destruct (word ts') eqn:Ew'; [exfalso; apply Hne; eapply word_nil; eassumption|].
    cbn [ptrees flat_map ptree_tree]. fold (ptrees (prunes pts)). now rewrite T. }
  split; [lia|].
  unfold bud_rule in Hz, Hq, Hq2. cbn [z q] in Hz, Hq, Hq2. fold ec uc in Hz, Hq, Hq2.
  destruct Hts as [[-> ->]|[Hne ->]].
  - rewrite (dh_nul _ _ _ D') in Hz by reflexivity. cbn [ends] in *. lia.
  - destruct ts'; [congruence|]. cbn [ends] in *. lia.
Qed.

Lemma stmts_complete n : (forall r, P_rule n r) -> (forall s, P_stmt n s) /\ (forall a, P_arms n a).
Proof.
  intros Hr. apply stmt_arms_ind.
  - (* Skip *) intros ts F tail f D Hc Hb HF Hn Hf Hst. inversion D; subst. exists 1, [], f. split; [reflexivity|].
    repeat split; [assumption|cbn; lia].
  - (* Seq *) intros a IHa b IHb ts F tail f D Hc Hb HF Hn Hf Hst. cbn [denote] in D.
    inversion D as [| | | |n0 a0 b0 u v Da Db| | | | | |]; subst.
    cbn [chk] in Hc. apply andb_true_iff in Hc as [Hca Hcb]. cbn [bok] in Hb. rewrite !andb_true_iff in Hb.
    destruct Hb as [[Hba Hbb] Hq]. apply Nat.leb_le in Hq. rewrite word_app, <- app_assoc in *.
    rewrite bud_seq in *.
    assert (Hna : u = [] -> nul NT (denote a) = true) by (now apply (dh_nul _ _ _ Da)).
    assert (Hnb : v = [] -> nul NT (denote b) = true) by (now apply (dh_nul _ _ _ Db)).
    destruct (IHa u (ahead NT FT (denote b) F) (word v ++ tail) f Da Hca Hba) as (g1 & pts1 & f1 & E1 & C1 & T1 & L1 & En1).
    { eapply look_ahead; eassumption. } { assumption. } { assumption. }
    { destruct u, v; cbn [app starts ends z p q] in *; rewrite ?(Hna eq_refl), ?(Hnb eq_refl) in *; cbn [andb] in *; try lia. }
    apply noeof_app in Hn as [_ Hn].
    destruct (IHb v F tail f1 Db Hcb Hbb HF Hn L1) as (g2 & pts2 & f2 & E2 & C2 & T2 & L2 & En2).
    { pose proof max_fuel_val as Hmf. destruct u, v; cbn [app starts ends z p q] in *; rewrite ?(Hna eq_refl), ?(Hnb eq_refl) in *; cbn [andb] in *; rewrite ?Hmf in *; try lia. }
    exists (S (Nat.max g1 g2)), (pts1 ++ pts2), f2. cbn [ex].
    rewrite (ex_more g1 (Nat.max g1 g2)) with (x := (false, (pts1, word v ++ tail, f1))) by (lia || exact E1).
    cbn [bind].
    rewrite (ex_more g2 (Nat.max g1 g2)) with (x := (false, (pts2, tail, f2))) by (lia || exact E2).
    cbn [bind]. split; [reflexivity|]. split; [now rewrite cleans_app, C1, C2|].
    split; [now rewrite prunes_app, ptrees_app, T1, T2|]. split; [assumption|].
    destruct u, v; cbn [app starts ends z p q] in *; rewrite ?(Hna eq_refl), ?(Hnb eq_refl) in *; cbn [andb] in *; try lia.
  - (* Expect *) intros k ts F tail f D Hc Hb HF Hn Hf Hst. inversion D; subst. cbn [starts bud p] in Hst.
    destruct f as [|f]; [lia|]. exists 1, [PLeaf k], max_fuel. cbn [ex texpect tnth bind word flat_map leaves app look].
    rewrite kind_eqb_refl. split; [reflexivity|]. repeat split; [lia|cbn [ends]; lia].
  - (* Call *) intros r ts F tail f D Hc Hb HF Hn Hf Hst. cbn [chk] in Hc.
    destruct (Hr r ts tail f D) as (g & pts & f' & E & K); try assumption; [eapply subset_In; eassumption|].
    exists (S g), pts, f'. cbn [ex]. rewrite E. split; [reflexivity|exact K].
  - (* If *) intros fs s IH ts F tail f D Hc Hb HF Hn Hf Hst.
    cbn [chk] in Hc. rewrite !andb_true_iff in Hc. destruct Hc as [[Hfs Hdis] Hc]. cbn [bok] in Hb.
    pose proof (subset_In _ _ Hfs) as Hfs'. pose proof (disjoint_In _ _ Hdis) as Hdis'.
    destruct ts as [|t ts'] eqn:Ets.
    + cbn [starts bud z] in Hst. destruct f as [|f]; [lia|]. exists 1, [], f. cbn [ex tnth bind word flat_map app].
      assert (E : kind_in (look tail) fs = false) by (apply kind_in_false; auto). rewrite E.
      split; [reflexivity|]. repeat split; [lia|cbn [ends bud z]; lia].
    + rewrite <- Ets in *. assert (Hne : ts <> []) by (now rewrite Ets).
      assert (D' : dh denoted n (denote s) ts) by (cbn [denote] in D; inversion D; subst; [discriminate|assumption]).
      assert (Hf1 : 1 + p (bud NT BT s) <= f) by (subst ts; cbn [starts bud p] in Hst; lia).
      destruct f as [|f]; [lia|].
      destruct (IH ts F tail f D' Hc Hb HF Hn) as (g & pts & f' & E & C & T & L & En); [lia|subst ts; cbn [starts]; lia|].
      exists (S g), pts, f'. cbn [ex tnth bind]. assert (Ek : kind_in (look (word ts ++ tail)) fs = true) by (apply kind_in_In, Hfs'; eapply look_first; eassumption).
      rewrite Ek. split; [assumption|]. repeat split; try assumption. subst ts. exact En.
  - (* Sync *) intros fs ts F tail f D Hc Hb HF Hn Hf Hst. inversion D; subst. cbn [starts bud z] in Hst.
    destruct f as [|f]; [lia|]. exists 1, [], f. cbn [ex tnth bind word flat_map app].
    cbn [chk] in Hc. apply subset_In with (k := look tail) in Hc; [|assumption].
    assert (E : negb (kind_in (look tail) fs) && match tail with [] => false | _ :: _ => true end = false).
    { destruct Hc as [Hc|Hc].
      - destruct tail as [|k tl]; [apply andb_false_r|]. exfalso. apply Hn. left. now symmetry.
      - apply kind_in_In in Hc. now rewrite Hc. }
    rewrite E. split; [reflexivity|]. repeat split; [lia|cbn [ends bud z]; lia].
  - (* While *) intros fs s IH. intros ts F tail f. apply while_complete. exact IH.
  - (* Match *) intros a IH ts F tail f D Hc Hb HF Hn Hf Hst. cbn [chk] in Hc. cbn [bok] in Hb. cbn [denote] in D.
    assert (Hf1 : starts ts (bud_arms NT BT a) (f - 1) /\ 1 <= f).
    { rewrite bud_match in Hst. destruct ts; cbn [starts z p] in *; [rewrite (dh_nul _ _ _ D) in Hst by reflexivity|]; lia. }
    destruct Hf1 as [Hst' Hf1]. destruct f as [|f]; [lia|]. rewrite Nat.sub_succ, Nat.sub_0_r in Hst'.
    destruct (IH ts F [] tail f D Hc Hb HF Hn) as (_ & g & pts & f' & E & C & T & L & En); [lia|assumption|].
    exists (S g), pts, f'. cbn [ex tnth bind]. split; [assumption|]. repeat split; try assumption.
    rewrite bud_match. destruct ts; cbn [ends z q] in *; [rewrite (dh_nul _ _ _ D) by reflexivity|]; lia.
  - intros fs s Hs a Ha. now apply arm_complete.
  - intros d ts F prev tail f D Hc. discriminate.
Qed.

Theorem complete n : (forall s, P_stmt n s) /\ (forall a, P_arms n a) /\ (forall r, P_rule n r).
Proof.
  induction n as [|n (Hs & _ & _)].
  - assert (Hr : forall r, P_rule 0 r) by (intros r ts tail f D; inversion D).
    destruct (stmts_complete 0 Hr) as [A B]. auto.
  - assert (Hr : forall r, P_rule (S n) r) by (now apply rule_complete).
    destruct (stmts_complete (S n) Hr) as [A B]. auto.
Qed.

(** every derivation of a whole input is what the parser builds *)
Theorem parse_complete entry w ts : noeof w -> entry = K_QueryUnit \/ entry = K_UpdateUnit ->
  derives denoted (GNode entry) ts -> word ts = w ->
  exists gas pts f', ex_rule rule_of gas entry w max_fuel = Ok (pts, [], f') /\ cleans pts = true /\ ptrees (prunes pts) = ts.
Proof.
  intros Hn He D <-. apply derives_dh in D as [n D].
  destruct (proj2 (proj2 (complete n)) entry ts [] max_fuel D) as (g & pts & f' & E & C & T & _).
  - destruct He as [-> | ->]; vm_compute; auto.
  - now rewrite app_nil_r.
  - lia.
  - destruct He as [-> | ->]; destruct ts; cbn [starts]; apply Nat.leb_le; vm_compute; reflexivity.
  - rewrite app_nil_r in E. eauto 10.
Qed.
