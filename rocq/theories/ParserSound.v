(** Soundness: what an error-free run has read. *)
From Coq Require Import List Arith Bool Lia.
Import ListNotations.
From Verif Require Import Kinds KindFacts GrammarSpec ParserSyntax GrammarData UngramData ParserModel ParserTree
  ParserTerm ParserChecks ParserBuild ParserLL GrammarFacts ParserComplete.

(** ** nullable rules derive nothing *)
Lemma nul_derives (t : kind -> bool) :
  (forall r, t r = true -> derives denoted (GNode r) []) -> forall e, nul t e = true -> derives denoted e [].
Proof.
  intros Ht. induction e; cbn [nul]; intros H; try discriminate.
  - constructor.
  - now apply Ht.
  - apply andb_true_iff in H as [H1 H2]. change (@nil tree) with (@nil tree ++ []). constructor; auto.
  - apply orb_true_iff in H as [H|H]; [apply d_alt_l|apply d_alt_r]; auto.
  - constructor.
  - constructor.
Qed.
Lemma lookup_map {A} (d : A) (g : kind -> A) l r : lookup d (map (fun r => (r, g r)) l) r = if kind_in r l then g r else d.
Proof.
  induction l as [|x l IH]; [reflexivity|]. cbn. destruct (kind_eqb_spec r x) as [->|]; [reflexivity|exact IH].
Qed.
Lemma nul_step_sound t : (forall r, lookup false t r = true -> derives denoted (GNode r) []) ->
  forall r, lookup false (nul_step t) r = true -> derives denoted (GNode r) [].
Proof.
  intros Ht r. unfold nul_step.
  rewrite (lookup_map false (fun r => match denoted r with Some e => nul (lookup false t) e | None => false end)).
  destruct (kind_in r rule_kinds); [|discriminate].
  destruct (denoted r) as [e|] eqn:E; [|discriminate]. intros H. eapply d_node_empty; [exact E|]. now apply nul_derives with (t := lookup false t).
Qed.
Lemma NT_sound r : NT r = true -> derives denoted (GNode r) [].
Proof.
  unfold NT. assert (E : nul_table = iter 10 nul_step []) by (vm_compute; reflexivity). rewrite E. clear E.
  generalize 10. intros n. assert (K : forall t, (forall r, lookup false t r = true -> derives denoted (GNode r) []) ->
    forall r, lookup false (iter n nul_step t) r = true -> derives denoted (GNode r) []).
  { induction n as [|n IH]; cbn [iter]; intros t Ht; [exact Ht|]. apply IH. now apply nul_step_sound. }
  apply K. intros r'. discriminate.
Qed.
Lemma nul_sound e : nul NT e = true -> derives denoted e [].
Proof. apply nul_derives. exact NT_sound. Qed.

(** ** every rule derives something *)
Fixpoint pexp (S : list kind) (e : gexp) : bool :=
  match e with
  | GNode r => kind_in r S
  | GSeq a b => pexp S a && pexp S b
  | GAlt a b => pexp S a || pexp S b
  | _ => true
  end.
Definition prod_ok (S : list kind) (r : kind) : bool := match denoted r with Some e => pexp S e | None => false end.
Definition prod_step (S : list kind) : list kind := filter (prod_ok S) rule_kinds.
Lemma in_prod_step S r : In r (prod_step S) -> prod_ok S r = true.
Proof. unfold prod_step. generalize rule_kinds. intros l H. apply filter_In in H. now destruct H. Qed.
Definition productive (e : gexp) : Prop := exists v, matches denoted e v.
Lemma pexp_sound S : (forall r, In r S -> productive (GNode r)) -> forall e, pexp S e = true -> productive e.
Proof.
  intros HS. induction e; cbn [pexp]; intros H.
  - exists []. constructor.
  - exists [k]. constructor.
  - apply HS. now apply kind_in_In.
  - apply andb_true_iff in H as [H1 H2]. destruct (IHe1 H1) as [u Hu], (IHe2 H2) as [v Hv]. exists (u ++ v). now constructor.
  - apply orb_true_iff in H as [H|H]; [destruct (IHe1 H) as [u Hu]; exists u; now constructor|destruct (IHe2 H) as [u Hu]; exists u; now apply m_alt_r].
  - exists []. constructor.
  - exists []. constructor.
Qed.
Lemma prod_step_sound S : (forall r, In r S -> productive (GNode r)) -> forall r, In r (prod_step S) -> productive (GNode r).
Proof.
  intros HS r H. apply in_prod_step in H. unfold prod_ok in H. destruct (denoted r) as [e|] eqn:E; [|discriminate].
  destruct (pexp_sound S HS e H) as [v Hv]. exists v. econstructor; eassumption.
Qed.
Definition prod_table : list kind := Eval vm_compute in iter 20 prod_step [].
Lemma prod_table_eq : prod_table = iter 20 prod_step [].
Proof. vm_compute. reflexivity. Qed.
Lemma prod_all r R : rule_of r = Some R -> kind_in r prod_table = true.
Proof. revert r R. apply (all_rules_spec (fun r _ => kind_in r prod_table)). vm_compute. reflexivity. Qed.
Lemma iter_inv {A} (P : A -> Prop) f : (forall x, P x -> P (f x)) -> forall n x, P x -> P (iter n f x).
Proof. intros Hf n. induction n as [|n IH]; intros x Hx; [exact Hx|]. apply (IH (f x)). apply Hf. exact Hx. Qed.
Definition all_prod (S : list kind) : Prop := forall r, In r S -> productive (GNode r).
Lemma prod_table_sound : all_prod prod_table.
Proof. rewrite prod_table_eq. apply (iter_inv all_prod prod_step prod_step_sound). intros r []. Qed.
Lemma all_productive r R : rule_of r = Some R -> productive (GNode r).
Proof. intros ER. apply prod_all in ER. apply kind_in_In in ER. exact (prod_table_sound r ER). Qed.
Lemma stmt_productive : (forall s, calls_ok rule_of s = true -> productive (denote s)) /\
                        (forall a, calls_ok_arms rule_of a = true -> productive (denote_arms a)).
Proof.
  apply stmt_arms_ind; cbn [denote denote_arms calls_ok calls_ok_arms].
  - exists []. constructor.
  - intros a IHa b IHb H. apply andb_true_iff in H as [Ha Hb]. destruct (IHa Ha) as [u Hu], (IHb Hb) as [v Hv]. exists (u ++ v). now constructor.
  - intros k _. exists [k]. constructor.
  - intros r H. destruct (rule_of r) as [R|] eqn:E; [|discriminate]. eapply all_productive; eassumption.
  - exists []. constructor.
  - exists []. constructor.
  - exists []. constructor.
  - auto.
  - intros fs s IHs a IHa H. apply andb_true_iff in H as [Hs Ha]. destruct (IHs Hs) as [u Hu].
    destruct a; [exists u; now constructor|exists u; assumption].
  - exists []. constructor.
Qed.

(** ** side conditions: [_ => {}] only where an alternative may be empty *)
Fixpoint dskip (a : arms) : bool :=
  match a with Arm _ _ a => dskip a | ArmEnd DSkip => true | ArmEnd (DErr _) => false end.
Fixpoint sok (s : stmt) : bool :=
  match s with
  | Seq a b => sok a && sok b
  | If _ s | While _ s => sok s
  | Match a => sok_arms a && (negb (dskip a) || nul NT (denote_arms a))
  | _ => true
  end
with sok_arms (a : arms) : bool :=
  match a with
  | Arm _ s a => sok s && sok_arms a
  | ArmEnd _ => true
  end.
Lemma sok_rules r R : rule_of r = Some R -> sok (r_body R) = true.
Proof. revert r R. apply (all_rules_spec (fun _ R => sok (r_body R))). vm_compute. reflexivity. Qed.
Lemma escape_null r R fs : rule_of r = Some R -> r_escape R = Some fs -> NT r = true.
Proof.
  intros ER Ee. apply chk_rules_ok in ER. unfold chk_rule in ER. rewrite !andb_true_iff in ER. destruct ER as [[[[[_ B] _] _] _] _].
  rewrite Ee in B. now apply andb_true_iff in B.
Qed.

(** ** words of pruned trees *)
Lemma word_prune t : word (ptrees (prune t)) = pleaves t.
Proof.
  induction t as [k|k ts IH|e] using ptree_rect'; try reflexivity.
  assert (Hl : word (ptrees (flat_map prune ts)) = pleavess ts).
  { induction IH as [|t ts Ht _ IHl]; [reflexivity|]. cbn [flat_map]. now rewrite ptrees_app, word_app, Ht, IHl. }
  cbn [prune pleaves]. fold (pleavess ts) in *. destruct (pleavess ts) eqn:E; [exact Hl|]. rewrite <- E in *.
  unfold word, ptrees. cbn. rewrite app_nil_r. exact Hl.
Qed.
Lemma word_prunes ts : word (ptrees (prunes ts)) = pleavess ts.
Proof.
  induction ts as [|t ts IH]; [reflexivity|]. unfold prunes, pleavess. cbn [flat_map]. fold (prunes ts) (pleavess ts).
  now rewrite ptrees_app, word_app, word_prune, IH.
Qed.
Lemma derives_nil e ts : derives denoted e ts -> word ts = [] -> ts = [].
Proof. intros D. apply derives_dh in D as [n D]. now apply word_nil with (n := n) (e := e). Qed.

(** ** a run without any error node derives what it built *)
Definition reads_as (e : gexp) (pts : list ptree) : Prop := derives denoted e (ptrees (prunes pts)).

Lemma texpect_sound k rest f pts rest' f' : texpect k rest f = Ok (pts, rest', f') -> cleans pts = true -> reads_as (GTok k) pts.
Proof.
  unfold texpect. intros H C. inv_bind H. destruct a as [c f1]. apply tnth_ok in E as [-> ->].
  destruct (kind_eqb_spec (look rest) k) as [E|].
  - destruct rest as [|x r]; [discriminate|]. cbn in E, H. injection H as <- <- <-. subst. constructor.
  - injection H as <- <- <-. discriminate.
Qed.
Lemma tawe_sound e rest f o : tawe e rest f = Ok o -> cleans (fst (fst o)) = false.
Proof.
  unfold tawe. intros H. inv_bind H. destruct a as [c f1]. destruct (kind_in _ _); [injection H as <-; reflexivity|].
  destruct rest; [discriminate|]. cbn in H. injection H as <-. reflexivity.
Qed.
Lemma terror_until_sound g e stop rest f o : terror_until g e stop rest f = Ok o -> cleans (fst (fst o)) = false.
Proof.
  unfold terror_until. intros H. inv_bind H. destruct a as [c f1]. destruct (kind_in _ _ || _); [injection H as <-; reflexivity|].
  inv_bind H. destruct a as [[? ?] ?]. injection H as <-. reflexivity.
Qed.

Lemma ex_sound gas :
  (forall s rest f pts rest' f', sok s = true -> ex rule_of gas s rest f = Ok (false, (pts, rest', f')) -> cleans pts = true ->
     reads_as (denote s) pts) /\
  (forall a c rest f pts rest' f', sok_arms a = true -> ex_arms rule_of gas c a rest f = Ok (false, (pts, rest', f')) -> cleans pts = true ->
     match a with ArmEnd _ => False | _ => reads_as (denote_arms a) pts end \/ (pts = [] /\ dskip a = true)) /\
  (forall r rest f pts rest' f', ex_rule rule_of gas r rest f = Ok (pts, rest', f') -> cleans pts = true -> reads_as (GNode r) pts).
Proof.
  induction gas as [|g (IHs & IHa & IHr)]; [repeat split; intros; discriminate|]. split; [|split].
  - intros s rest f pts rest' f' Hok H C. destruct s; cbn [ex denote sok] in *.
    + injection H as <- <- <-. constructor.
    + inv_bind H. destruct a as [ret1 [[ts1 rest1] f1]]. destruct ret1; [discriminate|].
      inv_bind H. destruct a as [ret2 [[ts2 rest2] f2]]. injection H as -> <- <- <-.
      rewrite cleans_app in C. apply andb_true_iff in C as [C1 C2]. apply andb_true_iff in Hok as [Ha Hb].
      unfold reads_as. rewrite prunes_app, ptrees_app. constructor; [eapply IHs; [|exact E|]; assumption|eapply IHs; [|exact E0|]; assumption].
    + inv_bind H. destruct a as [[? ?] ?]. injection H as -> -> ->. eapply texpect_sound; eassumption.
    + inv_bind H. destruct a as [[? ?] ?]. injection H as -> -> ->. eapply IHr; eassumption.
    + inv_bind H. destruct a as [c f1]. destruct (kind_in _ _).
      * apply d_opt_some. eapply IHs; eassumption.
      * injection H as <- <- <-. constructor.
    + inv_bind H. destruct a as [c f1]. destruct (negb _ && _).
      * inv_bind H. destruct a as [[? ?] ?]. injection H as -> -> ->. apply terror_until_sound in E0. cbn [fst] in E0. congruence.
      * injection H as <- <- <-. constructor.
    + inv_bind H. destruct a as [c f1]. destruct (kind_in _ _); [|injection H as <- <- <-; constructor].
      inv_bind H. destruct a as [ret1 [[ts1 rest1] f1']]. destruct ret1; [discriminate|].
      destruct (length rest1 =? length rest).
      * injection H as <- <- <-. unfold reads_as. rewrite <- (app_nil_r (ptrees _)). apply d_rep_cons; [eapply IHs; eassumption|constructor].
      * inv_bind H. destruct a as [ret2 [[ts2 rest2] f2]]. injection H as -> <- <- <-.
        rewrite cleans_app in C. apply andb_true_iff in C as [C1 C2].
        unfold reads_as. rewrite prunes_app, ptrees_app. apply d_rep_cons; [eapply IHs; [|exact E0|]; assumption|].
        apply (IHs (While fs s) _ _ _ _ _ Hok E1 C2).
    + inv_bind H. destruct a0 as [c f1]. apply andb_true_iff in Hok as [Ha Hd].
      destruct (IHa _ _ _ _ _ _ _ Ha H C) as [K|[-> K]].
      * destruct a; [exact K|contradiction].
      * rewrite K in Hd. cbn in Hd. now apply nul_sound.
  - intros a c rest f pts rest' f' Hok H C. destruct a; cbn [ex_arms sok_arms] in *.
    + apply andb_true_iff in Hok as [Hs Ha]. destruct (kind_in _ _).
      * left. pose proof (IHs _ _ _ _ _ _ Hs H C) as K. cbn [denote_arms]. destruct a; [now constructor|exact K].
      * destruct (IHa _ _ _ _ _ _ _ Ha H C) as [K|[-> K]].
        -- left. cbn [denote_arms]. destruct a; [now apply d_alt_r|contradiction].
        -- right. auto.
    + destruct (kind_eqb _ _); [discriminate|]. destruct d; cbn [tdflt bind] in H.
      * injection H as <- <- <-. right. auto.
      * inv_bind H. injection H as ->. apply tawe_sound in E. cbn [fst] in E. congruence.
  - intros r rest f pts rest' f' H C. cbn [ex_rule] in H. destruct (rule_of r) as [R|] eqn:ER; [|discriminate].
    inv_bind H. destruct a as [go f0]. destruct go.
    2:{ injection H as <- <- <-. destruct (r_escape R) as [fs|] eqn:Ee; [|discriminate]. apply NT_sound. eapply escape_null; eassumption. }
    inv_bind H. destruct a as [ret [[ts rest1] f1]]. destruct ret.
    { injection H as <- <- <-. cbn in C. rewrite !andb_false_r in C. discriminate. }
    assert (K : cleans ts = true -> reads_as (GNode r) [PNode (r_kind R) ts]).
    { intros C'. pose proof (IHs _ _ _ _ _ _ (sok_rules _ _ ER) E0 C') as D. unfold reads_as in *.
      assert (HG : denoted r = Some (denote (r_body R))) by (unfold denoted; now rewrite ER).
      cbn [prunes flat_map prune]. fold (pleavess ts) (prunes ts). rewrite app_nil_r. rewrite (rule_kind_ok _ _ ER).
      destruct (pleavess ts) eqn:El.
      - rewrite <- word_prunes in El. apply (derives_nil _ _ D) in El. rewrite El in *. eapply d_node_empty; eassumption.
      - cbn [ptrees flat_map ptree_tree app]. fold (ptrees (prunes ts)). eapply d_node; [eassumption..|].
        intros En. rewrite <- word_prunes, En in El. discriminate. }
    destruct (r_unit R).
    + inv_bind H. destruct a as [c f2]. destruct (kind_eqb _ _).
      * injection H as <- <- <-. cbn in C. apply K. fold (cleans ts) in C. rewrite andb_true_r in C. now apply andb_true_iff in C.
      * inv_bind H. destruct a as [[us rest2] f3]. injection H as <- <- <-. cbn in C. rewrite forallb_app in C. cbn in C.
        rewrite !andb_false_r in C. discriminate.
    + injection H as <- <- <-. cbn in C. apply K. fold (cleans ts) in C. rewrite andb_true_r in C. now apply andb_true_iff in C.
Qed.

(** ** a run that leaves no visible error has read a prefix of a sentence *)
Definition oclean (ts : list ptree) : bool := cleans (prunes ts).
Lemma oclean_app a b : oclean (a ++ b) = oclean a && oclean b.
Proof. unfold oclean. now rewrite prunes_app, cleans_app. Qed.
Lemma oclean_node k ts : oclean [PNode k ts] = true -> oclean ts = true.
Proof.
  unfold oclean, prunes. cbn [flat_map prune]. rewrite app_nil_r. destruct (flat_map pleaves ts); [auto|]. cbn [cleans forallb clean].
  rewrite andb_true_r. intros H. now apply andb_true_iff in H.
Qed.

(** read completely, or up to the end of the input *)
Definition prefix_of (e : gexp) (ret : bool) (pts : list ptree) (rest' : list kind) : Prop :=
  (ret = false /\ matches denoted e (pleavess pts)) \/
  (rest' = [] /\ exists v, matches denoted e (pleavess pts ++ v)).

Lemma texpect_prefix k rest f pts rest' f' : texpect k rest f = Ok (pts, rest', f') -> oclean pts = true -> prefix_of (GTok k) false pts rest'.
Proof.
  unfold texpect. intros H C. inv_bind H. destruct a as [c f1]. apply tnth_ok in E as [-> ->].
  destruct (kind_eqb_spec (look rest) k) as [E|].
  - destruct rest as [|x r]; [discriminate|]. cbn in E, H. injection H as <- <- <-. subst. left. split; [reflexivity|constructor].
  - injection H as <- <- <-. discriminate.
Qed.
Lemma tawe_unclean e rest f o : tawe e rest f = Ok o -> oclean (fst (fst o)) = false.
Proof.
  unfold tawe. intros H. inv_bind H. destruct a as [c f1]. destruct (kind_in _ _); [injection H as <-; reflexivity|].
  destruct rest; [discriminate|]. cbn in H. injection H as <-. reflexivity.
Qed.
Lemma terror_until_unclean g e stop rest f o : terror_until g e stop rest f = Ok o -> oclean (fst (fst o)) = false.
Proof.
  unfold terror_until. intros H. inv_bind H. destruct a as [c f1]. destruct (kind_in _ _ || _); [injection H as <-; reflexivity|].
  inv_bind H. destruct a as [[? ?] ?]. injection H as <-. reflexivity.
Qed.
Lemma prefix_seq a b ts1 rest1 ret2 ts2 rest2 f1 f2 :
  productive b -> prefix_of a false ts1 rest1 -> prefix_of b ret2 ts2 rest2 -> reads rest1 f1 (ts2, rest2, f2) ->
  prefix_of (GSeq a b) ret2 (ts1 ++ ts2) rest2.
Proof.
  intros [w Hw] [[_ H1]|[-> [v1 H1]]] H2 (Hr & _); unfold prefix_of; rewrite pleavess_app.
  - destruct H2 as [[-> H2]|[-> [v2 H2]]].
    + left. split; [reflexivity|now constructor].
    + right. split; [reflexivity|]. exists v2. rewrite <- app_assoc. now constructor.
  - symmetry in Hr. apply app_eq_nil in Hr as [-> ->]. right. split; [reflexivity|]. rewrite app_nil_r. exists (v1 ++ w). rewrite app_assoc. now constructor.
Qed.

Lemma ex_prefix gas :
  (forall s rest f ret pts rest' f', f <= max_fuel -> noeof rest -> calls_ok rule_of s = true -> sok s = true ->
     ex rule_of gas s rest f = Ok (ret, (pts, rest', f')) -> oclean pts = true -> prefix_of (denote s) ret pts rest') /\
  (forall a rest f ret pts rest' f', f <= max_fuel -> noeof rest -> calls_ok_arms rule_of a = true -> sok_arms a = true ->
     ex_arms rule_of gas (look rest) a rest f = Ok (ret, (pts, rest', f')) -> oclean pts = true ->
     match a with ArmEnd _ => False | _ => prefix_of (denote_arms a) ret pts rest' end \/
     (pts = [] /\ ret = false /\ dskip a = true) \/ (pts = [] /\ rest' = [])) /\
  (forall r rest f pts rest' f', f <= max_fuel -> noeof rest -> ex_rule rule_of gas r rest f = Ok (pts, rest', f') -> oclean pts = true ->
     prefix_of (GNode r) false pts rest').
Proof.
  induction gas as [|g (IHs & IHa & IHr)]; [repeat split; intros; discriminate|]. split; [|split].
  - intros s rest f ret pts rest' f' Hf Hn Hc Hok H C. pose proof (proj1 stmt_productive s Hc) as Hprod.
    destruct s; cbn [ex denote sok calls_ok] in *.
    + injection H as <- <- <- <-. left. split; [reflexivity|constructor].
    + inv_bind H. destruct a as [ret1 [[ts1 rest1] f1]]. apply andb_true_iff in Hok as [Ha Hb]. apply andb_true_iff in Hc as [Hca Hcb].
      destruct (proj1 stmt_productive s2 Hcb) as [w Hw].
      destruct ret1.
      * injection H as <- <- <- <-. destruct (IHs _ _ _ _ _ _ _ Hf Hn Hca Ha E C) as [[K _]|[-> [v K]]]; [discriminate|].
        right. split; [reflexivity|]. exists (v ++ w). rewrite app_assoc. now constructor.
      * inv_bind H. destruct a as [ret2 [[ts2 rest2] f2]]. injection H as <- <- <- <-.
        rewrite oclean_app in C. apply andb_true_iff in C as [C1 C2].
        pose proof (proj1 (ex_reads rule_of g) _ _ _ _ _ Hf E) as R1.
        pose proof (proj1 (ex_reads rule_of g) _ _ _ _ _ (proj1 (proj2 R1)) E0) as R2.
        eapply prefix_seq; [now exists w| | |exact R2].
        -- eapply IHs; eassumption.
        -- eapply IHs; [apply R1|eapply reads_noeof; [exact Hn|exact R1]|assumption|assumption|exact E0|assumption].
    + inv_bind H. destruct a as [[? ?] ?]. injection H as <- -> -> ->. eapply texpect_prefix; eassumption.
    + inv_bind H. destruct a as [[? ?] ?]. injection H as <- -> -> ->. eapply IHr; eassumption.
    + inv_bind H. destruct a as [c f1]. apply tnth_ok in E as [-> ->]. destruct (kind_in _ _).
      * apply IHs in H; try assumption; [|lia]. destruct H as [[-> K]|[-> [v K]]]; [left|right]; (split; [reflexivity|]); [|exists v]; now apply m_opt_some.
      * injection H as <- <- <- <-. left. split; [reflexivity|constructor].
    + inv_bind H. destruct a as [c f1]. apply tnth_ok in E as [-> ->]. destruct (negb _ && _).
      * inv_bind H. destruct a as [[? ?] ?]. injection H as <- -> -> ->. apply terror_until_unclean in E. cbn [fst] in E. congruence.
      * injection H as <- <- <- <-. left. split; [reflexivity|constructor].
    + inv_bind H. destruct a as [c f1]. apply tnth_ok in E as [-> ->].
      destruct (kind_in _ _); [|injection H as <- <- <- <-; left; split; [reflexivity|constructor]].
      inv_bind H. destruct a as [ret1 [[ts1 rest1] f1']].
      assert (Hf1 : f1 <= max_fuel) by lia.
      pose proof (proj1 (ex_reads rule_of g) _ _ _ _ _ Hf1 E) as R1.
      assert (One : oclean ts1 = true -> prefix_of (GRep (denote s)) ret1 ts1 rest1).
      { intros C1. destruct (IHs _ _ _ _ _ _ _ Hf1 Hn Hc Hok E C1) as [[-> K]|[-> [v K]]].
        - left. split; [reflexivity|]. rewrite <- (app_nil_r (pleavess ts1)). apply m_rep_cons; [assumption|constructor].
        - right. split; [reflexivity|]. exists (v ++ []). rewrite app_assoc. apply m_rep_cons; [assumption|constructor]. }
      destruct ret1; [injection H as <- <- <- <-; now apply One|].
      destruct (length rest1 =? length rest); [injection H as <- <- <- <-; now apply One|].
      inv_bind H. destruct a as [ret2 [[ts2 rest2] f2]]. injection H as <- <- <- <-.
      rewrite oclean_app in C. apply andb_true_iff in C as [C1 C2].
      pose proof (proj1 (ex_reads rule_of g) _ _ _ _ _ (proj1 (proj2 R1)) E0) as R2.
      pose proof (IHs _ _ _ _ _ _ _ Hf1 Hn Hc Hok E C1) as P1.
      assert (P2 : prefix_of (denote (While fs s)) ret2 ts2 rest2).
      { eapply IHs; [apply R1|eapply reads_noeof; [exact Hn|exact R1]|exact Hc|exact Hok|exact E0|assumption]. }
      pose proof (prefix_seq _ _ _ _ _ _ _ _ _ Hprod P1 P2 R2) as P.
      assert (Q : forall w, matches denoted (GSeq (denote s) (denote (While fs s))) w -> matches denoted (GRep (denote s)) w).
      { intros w Hw. inversion Hw; subst. now apply m_rep_cons. }
      destruct P as [[-> P]|[-> [v P]]]; [left|right]; (split; [reflexivity|]); [|exists v]; now apply Q.
    + inv_bind H. destruct a0 as [c f1]. apply tnth_ok in E as [-> ->]. apply andb_true_iff in Hok as [Ha Hd].
      assert (Hf1 : f1 <= max_fuel) by lia.
      destruct (IHa _ _ _ _ _ _ _ Hf1 Hn Hc Ha H C) as [K|[(-> & -> & K)|(-> & ->)]].
      * destruct a; [exact K|contradiction].
      * rewrite K in Hd. cbn in Hd. left. split; [reflexivity|]. apply (derives_matches denoted _ []). now apply nul_sound.
      * right. split; [reflexivity|]. exact Hprod.
  - intros a rest f ret pts rest' f' Hf Hn Hc Hok H C. destruct a; cbn [ex_arms sok_arms calls_ok_arms] in *.
    + apply andb_true_iff in Hok as [Hs Ha]. apply andb_true_iff in Hc as [Hcs Hca]. destruct (kind_in _ _).
      * left. pose proof (IHs _ _ _ _ _ _ _ Hf Hn Hcs Hs H C) as K. cbn [denote_arms]. destruct a; [|exact K].
        destruct K as [[-> K]|[-> [v K]]]; [left|right]; (split; [reflexivity|]); [|exists v]; now apply m_alt_l.
      * destruct (IHa _ _ _ _ _ _ _ Hf Hn Hca Ha H C) as [K|[K|K]]; [|auto..].
        left. cbn [denote_arms]. destruct a; [|contradiction].
        destruct K as [[-> K]|[-> [v K]]]; [left|right]; (split; [reflexivity|]); [|exists v]; now apply m_alt_r.
    + destruct (kind_eqb_spec (look rest) K_Eof) as [E|].
      * injection H as <- <- <- <-. right. right. split; [reflexivity|]. now apply look_eof.
      * destruct d; cbn [tdflt bind] in H.
        -- injection H as <- <- <- <-. right. left. auto.
        -- inv_bind H. injection H as <- ->. apply tawe_unclean in E. cbn [fst] in E. congruence.
  - intros r rest f pts rest' f' Hf Hn H C. cbn [ex_rule] in H. destruct (rule_of r) as [R|] eqn:ER; [|discriminate].
    inv_bind H. destruct a as [go f0].
    assert (Hf0 : f0 <= f).
    { destruct (r_escape R); [inv_bind E; destruct a; injection E as <- <-; apply tnth_ok in E0 as [_ ->]; lia|injection E as <- <-; lia]. }
    destruct go.
    2:{ injection H as <- <- <-. destruct (r_escape R) as [fs|] eqn:Ee; [|discriminate]. left. split; [reflexivity|].
        apply (derives_matches denoted _ []). apply NT_sound. eapply escape_null; eassumption. }
    inv_bind H. destruct a as [ret [[ts rest1] f1]].
    assert (HG : denoted r = Some (denote (r_body R))) by (unfold denoted; now rewrite ER).
    assert (Hf0' : f0 <= max_fuel) by lia.
    assert (K : oclean ts = true -> prefix_of (GNode r) ret ts rest1).
    { intros C'. destruct (IHs _ _ _ _ _ _ _ Hf0' Hn (calls_rule_ok _ _ ER) (sok_rules _ _ ER) E0 C') as [[-> D]|[-> [v D]]]; [left|right]; (split; [reflexivity|]); [|exists v];
      econstructor; eassumption. }
    assert (Hp1 : forall k, pleavess [PNode k ts] = pleavess ts) by (intros k; unfold pleavess; cbn; apply app_nil_r).
    destruct ret.
    { injection H as <- <- <-. change [PNode (r_kind R) ts; PNode K_Error []] with ([PNode (r_kind R) ts] ++ [PNode K_Error []]) in *.
      rewrite oclean_app in C. apply andb_true_iff in C as [C _]. apply oclean_node in C. apply K in C as [[C _]|[-> [v C]]]; [discriminate|].
      right. split; [reflexivity|]. exists v. rewrite pleavess_app, Hp1. cbn. now rewrite app_nil_r. }
    destruct (r_unit R).
    + inv_bind H. destruct a as [c f2]. destruct (kind_eqb_spec c K_Eof) as [->|Hne].
      * injection H as <- <- <-. apply oclean_node in C. apply K in C. unfold prefix_of. rewrite Hp1. exact C.
      * inv_bind H. destruct a as [[us rest2] f3]. injection H as <- <- <-. exfalso.
        apply oclean_node in C. rewrite oclean_app in C. apply andb_true_iff in C as [_ C].
        (* the skipped part is not empty *)
        apply tnth_ok in E1 as [-> ->]. destruct g as [|g']; [discriminate|]. cbn [tskip_rest] in E2.
        inv_bind E2. destruct a as [c f4]. apply tnth_ok in E1 as [-> ->].
        destruct (kind_eqb_spec (look rest1) K_Eof); [congruence|]. destruct rest1 as [|x rest1]; [discriminate|]. cbn [tadvance bind] in E2.
        inv_bind E2. destruct a as [[? ?] ?]. injection E2 as <- <- <-. cbn in C. discriminate.
    + injection H as <- <- <-. apply oclean_node in C. apply K in C. unfold prefix_of. rewrite Hp1. exact C.
Qed.
