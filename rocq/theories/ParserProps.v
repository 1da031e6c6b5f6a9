(** Properties C12-C19 and C27: the SPARQL parser.

    [toks] ranges over everything the lexer can produce ([no_eof]: the lexer has no
    end-of-file token); [entry] over the two entry points [parse] chooses from. *)
From Coq Require Import List Arith Bool Lia Sorted.
Import ListNotations.
From Verif Require Import Kinds KindFacts GrammarSpec ParserSyntax GrammarData UngramData ParserModel ParserSpec ParserTree
  ParserTerm ParserChecks ParserBuild ParserLL GrammarFacts ParserComplete ParserSound ParserOutcome.

(** tokens of one byte each, for the examples *)
Fixpoint lex_at (n : nat) (ks : list kind) : list ltoken :=
  match ks with [] => [] | k :: r => mkltoken (mktoken k [n]) n (S n) :: lex_at (S n) r end.
Definition toks_of (ks : list kind) : list ltoken := lex_at 0 ks.
Definition no_eofb (toks : list ltoken) : bool := forallb (fun t => negb (kind_eqb (tk (ltok t)) K_Eof)) toks.
Lemma no_eofb_ok toks : no_eofb toks = true -> no_eof toks.
Proof. intros H t Ht E. unfold no_eofb in H. rewrite forallb_forall in H. specialize (H t Ht). rewrite E in H. discriminate. Qed.

(** SELECT WS * WS { ?v ?v ?v . # comment
    } *)
Definition sample : list ltoken :=
  toks_of [K_SELECT; K_WHITESPACE; K_Star; K_WHITESPACE; K_LCurly; K_VAR1; K_VAR1; K_VAR1; K_Dot; K_Comment; K_RCurly].
(** the same with a hole: SELECT * { ?v } garbage *)
Definition broken : list ltoken :=
  toks_of [K_SELECT; K_WHITESPACE; K_Star; K_LCurly; K_VAR1; K_WHITESPACE; K_RCurly; K_RCurly; K_Comment; K_LOAD].

(** ** C12: the tree is lossless *)
Theorem C12_lossless : forall entry toks g errs,
  entry_point entry -> no_eof toks -> returns entry toks g errs ->
  gtokens g = map ltok toks /\ gtext g = text_of toks.
Proof.
  intros entry toks g errs He Hn H. destruct (returns_run _ _ _ _ He Hn H) as (gas & ts & cs & f & _ & -> & _ & _ & T & _).
  assert (E : gtokens (GNodeT entry cs) = map ltok toks) by exact T. split; [exact E|]. unfold gtext, text_of. rewrite E.
  clear. induction toks as [|t l IH]; [reflexivity|]. cbn. now rewrite IH.
Qed.
Example C12_witness : exists g e1 e2, returns K_QueryUnit broken g [e1; e2] /\ no_eof broken.
Proof.
  eexists _, _, _. split; [|apply no_eofb_ok; reflexivity].
  apply (parses_to_intro 500); [vm_compute; reflexivity|discriminate].
Qed.

(** ** C13: parsing terminates *)
Theorem C13_termination : forall entry toks, entry_point entry ->
  exists r, parses_to entry toks r /\ r <> NoGas.
Proof.
  intros entry toks He. exists (parse_tokens rule_of (enough (length toks)) entry toks).
  assert (K : parse_tokens rule_of (enough (length toks)) entry toks <> NoGas) by (now apply enough_gas).
  split; [|exact K]. now apply parses_to_intro with (gas := enough (length toks)).
Qed.
(** the call depth (loops counted as calls) is linear in the number of tokens *)
Theorem C13_linear_depth : exists c, forall entry toks gas,
  entry_point entry -> c * S (length toks) <= gas -> parse_tokens rule_of gas entry toks <> NoGas.
Proof.
  exists (S max_fuel * S max_depth). intros entry toks gas He Hg. apply enough_gas; [exact He|]. unfold enough. rewrite Nat.mul_comm. exact Hg.
Qed.

(** ** C14: which panics are possible *)
Theorem C14_only_stuck : forall entry toks, entry_point entry -> no_eof toks ->
  parses_to entry toks PanicStuck \/ exists g errs, returns entry toks g errs.
Proof.
  intros entry toks He Hn. destruct (C13_termination entry toks He) as (r & [N H] & Hr).
  pose proof (outcome entry toks N He Hn) as O. pose proof (H N (le_n _)) as HN.
  destruct (ex_rule rule_of N entry (kinds_of toks) max_fuel) as [[[pts rest] f]| | |] eqn:E.
  - destruct O as (ts & cs & _ & _ & _ & P & _). right. exists (GNodeT entry cs), (map (mkerr toks) (perrss 0 (prunes ts))).
    exists N. intros g Hg. rewrite (H g Hg), <- HN. exact P.
  - left. exists N. intros g Hg. rewrite (H g Hg), <- HN. exact O.
  - destruct O.
  - congruence.
Qed.
(** the claim "parsing never panics" is false: SELECT * { { { ... unclosed, 200 deep *)
Definition deep (n : nat) : list ltoken := toks_of ([K_SELECT; K_Star] ++ repeat K_LCurly n).
Theorem C14_never_panics_refuted : exists toks, no_eof toks /\ parses_to K_QueryUnit toks PanicStuck.
Proof.
  exists (deep 200). split; [apply no_eofb_ok; vm_compute; reflexivity|].
  apply (parses_to_intro (100 * 100)); [vm_compute; reflexivity|discriminate].
Qed.

(** ** C15: every node other than the root covers a significant token *)
Theorem C15_no_empty_nodes : forall entry toks g errs k cs,
  entry_point entry -> no_eof toks -> returns entry toks g errs ->
  below g (GNodeT k cs) -> exists t, In t (gtokens (GNodeT k cs)) /\ is_trivia (tk t) = false.
Proof.
  intros entry toks g errs k cs He Hn H B. destruct (returns_run _ _ _ _ He Hn H) as (gas & ts & cs1 & f & _ & -> & _ & _ & _ & S).
  destruct (below_sub _ _ _ B _ _ eq_refl) as (t & Ht & St). rewrite S in Ht. pose proof (prunes_full _ _ _ _ Ht St) as K.
  assert (L : flat_map leaves (gstrip (GNodeT k cs)) = flat_map leaves (gstrips cs)) by (cbn; now rewrite app_nil_r).
  rewrite <- L, leaves_gstrip in K.
  destruct (filter (fun t => negb (is_trivia (tk t))) (gtokens (GNodeT k cs))) as [|x l] eqn:E; [now destruct K|].
  assert (In x (filter (fun t => negb (is_trivia (tk t))) (gtokens (GNodeT k cs)))) as Hx by (rewrite E; now left).
  apply filter_In in Hx as [Hx Hy]. exists x. split; [assumption|]. now apply negb_true_iff.
Qed.
Example C15_witness : exists g errs k cs, returns K_QueryUnit broken g errs /\ below g (GNodeT k cs).
Proof.
  eexists _, _, _, _. split.
  - apply (parses_to_intro 500); [vm_compute; reflexivity|discriminate].
  - apply below_child. left. reflexivity.
Qed.

Lemma forallb_flat_map {A B} (p : B -> bool) (g : A -> list B) l : forallb p (flat_map g l) = forallb (fun x => forallb p (g x)) l.
Proof. induction l as [|x l IH]; [reflexivity|]. cbn. now rewrite forallb_app, IH. Qed.

(** ** C17: what the grammar derives is accepted *)
Lemma sentence_derivation entry toks : sentence sparql_grammar entry (kinds_of toks) ->
  exists ts, derives sparql_grammar (GNode entry) ts /\ flat_map leaves ts = kinds_of toks.
Proof. apply matches_derives. Qed.

(** ** C27: ... and its tree is the derivation *)
Theorem C27_tree_is_derivation : forall entry toks ts,
  entry_point entry -> no_eof toks ->
  derives sparql_grammar (GNode entry) ts -> flat_map leaves ts = kinds_of toks ->
  exists cs, returns entry toks (GNodeT entry cs) [] /\ ~ has_error_node (GNodeT entry cs) /\
    (ts = [Node entry (gstrips cs)] \/ (ts = [] /\ gstrips cs = [])).
Proof.
  intros entry toks ts He Hn D W. apply denoted_grammar in D.
  destruct (parse_complete entry (kinds_of toks) ts (noeof_kinds _ Hn) He D W) as (gas & pts & f & E & C & T).
  pose proof (outcome entry toks gas He Hn) as O. rewrite E in O. destruct O as (ts1 & cs & -> & _ & Hl & P & Tk & S).
  assert (C' : cleans (prunes ts1) = true).
  { unfold cleans in C. cbn [forallb clean] in C. rewrite andb_true_r in C. apply andb_true_iff in C as [_ C].
    clear - C. unfold prunes, cleans. rewrite forallb_flat_map.
    assert (K : forall t, clean t = true -> forallb clean (prune t) = true).
    { induction t as [k|k l IH|e] using ptree_rect'; [reflexivity| |discriminate]. cbn [clean prune]. intros H. apply andb_true_iff in H as [H1 H2].
      assert (K : forallb clean (flat_map prune l) = true).
      { rewrite forallb_flat_map. rewrite forallb_forall in *. rewrite Forall_forall in IH. auto. }
      destruct (flat_map pleaves l); [exact K|]. cbn. now rewrite H1, K. }
    rewrite forallb_forall in *. auto. }
  apply cleans_spec in C' as [C1 C2]. rewrite C1 in P. cbn [map] in P.
  exists cs. split; [|split].
  - apply (parses_to_intro gas); [exact P|discriminate].
  - apply no_error_node. rewrite S. exact C2.
  - rewrite S. cbn [prunes flat_map prune] in T. rewrite app_nil_r in T. fold (pleavess ts1) (prunes ts1) in T.
    destruct (pleavess ts1) eqn:El.
    + right. rewrite <- T. assert (En : ptrees (prunes ts1) = []).
      { rewrite T. apply derives_nil with (e := GNode entry); [exact D|]. unfold word. now rewrite W, <- Hl. }
      split; assumption.
    + left. rewrite <- T. reflexivity.
Qed.
Theorem C17_completeness : forall entry toks,
  entry_point entry -> no_eof toks -> sentence sparql_grammar entry (kinds_of toks) ->
  exists g, returns entry toks g [] /\ ~ has_error_node g.
Proof.
  intros entry toks He Hn H. destruct (sentence_derivation _ _ H) as (ts & D & W).
  destruct (C27_tree_is_derivation entry toks ts He Hn D W) as (cs & R & N & _). eauto.
Qed.
(** the grammar is unambiguous *)
Theorem C27_unambiguous : forall entry ts ts', entry_point entry ->
  derives sparql_grammar (GNode entry) ts -> derives sparql_grammar (GNode entry) ts' ->
  flat_map leaves ts = flat_map leaves ts' -> ~ In K_Eof (flat_map leaves ts) -> ts = ts'.
Proof.
  intros entry ts ts' He D D' E Hn. apply denoted_grammar in D, D'.
  destruct (parse_complete entry _ ts Hn He D eq_refl) as (g & pts & f & R & _ & <-).
  destruct (parse_complete entry _ ts' Hn He D' (eq_sym E)) as (g' & pts' & f' & R' & _ & <-).
  assert (K : pts = pts'); [|now rewrite K].
  assert (R1 : ex_rule rule_of (g + g') entry (flat_map leaves (ptrees (prunes pts))) max_fuel = Ok (pts, [], f)) by (eapply ex_rule_more; [|exact R]; lia).
  assert (R2 : ex_rule rule_of (g + g') entry (flat_map leaves (ptrees (prunes pts))) max_fuel = Ok (pts', [], f')) by (eapply ex_rule_more; [|exact R']; lia).
  rewrite R1 in R2. now injection R2.
Qed.

(** ** C16: what acceptance guarantees *)
Fixpoint terr (t : tree) : bool := match t with Leaf _ => false | Node k ts => kind_eqb k K_Error || existsb terr ts end.
Lemma terr_sub u us : terr u = false -> ~ sub K_Error us u.
Proof.
  intros H S. revert H. induction S as [|k' ts t Hin S IH]; cbn [terr]; [now rewrite kind_eqb_refl|].
  intros H. apply orb_false_iff in H as [_ H]. apply IH. destruct (terr t) eqn:E; [|reflexivity].
  rewrite <- H. symmetry. apply existsb_exists. eauto.
Qed.
Theorem C16_accepted_is_prefix_partial : forall entry toks g,
  entry_point entry -> no_eof toks -> returns entry toks g [] -> ~ has_error_node g ->
  exists more, sentence sparql_grammar entry (kinds_of toks ++ more).
Proof.
  intros entry toks g He Hn H N. destruct (returns_run _ _ _ _ He Hn H) as (gas & ts & cs & f & E & -> & Er & Hl & _ & S).
  symmetry in Er. apply map_eq_nil in Er.
  assert (C : oclean [PNode entry ts] = true).
  { assert (C : cleans (prunes ts) = true).
    { apply cleans_spec. split; [exact Er|]. rewrite <- S. exact (proj2 (no_error_node entry cs) N). }
    unfold oclean, prunes. cbn [flat_map prune]. fold (pleavess ts) (prunes ts). rewrite app_nil_r.
    destruct (pleavess ts); [exact C|]. unfold cleans in *. cbn [forallb clean]. rewrite C. destruct He as [-> | ->]; reflexivity. }
  pose proof (proj2 (proj2 (ex_prefix gas)) entry (kinds_of toks) max_fuel _ _ _ (le_n _) (noeof_kinds _ Hn) E C) as P.
  assert (Hp : pleavess [PNode entry ts] = kinds_of toks) by (unfold pleavess in *; cbn; rewrite app_nil_r; exact Hl).
  assert (M : exists v, matches denoted (GNode entry) (kinds_of toks ++ v)).
  { destruct P as [[_ P]|[_ [v P]]]; rewrite Hp in P; [exists []; now rewrite app_nil_r|now exists v]. }
  destruct M as [v M]. exists v. unfold sentence. apply matches_derives in M as (us & D & <-). apply derives_matches. now apply denoted_grammar.
Qed.
(** "no error reported means grammatical" is false: nothing at all, and DESCRIBE without a
    resource, are accepted without an error or an error node *)
Theorem C16_soundness_refuted : exists toks g,
  no_eof toks /\ returns K_QueryUnit toks g [] /\ ~ has_error_node g /\ ~ sentence sparql_grammar K_QueryUnit (kinds_of toks).
Proof.
  exists (toks_of [K_DESCRIBE]). eexists. split; [apply no_eofb_ok; reflexivity|]. split; [apply (parses_to_intro 500); [vm_compute; reflexivity|discriminate]|].
  split.
  - apply no_error_node. intros u us Hu. apply terr_sub.
    assert (K : existsb terr (gstrips (match parse_tokens rule_of 500 K_QueryUnit (toks_of [K_DESCRIBE]) with Ok (Some (GNodeT _ cs, _)) => cs | _ => [] end)) = false) by (vm_compute; reflexivity).
    destruct (terr u) eqn:Et; [|reflexivity]. rewrite <- K. symmetry. apply existsb_exists. exists u. split; [|exact Et]. vm_compute. vm_compute in Hu. exact Hu.
  - intros H. destruct (sentence_derivation _ _ H) as (ts & D & W).
    destruct (C27_tree_is_derivation K_QueryUnit (toks_of [K_DESCRIBE]) ts (or_introl eq_refl) (no_eofb_ok (toks_of [K_DESCRIBE]) eq_refl) D W) as (cs & R & _ & T).
    assert (Q : exists g, returns K_QueryUnit (toks_of [K_DESCRIBE]) g []) by eauto.
    apply denoted_grammar in D. destruct (parse_complete K_QueryUnit _ ts (noeof_kinds _ (no_eofb_ok (toks_of [K_DESCRIBE]) eq_refl)) (or_introl eq_refl) D W) as (g & pts & f & E & C & _).
    assert (E2 : exists pts' f', ex_rule rule_of (500 + g) K_QueryUnit (kinds_of (toks_of [K_DESCRIBE])) max_fuel = Ok (pts', [], f') /\ cleans pts' = false).
    { assert (Q0 : match ex_rule rule_of 500 K_QueryUnit (kinds_of (toks_of [K_DESCRIBE])) max_fuel with Ok (p, [], _) => cleans p = false | _ => False end) by (vm_compute; reflexivity).
      destruct (ex_rule rule_of 500 K_QueryUnit (kinds_of (toks_of [K_DESCRIBE])) max_fuel) as [[[p [|]] f0]| | |] eqn:E0; try contradiction.
      exists p, f0. split; [|exact Q0]. eapply ex_rule_more; [|exact E0]. apply Nat.le_add_r. }
    destruct E2 as (p & f0 & E2 & C2).
    assert (E3 : ex_rule rule_of (500 + g) K_QueryUnit (kinds_of (toks_of [K_DESCRIBE])) max_fuel = Ok (pts, [], f)) by (eapply ex_rule_more; [|exact E]; lia).
    rewrite E3 in E2. injection E2 as -> ->. congruence.
Qed.
(** skipped trailing tokens are not reported as an error either (but visible as an error node) *)
Theorem C16_trailing_tokens_unreported : exists toks g,
  no_eof toks /\ returns K_QueryUnit toks g [] /\ has_error_node g.
Proof.
  exists (toks_of [K_SELECT; K_Star; K_LCurly; K_RCurly; K_RCurly]). eexists. split; [apply no_eofb_ok; reflexivity|].
  split; [apply (parses_to_intro 500); [vm_compute; reflexivity|discriminate]|].
  eexists. apply below_child. right. left. reflexivity.
Qed.

(** ** C18: error ranges *)
Theorem C18_error_ranges : forall entry toks g errs e,
  entry_point entry -> no_eof toks -> tiles 0 toks -> returns entry toks g errs -> In e errs ->
  pe_start e <= pe_end e <= length (text_of toks) /\
  ((exists t, In t toks /\ ntrivia t = true /\ pe_start e = lstart t /\ pe_end e = lend t) \/
   (exists a t b, toks = a ++ t :: b /\ ntrivia t = true /\ filter ntrivia b = [] /\ pe_start e = lend t /\ pe_end e = lend t) \/
   (filter ntrivia toks = [] /\ pe_start e = 0 /\ pe_end e = 0)).
Proof.
  intros entry toks g errs e He Hn Ht H Hi. destruct (returns_run _ _ _ _ He Hn H) as (gas & ts & cs & f & _ & _ & -> & _ & _ & _).
  apply in_map_iff in Hi as ([n ex] & <- & _). unfold mkerr. cbn [fst snd]. unfold span_of.
  destruct (nth_error (filter ntrivia toks) n) as [t|] eqn:E.
  - apply nth_error_In in E. apply filter_In in E as [E1 E2]. cbn [pe_start pe_end].
    pose proof (tiles_In _ _ _ Ht E1). split; [lia|]. left. eauto 10.
  - destruct (rev (filter ntrivia toks)) as [|t l] eqn:R.
    + cbn [pe_start pe_end]. split; [lia|]. right. right. split; [|auto].
      apply (f_equal (@rev _)) in R. now rewrite rev_involutive in R.
    + cbn [pe_start pe_end]. assert (K : exists a b, toks = a ++ t :: b /\ ntrivia t = true /\ filter ntrivia b = []).
      { apply (f_equal (@rev _)) in R. rewrite rev_involutive in R. cbn in R. revert R. generalize (rev l). clear.
        induction toks as [|x toks IH]; intros l R; [cbn in R; destruct l; discriminate|]. cbn [filter] in R. destruct (ntrivia x) eqn:Ex.
        - destruct l as [|y l].
          + cbn in R. injection R as -> R. exists [], toks. auto.
          + cbn in R. injection R as <- R. destruct (IH _ R) as (a & b & -> & A & B). exists (x :: a), b. auto.
        - destruct (IH _ R) as (a & b & -> & A & B). exists (x :: a), b. auto. }
      destruct K as (a & b & -> & A & B). assert (In t (a ++ t :: b)) as Hin by (apply in_or_app; right; now left).
      pose proof (tiles_In _ _ _ Ht Hin). split; [lia|]. right. left. exists a, t, b. auto.
Qed.
Example C18_witness : tiles 0 broken /\ exists g e1 e2, returns K_QueryUnit broken g [e1; e2] /\ pe_start e1 = 6 /\ pe_end e1 = 7.
Proof.
  split; [cbn; repeat split|]. eexists _, _, _. split; [apply (parses_to_intro 500); [vm_compute; reflexivity|discriminate]|]. split; reflexivity.
Qed.

(** errors are listed in document order *)
Lemma perrss_sorted ts : forall n, Sorted (fun a b => fst a <= fst b) (perrss n ts) /\ Forall (fun x => n <= fst x <= n + length (pleavess ts)) (perrss n ts).
Proof.
  assert (App : forall (a b : list (nat * list kind)) m, Sorted (fun a b => fst a <= fst b) a -> Sorted (fun a b => fst a <= fst b) b ->
    Forall (fun x => fst x <= m) a -> Forall (fun x => m <= fst x) b -> Sorted (fun a b => fst a <= fst b) (a ++ b)).
  { induction a as [|x a IH]; intros b m Ha Hb Fa Fb; [assumption|]. cbn. apply Sorted_inv in Ha as [Ha Hx].
    apply Forall_cons_iff in Fa as [Fx Fa]. constructor; [eapply IH; eassumption|].
    destruct a as [|y a].
    - destruct b as [|y b]; constructor. apply Forall_cons_iff in Fb as [Fy _]. lia.
    - cbn. constructor. now apply HdRel_inv in Hx. }
  assert (K : forall t n, Sorted (fun a b => fst a <= fst b) (perrs n t) /\ Forall (fun x => n <= fst x <= n + length (pleaves t)) (perrs n t)).
  { induction t as [k|k l IH|e] using ptree_rect'; intros n.
    - split; constructor.
    - rewrite perrs_node. cbn [pleaves]. fold (pleavess l). revert n. induction IH as [|t l Ht _ IHl]; intros n; [split; constructor|].
      cbn [perrss]. destruct (Ht n) as [S1 F1], (IHl (n + length (pleaves t))) as [S2 F2].
      assert (Ll : length (pleavess (t :: l)) = length (pleaves t) + length (pleavess l)) by (unfold pleavess; cbn; now rewrite app_length).
      rewrite Ll. split.
      + eapply App with (m := n + length (pleaves t)); [exact S1|exact S2|eapply Forall_impl; [|exact F1]; cbn; lia|eapply Forall_impl; [|exact F2]; cbn; lia].
      + apply Forall_app. split; [eapply Forall_impl; [|exact F1]; cbn; lia|eapply Forall_impl; [|exact F2]; cbn; lia].
    - cbn. split; repeat constructor; cbn; lia. }
  intros n. specialize (K (PNode K_Error ts) n). rewrite perrs_node in K. exact K.
Qed.
Lemma tiles_nth toks : forall from i j x y, tiles from toks -> i < j ->
  nth_error (filter ntrivia toks) i = Some x -> nth_error (filter ntrivia toks) j = Some y -> lend x <= lstart y.
Proof.
  induction toks as [|t l IH]; intros from i j x y; [destruct i; discriminate|]. cbn [tiles filter]. intros (A & B & C) Hij.
  destruct (ntrivia t); [|eapply IH; eassumption]. destruct j as [|j]; [lia|]. destruct i as [|i]; cbn [nth_error].
  - intros [= <-] Hy. apply nth_error_In, filter_In in Hy as [Hy _]. apply (tiles_In _ _ _ C) in Hy. lia.
  - intros Hx Hy. eapply IH with (i := i) (j := j); [exact C|lia|eassumption..].
Qed.
Theorem C18_errors_in_order : forall entry toks g errs,
  entry_point entry -> no_eof toks -> tiles 0 toks -> returns entry toks g errs ->
  Sorted (fun a b => pe_start a <= pe_start b) errs.
Proof.
  intros entry toks g errs He Hn Ht H. destruct (returns_run _ _ _ _ He Hn H) as (gas & ts & cs & f & _ & _ & -> & _ & _ & _).
  destruct (perrss_sorted (prunes ts) 0) as [S _]. clear H. induction S as [|x l S IH Hd]; cbn [map]; [constructor|]. constructor; [exact IH|].
  destruct Hd as [|y l Hd]; cbn [map]; [constructor|]. constructor. destruct x as [i ei], y as [j ej]. unfold mkerr, span_of. cbn [fst snd] in *.
  destruct (nth_error (filter ntrivia toks) i) as [a|] eqn:Ea; destruct (nth_error (filter ntrivia toks) j) as [b|] eqn:Eb; cbn [pe_start].
  - destruct (Nat.eq_dec i j) as [->|]; [rewrite Ea in Eb; injection Eb as <-; lia|].
    pose proof (tiles_nth _ _ i j _ _ Ht ltac:(lia) Ea Eb). apply nth_error_In, filter_In in Ea as [Ea _]. apply (tiles_In _ _ _ Ht) in Ea. lia.
  - destruct (rev (filter ntrivia toks)) as [|c r] eqn:R.
    + apply (f_equal (@rev _)) in R. rewrite rev_involutive in R. cbn in R. rewrite R in Ea. destruct i; discriminate.
    + cbn [pe_start]. apply (f_equal (@rev _)) in R. rewrite rev_involutive in R. cbn in R.
      pose proof Ea as Ha. apply nth_error_In, filter_In in Ha as [Ha _]. apply (tiles_In _ _ _ Ht) in Ha.
      assert (Hc : nth_error (filter ntrivia toks) (length (rev r)) = Some c) by (rewrite R, nth_error_app2, Nat.sub_diag by lia; reflexivity).
      assert (Hi : i < length (filter ntrivia toks)) by (apply nth_error_Some; congruence). rewrite R, app_length in Hi. cbn in Hi.
      pose proof Hc as Hc'. apply nth_error_In, filter_In in Hc' as [Hc' _]. apply (tiles_In _ _ _ Ht) in Hc'.
      destruct (Nat.eq_dec i (length (rev r))) as [->|]; [rewrite Ea in Hc; injection Hc as <-; lia|].
      pose proof (tiles_nth _ _ i (length (rev r)) _ _ Ht ltac:(lia) Ea Hc). lia.
  - apply nth_error_None in Ea. assert (j < length (filter ntrivia toks)) by (apply nth_error_Some; congruence). lia.
  - destruct (rev (filter ntrivia toks)); cbn; lia.
Qed.

(** ** C19: the operation type *)
Definition operation_keyword (k : kind) : Prop := query_word k \/ update_word k.
Lemma keywords_disjoint k : query_word k -> update_word k -> False.
Proof. unfold query_word. cbn [In]. intros [<-|[<-|[<-|[<-|[]]]]] H; cbv in H; intuition discriminate. Qed.
Lemma query_word_kw k : kind_in k query_keywords = true <-> query_word k.
Proof. unfold query_word. rewrite <- kind_in_In. assert (E : kind_in k query_keywords = kind_in k [K_SELECT; K_CONSTRUCT; K_DESCRIBE; K_ASK]) by (destruct k; reflexivity). rewrite E. reflexivity. Qed.
Lemma update_word_kw k : kind_in k update_keywords = true <-> update_word k.
Proof.
  unfold update_word. rewrite <- kind_in_In. match goal with |- _ <-> kind_in k ?l = true => assert (E : kind_in k update_keywords = kind_in k l) by (destruct k; reflexivity) end.
  rewrite E. reflexivity.
Qed.
Theorem C19_operation_type : forall toks,
  (entry_of toks = K_UpdateUnit <->
   exists a t b, toks = a ++ t :: b /\ (forall u, In u a -> ~ operation_keyword (tk (ltok u))) /\ update_word (tk (ltok t))) /\
  (entry_of toks = K_QueryUnit <->
   (forall u, In u toks -> ~ operation_keyword (tk (ltok u))) \/
   exists a t b, toks = a ++ t :: b /\ (forall u, In u a -> ~ operation_keyword (tk (ltok u))) /\ query_word (tk (ltok t))).
Proof.
  assert (K : forall toks,
    (guess_operation_type toks = None /\ forall u, In u toks -> ~ operation_keyword (tk (ltok u))) \/
    exists a t b, toks = a ++ t :: b /\ (forall u, In u a -> ~ operation_keyword (tk (ltok u))) /\
      ((query_word (tk (ltok t)) /\ guess_operation_type toks = Some K_QueryUnit) \/
       (update_word (tk (ltok t)) /\ guess_operation_type toks = Some K_UpdateUnit))).
  { induction toks as [|t toks IH]; [left; split; [reflexivity|intros ? []]|]. cbn [guess_operation_type].
    destruct (kind_in (tk (ltok t)) query_keywords) eqn:Eq.
    - right. exists [], t, toks. split; [reflexivity|]. split; [intros ? []|]. left. split; [now apply query_word_kw|reflexivity].
    - destruct (kind_in (tk (ltok t)) update_keywords) eqn:Eu.
      + right. exists [], t, toks. split; [reflexivity|]. split; [intros ? []|]. right. split; [now apply update_word_kw|reflexivity].
      + assert (N : ~ operation_keyword (tk (ltok t))).
        { intros [H|H]; [apply query_word_kw in H|apply update_word_kw in H]; congruence. }
        destruct IH as [[G H]|(a & t' & b & -> & H & G)].
        * left. split; [exact G|]. intros u [<-|Hu]; auto.
        * right. exists (t :: a), t', b. split; [reflexivity|]. split; [|exact G]. intros u [<-|Hu]; auto. }
  assert (First : forall (a : list ltoken) t b a' t' b', a ++ t :: b = a' ++ t' :: b' ->
    (forall u, In u a -> ~ operation_keyword (tk (ltok u))) -> (forall u, In u a' -> ~ operation_keyword (tk (ltok u))) ->
    operation_keyword (tk (ltok t)) -> operation_keyword (tk (ltok t')) -> t = t').
  { induction a as [|x a IH]; intros t b a' t' b' E Ha Ha' Ht Ht'; destruct a' as [|x' a']; cbn in E; injection E; intros.
    - assumption.
    - subst x'. exfalso. apply (Ha' t); [now left|assumption].
    - subst x. exfalso. apply (Ha t'); [now left|assumption].
    - eapply IH; [eassumption| | |assumption..]; intros u Hu; [apply Ha|apply Ha']; now right. }
  intros toks. unfold entry_of. destruct (K toks) as [[-> N]|(a & t & b & -> & N & [[I ->]|[I ->]])].
  - split; split; try discriminate; auto.
    intros (a & t & b & -> & _ & I). exfalso. apply (N t); [apply in_or_app; right; now left|now right].
  - split; split; try discriminate; auto.
    + intros (a' & t' & b' & E & N' & I'). exfalso. apply (keywords_disjoint (tk (ltok t))); [assumption|].
      rewrite (First _ _ _ _ _ _ E N N'); [assumption|now left|now right].
    + intros _. right. eauto 10.
  - split; split; try discriminate; auto.
    + intros _. eauto 10.
    + intros [H|(a' & t' & b' & E & N' & I')]; exfalso.
      * apply (H t); [apply in_or_app; right; now left|now right].
      * apply (keywords_disjoint (tk (ltok t))); [|assumption]. rewrite (First _ _ _ _ _ _ E N N'); [assumption|now right|now left].
Qed.
(** whitespace and comments never matter *)
Theorem C19_trivia_irrelevant : forall toks, entry_of (filter ntrivia toks) = entry_of toks.
Proof.
  intros toks. unfold entry_of. assert (E : guess_operation_type (filter ntrivia toks) = guess_operation_type toks); [|now rewrite E].
  induction toks as [|t toks IH]; [reflexivity|]. cbn [filter]. destruct (ntrivia t) eqn:E.
  - cbn [guess_operation_type]. now rewrite IH.
  - rewrite IH. cbn [guess_operation_type]. unfold ntrivia, trivia, is_trivia in E. apply negb_false_iff in E.
    destruct (tk (ltok t)); try discriminate E; reflexivity.
Qed.

(** what the first operation keyword of a word is, if any *)
Inductive opclass := ONone | OQuery | OUpdate.
Fixpoint opclass_of (w : list kind) : opclass :=
  match w with
  | [] => ONone
  | k :: r => if kind_in k query_keywords then OQuery else if kind_in k update_keywords then OUpdate else opclass_of r
  end.
Definition op_eqb (a b : opclass) : bool :=
  match a, b with ONone, ONone | OQuery, OQuery | OUpdate, OUpdate => true | _, _ => false end.
Lemma op_eqb_eq a b : op_eqb a b = true <-> a = b.
Proof. destruct a, b; cbn; split; congruence. Qed.
Lemma opclass_app u v : opclass_of (u ++ v) = match opclass_of u with ONone => opclass_of v | c => c end.
Proof. induction u as [|k u IH]; [reflexivity|]. cbn [app opclass_of]. destruct (kind_in k query_keywords); [reflexivity|]. destruct (kind_in k update_keywords); [reflexivity|exact IH]. Qed.
(** an upper bound of the classes of the words of an expression *)
Fixpoint opclasses (n : nat) (e : gexp) {struct n} : list opclass :=
  match n with
  | 0 => [ONone; OQuery; OUpdate]
  | S n =>
    match e with
    | GEps => [ONone]
    | GTok k => [opclass_of [k]]
    | GNode r => match sparql_grammar r with Some e => opclasses n e | None => [] end
    | GSeq a b => let ca := opclasses n a in
                  if existsb (op_eqb ONone) ca then filter (fun c => negb (op_eqb ONone c)) ca ++ opclasses n b else ca
    | GAlt a b => opclasses n a ++ opclasses n b
    | GOpt a | GRep a => ONone :: opclasses n a
    end
  end.
Lemma op_all c : In c [ONone; OQuery; OUpdate].
Proof. destruct c; cbn; tauto. Qed.
Lemma opclasses_sound e w : matches sparql_grammar e w -> forall n, In (opclass_of w) (opclasses n e).
Proof.
  induction 1; (intros [|n]; [apply op_all|cbn [opclasses]]).
  - now left.
  - now left.
  - rewrite H. apply IHmatches.
  - rewrite opclass_app. specialize (IHmatches1 n). destruct (existsb _ _) eqn:E.
    + rewrite in_app_iff, filter_In. destruct (opclass_of u) eqn:Eu; [right; apply IHmatches2|left; split; [assumption|reflexivity]..].
    + destruct (opclass_of u) eqn:Eu; try assumption. exfalso.
      assert (existsb (op_eqb ONone) (opclasses n a) = true) by (apply existsb_exists; exists ONone; split; [assumption|reflexivity]).
      congruence.
  - rewrite in_app_iff. left. apply IHmatches.
  - rewrite in_app_iff. right. apply IHmatches.
  - now left.
  - right. apply IHmatches.
  - now left.
  - rewrite opclass_app. destruct (opclass_of u) eqn:Eu; [apply (IHmatches2 (S n))|right; apply IHmatches1..].
Qed.
Lemma entry_of_class toks : entry_of toks = match opclass_of (kinds_of toks) with OUpdate => K_UpdateUnit | _ => K_QueryUnit end.
Proof.
  rewrite <- C19_trivia_irrelevant. unfold entry_of, kinds_of. induction (filter ntrivia toks) as [|t r IH]; [reflexivity|].
  cbn [guess_operation_type map opclass_of]. repeat destruct (kind_in _ _); auto.
Qed.
(** a grammatical query is parsed as a query *)
Theorem C19_query_recognised : forall toks,
  sentence sparql_grammar K_QueryUnit (kinds_of toks) -> entry_of toks = K_QueryUnit.
Proof.
  intros toks H. rewrite entry_of_class. pose proof (opclasses_sound _ _ H 40) as K.
  assert (E : opclasses 40 (GNode K_QueryUnit) = [OQuery; OQuery; OQuery; OQuery]) by (vm_compute; reflexivity).
  rewrite E in K. cbn in K. destruct (opclass_of _); intuition discriminate.
Qed.
(** a grammatical update that has at least one operation (is not just a prologue) is parsed as an update *)
Theorem C19_update_recognised : forall toks,
  sentence sparql_grammar K_UpdateUnit (kinds_of toks) -> ~ sentence sparql_grammar K_Prologue (kinds_of toks) ->
  entry_of toks = K_UpdateUnit.
Proof.
  intros toks H N. rewrite entry_of_class. unfold sentence in *. set (w := kinds_of toks) in *. clearbody w.
  inversion H as [| |? e ? G M| | | | | | |]; subst. injection G as <-. unfold G_UpdateUnit in M.
  inversion M as [| |? e ? G M1| | | | | | |]; subst. injection G as <-. unfold G_Update in M1.
  inversion M1 as [| | |? ? u v Hu Hv| | | | | |]; subst.
  inversion Hv as [| | | | | | |? ? Hv'| |]; subst; [rewrite app_nil_r in N; contradiction|].
  pose proof (opclasses_sound _ _ Hu 40) as Ku. pose proof (opclasses_sound _ _ Hv' 40) as Kv. rewrite opclass_app.
  assert (E : forallb (op_eqb ONone) (opclasses 40 (GNode K_Prologue)) = true) by (vm_compute; reflexivity).
  assert (E' : forallb (op_eqb OUpdate) (opclasses 40 (GSeq (GNode K_UpdateOne) (GOpt (GSeq (GTok K_Semicolon) (GNode K_Update))))) = true) by (vm_compute; reflexivity).
  rewrite forallb_forall in E, E'. apply E, op_eqb_eq in Ku. apply E', op_eqb_eq in Kv. now rewrite <- Ku, <- Kv.
Qed.
(** ** witnesses for C16, C17, C27 *)
Example C17_witness : sentence sparql_grammar K_QueryUnit (kinds_of sample) /\ no_eof sample.
Proof.
  split; [|apply no_eofb_ok; reflexivity].
  assert (R : exists gas pts f, ex_rule rule_of gas K_QueryUnit (kinds_of sample) max_fuel = Ok (pts, [], f) /\ cleans pts = true).
  { exists 500. eexists _, _. split; vm_compute; reflexivity. }
  destruct R as (gas & pts & f & E & C). pose proof (proj2 (proj2 (ex_sound gas)) _ _ _ _ _ _ E C) as D. unfold reads_as in D.
  apply denoted_grammar, derives_matches in D. fold (word (ptrees (prunes pts))) in D. rewrite word_prunes in D.
  destruct (unit_shape _ _ _ _ _ _ (or_introl eq_refl) (noeof_kinds _ (no_eofb_ok sample eq_refl)) E) as (ts & -> & _ & Hl).
  replace (kinds_of sample) with (pleavess [PNode K_QueryUnit ts]); [exact D|]. rewrite <- Hl. unfold pleavess. cbn. apply app_nil_r.
Qed.
(** INSERT DATA { } is an update and not a prologue *)
Example C19_witness : sentence sparql_grammar K_UpdateUnit (kinds_of (toks_of [K_CLEAR; K_WHITESPACE; K_ALL])) /\
  ~ sentence sparql_grammar K_Prologue (kinds_of (toks_of [K_CLEAR; K_WHITESPACE; K_ALL])).
Proof.
  change (kinds_of _) with [K_CLEAR; K_ALL]. split.
  - unfold sentence. eapply m_node; [reflexivity|]. unfold G_UpdateUnit. eapply m_node; [reflexivity|]. unfold G_Update.
    change [K_CLEAR; K_ALL] with ([] ++ [K_CLEAR; K_ALL]). apply m_seq; [eapply m_node; [reflexivity|apply m_rep_nil]|].
    apply m_opt_some. change [K_CLEAR; K_ALL] with ([K_CLEAR; K_ALL] ++ []). apply m_seq; [|apply m_opt_none].
    eapply m_node; [reflexivity|]. unfold G_UpdateOne. apply m_alt_r, m_alt_l. eapply m_node; [reflexivity|]. unfold G_Clear.
    change [K_CLEAR; K_ALL] with ([K_CLEAR] ++ [] ++ [K_ALL]). repeat first [apply m_seq|apply m_tok|apply m_opt_none].
    eapply m_node; [reflexivity|]. unfold G_GraphRefAll. repeat first [apply m_tok|apply m_alt_r].
  - intros H. pose proof (opclasses_sound _ _ H 40) as K.
    assert (E : forallb (op_eqb ONone) (opclasses 40 (GNode K_Prologue)) = true) by (vm_compute; reflexivity).
    rewrite forallb_forall in E. apply E in K. discriminate.
Qed.
