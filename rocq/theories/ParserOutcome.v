(** From runs of the parser functions to what [parse_tokens] returns. *)
From Coq Require Import List Arith Bool Lia.
Import ListNotations.
From Verif Require Import Kinds KindFacts GrammarSpec ParserSyntax GrammarData UngramData ParserModel ParserSpec ParserTree
  ParserTerm ParserChecks ParserBuild ParserLL GrammarFacts ParserComplete ParserSound.

Lemma le_res_map {A B} (f : A -> B) (x y : res A) : le_res x y -> le_res (bind x (fun a => Ok (f a))) (bind y (fun a => Ok (f a))).
Proof. intros [-> | ->]; [left; reflexivity|right; reflexivity]. Qed.

Lemma parse_tokens_ex gas entry toks :
  parse_tokens rule_of gas entry toks =
  bind (ex_rule rule_of gas entry (kinds_of toks) max_fuel)
    (fun o => Ok (match remove_empty_nodes (flats (fst (fst o))) with Some evs => build_tree toks evs | None => None end)).
Proof.
  unfold parse_tokens. cbv zeta. 
  change (map (fun t => tk (ltok t)) (filter (fun t => negb (trivia t)) toks)) with (kinds_of toks).
  rewrite run_parser_ex. destruct (ex_rule rule_of gas entry (kinds_of toks) max_fuel) as [[[ts rest] f]| | |]; reflexivity.
Qed.
Lemma parse_tokens_gas g g' entry toks : g <= g' ->
  le_res (parse_tokens rule_of g entry toks) (parse_tokens rule_of g' entry toks).
Proof. intros H. rewrite !parse_tokens_ex. apply le_res_map. now apply ex_gas. Qed.
Lemma parses_to_intro gas entry toks r : parse_tokens rule_of gas entry toks = r -> r <> NoGas -> parses_to entry toks r.
Proof. intros E H. exists gas. intros g Hg. destruct (parse_tokens_gas gas g entry toks Hg) as [K|K]; congruence. Qed.
Lemma parses_to_det entry toks r r' : parses_to entry toks r -> parses_to entry toks r' -> r = r'.
Proof. intros [N H] [N' H']. rewrite <- (H (N + N')), <- (H' (N + N')) by lia. reflexivity. Qed.
Lemma parses_to_at entry toks r : parses_to entry toks r -> exists gas, parse_tokens rule_of gas entry toks = r.
Proof. intros [N H]. exists N. now apply H. Qed.

Definition enough (n : nat) : nat := S n * (S max_fuel * S max_depth).
Lemma entry_depth entry : entry_point entry -> depth_of entry <= max_depth.
Proof. intros [-> | ->]; apply Nat.leb_le; vm_compute; reflexivity. Qed.
Lemma kinds_of_length toks : length (kinds_of toks) <= length toks.
Proof.
  unfold kinds_of. rewrite map_length. induction toks as [|t l IH]; cbn; [lia|]. destruct (ntrivia t); cbn; lia.
Qed.
Lemma enough_gas entry toks gas : entry_point entry -> enough (length toks) <= gas -> parse_tokens rule_of gas entry toks <> NoGas.
Proof.
  intros He Hg. rewrite parse_tokens_ex.
  assert (K : ex_rule rule_of gas entry (kinds_of toks) max_fuel <> NoGas).
  { apply (proj2 (proj2 (ex_terminates rule_of depth_of max_depth depth_ok ltac:(unfold max_depth; lia) gas))); [lia|].
    pose proof (entry_depth _ He) as Hd. pose proof (kinds_of_length toks) as Hl. unfold pot.
    enough (length toks * (S max_fuel * S max_depth) + S max_fuel * S max_depth <= gas) by
      (assert (length (kinds_of toks) * S max_fuel * max_depth <= length toks * (S max_fuel * S max_depth)) by (rewrite <- Nat.mul_assoc; apply Nat.mul_le_mono; [assumption|apply Nat.mul_le_mono_l; lia]);
       assert (S max_fuel * S max_depth = max_fuel * max_depth + max_depth + S max_fuel) by lia;
       rewrite Nat.mul_add_distr_r; lia).
    unfold enough in Hg. lia. }
  destruct (ex_rule rule_of gas entry (kinds_of toks) max_fuel); cbn; congruence.
Qed.

Lemma noeof_kinds toks : no_eof toks -> noeof (kinds_of toks).
Proof. intros H K. unfold kinds_of in K. apply in_map_iff in K as (t & E & K). apply filter_In in K as [K _]. now apply (H t). Qed.
Lemma unit_rule entry : entry_point entry -> exists R, rule_of entry = Some R /\ r_kind R = entry /\ r_unit R = true /\ r_escape R = None /\
  exists x, r_body R = Call x.
Proof. intros [-> | ->]; eexists; (split; [reflexivity|]); repeat split; cbn; eauto. Qed.

Lemma tskip_rest_end gas : forall rest f o, noeof rest -> tskip_rest gas rest f = Ok o -> snd (fst o) = [].
Proof.
  induction gas as [|g IH]; intros rest f o Hn H; [discriminate|]. cbn [tskip_rest] in H. inv_bind H. destruct a as [c f1].
  apply tnth_ok in E as [-> ->]. destruct (kind_eqb_spec (look rest) K_Eof) as [E|].
  - injection H as <-. now apply look_eof in E.
  - destruct rest as [|k r]; [discriminate|]. cbn [tadvance bind] in H. inv_bind H. destruct a as [[us rest2] f3]. injection H as <-.
    cbn. change rest2 with (snd (fst (us, rest2, f3))). eapply IH; [|exact E]. intros K. apply Hn. now right.
Qed.

Lemma unit_shape gas entry w pts rest f : entry_point entry -> noeof w ->
  ex_rule rule_of gas entry w max_fuel = Ok (pts, rest, f) ->
  exists ts, pts = [PNode entry ts] /\ rest = [] /\ pleavess ts = w.
Proof.
  intros He Hn H. pose proof (proj2 (proj2 (ex_reads rule_of gas)) _ _ _ _ (le_n _) H) as R.
  destruct (unit_rule _ He) as (U & EU & Ek & Eu & Ee & x & Eb). destruct gas as [|g]; [discriminate|].
  cbn [ex_rule] in H. rewrite EU, Ee, Eb, Eu, Ek in H. cbn [bind] in H.
  destruct g as [|g]; [discriminate|]. cbn [ex] in H. inv_bind H. inv_bind E. injection E as <-. destruct a0 as [[ts0 rest0] f0].
  pose proof (proj2 (proj2 (ex_reads rule_of g)) _ _ _ _ (le_n _) E0) as R0. pose proof (reads_noeof _ _ _ _ _ Hn R0) as Hn0.
  assert (K : exists ts, pts = [PNode entry ts] /\ rest = []).
  { inv_bind H. destruct a as [c f1]. apply tnth_ok in E as [-> ->]. destruct (kind_eqb_spec (look rest0) K_Eof) as [E|].
    - injection H as <- <- <-. eexists. split; [reflexivity|]. now apply look_eof.
    - inv_bind H. destruct a as [[us rest2] f3]. injection H as <- <- <-. eexists. split; [reflexivity|].
      change rest2 with (snd (fst (us, rest2, f3))). eapply tskip_rest_end; eassumption. }
  destruct K as (ts & -> & ->). exists ts. split; [reflexivity|]. split; [reflexivity|]. destruct R as (R & _).
  rewrite app_nil_r in R. rewrite R. unfold pleavess. cbn. now rewrite app_nil_r.
Qed.

(** what a run of the parser functions yields in the end *)
Theorem outcome entry toks gas : entry_point entry -> no_eof toks ->
  match ex_rule rule_of gas entry (kinds_of toks) max_fuel with
  | Ok (pts, rest, f) => exists ts cs, pts = [PNode entry ts] /\ rest = [] /\ pleavess ts = kinds_of toks /\
      parse_tokens rule_of gas entry toks = Ok (Some (GNodeT entry cs, map (mkerr toks) (perrss 0 (prunes ts)))) /\
      gtokenss cs = map ltok toks /\ gstrips cs = ptrees (prunes ts)
  | PanicStuck => parse_tokens rule_of gas entry toks = PanicStuck
  | PanicAssert => False
  | NoGas => parse_tokens rule_of gas entry toks = NoGas
  end.
Proof.
  intros He Hn. apply noeof_kinds in Hn.
  destruct (ex_rule rule_of gas entry (kinds_of toks) max_fuel) as [[[pts rest] f]| | |] eqn:E.
  - destruct (unit_shape _ _ _ _ _ _ He Hn E) as (ts & -> & -> & Hl).
    rewrite parse_tokens_ex, E. cbn [bind fst].
    assert (F : flats [PNode entry ts] = flat (PNode entry ts)) by (unfold flats; cbn [flat_map]; apply app_nil_r).
    rewrite F, remove_empty_nodes_root.
    assert (Hp : kinds_of toks = pleavess (prunes ts)).
    { rewrite <- Hl. clear. unfold pleavess, prunes.
      assert (K : forall t, flat_map pleaves (prune t) = pleaves t).
      { induction t as [k|k l IH|e] using ptree_rect'; try reflexivity.
        assert (K : flat_map pleaves (flat_map prune l) = flat_map pleaves l).
        { induction IH as [|t l Ht _ IHl]; [reflexivity|]. cbn. now rewrite flat_map_app, Ht, IHl. }
        cbn [prune pleaves]. destruct (flat_map pleaves l) eqn:El; [exact K|]. cbn. now rewrite app_nil_r, K, <- El. }
      induction ts as [|t ts IH]; [reflexivity|]. cbn. now rewrite flat_map_app, K, IH. }
    destruct (build_tree_root toks entry (prunes ts)) as (cs & -> & T & S).
    { destruct He as [-> | ->]; reflexivity. } { exact Hp. }
    exists ts, cs. repeat split; assumption.
  - rewrite parse_tokens_ex, E. reflexivity.
  - revert E. apply (proj2 (proj2 (ex_noassert rule_of calls_rule_ok gas))); [lia|exact Hn|].
    destruct (unit_rule _ He) as (U & -> & _). discriminate.
  - rewrite parse_tokens_ex, E. reflexivity.
Qed.

(** a returned tree comes from a run *)
Lemma returns_run entry toks g errs : entry_point entry -> no_eof toks -> returns entry toks g errs ->
  exists gas ts cs f, ex_rule rule_of gas entry (kinds_of toks) max_fuel = Ok ([PNode entry ts], [], f) /\
    g = GNodeT entry cs /\ errs = map (mkerr toks) (perrss 0 (prunes ts)) /\ pleavess ts = kinds_of toks /\
    gtokenss cs = map ltok toks /\ gstrips cs = ptrees (prunes ts).
Proof.
  intros He Hn H. apply parses_to_at in H as [gas H]. pose proof (outcome entry toks gas He Hn) as O.
  destruct (ex_rule rule_of gas entry (kinds_of toks) max_fuel) as [[[pts rest] f]| | |] eqn:E; try (rewrite O in H; discriminate); [|destruct O].
  destruct O as (ts & cs & -> & -> & Hl & P & T & S). rewrite P in H. injection H as <- <-. exists gas, ts, cs, f. repeat split; assumption.
Qed.

(** ** nodes of the returned tree *)
Section GreenInd.
  Context (P : green -> Prop).
  Hypothesis Htok : forall t, P (GToken t).
  Hypothesis Hnode : forall k cs, Forall P cs -> P (GNodeT k cs).
  Fixpoint green_rect' (g : green) : P g :=
    match g with
    | GToken t => Htok t
    | GNodeT k cs => Hnode k cs ((fix go l : Forall P l :=
        match l with [] => Forall_nil P | t :: r => Forall_cons t (green_rect' t) (go r) end) cs)
    end.
End GreenInd.
Section TreeInd.
  Context (P : tree -> Prop).
  Hypothesis Htok : forall t, P (Leaf t).
  Hypothesis Hnode : forall k cs, Forall P cs -> P (Node k cs).
  Fixpoint tree_rect' (g : tree) : P g :=
    match g with
    | Leaf t => Htok t
    | Node k cs => Hnode k cs ((fix go l : Forall P l :=
        match l with [] => Forall_nil P | t :: r => Forall_cons t (tree_rect' t) (go r) end) cs)
    end.
End TreeInd.

(** [sub k us t]: the node [k us] occurs in [t] *)
Inductive sub (k : kind) (us : list tree) : tree -> Prop :=
| sub_here : sub k us (Node k us)
| sub_child : forall k' ts t, In t ts -> sub k us t -> sub k us (Node k' ts).

Lemma below_cases g k cs0 : below g (GNodeT k cs0) <-> exists k' cs c, g = GNodeT k' cs /\ In c cs /\ (c = GNodeT k cs0 \/ below c (GNodeT k cs0)).
Proof.
  split.
  - inversion 1; subst; eauto 10.
  - intros (k' & cs & c & -> & Hc & [-> | Hb]); [now constructor|eapply below_deeper; eassumption].
Qed.
Lemma in_gstrips t cs : In t (gstrips cs) <-> exists c, In c cs /\ In t (gstrip c).
Proof. unfold gstrips. apply in_flat_map. Qed.
Lemma below_sub g : forall k cs0, below g (GNodeT k cs0) ->
  forall k' cs, g = GNodeT k' cs -> exists t, In t (gstrips cs) /\ sub k (gstrips cs0) t.
Proof.
  induction g as [t|kg gcs IH] using green_rect'; intros k cs0 H k' cs E; [discriminate|]. injection E as <- <-.
  apply below_cases in H as (k1 & cs1 & c & E & Hc & H). injection E as <- <-.
  rewrite Forall_forall in IH. destruct H as [-> | H].
  - exists (Node k (gstrips cs0)). split; [|constructor]. apply in_gstrips. exists (GNodeT k cs0). split; [assumption|now left].
  - destruct c as [t|kc cs2]; [inversion H|]. destruct (IH _ Hc k cs0 H kc cs2 eq_refl) as (t & Ht & S).
    exists (Node kc (gstrips cs2)). split; [apply in_gstrips; exists (GNodeT kc cs2); split; [assumption|now left]|].
    eapply sub_child; eassumption.
Qed.
Lemma sub_below g : forall k us t k' cs, g = GNodeT k' cs -> In t (gstrips cs) -> sub k us t ->
  exists cs0, below g (GNodeT k cs0) /\ gstrips cs0 = us.
Proof.
  induction g as [t0|kg gcs IH] using green_rect'; intros k us t k' cs E Ht S; [discriminate|]. injection E as <- <-.
  rewrite Forall_forall in IH. apply in_gstrips in Ht as (c & Hc & Ht). destruct c as [tt|kc cs2].
  - cbn in Ht. destruct (is_trivia (tk tt)); [destruct Ht|]. destruct Ht as [<-|[]]. inversion S.
  - cbn in Ht. destruct Ht as [<-|[]]. fold (gstrips cs2) in *. inversion S as [Ek|k2 ts2 t2 Hin Hs]; subst.
    + exists cs2. split; [now constructor|reflexivity].
    + destruct (IH _ Hc k us t2 kc cs2 eq_refl Hin Hs) as (cs0 & B & E). exists cs0. split; [|assumption]. eapply below_deeper; eassumption.
Qed.

(** leaves of a stripped tree are its significant tokens *)
Lemma leaves_gstrip g : flat_map leaves (gstrip g) = map tk (filter (fun t => negb (is_trivia (tk t))) (gtokens g)).
Proof.
  induction g as [t|k cs IH] using green_rect'; cbn.
  - destruct (is_trivia (tk t)); reflexivity.
  - rewrite app_nil_r. induction IH as [|c cs Hc _ IHl]; [reflexivity|]. cbn. rewrite flat_map_app, filter_app, map_app, Hc, IHl. reflexivity.
Qed.

(** every node of a pruned forest has a leaf *)
Lemma prune_full t : forall u k us, In u (ptrees (prune t)) -> sub k us u -> flat_map leaves us <> [].
Proof.
  induction t as [k0|k0 ts IH|e] using ptree_rect'; intros u k us Hu S.
  - destruct Hu as [<-|[]]. inversion S.
  - rewrite Forall_forall in IH.
    assert (K : forall u, In u (ptrees (prunes ts)) -> sub k us u -> flat_map leaves us <> []).
    { intros u' Hu' S'. unfold ptrees, prunes in Hu'. apply in_flat_map in Hu' as (p & Hp & Hu'). apply in_flat_map in Hp as (t & Ht & Hp).
      eapply (IH t Ht u'); [|exact S']. unfold ptrees. apply in_flat_map. eauto. }
    cbn [prune] in Hu. fold (prunes ts) (pleavess ts) in Hu. destruct (pleavess ts) eqn:E; [now apply (K u)|].
    cbn in Hu. destruct Hu as [<-|[]]. fold (ptrees (prunes ts)) in S. inversion S as [Ek|k2 ts2 t2 Hin Hs]; subst.
    + fold (word (ptrees (prunes ts))). rewrite word_prunes, E. discriminate.
    + now apply (K t2).
  - destruct Hu.
Qed.
Lemma prunes_full ts u k us : In u (ptrees (prunes ts)) -> sub k us u -> flat_map leaves us <> [].
Proof.
  intros Hu' S'. unfold ptrees, prunes in Hu'. apply in_flat_map in Hu' as (p & Hp & Hu'). apply in_flat_map in Hp as (t & Ht & Hp).
  eapply (prune_full t u); [|exact S']. unfold ptrees. apply in_flat_map. eauto.
Qed.

(** ** clean trees have no errors and no error nodes, and conversely *)
Lemma perrs_node n k ts : perrs n (PNode k ts) = perrss n ts.
Proof. cbn. revert n. induction ts as [|t ts IH]; intros n; [reflexivity|]. cbn. now rewrite IH. Qed.
Lemma clean_spec t : clean t = true <-> (forall n, perrs n t = []) /\ (forall u us, In u (ptree_tree t) -> ~ sub K_Error us u).
Proof.
  induction t as [k|k ts IH|e] using ptree_rect'; cbn [clean].
  - split; [intros _|reflexivity]. split; [reflexivity|]. intros u us [<-|[]] S. inversion S.
  - assert (K : forallb clean ts = true <-> (forall n, perrss n ts = []) /\ (forall u us, In u (ptrees ts) -> ~ sub K_Error us u)).
    { induction IH as [|t ts Ht _ IHl]; cbn [forallb perrss ptrees flat_map].
      - split; [intros _|reflexivity]. split; [reflexivity|]. intros u us [].
      - rewrite andb_true_iff, Ht, IHl. split.
        + intros [[A B] [C D]]. split; [intros n; rewrite A, C; reflexivity|]. intros u us Hu. apply in_app_or in Hu as [Hu|Hu]; eauto.
        + intros [A B]. split; split.
          * intros n. specialize (A n). now apply app_eq_nil in A.
          * intros u us Hu. apply B. apply in_or_app. now left.
          * intros n. destruct (Nat.le_gt_cases (length (pleaves t)) n) as [Hle|Hlt].
            -- specialize (A (n - length (pleaves t))). apply app_eq_nil in A as [_ A]. replace (n - length (pleaves t) + length (pleaves t)) with n in A by lia. exact A.
            -- assert (M : forall m n l, perrss m l = [] -> perrss n l = []).
               { clear. assert (Q : forall t m n, perrs m t = [] -> perrs n t = []).
                 { induction t as [k|k ts IH|e] using ptree_rect'; intros m n; [reflexivity| |discriminate]. rewrite !perrs_node.
                   revert m n. induction IH as [|t ts Ht _ IHl]; intros m n; [reflexivity|]. cbn. intros H. apply app_eq_nil in H as [H1 H2].
                   rewrite (Ht _ n H1), (IHl _ (n + length (pleaves t)) H2). reflexivity. }
                 intros m n l. revert m n. induction l as [|t l IHl]; intros m n; [reflexivity|]. cbn. intros H. apply app_eq_nil in H as [H1 H2].
                 rewrite (Q _ _ n H1), (IHl _ (n + length (pleaves t)) H2). reflexivity. }
               specialize (A 0). apply app_eq_nil in A as [_ A]. exact (M _ _ _ A).
          * intros u us Hu. apply B. apply in_or_app. now right. }
    rewrite andb_true_iff, K. setoid_rewrite perrs_node. cbn [ptree_tree]. fold (ptrees ts). split.
    + intros [Hk [A B]]. split; [exact A|]. intros u us [<-|[]] S. inversion S; subst.
      * rewrite kind_eqb_refl in Hk. discriminate.
      * eapply B; eassumption.
    + intros [A B]. split; [|split; [exact A|]].
      * destruct (kind_eqb_spec k K_Error) as [->|]; [|reflexivity]. exfalso. apply (B (Node K_Error (ptrees ts)) (ptrees ts)); [now left|constructor].
      * intros u us Hu S. apply (B (Node k (ptrees ts)) us); [now left|]. eapply sub_child; eassumption.
  - split; [discriminate|]. intros [A _]. specialize (A 0). discriminate.
Qed.
Lemma cleans_spec ts : cleans ts = true <-> perrss 0 ts = [] /\ (forall u us, In u (ptrees ts) -> ~ sub K_Error us u).
Proof.
  assert (E : clean (PNode K_QueryUnit ts) = cleans ts) by reflexivity.
  rewrite <- E, clean_spec. setoid_rewrite perrs_node. cbn [ptree_tree]. fold (ptrees ts). split.
  - intros [A B]. split; [apply A|]. intros u us Hu S. apply (B (Node K_QueryUnit (ptrees ts)) us); [now left|]. eapply sub_child; eassumption.
  - intros [A B]. split.
    + intros n. assert (Q : forall t m n, perrs m t = [] -> perrs n t = []).
      { induction t as [k0|k0 l IH|e] using ptree_rect'; intros m n0; [reflexivity| |discriminate]. rewrite !perrs_node.
        revert m n0. induction IH as [|t l Ht _ IHl]; intros m n0; [reflexivity|]. cbn. intros H. apply app_eq_nil in H as [H1 H2].
        rewrite (Ht _ n0 H1), (IHl _ (n0 + length (pleaves t)) H2). reflexivity. }
      rewrite <- (perrs_node n K_Error). apply (Q _ 0). now rewrite perrs_node.
    + intros u us [<-|[]] S. inversion S; subst. eapply B; eassumption.
Qed.
Lemma no_error_node k cs : (forall u us, In u (gstrips cs) -> ~ sub K_Error us u) <-> ~ has_error_node (GNodeT k cs).
Proof.
  split.
  - intros H [cs0 B]. destruct (below_sub _ _ _ B _ _ eq_refl) as (t & Ht & S). eapply H; eassumption.
  - intros H u us Hu S. apply H. destruct (sub_below _ _ _ _ k cs eq_refl Hu S) as (cs0 & B & _). now exists cs0.
Qed.

(** ** error positions *)
Lemma tiles_In toks : forall from t, tiles from toks -> In t toks -> from <= lstart t /\ lstart t <= lend t /\ lend t <= from + length (text_of toks).
Proof.
  induction toks as [|x l IH]; intros from t; [intros _ []|]. cbn [tiles]. intros (A & B & C) [->|H].
  - unfold text_of. cbn. rewrite app_length. lia.
  - apply IH with (t := t) in C; [|assumption]. unfold text_of in *. cbn. rewrite app_length. lia.
Qed.
