(** What the nodes of a document's syntax tree look like: each is the placed result of a run of its rule. *)
From Coq Require Import String List Arith NArith Bool Lia.
Import ListNotations.
From Verif Require Import Kinds KindFacts ParserSyntax ParserModel GrammarData ParserTree ParserTerm ParserBuild ParserSpec ParserChecks ParserOutcome
  TextModel Utf8Model LexerModel LexerSpec LexerProps FormatData FormatModel FormatTree FormatText FormatParse TreePlace TreeModel.

Inductive every (Q : kind -> list ptree -> Prop) : ptree -> Prop :=
| every_leaf k : every Q (PLeaf k)
| every_err e : every Q (PErr e)
| every_node k ts : Q k ts -> Forall (every Q) ts -> every Q (PNode k ts).
Definition is_pleaf (t : ptree) : Prop := exists k, t = PLeaf k.
(** the children [ts] of a node of kind [k] come from a run of its rule *)
Definition ran (k : kind) (ts : list ptree) : Prop :=
  (k = K_Error /\ Forall is_pleaf ts) \/
  exists R gas rest f ret us rest' f', rule_of k = Some R /\ ex rule_of gas (r_body R) rest f = Ok (ret, (us, rest', f')) /\
    (ts = us \/ (r_unit R = true /\ exists js, ts = us ++ [PNode K_Error js])).
Definition inner_ran (k : kind) (ts : list ptree) : Prop := inner k = true /\ ran k ts.
Definition evs := Forall (every inner_ran).

Lemma evs_nil : evs [].
Proof. constructor. Qed.
Lemma evs_app a b : evs a -> evs b -> evs (a ++ b).
Proof. intros H1 H2. apply Forall_app. split; assumption. Qed.
Lemma evs_err e : evs [PErr e].
Proof. constructor; [apply every_err|constructor]. Qed.
Lemma evs_leaf k : evs [PLeaf k].
Proof. constructor; [apply every_leaf|constructor]. Qed.
Lemma leaves_evs ts : Forall is_pleaf ts -> evs ts.
Proof. apply Forall_impl. intros t [k ->]. apply every_leaf. Qed.
Lemma evs_junk ts : Forall is_pleaf ts -> evs [PNode K_Error ts].
Proof. intros H. constructor; [|constructor]. apply every_node; [|apply leaves_evs, H]. split; [reflexivity|]. left. split; [reflexivity|exact H]. Qed.

Lemma tskip_junk_leaves gas stop : forall rest f o, tskip_junk gas stop rest f = Ok o -> Forall is_pleaf (fst (fst o)).
Proof.
  induction gas as [|g IH]; intros rest f o H; [discriminate|]. cbn [tskip_junk] in H. inv_bind H. destruct a as [c f1].
  destruct (kind_in c stop); [injection H as <-; constructor|]. destruct rest as [|k r]; [injection H as <-; constructor|].
  inv_bind H. destruct a as [[us rest2] f3]. injection H as <-. apply IH in E0. constructor; [eexists; reflexivity|exact E0].
Qed.
Lemma tskip_rest_leaves gas : forall rest f o, tskip_rest gas rest f = Ok o -> Forall is_pleaf (fst (fst o)).
Proof.
  induction gas as [|g IH]; intros rest f o H; [discriminate|]. cbn [tskip_rest] in H. inv_bind H. destruct a as [c f1].
  destruct (kind_eqb c K_Eof); [injection H as <-; constructor|]. inv_bind H. destruct a as [k r].
  inv_bind H. destruct a as [[us rest2] f3]. injection H as <-. apply IH in E1. constructor; [eexists; reflexivity|exact E1].
Qed.
Lemma texpect_evs k rest f o : texpect k rest f = Ok o -> evs (fst (fst o)).
Proof.
  intros H. unfold texpect in H. inv_bind H. destruct a as [c f1]. destruct (kind_eqb c k); [inv_bind H; destruct a; injection H as <-; apply evs_leaf|injection H as <-; apply evs_err].
Qed.
Lemma tawe_evs e rest f o : tawe e rest f = Ok o -> evs (fst (fst o)).
Proof.
  intros H. unfold tawe in H. inv_bind H. destruct a as [c f1]. destruct (kind_in c recovery_tokens); [injection H as <-; apply evs_err|inv_bind H; destruct a; injection H as <-].
  apply (evs_app [_] [_]); [apply evs_err|apply evs_junk]. constructor; [eexists; reflexivity|constructor].
Qed.
Lemma terror_until_evs g e stop rest f o : terror_until g e stop rest f = Ok o -> evs (fst (fst o)).
Proof.
  intros H. unfold terror_until in H. inv_bind H. destruct a as [c f1]. destruct (_ || _); [injection H as <-; apply evs_err|].
  inv_bind H. destruct a as [[us rest2] f3]. apply tskip_junk_leaves in E0. injection H as <-. apply (evs_app [_] [_]); [apply evs_err|apply evs_junk, E0].
Qed.
Lemma ex_every gas :
  (forall s rest f ret o, calls_ok called s = true -> ex rule_of gas s rest f = Ok (ret, o) -> evs (fst (fst o))) /\
  (forall a c rest f ret o, calls_ok_arms called a = true -> ex_arms rule_of gas c a rest f = Ok (ret, o) -> evs (fst (fst o))) /\
  (forall r rest f o, ex_rule rule_of gas r rest f = Ok o ->
     Forall (fun t => exists k ts, t = PNode k ts /\ (k = r \/ k = K_Error) /\ ran k ts /\ evs ts) (fst (fst o))).
Proof.
  induction gas as [|g (IHs & IHa & IHr)]; [split; [|split]; intros; discriminate|]. split; [|split].
  - intros s rest f ret o Hc H. destruct s; cbn [ex calls_ok] in H, Hc.
    + injection H as <- <-. apply evs_nil.
    + apply andb_prop in Hc as [Hc1 Hc2]. inv_bind H. destruct a as [ret1 [[ts1 rest1] f1]]. apply IHs in E; [|assumption].
      destruct ret1; [injection H as <- <-; exact E|].
      inv_bind H. destruct a as [ret2 [[ts2' rest2] f2]]. injection H as <- <-. apply IHs in E0; [|assumption]. cbn [fst] in *. apply evs_app; assumption.
    + inv_bind H. injection H as <- <-. now apply texpect_evs in E.
    + inv_bind H. injection H as <- <-. apply IHr in E. unfold called in Hc. destruct (inner r) eqn:I; [|discriminate].
      eapply Forall_impl; [|exact E]. intros t (k & ts & -> & Hk & Hr & Hn). apply every_node; [|exact Hn]. split; [|exact Hr].
      destruct Hk as [-> | ->]; [exact I|reflexivity].
    + inv_bind H. destruct a as [c f1]. destruct (kind_in _ _); [now apply IHs in H|]. injection H as <- <-. apply evs_nil.
    + inv_bind H. destruct a as [c f1]. destruct (negb _ && _); [inv_bind H; injection H as <- <-; now apply terror_until_evs in E0|]. injection H as <- <-. apply evs_nil.
    + inv_bind H. destruct a as [c f1]. destruct (kind_in _ _); [|injection H as <- <-; apply evs_nil].
      inv_bind H. destruct a as [ret1 [[ts1 rest1] f1']]. apply IHs in E0; [|assumption].
      destruct ret1; [injection H as <- <-; exact E0|].
      destruct (length rest1 =? length rest); [injection H as <- <-; exact E0|].
      inv_bind H. destruct a as [ret2 [[ts2' rest2] f2]]. injection H as <- <-. apply IHs in E1; [|assumption]. cbn [fst] in *. apply evs_app; assumption.
    + inv_bind H. destruct a0 as [c f1]. now apply IHa in H.
  - intros a c rest f ret o Hc H. destruct a; cbn [ex_arms calls_ok_arms] in H, Hc.
    + apply andb_prop in Hc as [Hc1 Hc2]. destruct (kind_in _ _); [now apply IHs in H|now apply IHa in H].
    + destruct (kind_eqb _ _); [injection H as <- <-; apply evs_nil|]. inv_bind H. injection H as <- <-. unfold tdflt in E.
      destruct d; [injection E as <-; apply evs_nil|now apply tawe_evs in E].
  - intros r rest f o H. cbn [ex_rule] in H. destruct (rule_of r) as [R|] eqn:ER; [|discriminate].
    pose proof (called_ok _ _ ER) as Hc. pose proof (rule_kind_ok _ _ ER) as Ek. rewrite Ek in H.
    inv_bind H. destruct a as [go f0]. clear E.
    destruct go; [|injection H as <-; constructor].
    inv_bind H. destruct a as [ret [[ts rest1] f1]]. pose proof E as E'. apply IHs in E'; [|exact Hc]. cbn [fst] in E'.
    assert (ran r ts) as Hran by (right; exists R, g, rest, f0, ret, ts, rest1, f1; split; [exact ER|]; split; [exact E|left; reflexivity]).
    destruct ret.
    { injection H as <-. apply Forall_cons; [exists r, ts; auto|]. apply Forall_cons; [|constructor]. exists K_Error, []. split; [reflexivity|]. split; [auto|]. split; [|apply evs_nil].
      left. split; [reflexivity|constructor]. }
    destruct (r_unit R) eqn:U.
    + inv_bind H. destruct a as [c f2]. destruct (kind_eqb _ _).
      * injection H as <-. apply Forall_cons; [exists r, ts; auto|constructor].
      * inv_bind H. destruct a as [[us rest2] f3]. injection H as <-. apply tskip_rest_leaves in E1. cbn [fst] in E1.
        apply Forall_cons; [|constructor]. exists r, (ts ++ [PNode K_Error us]). split; [reflexivity|]. split; [auto|]. split.
        -- right. exists R, g, rest, f0, false, ts, rest1, f1. split; [exact ER|]. split; [exact E|]. right. split; [exact U|]. exists us. reflexivity.
        -- apply evs_app; [exact E'|apply evs_junk, E1].
    + injection H as <-. apply Forall_cons; [exists r, ts; auto|constructor].
Qed.

(** after pruning *)
Definition node_ok (k : kind) (ts : list ptree) : Prop := inner k = true /\ exists us, ran k us /\ pleavess us <> [] /\ ts = prunes us.
Lemma prune_every t : every inner_ran t -> Forall (every node_ok) (prune t).
Proof.
  induction t as [k|k ts IH|e] using ptree_rect'; intros H.
  - cbn. constructor; [apply every_leaf|constructor].
  - inversion H; subst. assert (K : Forall (every node_ok) (flat_map prune ts)).
    { clear H H2. induction IH as [|t l Ht _ IHl]; [constructor|]. inversion H3; subst. cbn [flat_map]. apply Forall_app. split; [apply Ht; assumption|apply IHl; assumption]. }
    cbn [prune]. destruct (flat_map pleaves ts) eqn:L; [exact K|]. constructor; [|constructor]. apply every_node; [|exact K].
    destruct H2 as [Hi Hr]. split; [exact Hi|]. exists ts. split; [exact Hr|]. split; [unfold pleavess; rewrite L; discriminate|reflexivity].
  - cbn. constructor; [apply every_err|constructor].
Qed.
Lemma prunes_every ts : evs ts -> Forall (every node_ok) (prunes ts).
Proof. induction 1 as [|t l H _ IH]; [constructor|]. cbn [prunes flat_map]. apply Forall_app. split; [apply prune_every, H|exact IH]. Qed.
Lemma pleavess_prunes ts : pleavess (prunes ts) = pleavess ts.
Proof.
  unfold pleavess, prunes.
  assert (K : forall t, flat_map pleaves (prune t) = pleaves t).
  { induction t as [k|k l IH|e] using ptree_rect'; try reflexivity.
    assert (K : flat_map pleaves (flat_map prune l) = flat_map pleaves l).
    { induction IH as [|t l Ht _ IHl]; [reflexivity|]. cbn. now rewrite flat_map_app, Ht, IHl. }
    cbn [prune pleaves]. destruct (flat_map pleaves l) eqn:El; [exact K|]. cbn. now rewrite app_nil_r, K, <- El. }
  induction ts as [|t ts IH]; [reflexivity|]. cbn. now rewrite flat_map_app, K, IH.
Qed.

(** ** placed nodes *)
Inductive all_nodes (P : kind -> list tree -> Prop) : tree -> Prop :=
| all_tok k w : all_nodes P (Tok k w)
| all_node k cs : P k cs -> Forall (all_nodes P) cs -> all_nodes P (Node k cs).
Definition leads (l : list lexeme) : Prop := match l with x :: _ => is_trivia (lkind x) = false | [] => True end.
Definition placed_node (k : kind) (cs : list tree) : Prop :=
  exists us l rest, inner k = true /\ ran k us /\ pleavess us <> [] /\ leads l /\ seen l = pleavess us ++ rest /\ cs = fst (tplaces (prunes us) l).
Lemma all_leaves P (u : list lexeme) : Forall (all_nodes P) (map tok u).
Proof. induction u as [|x u IH]; constructor; [apply all_tok|exact IH]. Qed.
Lemma inner_unit k : inner k = true -> is_unit k = false.
Proof. destruct k; intros H; first [discriminate H|reflexivity]. Qed.
Definition places_ok (pl : list lexeme -> list tree * list lexeme) (leaves : list kind) : Prop :=
  forall l rest, seen l = leaves ++ rest -> Forall (all_nodes placed_node) (fst (pl l)) /\ seen (snd (pl l)) = rest.
Lemma places_ok_forest ts : Forall (fun t => places_ok (tplace t) (pleaves t)) ts -> places_ok (tplaces ts) (pleavess ts).
Proof.
  induction 1 as [|t ts Ht _ IH]; intros l rest Hs.
  - split; [constructor|exact Hs].
  - unfold tplaces. cbn [places]. fold tplace tplaces. change (pleavess (t :: ts)) with (pleaves t ++ pleavess ts) in Hs. rewrite <- app_assoc in Hs.
    destruct (Ht _ _ Hs) as [A1 S1]. destruct (tplace t l) as [a n]. cbn [fst snd] in *. destruct (IH _ _ S1) as [A2 S2]. destruct (tplaces ts n) as [b m].
    cbn [fst snd] in *. split; [apply Forall_app; split; assumption|exact S2].
Qed.
Lemma places_ok_tree t : every node_ok t -> places_ok (tplace t) (pleaves t).
Proof.
  induction t as [k|k ts IH|e] using ptree_rect'; intros H l rest Hs.
  - unfold tplace, place. destruct (split_trivia_spec lkind l) as (u & n & -> & -> & F & Hn). unfold seen in Hs. rewrite sig_app, (sig_trivia _ u F) in Hs. cbn [app pleaves] in Hs.
    destruct n as [|x n]; [discriminate|]. rewrite sig_cons in Hs by exact Hn. injection Hs as _ Hs. cbn [fst snd]. split; [|exact Hs].
    apply Forall_app. split; [apply all_leaves|]. constructor; [apply all_tok|constructor].
  - inversion H; subst. destruct H2 as (Hi & us & Hr & Hl & ->).
    assert (places_ok (tplaces (prunes us)) (pleavess (prunes us))) as Hf.
    { apply places_ok_forest. clear -IH H3. induction IH as [|t l Ht _ IHl]; [constructor|]. inversion H3; subst. constructor; [apply Ht; assumption|apply IHl; assumption]. }
    unfold tplace. rewrite place_node. fold tplaces. rewrite (inner_unit _ Hi). destruct (split_trivia_spec lkind l) as (u & n & -> & -> & F & Hn).
    unfold seen in Hs. rewrite sig_app, (sig_trivia _ u F) in Hs. cbn [app pleaves] in Hs. destruct (Hf n rest Hs) as [A S].
    destruct (tplaces (prunes us) n) as [cs m] eqn:E. cbn [fst snd] in *. split; [|exact S]. apply Forall_app. split; [apply all_leaves|].
    constructor; [|constructor]. apply all_node; [|exact A]. exists us, n, rest. split; [exact Hi|]. split; [exact Hr|]. split; [exact Hl|]. split; [exact Hn|].
    split; [rewrite <- (pleavess_prunes us); exact Hs|]. rewrite E. reflexivity.
  - split; [constructor|exact Hs].
Qed.
Theorem doc_tree_nodes err t x : doc_tree err t x -> exists k cs, x = Node k cs /\ unit_kind k = true /\ Forall (all_nodes placed_node) cs.
Proof.
  intros H. destruct (doc_tree_run _ _ _ H) as (ts & (gas & f & E) & L & ->). exists (entry_for (lex err t)), (placed lkind tok Node (prunes ts) (lex err t)).
  split; [reflexivity|]. split; [destruct (entry_of_unit (with_spans 0 (lex err t))) as [U|U]; unfold entry_for; rewrite U; reflexivity|].
  apply (proj2 (proj2 (ex_every gas))) in E. cbn [fst] in E. inversion E as [|? ? (k & us & Ek & _ & _ & Ev) _]; subst. injection Ek as _ <-.
  apply prunes_every in Ev. unfold placed. fold tplaces.
  assert (places_ok (tplaces (prunes ts)) (pleavess (prunes ts))) as Hf by (apply places_ok_forest; eapply Forall_impl; [|exact Ev]; apply places_ok_tree).
  destruct (Hf (lex err t) []) as [A S]. { rewrite app_nil_r, pleavess_prunes. symmetry. exact L. }
  destruct (tplaces (prunes ts) (lex err t)) as [cs n]. apply Forall_app. split; [exact A|apply all_leaves].
Qed.
Lemma all_nodes_at P x : all_nodes P x -> forall p k cs, at_path x p = Some (Node k cs) -> P k cs.
Proof.
  induction x as [k w|k cs IH] using tree_ind'; intros H p k' cs' E.
  - destruct p; discriminate.
  - inversion H as [|? ? HP HF]; subst. destruct p as [|i p]; [injection E as <- <-; assumption|]. cbn in E. destruct (nth_error cs i) as [c|] eqn:C; [|discriminate].
    apply nth_error_In in C. rewrite Forall_forall in IH, HF. eapply IH; [exact C|apply HF, C|exact E].
Qed.
(** every node but the root is placed *)
Theorem doc_node_at err t x p k cs : doc_tree err t x -> p <> [] -> at_path x p = Some (Node k cs) -> placed_node k cs.
Proof.
  intros H Hp E. destruct (doc_tree_nodes _ _ _ H) as (k0 & ds & -> & _ & F). destruct p as [|i p]; [congruence|]. cbn in E.
  destruct (nth_error ds i) as [c|] eqn:C; [|discriminate]. apply nth_error_In in C. rewrite Forall_forall in F. eapply all_nodes_at; [apply F, C|exact E].
Qed.

(** ** the nodes of variables *)
Lemma var_run gas rest f ret us rest' f' : ex rule_of gas (r_body parse_Var) rest f = Ok (ret, (us, rest', f')) ->
  us = [PLeaf K_VAR1] \/ us = [PLeaf K_VAR2] \/ (exists e c, us = [PErr e; PNode K_Error [PLeaf c]]) \/ pleavess us = [].
Proof.
  cbn [r_body parse_Var]. destruct gas as [|g]; [discriminate|]. intros H. cbn [ex] in H. inv_bind H. destruct a as [c f1].
  unfold tnth in E. destruct f; [discriminate|]. injection E as Ec _. subst c.
  assert (forall g k o, kind_in (look rest) [k] = true -> ex rule_of g (Expect k) rest f1 = Ok o -> fst (fst (snd o)) = [PLeaf k]) as He.
  { intros g0 k o Hk Ho. destruct g0; [discriminate|]. cbn [ex] in Ho. inv_bind Ho. injection Ho as <-. cbn [snd]. unfold texpect in E. inv_bind E. destruct a0 as [c f2].
    unfold tnth in E0. destruct f1; [discriminate|]. injection E0 as <- _. apply kind_in_In in Hk. destruct Hk as [Hk|[]]. rewrite <- Hk, kind_eqb_refl in E. inv_bind E. destruct a0 as [c r].
    injection E as <-. destruct rest; [discriminate|]. injection E0 as <- <-. cbn in Hk. subst. reflexivity. }
  destruct g as [|g]; [discriminate|]. cbn [ex_arms] in H. destruct (kind_in (look rest) [K_VAR1]) eqn:K1.
  { left. apply (He _ _ _ K1) in H. exact H. }
  destruct g as [|g]; [discriminate|]. cbn [ex_arms] in H. destruct (kind_in (look rest) [K_VAR2]) eqn:K2.
  { right. left. apply (He _ _ _ K2) in H. exact H. }
  right. right. destruct g as [|g]; [discriminate|]. cbn [ex_arms] in H. destruct (kind_eqb (look rest) K_Eof).
  { injection H as <- <- <-. right. reflexivity. }
  inv_bind H. injection H as <- ->. unfold tdflt, tawe in E. inv_bind E. destruct a as [c f2]. destruct (kind_in c recovery_tokens).
  - injection E as <- <- <-. right. reflexivity.
  - inv_bind E. destruct a as [c' r]. injection E as <- <- <-. left. eauto.
Qed.
Theorem var_node k cs : placed_node k cs -> k = K_Var ->
  (exists kw w, cs = [Tok kw w] /\ (kw = K_VAR1 \/ kw = K_VAR2)) \/ (exists kw w, cs = [Node K_Error [Tok kw w]]).
Proof.
  intros (us & l & rest & _ & Hr & Hl & Hd & Hs & ->) ->. destruct Hr as [[E _]|(R & gas & rest0 & f & ret & us' & rest' & f' & ER & E & Hus)]; [discriminate|].
  injection ER as <-. destruct Hus as [->|[U _]]; [|discriminate]. apply var_run in E.
  assert (forall c, l <> [] -> exists kw w n, l = (kw, w) :: n /\ is_trivia kw = false /\ tplaces [PLeaf c] l = ([Tok kw w], n)) as H1.
  { intros c Hne. destruct l as [|[kw w] n]; [congruence|]. cbn [leads] in Hd. exists kw, w, n. split; [reflexivity|]. split; [exact Hd|].
    unfold tplaces, places, place. cbn [split_trivia]. rewrite Hd. reflexivity. }
  assert (l <> []) as Hne. { intros ->. destruct (pleavess us'); [congruence|discriminate]. }
  destruct E as [->|[->|[(e & c & ->)|E]]].
  - left. change (prunes [PLeaf K_VAR1]) with [PLeaf K_VAR1]. destruct (H1 K_VAR1 Hne) as (kw & w & n & -> & Ht & ->). exists kw, w. split; [reflexivity|]. left.
    unfold seen in Hs. rewrite sig_cons in Hs by exact Ht. injection Hs as Hs _. exact Hs.
  - left. change (prunes [PLeaf K_VAR2]) with [PLeaf K_VAR2]. destruct (H1 K_VAR2 Hne) as (kw & w & n & -> & Ht & ->). exists kw, w. split; [reflexivity|]. right.
    unfold seen in Hs. rewrite sig_cons in Hs by exact Ht. injection Hs as Hs _. exact Hs.
  - right. change (prunes [PErr e; PNode K_Error [PLeaf c]]) with [PErr e; PNode K_Error [PLeaf c]].
    destruct l as [|x n]; [congruence|]. cbn [leads] in Hd. exists (fst x), (snd x).
    assert (split_trivia lkind (x :: n) = ([], x :: n)) as Hsp by (cbn [split_trivia]; rewrite Hd; reflexivity).
    unfold tplaces. cbn [places place]. change (is_unit K_Error) with false. cbv beta iota. rewrite Hsp. cbv beta iota. rewrite Hsp. reflexivity.
  - congruence.
Qed.

(** ** the tokens directly below a node *)
Fixpoint expects (s : stmt) : list kind :=
  match s with
  | Expect k => [k]
  | Seq a b => expects a ++ expects b
  | If _ s | While _ s => expects s
  | Match a => expects_arms a
  | Skip | Call _ | Sync _ => []
  end
with expects_arms (a : arms) : list kind := match a with Arm _ s a => expects s ++ expects_arms a | ArmEnd _ => [] end.
Lemma no_leaf_err e (ks : list kind) : forall k, In (PLeaf k) [PErr e] -> In k ks.
Proof. intros k [H|[]]. discriminate. Qed.
Lemma no_leaf_junk e ts (ks : list kind) : forall k, In (PLeaf k) [PErr e; PNode K_Error ts] -> In k ks.
Proof. intros k [H|[H|[]]]; discriminate. Qed.
Lemma ex_leaves gas :
  (forall s rest f ret o, ex rule_of gas s rest f = Ok (ret, o) -> forall k, In (PLeaf k) (fst (fst o)) -> In k (expects s)) /\
  (forall a c rest f ret o, ex_arms rule_of gas c a rest f = Ok (ret, o) -> forall k, In (PLeaf k) (fst (fst o)) -> In k (expects_arms a)).
Proof.
  induction gas as [|g (IHs & IHa)]; [split; intros; discriminate|]. split.
  - intros s rest f ret o H k Hin. destruct s; cbn [ex expects] in H |- *.
    + injection H as <- <-. destruct Hin.
    + inv_bind H. destruct a as [ret1 [[ts1 rest1] f1]]. apply in_or_app.
      destruct ret1; [injection H as <- <-; left; eapply IHs; eassumption|].
      inv_bind H. destruct a as [ret2 [[ts2' rest2] f2]]. injection H as <- <-. cbn [fst] in Hin. apply in_app_or in Hin as [Hin|Hin]; [left|right].
      * exact (IHs _ _ _ _ _ E k Hin).
      * exact (IHs _ _ _ _ _ E0 k Hin).
    + inv_bind H. injection H as <- <-. unfold texpect in E. inv_bind E. destruct a0 as [c f1]. destruct (kind_eqb_spec c k0) as [->|Hne].
      * inv_bind E. destruct a0 as [c r]. injection E as <-. destruct Hin as [Hin|[]]. injection Hin as ->. unfold tnth in E0. destruct f; [discriminate|].
        injection E0 as E0 _. destruct rest; [discriminate|]. injection E1 as -> ->. cbn in E0. left. congruence.
      * injection E as <-. exact (no_leaf_err _ _ _ Hin).
    + inv_bind H. injection H as <- <-. apply (proj2 (proj2 (ex_every g))) in E. rewrite Forall_forall in E. destruct (E _ Hin) as (k' & ts & Ek & _). discriminate.
    + inv_bind H. destruct a as [c f1]. destruct (kind_in _ _); [eapply IHs; eassumption|]. injection H as <- <-. destruct Hin.
    + inv_bind H. destruct a as [c f1]. destruct (negb _ && _); [|injection H as <- <-; destruct Hin]. inv_bind H. injection H as <- <-.
      unfold terror_until in E0. inv_bind E0. destruct a0 as [c' f']. destruct (_ || _); [injection E0 as <-; exact (no_leaf_err _ _ _ Hin)|].
      inv_bind E0. destruct a0 as [[us rest2] f3]. injection E0 as <-. exact (no_leaf_junk _ _ _ _ Hin).
    + inv_bind H. destruct a as [c f1]. destruct (kind_in _ _); [|injection H as <- <-; destruct Hin].
      inv_bind H. destruct a as [ret1 [[ts1 rest1] f1']].
      destruct ret1; [injection H as <- <-; eapply IHs; eassumption|].
      destruct (length rest1 =? length rest); [injection H as <- <-; eapply IHs; eassumption|].
      inv_bind H. destruct a as [ret2 [[ts2' rest2] f2]]. injection H as <- <-. cbn [fst] in Hin. apply in_app_or in Hin as [Hin|Hin].
      * exact (IHs _ _ _ _ _ E0 k Hin).
      * exact (IHs _ _ _ _ _ E1 k Hin).
    + inv_bind H. destruct a0 as [c f1]. eapply IHa; eassumption.
  - intros a c rest f ret o H k Hin. destruct a; cbn [ex_arms expects_arms] in H |- *.
    + apply in_or_app. destruct (kind_in _ _); [left; eapply IHs; eassumption|right; eapply IHa; eassumption].
    + destruct (kind_eqb _ _); [injection H as <- <-; destruct Hin|]. inv_bind H. injection H as <- <-. unfold tdflt in E.
      destruct d; [injection E as <-; destruct Hin|]. unfold tawe in E. inv_bind E. destruct a0 as [c' f1].
      destruct (kind_in c' recovery_tokens); [injection E as <-; exact (no_leaf_err _ _ _ Hin)|]. inv_bind E. destruct a0. injection E as <-. exact (no_leaf_junk _ _ _ _ Hin).
Qed.
Lemma ran_leaves k ts kw : ran k ts -> In (PLeaf kw) ts -> k = K_Error \/ exists R, rule_of k = Some R /\ In kw (expects (r_body R)).
Proof.
  intros [[-> _]|(R & gas & rest & f & ret & us & rest' & f' & ER & E & Hus)] Hin; [left; reflexivity|right]. exists R. split; [exact ER|].
  apply (proj1 (ex_leaves gas)) with (k := kw) in E; [exact E|]. cbn [fst]. destruct Hus as [->|(_ & js & ->)]; [exact Hin|].
  apply in_app_or in Hin as [Hin|[Hin|[]]]; [exact Hin|discriminate].
Qed.
Lemma pleaf_prune t kw : In (PLeaf kw) (prune t) -> t = PLeaf kw.
Proof.
  induction t as [k|k ts IH|e] using ptree_rect'; cbn [prune].
  - intros [H|[]]. exact H.
  - destruct (flat_map pleaves ts) as [|] eqn:L.
    + intros H. apply in_flat_map in H as (u & Hu & H). rewrite Forall_forall in IH. rewrite (IH _ Hu H) in Hu. apply in_split in Hu as (a & b & ->).
      rewrite flat_map_app in L. apply app_eq_nil in L as [_ L]. discriminate.
    + intros [H|[]]. discriminate.
  - intros [H|[]]. discriminate.
Qed.
Lemma pleaf_prunes ts kw : In (PLeaf kw) (prunes ts) -> In (PLeaf kw) ts.
Proof. intros H. apply in_flat_map in H as (u & Hu & H). rewrite (pleaf_prune _ _ H) in Hu. exact Hu. Qed.
Lemma tplace_seen t : forall l rest, seen l = pleaves t ++ rest -> seen (snd (tplace t l)) = rest.
Proof.
  induction t as [k|k ts IH|e] using ptree_rect'; intros l rest Hs.
  - unfold tplace, place. destruct (split_trivia_spec lkind l) as (u & n & -> & -> & F & Hn). unfold seen in Hs. rewrite sig_app, (sig_trivia _ u F) in Hs. cbn [app pleaves] in Hs.
    destruct n as [|x n]; [discriminate|]. rewrite sig_cons in Hs by exact Hn. injection Hs as _ Hs. exact Hs.
  - unfold tplace. rewrite place_node. fold tplaces.
    assert (exists u n, (if is_unit k then ([], l) else split_trivia lkind l) = (u, n) /\ seen n = pleavess ts ++ rest) as (u & n & -> & Hn).
    { destruct (is_unit k); [exists [], l; split; [reflexivity|exact Hs]|]. destruct (split_trivia_spec lkind l) as (u & n & -> & -> & F & Hn). exists u, n. split; [reflexivity|].
      unfold seen in Hs. rewrite sig_app, (sig_trivia _ u F) in Hs. exact Hs. }
    assert (seen (snd (tplaces ts n)) = rest) as H.
    { clear Hs. revert n Hn. induction IH as [|t ts Ht _ IHl]; intros n Hn; [exact Hn|]. unfold tplaces. cbn [places]. fold tplace tplaces.
      change (pleavess (t :: ts)) with (pleaves t ++ pleavess ts) in Hn. rewrite <- app_assoc in Hn. apply Ht in Hn. destruct (tplace t n) as [a m]. cbn [snd] in Hn.
      apply IHl in Hn. destruct (tplaces ts m). exact Hn. }
    destruct (tplaces ts n). exact H.
  - exact Hs.
Qed.
Lemma tplace_toks t l rest kw w : seen l = pleaves t ++ rest -> In (Tok kw w) (fst (tplace t l)) -> is_trivia kw = true \/ t = PLeaf kw.
Proof.
  assert (forall u, Forall (fun x => is_trivia (lkind x) = true) u -> In (Tok kw w) (map tok u) -> is_trivia kw = true) as Ht.
  { intros u F H. apply in_map_iff in H as (x & Ex & Hx). rewrite Forall_forall in F. specialize (F _ Hx). injection Ex as <- _. exact F. }
  destruct t as [k|k ts|e]; intros Hs Hin.
  - unfold tplace, place in Hin. destruct (split_trivia_spec lkind l) as (u & n & E & -> & F & Hn). rewrite E in Hin.
    unfold seen in Hs. rewrite sig_app, (sig_trivia _ u F) in Hs. cbn [app pleaves] in Hs. destruct n as [|x n]; [discriminate|]. rewrite sig_cons in Hs by exact Hn. injection Hs as Hk _.
    cbn [fst] in Hin. apply in_app_or in Hin as [Hin|[Hin|[]]]; [left; eapply Ht; eassumption|right]. injection Hin as <- _. f_equal. symmetry. exact Hk.
  - unfold tplace in Hin. rewrite place_node in Hin. fold tplaces in Hin. destruct (is_unit k).
    + destruct (tplaces ts l). destruct Hin as [Hin|[]]. discriminate.
    + destruct (split_trivia_spec lkind l) as (u & n & E & -> & F & _). rewrite E in Hin. destruct (tplaces ts n). cbn [fst] in Hin.
      apply in_app_or in Hin as [Hin|[Hin|[]]]; [left; eapply Ht; eassumption|discriminate].
  - destruct Hin.
Qed.
Lemma tplaces_toks ts kw w : forall l rest, seen l = pleavess ts ++ rest -> In (Tok kw w) (fst (tplaces ts l)) -> is_trivia kw = true \/ In (PLeaf kw) ts.
Proof.
  induction ts as [|t ts IH]; intros l rest Hs Hin; [destruct Hin|]. unfold tplaces in Hin. cbn [places] in Hin. fold tplace tplaces in Hin.
  change (pleavess (t :: ts)) with (pleaves t ++ pleavess ts) in Hs. rewrite <- app_assoc in Hs. pose proof (tplace_seen _ _ _ Hs) as Hs2. pose proof (tplace_toks t l _ kw w Hs) as H1.
  destruct (tplace t l) as [a m]. cbn [fst snd] in *. pose proof (IH _ _ Hs2) as H2. destruct (tplaces ts m) as [b m']. cbn [fst] in *.
  apply in_app_or in Hin as [Hin|Hin].
  - destruct (H1 Hin) as [H| ->]; [left; exact H|right; left; reflexivity].
  - destruct (H2 Hin) as [H|H]; [left; exact H|right; right; exact H].
Qed.
Theorem placed_toks k cs kw w : placed_node k cs -> In (Tok kw w) cs -> is_trivia kw = true \/ k = K_Error \/ exists R, rule_of k = Some R /\ In kw (expects (r_body R)).
Proof.
  intros (us & l & rest & _ & Hr & _ & _ & Hs & ->) Hin. rewrite <- pleavess_prunes in Hs. destruct (tplaces_toks _ _ _ _ _ Hs Hin) as [H|H]; [left; exact H|right].
  eapply ran_leaves; [exact Hr|]. apply pleaf_prunes, H.
Qed.
(** the same for the root *)
Theorem root_toks err t k cs kw w : doc_tree err t (Node k cs) -> In (Tok kw w) cs -> is_trivia kw = true \/ exists R, rule_of k = Some R /\ In kw (expects (r_body R)).
Proof.
  intros D Hin. destruct (doc_tree_run _ _ _ D) as (ts & (gas & f & E) & L & Ex). injection Ex as -> ->.
  apply (proj2 (proj2 (ex_every gas))) in E. cbn [fst] in E. inversion E as [|? ? (k & us & Ek & _ & Hr & _) _]; subst. injection Ek as <- <-.
  unfold placed in Hin. fold tplaces in Hin. assert (seen (lex err t) = pleavess (prunes ts) ++ []) as Hs by (rewrite app_nil_r, pleavess_prunes; symmetry; exact L).
  pose proof (tplaces_toks (prunes ts) kw w _ _ Hs) as H1.
  assert (seen (snd (tplaces (prunes ts) (lex err t))) = []) as H2.
  { clear -Hs. revert Hs. generalize (lex err t). induction (prunes ts) as [|u us IH]; intros l Hs; [exact Hs|]. unfold tplaces. cbn [places]. fold tplace tplaces.
    change (pleavess (u :: us)) with (pleaves u ++ pleavess us) in Hs. rewrite <- app_assoc in Hs. apply tplace_seen in Hs. destruct (tplace u l) as [a m]. cbn [snd] in *.
    apply IH in Hs. destruct (tplaces us m). exact Hs. }
  destruct (tplaces (prunes ts) (lex err t)) as [xs n]. cbn [fst snd] in *. apply in_app_or in Hin as [Hin|Hin].
  - destruct (H1 Hin) as [H|H]; [left; exact H|]. apply pleaf_prunes in H. destruct (ran_leaves _ _ _ Hr H) as [Ee|H']; [|right; exact H'].
    exfalso. destruct (entry_of_unit (with_spans 0 (lex err t))) as [U|U]; unfold entry_for in Ee; rewrite U in Ee; discriminate.
  - left. apply in_map_iff in Hin as (x & Ex & Hx). apply sig_nil in H2. rewrite Forall_forall in H2. specialize (H2 _ Hx). injection Ex as <- _. exact H2.
Qed.
Definition var_expected (k : kind) (R : rule) : bool := kind_eqb k K_Var || negb (kind_in K_VAR1 (expects (r_body R)) || kind_in K_VAR2 (expects (r_body R))).
Lemma only_var_expects : forall r R, rule_of r = Some R -> var_expected r R = true.
Proof. apply all_rules_spec. vm_compute. reflexivity. Qed.
(** a variable token is the child of a Var node or of an error node *)
Theorem var_token_parent err t x p i kw w : doc_tree err t x -> at_path x (p ++ [i]) = Some (Tok kw w) -> kw = K_VAR1 \/ kw = K_VAR2 ->
  exists k cs, at_path x p = Some (Node k cs) /\ (k = K_Var \/ k = K_Error).
Proof.
  intros D E Hk. assert (is_trivia kw = false) as Ht by (destruct Hk as [-> | ->]; reflexivity).
  assert (forall p q y, at_path y (p ++ q) = match at_path y p with Some z => at_path z q | None => None end) as Happ.
  { clear. induction p as [|j p IH]; intros q y; [reflexivity|]. cbn. destruct y as [|k cs]; [reflexivity|]. destruct (nth_error cs j); [apply IH|reflexivity]. }
  rewrite Happ in E. destruct (at_path x p) as [[k0 w0|k cs]|] eqn:Ep; try discriminate. cbn in E. destruct (nth_error cs i) as [c|] eqn:C; [|discriminate].
  injection E as ->. apply nth_error_In in C. exists k, cs. split; [reflexivity|].
  assert (forall R, rule_of k = Some R -> In kw (expects (r_body R)) -> k = K_Var) as Hv.
  { intros R ER Hin. pose proof (only_var_expects _ _ ER) as V. unfold var_expected in V. destruct (kind_eqb_spec k K_Var) as [Hkv|_]; [exact Hkv|]. cbn [orb] in V.
    apply kind_in_In in Hin. destruct Hk as [-> | ->]; rewrite Hin in V; [discriminate|]. rewrite orb_true_r in V. discriminate. }
  destruct p as [|j p].
  - injection Ep as ->. destruct (root_toks _ _ _ _ _ _ D C) as [H|(R & ER & Hin)]; [congruence|]. left. eapply Hv; eassumption.
  - destruct (placed_toks k cs kw w) as [H|[H|(R & ER & Hin)]]; [eapply doc_node_at; [exact D| |exact Ep]; discriminate|exact C|congruence|right; exact H|left; eapply Hv; eassumption].
Qed.
