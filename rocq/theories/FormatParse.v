(** The trees the parser returns are trees the formatter expects. *)
From Coq Require Import String List Arith NArith Bool Lia.
Import ListNotations.
From Verif Require Import Kinds KindFacts ParserSyntax ParserModel GrammarData ParserTree ParserTerm ParserBuild ParserSpec ParserChecks ParserOutcome
  TextModel TextProofs LexerModel LexerSpec LexerProps FormatData FormatModel FormatTree FormatPieces FormatWeave FormatText.

(** ** the kinds of the nodes *)
Definition inner (k : kind) : bool := negb (token_kind k) && negb (unit_kind k).
Fixpoint nok (t : ptree) : bool := match t with PNode k ts => inner k && forallb nok ts | _ => true end.
Definition noks (ts : list ptree) : bool := forallb nok ts.
(** the functions that are called by others *)
Definition called (r : kind) : option rule := if inner r then rule_of r else None.
Lemma called_ok : forall r R, rule_of r = Some R -> calls_ok called (r_body R) = true.
Proof. apply (all_rules_spec (fun _ R => calls_ok called (r_body R))). vm_compute. reflexivity. Qed.
Lemma noks_app a b : noks (a ++ b) = noks a && noks b.
Proof. apply forallb_app. Qed.
Lemma tskip_junk_noks gas stop : forall rest f o, tskip_junk gas stop rest f = Ok o -> noks (fst (fst o)) = true.
Proof.
  induction gas as [|g IH]; intros rest f o H; [discriminate|]. cbn [tskip_junk] in H. inv_bind H. destruct a as [c f1].
  destruct (kind_in c stop); [injection H as <-; reflexivity|]. destruct rest as [|k r]; [injection H as <-; reflexivity|].
  inv_bind H. destruct a as [[us rest2] f3]. injection H as <-. apply IH in E0. exact E0.
Qed.
Lemma tskip_rest_noks gas : forall rest f o, tskip_rest gas rest f = Ok o -> noks (fst (fst o)) = true.
Proof.
  induction gas as [|g IH]; intros rest f o H; [discriminate|]. cbn [tskip_rest] in H. inv_bind H. destruct a as [c f1].
  destruct (kind_eqb c K_Eof); [injection H as <-; reflexivity|]. inv_bind H. destruct a as [k r].
  inv_bind H. destruct a as [[us rest2] f3]. injection H as <-. apply IH in E1. exact E1.
Qed.
Lemma texpect_noks k rest f o : texpect k rest f = Ok o -> noks (fst (fst o)) = true.
Proof.
  intros H. unfold texpect in H. inv_bind H. destruct a as [c f1]. destruct (kind_eqb c k); [inv_bind H; destruct a; injection H as <-; reflexivity|injection H as <-; reflexivity].
Qed.
Lemma tawe_noks e rest f o : tawe e rest f = Ok o -> noks (fst (fst o)) = true.
Proof.
  intros H. unfold tawe in H. inv_bind H. destruct a as [c f1]. destruct (kind_in c recovery_tokens); [injection H as <-; reflexivity|inv_bind H; destruct a; injection H as <-; reflexivity].
Qed.
Lemma terror_until_noks g e stop rest f o : terror_until g e stop rest f = Ok o -> noks (fst (fst o)) = true.
Proof.
  intros H. unfold terror_until in H. inv_bind H. destruct a as [c f1]. destruct (_ || _); [injection H as <-; reflexivity|].
  inv_bind H. destruct a as [[us rest2] f3]. apply tskip_junk_noks in E0. injection H as <-. cbn in *. now rewrite E0.
Qed.
Lemma ex_nodes gas :
  (forall s rest f ret o, calls_ok called s = true -> ex rule_of gas s rest f = Ok (ret, o) -> noks (fst (fst o)) = true) /\
  (forall a c rest f ret o, calls_ok_arms called a = true -> ex_arms rule_of gas c a rest f = Ok (ret, o) -> noks (fst (fst o)) = true) /\
  (forall r rest f o, ex_rule rule_of gas r rest f = Ok o ->
     Forall (fun t => exists k ts, t = PNode k ts /\ (k = r \/ k = K_Error) /\ noks ts = true) (fst (fst o))).
Proof.
  induction gas as [|g (IHs & IHa & IHr)]; [repeat split; intros; discriminate|]. split; [|split].
  - intros s rest f ret o Hc H. destruct s; cbn [ex calls_ok] in H, Hc.
    + injection H as <- <-. reflexivity.
    + apply andb_prop in Hc as [Hc1 Hc2]. inv_bind H. destruct a as [ret1 [[ts1 rest1] f1]]. apply IHs in E; [|assumption].
      destruct ret1; [injection H as <- <-; exact E|].
      inv_bind H. destruct a as [ret2 [[ts2' rest2] f2]]. injection H as <- <-. apply IHs in E0; [|assumption]. cbn [fst] in *. now rewrite noks_app, E, E0.
    + inv_bind H. injection H as <- <-. now apply texpect_noks in E.
    + inv_bind H. injection H as <- <-. apply IHr in E. unfold called in Hc. destruct (inner r) eqn:I; [|discriminate].
      induction E as [|t l (k & ts & -> & Hk & Hn) _ IH]; [reflexivity|]. change (nok (PNode k ts) && noks l = true). rewrite IH. cbn [nok]. unfold noks in Hn. rewrite Hn.
      destruct Hk as [-> | ->]; [now rewrite I|reflexivity].
    + inv_bind H. destruct a as [c f1]. destruct (kind_in _ _); [now apply IHs in H|]. injection H as <- <-. reflexivity.
    + inv_bind H. destruct a as [c f1]. destruct (negb _ && _); [inv_bind H; injection H as <- <-; now apply terror_until_noks in E0|]. injection H as <- <-. reflexivity.
    + inv_bind H. destruct a as [c f1]. destruct (kind_in _ _); [|injection H as <- <-; reflexivity].
      inv_bind H. destruct a as [ret1 [[ts1 rest1] f1']]. apply IHs in E0; [|assumption].
      destruct ret1; [injection H as <- <-; exact E0|].
      destruct (length rest1 =? length rest); [injection H as <- <-; exact E0|].
      inv_bind H. destruct a as [ret2 [[ts2' rest2] f2]]. injection H as <- <-. apply IHs in E1; [|assumption]. cbn [fst] in *. now rewrite noks_app, E0, E1.
    + inv_bind H. destruct a0 as [c f1]. now apply IHa in H.
  - intros a c rest f ret o Hc H. destruct a; cbn [ex_arms calls_ok_arms] in H, Hc.
    + apply andb_prop in Hc as [Hc1 Hc2]. destruct (kind_in _ _); [now apply IHs in H|now apply IHa in H].
    + destruct (kind_eqb _ _); [injection H as <- <-; reflexivity|]. inv_bind H. injection H as <- <-. unfold tdflt in E.
      destruct d; [injection E as <-; reflexivity|now apply tawe_noks in E].
  - intros r rest f o H. cbn [ex_rule] in H. destruct (rule_of r) as [R|] eqn:ER; [|discriminate].
    pose proof (called_ok _ _ ER) as Hc. pose proof (rule_kind_ok _ _ ER) as Ek. rewrite Ek in H.
    inv_bind H. destruct a as [go f0]. clear E.
    destruct go; [|injection H as <-; constructor].
    inv_bind H. destruct a as [ret [[ts rest1] f1]]. apply IHs in E; [|exact Hc]. cbn [fst] in E.
    destruct ret.
    { injection H as <-. apply Forall_cons; [exists r, ts; auto|]. apply Forall_cons; [exists K_Error, []; auto|constructor]. }
    destruct (r_unit R).
    + inv_bind H. destruct a as [c f2]. destruct (kind_eqb _ _).
      * injection H as <-. apply Forall_cons; [exists r, ts; auto|constructor].
      * inv_bind H. destruct a as [[us rest2] f3]. injection H as <-. apply tskip_rest_noks in E1. cbn [fst] in E1.
        apply Forall_cons; [|constructor]. exists r, (ts ++ [PNode K_Error us]). split; [reflexivity|]. split; [auto|].
        rewrite noks_app, E. change (nok (PNode K_Error us) && true = true). cbn [nok]. unfold noks in E1. rewrite E1. reflexivity.
    + injection H as <-. apply Forall_cons; [exists r, ts; auto|constructor].
Qed.
Lemma prune_nok t : nok t = true -> noks (prune t) = true.
Proof.
  induction t as [k|k ts IH|e] using ptree_rect'; intros H; try reflexivity. cbn [nok] in H. apply andb_prop in H as [Hk Ht].
  assert (K : noks (flat_map prune ts) = true).
  { clear Hk. induction IH as [|t l Ht' _ IHl]; [reflexivity|]. cbn [flat_map forallb] in *. apply andb_prop in Ht as [H1 H2]. rewrite noks_app, IHl by exact H2. now rewrite Ht'. }
  cbn [prune]. destruct (flat_map pleaves ts); [exact K|]. unfold noks. cbn [forallb nok]. unfold noks in K. now rewrite Hk, K.
Qed.
Lemma prunes_noks ts : noks ts = true -> noks (prunes ts) = true.
Proof.
  induction ts as [|t l IH]; [reflexivity|]. intros H. cbn in H. apply andb_prop in H as [H1 H2]. cbn [prunes flat_map]. rewrite noks_app, (prune_nok _ H1). now apply IH.
Qed.
Lemma sub_nok t : forall u k us, nok t = true -> In u (ptree_tree t) -> sub k us u -> inner k = true.
Proof.
  induction t as [k'|k' ts IH|e] using ptree_rect'; intros u k us H Hu S; cbn [ptree_tree] in Hu.
  - destruct Hu as [<-|[]]. inversion S.
  - destruct Hu as [<-|[]]. cbn [nok] in H. apply andb_prop in H as [Hk Ht]. inversion S; subst; [exact Hk|].
    apply in_flat_map in H1 as (x & Hx & Hu). rewrite Forall_forall in IH. eapply IH; [exact Hx| |exact Hu|eassumption]. rewrite forallb_forall in Ht. now apply Ht.
  - destruct Hu.
Qed.
Theorem node_kinds entry toks g errs k cs : entry_point entry -> no_eof toks -> returns entry toks g errs -> below g (GNodeT k cs) -> inner k = true.
Proof.
  intros He Hn H B. destruct (returns_run _ _ _ _ He Hn H) as (gas & ts & cs1 & f & E & -> & _ & _ & _ & S).
  apply (proj2 (proj2 (ex_nodes gas))) in E. cbn [fst] in E. inversion E as [|? ? (k' & ts' & Ek & _ & N) _]; subst. injection Ek as <- <-.
  destruct (below_sub _ _ _ B _ _ eq_refl) as (t & Ht & St). rewrite S in Ht. apply prunes_noks in N. unfold ptrees in Ht. apply in_flat_map in Ht as (p & Hp & Ht).
  unfold noks in N. rewrite forallb_forall in N. eapply sub_nok; [apply (N p Hp)|exact Ht|exact St].
Qed.

(** ** grafting the characters back *)
Fixpoint graft_list (cs : list green) (ls : list lexeme) : list tree * list lexeme :=
  match cs with
  | [] => ([], ls)
  | c :: cs => let '(t, ls) := graft c ls in let '(ts, ls) := graft_list cs ls in (t :: ts, ls)
  end.
Lemma graft_node k cs ls : graft (GNodeT k cs) ls = let '(ts, r) := graft_list cs ls in (Node k ts, r).
Proof. reflexivity. Qed.
Definition grafted (g : green) : Prop := forall l r, length l = length (gtokens g) ->
  exists t, graft g (l ++ r) = (t, r) /\ FormatWeave.leaves t = l /\
    (forall top, (forall k cs, below g (GNodeT k cs) -> inner k = true) -> Forall (fun x => leaf_ok (fst x) (snd x)) l ->
       (match g with GNodeT k _ => inner k = true \/ (top = true /\ unit_kind k = true) | _ => True end) -> wf top t).
Lemma unit_inner k : unit_kind k = true -> token_kind k = false.
Proof. destruct k; intros H; first [discriminate H|reflexivity]. Qed.
Lemma graft_list_ok k all cs : Forall grafted cs -> incl cs all -> forall l r, length l = length (gtokenss cs) ->
  exists ts, graft_list cs (l ++ r) = (ts, r) /\ flat_map FormatWeave.leaves ts = l /\
    ((forall k' cs', below (GNodeT k all) (GNodeT k' cs') -> inner k' = true) -> Forall (fun x => leaf_ok (fst x) (snd x)) l -> Forall (wf false) ts).
Proof.
  intros IH. induction IH as [|c cs Hc _ IHc]; intros B l r H; cbn [gtokenss flat_map] in H.
  - destruct l; [|discriminate]. exists []. split; [reflexivity|]. split; [reflexivity|]. constructor.
  - rewrite app_length in H. change (flat_map gtokens cs) with (gtokenss cs) in H.
    assert (L1 : length (firstn (length (gtokens c)) l) = length (gtokens c)) by (apply firstn_length_le; lia).
    assert (L2 : length (skipn (length (gtokens c)) l) = length (gtokenss cs)) by (rewrite skipn_length; lia).
    rewrite <- (firstn_skipn (length (gtokens c)) l). revert L1 L2. generalize (firstn (length (gtokens c)) l) as l1. generalize (skipn (length (gtokens c)) l) as l2. intros l2 l1 L1 L2.
    destruct (Hc l1 (l2 ++ r) L1) as (t & G1 & G2 & G3). destruct (IHc (fun x Hx => B x (or_intror Hx)) l2 r L2) as (ts & T1 & T2 & T3).
    exists (t :: ts). cbn [graft_list flat_map]. rewrite <- app_assoc, G1, T1, G2, T2. split; [reflexivity|]. split; [reflexivity|]. intros Hin F. apply Forall_app in F as [F1 F2]. apply Forall_cons; [|now apply T3].
    assert (Hin' : In c all) by (apply B; now left). apply G3; auto.
    + intros k' cs' Hb. apply (Hin k' cs'). eapply below_deeper; eassumption.
    + destruct c as [|k' cs']; [exact Logic.I|]. left. apply (Hin k' cs'). now constructor.
Qed.
Lemma graft_ok g : grafted g.
Proof.
  induction g as [t|k cs IH] using green_rect'; intros l r H.
  - destruct l as [|[k w] [|]]; try discriminate H. exists (Tok k w). split; [reflexivity|]. split; [reflexivity|]. intros top _ F _. inversion F; subst. exact H2.
  - destruct (graft_list_ok k cs cs IH (incl_refl _) l r H) as (ts & K1 & K2 & K3).
    exists (Node k ts). rewrite graft_node, K1. split; [reflexivity|]. split; [exact K2|]. intros top Hin F Hk. apply wf_node. specialize (K3 Hin F). split; [|split; [|exact K3]].
    + destruct Hk as [Hk|[_ Hk]]; [|now apply unit_inner]. apply andb_prop in Hk as [Hk _]. now apply negb_true_iff.
    + intros U. destruct Hk as [Hk|[-> _]]; [|reflexivity]. apply andb_prop in Hk as [_ Hk]. rewrite U in Hk. discriminate.
Qed.
Lemma leaves_text t : tree_text t = flat_map snd (FormatWeave.leaves t).
Proof.
  induction t as [k w|k cs IH] using tree_ind'; [cbn; now rewrite app_nil_r|]. cbn [tree_text FormatWeave.leaves]. induction IH as [|c r H _ IHr]; [reflexivity|]. cbn [flat_map]. now rewrite flat_map_app, H, IHr.
Qed.
Lemma with_spans_length ls : forall from, length (with_spans from ls) = length ls.
Proof. induction ls as [|[k w] ls IH]; intros; [reflexivity|]. cbn [with_spans length]. now rewrite IH. Qed.
Lemma with_spans_no_eof ls : forall from, Forall (fun l => fst l <> K_Eof) ls -> no_eof (with_spans from ls).
Proof.
  induction ls as [|[k w] ls IH]; intros from F t Ht; [destruct Ht|]. inversion F; subst. cbn [with_spans] in Ht. destruct Ht as [<-|Ht]; [exact H1|]. eapply IH; eassumption.
Qed.
Lemma entry_of_unit toks : entry_point (entry_of toks).
Proof.
  unfold entry_of. induction toks as [|t r IH]; [now left|]. cbn [guess_operation_type]. destruct (kind_in _ query_keywords); [now left|]. destruct (kind_in _ update_keywords); [now right|exact IH].
Qed.
Theorem parsed gas ls g errs : parse rule_of gas (with_spans 0 ls) = Ok (Some (g, errs)) -> Forall (fun l => fst l <> K_Eof) ls -> Forall (fun x => leaf_ok (fst x) (snd x)) ls ->
  exists k cs, fst (graft g ls) = Node k cs /\ unit_kind k = true /\ wf true (Node k cs) /\ FormatWeave.leaves (Node k cs) = ls /\ tree_text (Node k cs) = flat_map snd ls.
Proof.
  intros H Hn F. set (toks := with_spans 0 ls) in *. assert (Ne : no_eof toks) by now apply with_spans_no_eof.
  assert (He : entry_point (entry_of toks)) by apply entry_of_unit.
  assert (R : returns (entry_of toks) toks g errs). { apply parses_to_intro with (gas := gas); [exact H|discriminate]. }
  destruct (returns_run _ _ _ _ He Ne R) as (gas' & ts & cs & f & _ & -> & _ & _ & T & _).
  destruct (graft_ok (GNodeT (entry_of toks) cs) ls []) as (t & G1 & G2 & G3).
  { cbn [gtokens]. change (flat_map gtokens cs) with (gtokenss cs). rewrite T, map_length. unfold toks. now rewrite with_spans_length. }
  rewrite app_nil_r in G1. rewrite G1. cbn [fst]. pose proof G1 as G1'. rewrite graft_node in G1'. destruct (graft_list cs ls) as [us r]. injection G1' as <- _.
  exists (entry_of toks), us. assert (U : unit_kind (entry_of toks) = true) by (destruct He as [-> | ->]; reflexivity).
  split; [reflexivity|]. split; [exact U|]. split; [|split; [exact G2|]].
  - apply G3; auto. intros k cs' B. eapply node_kinds; eassumption.
  - rewrite leaves_text. now rewrite G2.
Qed.
