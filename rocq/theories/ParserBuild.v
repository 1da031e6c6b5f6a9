(** remove_empty_nodes and build_tree on the event list of a tree. *)
From Coq Require Import List Arith Bool Lia.
Import ListNotations.
From Verif Require Import Kinds KindFacts ParserSyntax ParserModel ParserTree ParserTerm.

Section PtreeInd.
  Context (P : ptree -> Prop).
  Hypothesis Hleaf : forall k, P (PLeaf k).
  Hypothesis Hnode : forall k ts, Forall P ts -> P (PNode k ts).
  Hypothesis Herr : forall e, P (PErr e).
  Fixpoint ptree_rect' (t : ptree) : P t :=
    match t with
    | PLeaf k => Hleaf k
    | PNode k ts => Hnode k ts ((fix go l : Forall P l :=
        match l with [] => Forall_nil P | t :: r => Forall_cons t (ptree_rect' t) (go r) end) ts)
    | PErr e => Herr e
    end.
End PtreeInd.

Definition has_leaf (ts : list ptree) : bool := match pleavess ts with [] => false | _ => true end.
(** drop the nodes without tokens, keep the errors reported inside them *)
Fixpoint prune (t : ptree) : list ptree :=
  match t with
  | PLeaf k => [PLeaf k]
  | PNode k ts => match flat_map pleaves ts with
                  | [] => flat_map prune ts
                  | _ => [PNode k (flat_map prune ts)]
                  end
  | PErr e => [PErr e]
  end.
Definition prunes (ts : list ptree) : list ptree := flat_map prune ts.
Lemma prunes_app a b : prunes (a ++ b) = prunes a ++ prunes b.
Proof. unfold prunes. apply flat_map_app. Qed.

(** indices of the removed events of the forest starting at event [i] *)
Fixpoint gone (i : nat) (t : ptree) : list nat :=
  match t with
  | PNode k ts =>
    (fix go (i : nat) (l : list ptree) : list nat :=
       match l with [] => [] | t :: r => gone i t ++ go (i + length (flat t)) r end) (S i) ts
    ++ match flat_map pleaves ts with [] => [i; S i + length (flat_map flat ts)] | _ => [] end
  | _ => []
  end.
Fixpoint gones (i : nat) (l : list ptree) : list nat :=
  match l with [] => [] | t :: r => gone i t ++ gones (i + length (flat t)) r end.
Lemma gone_node i k ts : gone i (PNode k ts) = gones (S i) ts ++ match pleavess ts with [] => [i; S i + length (flats ts)] | _ => [] end.
Proof. reflexivity. Qed.

Definition marked (b : bool) (st : list (nat * bool)) := if b then mark_parent st else st.
Lemma mark_mark st : mark_parent (mark_parent st) = mark_parent st.
Proof. destruct st as [|[? ?] ?]; reflexivity. Qed.
Lemma mark_nil st : mark_parent st <> [] <-> st <> [].
Proof. destruct st as [|[? ?] ?]; cbn; split; congruence. Qed.
Lemma marked_or b c st : marked b (marked c st) = marked (c || b) st.
Proof. destruct b, c; cbn; try reflexivity. apply mark_mark. Qed.

Definition eqset (a b : list nat) : Prop := forall x, In x a <-> In x b.

(** scanning a forest below a non-empty stack *)
Lemma empty_scan_flats : forall t,
  (forall i r st rem, st <> [] ->
     exists rem', empty_scan i (flat t ++ r) st rem = empty_scan (i + length (flat t)) r (marked (has_leaf [t]) st) rem' /\
                  eqset rem' (gone i t ++ rem)).
Proof.
  assert (Hlist : forall ts, Forall (fun t => forall i r st rem, st <> [] ->
     exists rem', empty_scan i (flat t ++ r) st rem = empty_scan (i + length (flat t)) r (marked (has_leaf [t]) st) rem' /\
                  eqset rem' (gone i t ++ rem)) ts ->
     forall i r st rem, st <> [] ->
     exists rem', empty_scan i (flats ts ++ r) st rem = empty_scan (i + length (flats ts)) r (marked (has_leaf ts) st) rem' /\
                  eqset rem' (gones i ts ++ rem)).
  { induction ts as [|t ts IH]; intros F i r st rem Hst.
    - exists rem. cbn. rewrite Nat.add_0_r. split; [reflexivity|intros x; reflexivity].
    - inversion F as [|? ? Ht Hts]; subst. unfold flats. cbn [flat_map]. rewrite <- app_assoc.
      destruct (Ht i (flats ts ++ r) st rem Hst) as (rem1 & E1 & S1). unfold flats in E1. rewrite E1.
      destruct (IH Hts (i + length (flat t)) r (marked (has_leaf [t]) st) rem1) as (rem2 & E2 & S2).
      { destruct (has_leaf [t]); cbn; [now apply mark_nil|assumption]. }
      unfold flats in E2. rewrite E2. exists rem2. split.
      + rewrite app_length, Nat.add_assoc, marked_or. f_equal. f_equal. unfold has_leaf, pleavess. cbn. rewrite app_nil_r.
        destruct (pleaves t); reflexivity.
      + cbn [gones]. intros x. pose proof (S2 x) as S2x; pose proof (S1 x) as S1x; rewrite !in_app_iff in *; tauto. }
  induction t as [k|k ts IH|e] using ptree_rect'; intros i r st rem Hst.
  - exists rem. cbn [flat length app gone]. split; [|intros x; reflexivity]. cbn [empty_scan]. rewrite Nat.add_1_r. reflexivity.
  - rewrite gone_node. cbn [flat app empty_scan]. rewrite <- app_assoc. cbn [app].
    destruct (Hlist ts IH (S i) (Close :: r) ((i, false) :: st) rem) as (rem1 & E1 & S1); [discriminate|].
    unfold flats in E1. rewrite E1. cbn [length]. rewrite app_length. cbn [length].
    assert (Eh : has_leaf [PNode k ts] = has_leaf ts) by (unfold has_leaf, pleavess; cbn; now rewrite app_nil_r).
    rewrite Eh. unfold has_leaf. destruct (pleavess ts) eqn:Ep; cbn [marked].
    + cbn [empty_scan negb andb]. destruct st as [|s0 st']; [congruence|].
      eexists. split.
      * replace (i + S (length (flat_map flat ts) + 1)) with (S (S i + length (flat_map flat ts))) by lia. reflexivity.
      * intros x. cbn [In]. pose proof (S1 x) as S1x; rewrite !in_app_iff in *; unfold flats; cbn [In]; tauto.
    + cbn [mark_parent empty_scan negb andb].
      exists rem1. split.
      * replace (i + S (length (flat_map flat ts) + 1)) with (S (S i + length (flat_map flat ts))) by lia. reflexivity.
      * intros x. pose proof (S1 x) as S1x; rewrite !in_app_iff in *; cbn [In]; tauto.
  - exists rem. cbn [flat length app gone]. split; [|intros x; reflexivity]. cbn [empty_scan]. rewrite Nat.add_1_r. reflexivity.
Qed.

Lemma empty_scan_forest ts : forall i r st rem, st <> [] ->
  exists rem', empty_scan i (flats ts ++ r) st rem = empty_scan (i + length (flats ts)) r (marked (has_leaf ts) st) rem' /\
               eqset rem' (gones i ts ++ rem).
Proof.
  induction ts as [|t ts IH]; intros i r st rem Hst.
  - exists rem. cbn. rewrite Nat.add_0_r. split; [reflexivity|intros x; reflexivity].
  - unfold flats. cbn [flat_map]. rewrite <- app_assoc.
    destruct (empty_scan_flats t i (flats ts ++ r) st rem Hst) as (rem1 & E1 & S1). unfold flats in E1. rewrite E1.
    destruct (IH (i + length (flat t)) r (marked (has_leaf [t]) st) rem1) as (rem2 & E2 & S2).
    { destruct (has_leaf [t]); cbn; [now apply mark_nil|assumption]. }
    unfold flats in E2. rewrite E2. exists rem2. split.
    + rewrite app_length, Nat.add_assoc, marked_or. f_equal. f_equal. unfold has_leaf, pleavess. cbn. rewrite app_nil_r.
      destruct (pleaves t); reflexivity.
    + cbn [gones]. intros x. pose proof (S2 x) as S2x; pose proof (S1 x) as S1x; rewrite !in_app_iff in *; tauto.
Qed.

(** dropping *)
Lemma existsb_In i rem : existsb (Nat.eqb i) rem = true <-> In i rem.
Proof.
  rewrite existsb_exists. split.
  - intros (x & H & E). apply Nat.eqb_eq in E. now subst.
  - intros H. exists i. split; [assumption|apply Nat.eqb_refl].
Qed.
Lemma drop_indices_ext evs : forall i rem rem',
  (forall x, i <= x < i + length evs -> (In x rem <-> In x rem')) ->
  drop_indices i evs rem = drop_indices i evs rem'.
Proof.
  induction evs as [|e r IH]; intros i rem rem' H; [reflexivity|]. cbn [drop_indices length] in *.
  rewrite (IH (S i) rem rem') by (intros x Hx; apply H; lia).
  assert (K : existsb (Nat.eqb i) rem = existsb (Nat.eqb i) rem').
  { apply eq_true_iff_eq. rewrite !existsb_In. apply H. lia. }
  now rewrite K.
Qed.
Lemma drop_indices_app a : forall i b rem,
  drop_indices i (a ++ b) rem = drop_indices i a rem ++ drop_indices (i + length a) b rem.
Proof.
  induction a as [|e a IH]; intros i b rem; cbn [drop_indices app length].
  - now rewrite Nat.add_0_r.
  - rewrite IH. replace (S i + length a) with (i + S (length a)) by lia. destruct (existsb _ _); reflexivity.
Qed.

Lemma gone_range t : forall i x, In x (gone i t) -> i <= x < i + length (flat t).
Proof.
  induction t as [k|k ts IH|e] using ptree_rect'; intros i x H; [destruct H| |destruct H].
  rewrite gone_node, in_app_iff in H. cbn [flat length]. rewrite app_length. cbn [length]. fold (flats ts).
  assert (Hl : forall j, In x (gones j ts) -> j <= x < j + length (flats ts)).
  { clear H. induction IH as [|t ts Ht _ IHl]; intros j Hj; [destruct Hj|].
    cbn [gones] in Hj. unfold flats. cbn [flat_map]. rewrite app_length. fold (flats ts).
    apply in_app_iff in Hj as [Hj|Hj]; [apply Ht in Hj|apply IHl in Hj]; lia. }
  destruct H as [H|H]; [apply Hl in H; lia|].
  destruct (pleavess ts); [|destruct H]. destruct H as [<-|[<-|[]]]; lia.
Qed.
Lemma gones_range ts : forall i x, In x (gones i ts) -> i <= x < i + length (flats ts).
Proof.
  induction ts as [|t ts IH]; intros j x Hj; [destruct Hj|].
  cbn [gones] in Hj. unfold flats. cbn [flat_map]. rewrite app_length. fold (flats ts).
  apply in_app_iff in Hj as [Hj|Hj]; [apply gone_range in Hj|apply IH in Hj]; lia.
Qed.

Lemma drop_gone t : forall i rem, (forall x, i <= x < i + length (flat t) -> (In x rem <-> In x (gone i t))) ->
  drop_indices i (flat t) rem = flats (prune t).
Proof.
  induction t as [k|k ts IH|e] using ptree_rect'; intros i rem H.
  - cbn. destruct (existsb (Nat.eqb i) rem) eqn:E; [|reflexivity]. apply existsb_In in E. apply H in E; [destruct E|cbn; lia].
  - assert (Hl : forall j rem', (forall x, j <= x < j + length (flats ts) -> (In x rem' <-> In x (gones j ts))) ->
       drop_indices j (flats ts) rem' = flats (prunes ts)).
    { clear H. induction IH as [|t ts Ht _ IHl]; intros j rem' H; [reflexivity|].
      unfold flats, prunes. cbn [flat_map]. rewrite drop_indices_app, flat_map_app. fold (flats ts) (flats (prune t)) (prunes ts).
      unfold flats in H. cbn [flat_map] in H. rewrite app_length in H. fold (flats ts) in H. cbn [gones] in H.
      f_equal.
      - apply Ht. intros x Hx. rewrite H by lia. rewrite in_app_iff. split; [|now left]. intros [K|K]; [assumption|].
        apply gones_range in K. lia.
      - apply IHl. intros x Hx. rewrite H by lia. rewrite in_app_iff. split; [|now right]. intros [K|K]; [|assumption].
        apply gone_range in K. lia. }
    cbn [flat length] in H. rewrite app_length in H. cbn [length] in H. fold (flats ts) in H. rewrite gone_node in H.
    cbn [flat drop_indices prune]. rewrite drop_indices_app. fold (flats ts). cbn [drop_indices].
    assert (Hmid : drop_indices (S i) (flats ts) rem = flats (prunes ts)).
    { apply Hl. intros x Hx. rewrite H by lia. rewrite in_app_iff. split; [|now left]. intros [K|K]; [assumption|].
      destruct (pleavess ts); [|destruct K]. destruct K as [<-|[<-|[]]]; lia. }
    rewrite Hmid. fold (pleavess ts) (prunes ts). unfold prunes.
    assert (Hout : forall x, x = i \/ x = S i + length (flats ts) -> (In x rem <-> pleavess ts = [])).
    { intros x Hx. rewrite H by lia. rewrite in_app_iff. split.
      - intros [K|K]; [apply gones_range in K; lia|]. destruct (pleavess ts); [reflexivity|destruct K].
      - intros E. rewrite E. right. cbn [In]. destruct Hx; auto. }
    destruct (pleavess ts) eqn:Ep.
    + assert (E1 : existsb (Nat.eqb i) rem = true) by (apply existsb_In, Hout; auto).
      assert (E2 : existsb (Nat.eqb (S i + length (flats ts))) rem = true) by (apply existsb_In, Hout; auto).
      rewrite E1, E2, app_nil_r. reflexivity.
    + assert (E1 : existsb (Nat.eqb i) rem = false).
      { destruct (existsb (Nat.eqb i) rem) eqn:E; [|reflexivity]. apply existsb_In, Hout in E; [discriminate|auto]. }
      assert (E2 : existsb (Nat.eqb (S i + length (flats ts))) rem = false).
      { destruct (existsb (Nat.eqb (S i + length (flats ts))) rem) eqn:E; [|reflexivity]. apply existsb_In, Hout in E; [discriminate|auto]. }
      rewrite E1, E2. cbn. rewrite app_nil_r. reflexivity.
  - cbn. destruct (existsb (Nat.eqb i) rem) eqn:E; [|reflexivity]. apply existsb_In in E. apply H in E; [destruct E|cbn; lia].
Qed.
Lemma drop_gones ts : forall i rem, (forall x, i <= x < i + length (flats ts) -> (In x rem <-> In x (gones i ts))) ->
  drop_indices i (flats ts) rem = flats (prunes ts).
Proof.
  induction ts as [|t ts IHl]; intros i rem H; [reflexivity|].
  unfold flats, prunes. cbn [flat_map]. rewrite drop_indices_app, flat_map_app. fold (flats ts) (flats (prune t)) (prunes ts).
  unfold flats in H. cbn [flat_map] in H. rewrite app_length in H. fold (flats ts) in H. cbn [gones] in H.
  f_equal.
  - apply drop_gone. intros x Hx. rewrite H by lia. rewrite in_app_iff. split; [|now left]. intros [K|K]; [assumption|].
    apply gones_range in K. lia.
  - apply IHl. intros x Hx. rewrite H by lia. rewrite in_app_iff. split; [|now right]. intros [K|K]; [|assumption].
    apply gone_range in K. lia.
Qed.

(** remove_empty_nodes keeps the root and prunes below it *)
Theorem remove_empty_nodes_root k ts :
  remove_empty_nodes (flat (PNode k ts)) = Some (flat (PNode k (prunes ts))).
Proof.
  unfold remove_empty_nodes. cbn [flat empty_scan]. fold (flats ts).
  destruct (empty_scan_forest ts 1 [Close] [(0, false)] [] ltac:(discriminate)) as (rem & E & S).
  rewrite E.
  assert (K : exists b, marked (has_leaf ts) [(0, false)] = [(0, b)]) by (destruct (has_leaf ts); cbn; eauto).
  destruct K as (b & ->). cbn [empty_scan]. rewrite andb_false_r.
  replace (if b then Some rem else Some rem) with (Some rem) by (destruct b; reflexivity).
  f_equal. rewrite app_nil_r in S. cbn [drop_indices].
  assert (E1 : existsb (Nat.eqb 0) rem = false).
  { destruct (existsb (Nat.eqb 0) rem) eqn:E0; [|reflexivity]. apply existsb_In, S, gones_range in E0. lia. }
  rewrite E1, drop_indices_app. cbn [drop_indices].
  assert (E2 : existsb (Nat.eqb (1 + length (flats ts))) rem = false).
  { destruct (existsb (Nat.eqb (1 + length (flats ts))) rem) eqn:E0; [|reflexivity]. apply existsb_In, S, gones_range in E0. lia. }
  rewrite E2. rewrite drop_gones with (ts := ts) by (intros x Hx; apply S). reflexivity.
Qed.

(** ** build_tree *)
From Verif Require Import GrammarSpec ParserSpec.


(** the tree without error markers *)
Fixpoint ptree_tree (t : ptree) : list tree :=
  match t with
  | PLeaf k => [Leaf k]
  | PNode k ts => [Node k (flat_map ptree_tree ts)]
  | PErr _ => []
  end.
Definition ptrees (ts : list ptree) : list tree := flat_map ptree_tree ts.

(** the errors in a raw tree, each with the number of tokens read before it *)
Fixpoint perrs (n : nat) (t : ptree) : list (nat * list kind) :=
  match t with
  | PLeaf _ => []
  | PNode _ ts =>
    (fix go (n : nat) (l : list ptree) :=
       match l with [] => [] | t :: r => perrs n t ++ go (n + length (pleaves t)) r end) n ts
  | PErr e => [(n, e)]
  end.
Fixpoint perrss (n : nat) (l : list ptree) : list (nat * list kind) :=
  match l with [] => [] | t :: r => perrs n t ++ perrss (n + length (pleaves t)) r end.

(** where an error reported after [n] significant tokens points: at the next one, or at
    the end of the last one *)
Definition span_of (toks : list ltoken) (n : nat) : nat * nat :=
  let sig := filter ntrivia toks in
  match nth_error sig n with
  | Some t => (lstart t, lend t)
  | None => match rev sig with t :: _ => (lend t, lend t) | [] => (0, 0) end
  end.
Definition mkerr (toks : list ltoken) (x : nat * list kind) : parse_error :=
  let '(a, z) := span_of toks (fst x) in mkperror a z (snd x).

Lemma find_filter {A} (p : A -> bool) l : find p l = match filter p l with x :: _ => Some x | [] => None end.
Proof. induction l as [|x l IH]; cbn; [reflexivity|]. destruct (p x); [reflexivity|exact IH]. Qed.
Lemma error_span_of past next :
  error_span past next = span_of (rev past ++ next) (length (filter ntrivia past)).
Proof.
  unfold error_span, span_of. rewrite !find_filter. fold ntrivia.
  change (fun t => negb (trivia t)) with ntrivia.
  assert (E : filter ntrivia (rev past ++ next) = rev (filter ntrivia past) ++ filter ntrivia next).
  { rewrite filter_app. f_equal. clear next. induction past as [|x l IH]; [reflexivity|]. cbn.
    rewrite filter_app, IH. cbn. destruct (ntrivia x); cbn; [reflexivity|now rewrite app_nil_r]. }
  rewrite E. rewrite nth_error_app2 by (rewrite rev_length; lia). rewrite rev_length, Nat.sub_diag.
  destruct (filter ntrivia next) as [|t r]; cbn [nth_error]; [|reflexivity].
  rewrite app_nil_r, rev_involutive. destruct (filter ntrivia past); reflexivity.
Qed.

Lemma emit_trivia_spec next : forall past k cs r d,
  exists u next', next = u ++ next' /\ filter ntrivia u = [] /\
    (match next' with t :: _ => trivia t = false | [] => True end) /\
    emit_trivia past next (mkbuilder ((k, cs) :: r) d) =
      (rev u ++ past, next', mkbuilder ((k, cs ++ map (fun t => GToken (ltok t)) u) :: r) d).
Proof.
  induction next as [|t next IH]; intros past k cs r d.
  - exists [], []. cbn. rewrite app_nil_r. repeat split; auto.
  - cbn [emit_trivia]. destruct (trivia t) eqn:E.
    + destruct (IH (t :: past) k (cs ++ [GToken (ltok t)]) r d) as (u & next' & -> & Hu & Hn & Em).
      exists (t :: u), next'. cbn [b_token b_open b_done]. rewrite Em. cbn. unfold ntrivia at 1. rewrite E. cbn.
      rewrite <- !app_assoc. cbn. repeat split; assumption.
    + exists [], (t :: next). cbn. rewrite app_nil_r. repeat split; auto.
Qed.

Lemma gtokens_leaf u : gtokenss (map (fun t => GToken (ltok t)) u) = map ltok u.
Proof. induction u as [|t u IH]; cbn; [reflexivity|]. unfold gtokenss in IH. now rewrite IH. Qed.
Lemma gstrips_trivia u : filter ntrivia u = [] -> gstrips (map (fun t => GToken (ltok t)) u) = [].
Proof.
  induction u as [|t u IH]; intros H; cbn in *; [reflexivity|]. unfold ntrivia at 1 in H; unfold trivia at 1 in H.
  destruct (is_trivia (tk (ltok t))); [|discriminate]. cbn in *. now apply IH.
Qed.
Lemma kinds_of_trivia u : filter ntrivia u = [] -> kinds_of u = [].
Proof. unfold kinds_of. now intros ->. Qed.
Lemma kinds_of_app a b : kinds_of (a ++ b) = kinds_of a ++ kinds_of b.
Proof. unfold kinds_of. now rewrite filter_app, map_app. Qed.
Lemma gstrips_app a b : gstrips (a ++ b) = gstrips a ++ gstrips b.
Proof. unfold gstrips. apply flat_map_app. Qed.
Lemma gtokenss_app a b : gtokenss (a ++ b) = gtokenss a ++ gtokenss b.
Proof. unfold gtokenss. apply flat_map_app. Qed.
Lemma length_kinds u : length (kinds_of u) = length (filter ntrivia u).
Proof. unfold kinds_of. apply map_length. Qed.
Lemma filter_rev {A} (p : A -> bool) l : length (filter p (rev l)) = length (filter p l).
Proof.
  induction l as [|x l IH]; [reflexivity|]. cbn. rewrite filter_app, app_length, IH. cbn. destruct (p x); cbn; lia.
Qed.

(** building a tree below an open node, all its tokens being available *)
Definition builds (t_evs : list event) (leaves : list kind) (shape : list tree) (errs_at : nat -> list (nat * list kind)) : Prop :=
  forall evs toks past next b_k b_cs b_r d errs rest,
    toks = rev past ++ next -> kinds_of next = leaves ++ rest ->
    exists u next' gs,
      next = u ++ next' /\ kinds_of u = leaves /\ gtokenss gs = map ltok u /\ gstrips gs = shape /\
      build_steps (t_evs ++ evs) (mkbstate past next (mkbuilder ((b_k, b_cs) :: b_r) d) errs)
      = build_steps evs (mkbstate (rev u ++ past) next' (mkbuilder ((b_k, b_cs ++ gs) :: b_r) d)
                                  (errs ++ map (mkerr toks) (errs_at (length (filter ntrivia past))))).

Lemma builds_nil : builds [] [] [] (fun _ => []).
Proof.
  intros evs toks past next bk bcs br d errs rest -> Hk. exists [], next, []. cbn. rewrite !app_nil_r.
  repeat split; reflexivity.
Qed.
Lemma builds_app e1 l1 s1 f1 e2 l2 s2 f2 : builds e1 l1 s1 f1 -> builds e2 l2 s2 f2 ->
  builds (e1 ++ e2) (l1 ++ l2) (s1 ++ s2) (fun n => f1 n ++ f2 (n + length l1)).
Proof.
  intros H1 H2 evs toks past next bk bcs br d errs rest Ht Hk. rewrite <- app_assoc in Hk |- *.
  destruct (H1 (e2 ++ evs) toks past next bk bcs br d errs (l2 ++ rest) Ht Hk) as (u1 & n1 & g1 & -> & K1 & T1 & S1 & ->).
  rewrite kinds_of_app, K1 in Hk. apply app_inv_head in Hk.
  destruct (H2 evs toks (rev u1 ++ past) n1 bk (bcs ++ g1) br d (errs ++ map (mkerr toks) (f1 (length (filter ntrivia past)))) rest) as (u2 & n2 & g2 & -> & K2 & T2 & S2 & ->).
  { rewrite Ht, rev_app_distr, rev_involutive, <- app_assoc. reflexivity. }
  { exact Hk. }
  exists (u1 ++ u2), n2, (g1 ++ g2). rewrite kinds_of_app, gtokenss_app, gstrips_app, map_app, K1, K2, T1, T2, S1, S2.
  rewrite rev_app_distr, !filter_app, app_length, filter_rev, <- !app_assoc. repeat split.
  rewrite map_app. do 6 f_equal. rewrite <- (length_kinds u1), K1. apply Nat.add_comm.
Qed.
Lemma builds_eq e l s f e' l' s' f' : builds e l s f -> e = e' -> l = l' -> s = s' -> (forall n, f n = f' n) -> builds e' l' s' f'.
Proof.
  intros H -> -> -> Hf evs toks past next bk bcs br d errs rest Ht Hk.
  destruct (H evs toks past next bk bcs br d errs rest Ht Hk) as (u & n & g & A & B & C & D & E).
  exists u, n, g. rewrite <- Hf. auto.
Qed.

Lemma builds_tree t : builds (flat t) (pleaves t) (ptree_tree t) (fun n => perrs n t).
Proof.
  induction t as [k|k ts IH|e] using ptree_rect'.
  - (* Advance *)
    intros evs toks past next bk bcs br d errs rest Ht Hk. cbn [flat app build_steps build_step bs_past bs_next bs_b bs_errs].
    destruct (emit_trivia_spec next past bk bcs br d) as (u & next' & -> & Hu & Hn & Em). rewrite Em.
    rewrite kinds_of_app, kinds_of_trivia in Hk by assumption. cbn [app pleaves] in Hk.
    destruct next' as [|t next']; [discriminate|]. unfold kinds_of in Hk. cbn [filter] in Hk. unfold ntrivia in Hk at 1. rewrite Hn in Hk.
    cbn [negb map] in Hk. injection Hk as Hk1 Hk2. cbn [b_token b_open b_done].
    exists (u ++ [t]), next', (map (fun t => GToken (ltok t)) u ++ [GToken (ltok t)]).
    assert (Hkt : kinds_of [t] = [k]) by (unfold kinds_of; cbn; unfold ntrivia; rewrite Hn; cbn; now rewrite Hk1).
    split; [now rewrite <- app_assoc|]. split; [now rewrite kinds_of_app, kinds_of_trivia, Hkt by assumption|].
    split; [rewrite gtokenss_app, gtokens_leaf, map_app; reflexivity|].
    split. { rewrite gstrips_app, gstrips_trivia by assumption. cbn. unfold trivia in Hn. rewrite Hn, Hk1. reflexivity. }
    rewrite rev_app_distr. cbn [perrs map app rev]. rewrite app_nil_r, <- app_assoc. reflexivity.
  - assert (Hl : builds (flats ts) (pleavess ts) (ptrees ts) (fun n => perrss n ts)).
    { induction IH as [|t ts Ht _ IHl]; [apply builds_nil|].
      eapply builds_eq; [apply (builds_app _ _ _ _ _ _ _ _ Ht IHl)|reflexivity..]. }
    intros evs toks past next bk bcs br d errs rest Ht Hk. cbn [flat app build_steps build_step bs_past bs_next bs_b bs_errs].
    assert (K : exists u next', next = u ++ next' /\ filter ntrivia u = [] /\
      (if is_unit k then (past, next, mkbuilder ((bk, bcs) :: br) d) else emit_trivia past next (mkbuilder ((bk, bcs) :: br) d))
      = (rev u ++ past, next', mkbuilder ((bk, bcs ++ map (fun t => GToken (ltok t)) u) :: br) d)).
    { destruct (is_unit k).
      - exists [], next. cbn. rewrite app_nil_r. auto.
      - destruct (emit_trivia_spec next past bk bcs br d) as (u & next' & ? & ? & _ & ?). exists u, next'. auto. }
    destruct K as (u0 & n0 & -> & Hu0 & ->). rewrite kinds_of_app, kinds_of_trivia in Hk by assumption. cbn [app pleaves] in Hk.
    unfold b_start. cbn [b_open b_done]. rewrite <- app_assoc. cbn [app]. fold (flats ts).
    destruct (Hl (Close :: evs) toks (rev u0 ++ past) n0 k [] ((bk, bcs ++ map (fun t => GToken (ltok t)) u0) :: br) d errs rest)
      as (u & n & gs & -> & K & T & S & ->).
    { now rewrite Ht, rev_app_distr, rev_involutive, <- app_assoc. }
    { exact Hk. }
    cbn [build_steps build_step bs_b b_finish_node b_open b_done app].
    exists (u0 ++ u), n, (map (fun t => GToken (ltok t)) u0 ++ [GNodeT k gs]).
    split; [now rewrite app_assoc|]. split; [now rewrite kinds_of_app, kinds_of_trivia by assumption|].
    split. { rewrite gtokenss_app, gtokens_leaf, map_app. cbn. rewrite app_nil_r. fold (gtokenss gs). now rewrite T. }
    split. { rewrite gstrips_app, gstrips_trivia by assumption. cbn. fold (gstrips gs) (ptrees ts). now rewrite S. }
    cbn [bs_past bs_next bs_errs]. rewrite rev_app_distr, <- !app_assoc. f_equal. f_equal.
    f_equal. rewrite filter_app, app_length, filter_rev, Hu0. reflexivity.
  - intros evs toks past next bk bcs br d errs rest Ht Hk. cbn [flat app build_steps build_step bs_past bs_next bs_b bs_errs].
    exists [], next, []. cbn [app rev map]. rewrite app_nil_r. rewrite error_span_of, <- Ht.
    cbn [perrs map]. unfold mkerr. cbn [fst snd]. destruct (span_of _ _). repeat split.
Qed.
Lemma builds_forest ts : builds (flats ts) (pleavess ts) (ptrees ts) (fun n => perrss n ts).
Proof.
  induction ts as [|t ts IHl]; [apply builds_nil|].
  eapply builds_eq; [apply (builds_app _ _ _ _ _ _ _ _ (builds_tree t) IHl)|reflexivity..].
Qed.

Lemma emit_all_trivia next past k cs d : filter ntrivia next = [] ->
  emit_trivia past next (mkbuilder [(k, cs)] d) = (rev next ++ past, [], mkbuilder [(k, cs ++ map (fun t => GToken (ltok t)) next)] d).
Proof.
  revert past cs. induction next as [|t next IH]; intros past cs H; cbn [emit_trivia].
  - cbn. now rewrite app_nil_r.
  - cbn [filter] in H. unfold ntrivia in H at 1. destruct (trivia t) eqn:E; [|discriminate]. cbn [negb] in H.
    cbn [b_token b_open b_done]. rewrite IH by assumption. cbn. now rewrite <- !app_assoc.
Qed.

Theorem build_tree_root toks k ts : is_unit k = true -> kinds_of toks = pleavess ts ->
  exists cs, build_tree toks (flat (PNode k ts)) = Some (GNodeT k cs, map (mkerr toks) (perrss 0 ts)) /\
    gtokenss cs = map ltok toks /\ gstrips cs = ptrees ts.
Proof.
  intros Hk Hl. unfold build_tree.
  assert (Er : rev (flat (PNode k ts)) = Close :: rev (Open k :: flats ts)).
  { cbn [flat]. change (Open k :: flat_map flat ts ++ [Close]) with ((Open k :: flats ts) ++ [Close]). now rewrite rev_app_distr. }
  rewrite Er.
  assert (El : removelast (flat (PNode k ts)) = Open k :: flats ts).
  { cbn [flat]. change (Open k :: flat_map flat ts ++ [Close]) with ((Open k :: flats ts) ++ [Close]). apply removelast_last. }
  rewrite El. clear Er El. cbn [build_steps build_step bs_past bs_next bs_b bs_errs]. rewrite Hk. unfold b_start. cbn [b_open b_done].
  destruct (builds_forest ts [] toks [] toks k [] [] [] [] []) as (u & n & gs & Et & K & T & S & E).
  { reflexivity. } { now rewrite app_nil_r. }
  rewrite app_nil_r in E. rewrite E. cbn [build_steps bs_past bs_next bs_b bs_errs app filter length].
  assert (Hn : filter ntrivia n = []).
  { rewrite Et, kinds_of_app, K in Hl. rewrite <- (app_nil_r (pleavess ts)) in Hl at 2. apply app_inv_head in Hl.
    unfold kinds_of in Hl. now destruct (filter ntrivia n). }
  rewrite emit_all_trivia by assumption. cbn [b_finish_node b_open b_done app b_finish].
  eexists. split; [reflexivity|]. split.
  - rewrite gtokenss_app, gtokens_leaf, T, Et, map_app. reflexivity.
  - rewrite gstrips_app, gstrips_trivia by assumption. now rewrite app_nil_r.
Qed.
