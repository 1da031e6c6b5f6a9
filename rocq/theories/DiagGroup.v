(** Diagnostics about grouping, projection, repeated subjects and syntax errors on the trees of documents. *)
From Coq Require Import String List Arith NArith Bool Lia Sorted Permutation.
Import ListNotations.
From Verif Require Import ServerModel Kinds KindFacts ParserSyntax ParserModel GrammarData ParserTree ParserTerm ParserBuild ParserSpec ParserChecks ParserOutcome ParserProps
  TextModel TextSpec TextProofs TextProps Utf8Model LexerRegex LexerModel LexerSpec LexerProps FormatData FormatModel FormatTree FormatText FormatParse FormatWeave
  TreeModel TreePlace TreeShape TreeKids TreeItems VarModel VarSpec VarRegions VarOcc VarDoc LexRename VarProps DiagModel DiagSpec AstFacts DiagFacts.

(** ** every node but the root has a token that is no trivia *)
Lemma leaves_tok (u : list lexeme) : flat_map leaves (map tok u) = u.
Proof. induction u as [|[k w] u IH]; [reflexivity|]. cbn [map flat_map tok leaves fst snd app]. rewrite IH. reflexivity. Qed.
Lemma tplace_flat t : forall l, flat_map leaves (fst (tplace t l)) ++ snd (tplace t l) = l.
Proof.
  induction t as [k|k ts IH|e] using ptree_rect'; intros l.
  - unfold tplace, place. destruct (split_trivia_spec lkind l) as (u & n & -> & -> & _ & _). destruct n as [|y n]; cbn [fst snd].
    + rewrite !app_nil_r. apply leaves_tok.
    + rewrite flat_map_app, leaves_tok. cbn [flat_map]. destruct y as [ky wy]. cbn [tok leaves fst snd app]. rewrite <- app_assoc. reflexivity.
  - unfold tplace. rewrite place_node. fold tplaces. assert (forall l, flat_map leaves (fst (tplaces ts l)) ++ snd (tplaces ts l) = l) as H.
    { induction IH as [|t ts Ht _ IHts]; intros l0; [reflexivity|]. unfold tplaces. cbn [places]. fold tplace tplaces. pose proof (Ht l0) as H1. destruct (tplace t l0) as [a m]. cbn [fst snd] in H1. pose proof (IHts m) as H2.
      destruct (tplaces ts m) as [b m']. cbn [fst snd] in *. rewrite flat_map_app, <- app_assoc, H2. exact H1. }
    destruct (is_unit k).
    + pose proof (H l) as H1. destruct (tplaces ts l) as [a m]. cbn [fst snd] in *. cbn [map app flat_map leaves]. rewrite app_nil_r. exact H1.
    + destruct (split_trivia_spec lkind l) as (u & n & -> & -> & _ & _). pose proof (H n) as H1. destruct (tplaces ts n) as [a m]. cbn [fst snd] in *. rewrite flat_map_app, leaves_tok. cbn [flat_map leaves]. rewrite app_nil_r, <- app_assoc, H1. reflexivity.
  - reflexivity.
Qed.
Lemma tplaces_flat ts : forall l, flat_map leaves (fst (tplaces ts l)) ++ snd (tplaces ts l) = l.
Proof.
  induction ts as [|t ts IH]; intros l; [reflexivity|]. unfold tplaces. cbn [places]. fold tplace tplaces. pose proof (tplace_flat t l) as H1. destruct (tplace t l) as [a m]. cbn [fst snd] in H1. pose proof (IH m) as H2.
  destruct (tplaces ts m) as [b m']. cbn [fst snd] in *. rewrite flat_map_app, <- app_assoc, H2. exact H1.
Qed.
Definition sig (y : tree) : list lexeme := filter (fun l => negb (is_trivia (fst l))) (leaves y).
Lemma seen_filter l : seen l = map fst (filter (fun l => negb (is_trivia (fst l))) l).
Proof. unfold seen, significant_kinds. induction l as [|[k w] l IH]; [reflexivity|]. cbn [map filter lkind fst]. destruct (negb (is_trivia k)); cbn [map fst]; rewrite IH; reflexivity. Qed.
Lemma placed_sig k cs : placed_node k cs -> sig (Node k cs) <> [].
Proof.
  intros (us & l & rest & _ & _ & Hl & _ & Hs & ->) E. rewrite <- pleavess_prunes in Hs, Hl. destruct (tplaces_items _ _ _ Hs) as [_ H2]. pose proof (tplaces_flat (prunes us) l) as F. rewrite <- F in Hs. unfold seen in Hs. rewrite sig_app in Hs. fold (seen (snd (tplaces (prunes us) l))) in Hs.
  rewrite H2 in Hs. apply app_inv_tail in Hs. fold (seen (flat_map leaves (fst (tplaces (prunes us) l)))) in Hs. rewrite seen_filter in Hs. unfold sig in E. cbn [leaves] in E. rewrite E in Hs. cbn in Hs. congruence.
Qed.
(** nodes with a significant token, none of trivia kind, variables not nested *)
Definition solid (y : tree) : Prop := forall p k cs, at_path y p = Some (Node k cs) -> sig (Node k cs) <> [] /\ is_trivia k = false /\ (k = K_Var -> forall q, variable y (p ++ q) -> q = []).
Lemma doc_solid err t x p y : doc_tree err t x -> p <> [] -> at_path x p = Some y -> solid y.
Proof.
  intros D Hp E q k cs Eq. assert (at_path x (p ++ q) = Some (Node k cs)) as Epq by (rewrite at_path_app, E; exact Eq).
  assert (placed_node k cs) as P by (eapply doc_node_at; [exact D| |exact Epq]; destruct p; [congruence|discriminate]). split; [apply placed_sig, P|]. split.
  - destruct P as (us & l & rest & I & _). destruct k; try reflexivity; discriminate I.
  - intros -> r [ds Hr]. destruct r as [|i r]; [reflexivity|exfalso]. rewrite at_path_app, Eq in Hr. assert (variable x (p ++ q)) as V by (exists cs; exact Epq).
    destruct (doc_var_node _ _ _ _ D V) as [(kw & w & E2 & _)|(kw & w & E2)]; rewrite Epq in E2; injection E2 as ->; cbn [at_path] in Hr; destruct i as [|i]; cbn in Hr; try (destruct r; discriminate); try (destruct i; discriminate).
    destruct r as [|[|j] r]; cbn in Hr; try discriminate; destruct r; try discriminate; destruct j; discriminate.
Qed.
Lemma solid_child k cs i c : solid (Node k cs) -> nth_error cs i = Some c -> solid c.
Proof.
  intros S E p k' ds Ep. assert (at_path (Node k cs) (i :: p) = Some (Node k' ds)) as Ep' by (cbn; rewrite E; exact Ep). destruct (S _ _ _ Ep') as (H1 & H2 & H3). split; [exact H1|]. split; [exact H2|].
  intros Hk q [es Hq]. apply (H3 Hk). exists es. cbn. rewrite E. exact Hq.
Qed.
Lemma sig_node k cs : sig (Node k cs) = flat_map sig cs.
Proof. unfold sig. cbn [leaves]. induction cs as [|c cs IH]; [reflexivity|]. cbn [flat_map]. rewrite filter_app. f_equal. exact IH. Qed.
Lemma sig_trivia_child k cs c : solid (Node k cs) -> In c cs -> (sig c = [] <-> is_trivia (tkind c) = true).
Proof.
  intros S Hin. apply In_nth_error in Hin as [i E]. pose proof (solid_child _ _ _ _ S E) as Sc. destruct c as [k' w|k' ds].
  - unfold sig. cbn [leaves filter fst tkind]. destruct (is_trivia k'); cbn [negb]; split; intros H; try reflexivity; discriminate.
  - destruct (Sc [] k' ds eq_refl) as (H1 & H2 & _). cbn [tkind]. rewrite H2. split; [intros K; congruence|discriminate].
Qed.
Lemma sig_inside y : forall r z, at_path y r = Some z -> exists a b, sig y = a ++ sig z ++ b.
Proof.
  induction y as [k w|k cs IH] using tree_ind'; intros r z E.
  - destruct r; [|discriminate]. injection E as <-. exists [], []. rewrite app_nil_r. reflexivity.
  - destruct r as [|i r]; [injection E as <-; exists [], []; rewrite app_nil_r; reflexivity|]. cbn in E. destruct (nth_error cs i) as [c|] eqn:Ec; [|discriminate].
    destruct (nth_error_Forall _ _ _ _ IH Ec _ _ E) as (a & b & Es). apply nth_error_split in Ec as (l1 & l2 & -> & _). exists (flat_map sig l1 ++ a), (b ++ flat_map sig l2). rewrite sig_node, flat_map_app. cbn [flat_map]. rewrite Es, <- !app_assoc. reflexivity.
Qed.
Lemma flat_nil {A B} (f : A -> list B) l : flat_map f l = [] -> Forall (fun a => f a = []) l.
Proof. induction l as [|a l IH]; intros H; [constructor|]. cbn in H. apply app_eq_nil in H as [H1 H2]. constructor; auto. Qed.
(** the search of [as_var] among children *)
Definition only_child := fix only (i : nat) (l : list tree) : option path :=
   match l with
   | [] => None
   | c :: l => if is_trivia (tkind c) then only (S i) l
               else if existsb (fun d => negb (is_trivia (tkind d))) l then None
               else option_map (cons i) (as_var c)
   end.
Lemma as_var_node k cs : as_var (Node k cs) = if kind_eqb k K_Var then Some [] else only_child 0 cs.
Proof. destruct k; reflexivity. Qed.
Lemma only_spec cs : forall n r, only_child n cs = Some r <-> exists i c q, nth_error cs i = Some c /\ r = (n + i) :: q /\ as_var c = Some q /\ is_trivia (tkind c) = false /\ (forall j d, nth_error cs j = Some d -> j <> i -> is_trivia (tkind d) = true).
Proof.
  induction cs as [|c cs IH]; intros n r; cbn [only_child].
  - split; [discriminate|]. intros (i & c & q & E & _). destruct i; discriminate.
  - destruct (is_trivia (tkind c)) eqn:T.
    + rewrite IH. split.
      * intros (i & d & q & E & -> & A & Td & O). exists (S i), d, q. split; [exact E|]. split; [f_equal; lia|]. split; [exact A|]. split; [exact Td|]. intros [|j] e Ej N; cbn in Ej; [congruence|]. eapply O; [exact Ej|lia].
      * intros (i & d & q & E & -> & A & Td & O). destruct i as [|i]; cbn in E; [congruence|]. exists i, d, q. split; [exact E|]. split; [f_equal; lia|]. split; [exact A|]. split; [exact Td|]. intros j e Ej N. apply (O (S j)); [exact Ej|lia].
    + destruct (existsb (fun d => negb (is_trivia (tkind d))) cs) eqn:X.
      * split; [discriminate|]. intros (i & d & q & E & -> & A & Td & O). exfalso. apply existsb_exists in X as (e & He & Te). apply In_nth_error in He as [j Ej]. apply negb_true_iff in Te. destruct i as [|i].
        { rewrite (O (S j) e Ej) in Te; [discriminate|lia]. } { rewrite (O 0 c eq_refl) in T; [discriminate|lia]. }
      * split.
        { intros H. destruct (as_var c) as [q|] eqn:A; [|discriminate]. injection H as <-. exists 0, c, q. split; [reflexivity|]. split; [f_equal; lia|]. split; [exact A|]. split; [exact T|]. intros [|j] e Ej N; [congruence|]. cbn in Ej.
          destruct (is_trivia (tkind e)) eqn:Te; [reflexivity|]. exfalso. assert (existsb (fun d => negb (is_trivia (tkind d))) cs = true) as K by (apply existsb_exists; exists e; split; [eapply nth_error_In, Ej|rewrite Te; reflexivity]). congruence. }
        { intros (i & d & q & E & -> & A & Td & O). destruct i as [|i]; [|rewrite (O 0 c eq_refl) in T; [discriminate|lia]]. cbn in E. injection E as <-. rewrite A. cbn. f_equal. f_equal. lia. }
Qed.
Lemma as_var_spec y : solid y -> forall r, as_var y = Some r <-> exists z, at_path y r = Some z /\ variable y r /\ sig y = sig z.
Proof.
  induction y as [k w|k cs IH] using tree_ind'; intros So r; [split; [discriminate|]; intros (z & E & [ds V] & _); destruct r; discriminate|].
  rewrite as_var_node. destruct (kind_eqb_spec k K_Var) as [->|Nk].
  - split.
    + intros [= <-]. exists (Node K_Var cs). split; [reflexivity|]. split; [exists cs; reflexivity|reflexivity].
    + intros (z & E & V & _). destruct (So [] K_Var cs eq_refl) as (_ & _ & H). rewrite (H eq_refl r V). reflexivity.
  - rewrite only_spec. split.
    + intros (i & c & q & E & -> & A & T & O). cbn [Nat.add]. apply (nth_error_Forall _ _ _ _ IH E (solid_child _ _ _ _ So E)) in A as (z & Ez & [ds V] & Es). exists z. cbn [at_path]. rewrite E. split; [exact Ez|]. split; [exists ds; cbn; rewrite E; exact V|].
      rewrite <- Es, sig_node. apply nth_error_split in E as (l1 & l2 & -> & L). rewrite flat_map_app. cbn [flat_map].
      assert (forall l, (forall d, In d l -> In d (l1 ++ c :: l2) /\ is_trivia (tkind d) = true) -> flat_map sig l = []) as Hnil.
      { induction l as [|d l IHl]; intros H; [reflexivity|]. cbn [flat_map]. rewrite (proj2 (sig_trivia_child _ _ d So (proj1 (H d (or_introl eq_refl)))) (proj2 (H d (or_introl eq_refl)))). apply IHl. intros e He. apply H. right. exact He. }
      rewrite (Hnil l1), (Hnil l2); [apply app_nil_r| |].
      * intros d Hd. split; [apply in_or_app; right; right; exact Hd|]. apply In_nth_error in Hd as [j Ej]. apply (O (length l1 + S j)); [|lia]. rewrite nth_error_app2 by lia. replace (length l1 + S j - length l1) with (S j) by lia. exact Ej.
      * intros d Hd. split; [apply in_or_app; left; exact Hd|]. apply In_nth_error in Hd as [j Ej]. assert (j < length l1) by (apply nth_error_Some; congruence). apply (O j); [|lia]. rewrite nth_error_app1 by lia. exact Ej.
    + intros (z & Ez & [ds V] & Es). destruct r as [|i q]; [cbn in V; injection V as -> _; congruence|]. cbn in Ez, V. destruct (nth_error cs i) as [c|] eqn:E; [|discriminate].
      destruct (sig_inside _ _ _ Ez) as (a & b & Ec). rewrite sig_node in Es. pose proof E as E'. apply nth_error_split in E' as (l1 & l2 & Ecs & L). rewrite Ecs, flat_map_app in Es. cbn [flat_map] in Es.
      assert (flat_map sig l1 = [] /\ a = [] /\ b = [] /\ flat_map sig l2 = []) as (N1 & -> & -> & N2).
      { apply (f_equal (@length _)) in Es. rewrite Ec, !app_length in Es. destruct (flat_map sig l1), a, b, (flat_map sig l2); cbn in Es; try lia. auto. }
      cbn [app] in Ec. rewrite app_nil_r in Ec. assert (In c cs) as Hc by (eapply nth_error_In, E). exists i, c, q. split; [exact E|]. split; [reflexivity|]. split.
      * apply (nth_error_Forall _ _ _ _ IH E (solid_child _ _ _ _ So E)). exists z. split; [exact Ez|]. split; [exists ds; exact V|exact Ec].
      * assert (sig z <> []) as Hz. { rewrite V in Ez. injection Ez as <-. eapply (So (i :: q)). cbn. rewrite E. exact V. }
        split; [destruct (is_trivia (tkind c)) eqn:T; [|reflexivity]; exfalso; apply (sig_trivia_child _ _ c So Hc) in T; congruence|].
        intros j d Ej N. apply (sig_trivia_child _ _ d So (nth_error_In _ _ Ej)). apply flat_nil in N1, N2. rewrite Forall_forall in N1, N2. rewrite Ecs in Ej. destruct (Nat.lt_trichotomy j (length l1)) as [H|[H|H]]; [|lia|].
        { rewrite nth_error_app1 in Ej by exact H. apply N1. eapply nth_error_In, Ej. }
        { rewrite nth_error_app2 in Ej by lia. destruct (j - length l1) as [|m] eqn:Em; [lia|]. cbn in Ej. apply N2. eapply nth_error_In, Ej. }
Qed.

(** ** GROUP BY *)
Lemma last_child_part x c k n : (last_child x c = Some n /\ node_at x n k) <-> last_part x c k n.
Proof.
  split.
  - intros [L H]. apply last_child_spec in L as (i & k0 & -> & _ & M). split; [split; [eauto|exact H]|]. intros k' n' [[j ->] Hn]. pose proof (M _ _ Hn) as Hle. destruct (Nat.eq_dec j i) as [->|N]; [left; reflexivity|right].
    apply before_app. apply before_here. lia.
  - intros [[[j ->] H] M]. split; [|exact H]. destruct (last_child x c) as [m|] eqn:L; [|exfalso; exact (last_child_none _ _ _ _ L H)]. apply last_child_spec in L as (i & k0 & -> & Hi & L). pose proof (L _ _ H) as Hle.
    destruct (M _ _ (conj (ex_intro _ i eq_refl) Hi)) as [E|B]; [rewrite E; reflexivity|]. apply before_child in B. lia.
Qed.
Lemma alone_iff err t x e y v : doc_tree err t x -> e <> [] -> at_path x e = Some y -> (exists r, as_var y = Some r /\ v = e ++ r) <-> alone x e v.
Proof.
  intros D He E. pose proof (doc_solid _ _ _ _ _ D He E) as So. split.
  - intros (r & A & ->). apply (as_var_spec _ So) in A as (z & Ez & [ds V] & Es). split; [exists r; reflexivity|]. split; [exists ds; rewrite at_path_app, E; exact V|].
    unfold significant. rewrite at_path_app, E, Ez. exact Es.
  - intros ([r ->] & [ds V] & Es). exists r. split; [|reflexivity]. apply (as_var_spec _ So). rewrite at_path_app, E in V. exists (Node K_Var ds). split; [exact V|]. split; [exists ds; exact V|].
    unfold significant in Es. rewrite at_path_app, E, V in Es. exact Es.
Qed.
Lemma in_flatten {A B} (f : A -> option B) l b : In b (flatten (map f l)) <-> exists a, In a l /\ f a = Some b.
Proof.
  unfold flatten. rewrite in_flat_map. split.
  - intros (o & Ho & Hb). apply in_map_iff in Ho as (a & <- & Ha). exists a. split; [exact Ha|]. destruct (f a); [destruct Hb as [<-|[]]; reflexivity|destruct Hb].
  - intros (a & Ha & E). exists (f a). split; [apply in_map, Ha|]. rewrite E. left. reflexivity.
Qed.
Lemma in_group_variables err t x gc v : doc_tree err t x -> node_at x gc K_GroupClause -> In v (group_variables x gc) <-> groups_by x gc v.
Proof.
  intros D G. unfold group_variables. rewrite in_flatten. split.
  - intros (c & Hc & E). apply in_child_nodes in Hc as (i & k & -> & Hk). destruct (last_child x (gc ++ [i])) as [n|] eqn:L; [|discriminate]. pose proof L as L'. apply last_child_spec in L' as (j & k' & -> & Hn & _).
    assert (k = K_GroupCondition) as ->.
    { destruct (kid_kinds _ _ _ _ _ _ _ D G Hk) as [->|(R & ER & Hin)].
      - destruct (doc_parent _ _ _ _ _ _ D Hn) as (k0 & H0 & N & _). elim N. exact (node_at_fun _ _ _ _ H0 Hk).
      - injection ER as <-. destruct Hin as [<-|[<-|[]]]; reflexivity. }
    exists (gc ++ [i]). split; [split; [eauto|exact Hk]|]. rewrite !(kind_is_node _ _ _ _ Hn) in E. destruct (kind_eqb_spec k' K_Var) as [Ek|Nk]; [subst k'|].
    + injection E as <-. left. apply last_child_part. split; assumption.
    + destruct (kind_eqb_spec k' K_Expression) as [Ek|Nk']; [subst k'|discriminate]. right. exists ((gc ++ [i]) ++ [j]). split; [apply last_child_part; split; assumption|]. pose proof Hn as [cs Ecs]. rewrite Ecs in E.
      destruct (as_var (Node K_Expression cs)) as [r|] eqn:A; [|discriminate]. injection E as <-. refine (proj1 (alone_iff _ _ _ _ _ _ D _ Ecs) _); [destruct gc; discriminate|]. exists r. split; [exact A|reflexivity].
  - intros (c & [[i ->] Hk] & H). exists (gc ++ [i]). split; [apply in_child_nodes; eauto|]. destruct H as [H|(e & H & A)]; apply last_child_part in H as [L H]; rewrite L, !(kind_is_node _ _ _ _ H); cbn [kind_eqb].
    + reflexivity.
    + pose proof L as L'. apply last_child_spec in L' as (j & k' & -> & _). pose proof H as [cs Ecs]. rewrite Ecs. refine (_ (proj2 (alone_iff _ _ _ _ _ _ D _ Ecs) A)); [|destruct gc; discriminate]. intros (r & E & ->). rewrite E. reflexivity.
Qed.
Lemma last_index_spec x w l : forall n, match last_index x w n l with
  | None => forall a, In a l -> text_at x (snd a) <> w
  | Some j => exists m a, j = n + m /\ nth_error l m = Some a /\ text_at x (snd a) = w /\ forall m' a', m < m' -> nth_error l m' = Some a' -> text_at x (snd a') <> w
  end.
Proof.
  induction l as [|[e v] l IH]; intros n; cbn [last_index]; [intros _ []|]. pose proof (IH (S n)) as H. destruct (last_index x w (S n) l) as [j|].
  - destruct H as (m & a & -> & E & Ew & M). exists (S m), a. split; [lia|]. split; [exact E|]. split; [exact Ew|]. intros [|m'] a' L E'; [lia|]. eapply M; [|exact E']. lia.
  - unfold text_eqb. destruct (list_eq_dec N.eq_dec (text_at x v) w) as [Ew|Nw].
    + exists 0, (e, v). split; [lia|]. split; [reflexivity|]. split; [exact Ew|]. intros [|m'] a' L E'; [lia|]. apply H. eapply nth_error_In, E'.
    + intros a [<-|Ha]; [exact Nw|apply H, Ha].
Qed.
Lemma select_unique err t x a b : doc_tree err t x -> query_doc x -> node_at x a K_SelectQuery -> node_at x b K_SelectQuery -> a = b.
Proof. intros D Q Ha Hb. apply (select_query_iff _ _ _ _ D Q) in Ha, Hb. congruence. Qed.
Lemma assigned_later x sc m a w : nth_error (assignments x sc) m = Some a ->
  match last_index x w 0 (assignments x sc) with Some j => m <? j | None => true end = true <->
  (forall e' a', assigned x sc e' a' -> text_at x a' <> w) \/ exists e' a', assigned x sc e' a' /\ doc_before (snd a) a' /\ text_at x a' = w.
Proof.
  intros E. pose proof (last_index_spec x w (assignments x sc) 0) as H. pose proof (assignments_snd_sorted x sc) as So.
  assert (forall i j b c, nth_error (assignments x sc) i = Some b -> nth_error (assignments x sc) j = Some c -> doc_before (snd b) (snd c) <-> i < j) as Ord.
  { assert (forall i j b c, nth_error (assignments x sc) i = Some b -> nth_error (assignments x sc) j = Some c -> i < j -> doc_before (snd b) (snd c)) as O1.
    { intros i j b c Ei Ej L. revert i j Ei Ej L. generalize dependent (assignments x sc). intros l _ _ So. induction l as [|d l IH]; intros [|i] [|j] Ei Ej L; try discriminate; try lia; cbn in *; inversion So as [|? ? S' F]; subst.
      - injection Ei as <-. rewrite Forall_forall in F. apply F. apply in_map. eapply nth_error_In, Ej.
      - eapply IH; [exact S'|exact Ei|exact Ej|lia]. }
    intros i j b c Ei Ej. split; [|eapply O1; eassumption]. intros B. destruct (Nat.lt_trichotomy i j) as [K|[K|K]]; [exact K| |].
    - subst j. rewrite Ei in Ej. injection Ej as <-. destruct (doc_before_irrefl _ B).
    - pose proof (O1 _ _ _ _ Ej Ei K) as B'. destruct (doc_before_irrefl _ (doc_before_trans _ _ _ B B')). }
  destruct (last_index x w 0 (assignments x sc)) as [j|].
  - destruct H as (n & [e' a'] & -> & En & Ew & M). cbn [Nat.add snd] in *. rewrite Nat.ltb_lt. split.
    + intros L. right. exists e', a'. split; [apply in_assignments; eapply nth_error_In, En|]. split; [|exact Ew]. exact (proj2 (Ord _ _ _ _ E En) L).
    + intros [H|(e2 & a2 & H & B & Ew2)]; [exfalso; apply (H e' a'); [apply in_assignments; eapply nth_error_In, En|exact Ew]|].
      apply in_assignments in H. apply In_nth_error in H as [m2 E2]. pose proof (proj1 (Ord _ _ _ _ E E2) B) as L. destruct (le_lt_dec m2 n) as [|K]; [lia|]. exfalso. exact (M _ _ K E2 Ew2).
  - split; [|reflexivity]. intros _. left. intros e' a' Ha. apply in_assignments in Ha. exact (H _ Ha).
Qed.
Lemma NoDup_concat_imap {A B} (f : nat -> A -> list B) l : forall n,
  (forall m a, nth_error l m = Some a -> NoDup (f (n + m) a)) ->
  (forall i j a b v, i < j -> nth_error l i = Some a -> nth_error l j = Some b -> In v (f (n + i) a) -> In v (f (n + j) b) -> False) -> NoDup (concat (imap f n l)).
Proof.
  induction l as [|a l IH]; intros n H1 H2; cbn [imap concat]; [constructor|]. apply NoDup_app.
  - specialize (H1 0 a eq_refl). rewrite Nat.add_0_r in H1. exact H1.
  - apply IH.
    + intros m b E. replace (S n + m) with (n + S m) by lia. apply H1, E.
    + intros i j b c v L Ei Ej Hi Hj. apply (H2 (S i) (S j) b c v); [lia|exact Ei|exact Ej| |]; [replace (n + S i) with (S n + i) by lia; exact Hi|replace (n + S j) with (S n + j) by lia; exact Hj].
  - intros v Hv K. apply in_concat in K as (m & Hm & Hv'). apply in_imap in Hm as (j & b & E & ->). apply (H2 0 (S j) a b v); [lia|reflexivity|exact E|rewrite Nat.add_0_r; exact Hv|]. replace (n + S j) with (S n + j) by lia. exact Hv'.
Qed.
Lemma assigned_expr x sc e a : assigned x sc e a -> exists n, e = sc ++ [n] /\ node_at x (sc ++ [n]) K_Expression.
Proof. intros (i & j & -> & _ & H & _). eauto. Qed.
Lemma ungrouped_ok err t x : doc_tree err t x -> query_doc x -> exists ds, ungrouped_select_variable x t = VDone ds /\ coded UngroupedSelectVar ds /\
  reports x t (fun v dat => dat = NoData /\ ungrouped x v) ds.
Proof.
  intros D Q. unfold ungrouped_select_variable.
  assert ((forall sq sc gc, node_at x sq K_SelectQuery -> part x sq K_SelectClause sc -> grouped x sq gc -> False) -> exists ds, VDone [] = VDone ds /\ coded UngroupedSelectVar ds /\ reports x t (fun v dat => dat = NoData /\ ungrouped x v) ds) as None_case.
  { intros H. exists []. split; [reflexivity|]. split; [constructor|]. exists []. split; [constructor|]. split; [|constructor]. intros p dat. split; [intros []|]. intros (_ & sq & sc & gc & H1 & H2 & H3 & _). exact (H _ _ _ H1 H2 H3). }
  destruct (select_query x) as [sq|] eqn:Es.
  2:{ apply None_case. intros sq sc gc H _ _. apply (select_query_iff _ _ _ _ D Q) in H. congruence. }
  pose proof (proj1 (select_query_iff _ _ _ _ D Q) Es) as Hsq. destruct (group_clause x sq) as [gc|] eqn:Eg.
  2:{ apply None_case. intros sq' sc gc H _ G. pose proof (select_unique _ _ _ _ _ D Q Hsq H). subst sq'. assert (group_clause x sq = Some gc) by (apply (group_clause_iff _ _ _ _ _ _ D Hsq eq_refl); split; [exact G|exact (select_not_hidden _ _ _ _ D Hsq)]). congruence. }
  destruct (select_clause x sq) as [sc|] eqn:Ec.
  2:{ apply None_case. intros sq' sc gc' H P _. pose proof (select_unique _ _ _ _ _ D Q Hsq H). subst sq'. apply (select_clause_iff _ _ _ _ _ _ D Hsq eq_refl) in P. congruence. }
  pose proof (proj1 (group_clause_iff _ _ _ _ _ _ D Hsq eq_refl) Eg) as [G _]. pose proof (proj1 (select_clause_iff _ _ _ _ _ _ D Hsq eq_refl) Ec) as Psc.
  assert (node_at x gc K_GroupClause) as Hgc by (destruct G as (sm & _ & [_ H]); exact H).
  assert (forall v, mem (text_at x v) (texts x (group_variables x gc)) = false <-> forall g, groups_by x gc g -> text_at x g <> text_at x v) as Hmem.
  { intros v. rewrite mem_false. unfold texts. rewrite in_map_iff. split.
    - intros H g Hg E. apply H. exists g. split; [exact E|]. apply (in_group_variables _ _ _ _ _ D Hgc), Hg.
    - intros H (g & E & Hg). apply (in_group_variables _ _ _ _ _ D Hgc) in Hg. exact (H _ Hg E). }
  set (gv := texts x (group_variables x gc)) in *. clearbody gv.
  set (plain := filter (fun v => negb (mem (text_at x v) gv)) (selected_variables x sc)).
  set (inner := concat _).
  assert (forall v, In v plain <-> selected x sc v /\ forall g, groups_by x gc g -> text_at x g <> text_at x v) as Hplain.
  { intros v. unfold plain. rewrite filter_In, in_selected, negb_true_iff, Hmem. reflexivity. }
  assert (forall v, In v inner <-> (forall g, groups_by x gc g -> text_at x g <> text_at x v) /\ exists e a, assigned x sc e a /\ unaggregated_in x e v /\
    ((forall e' a', assigned x sc e' a' -> text_at x a' <> text_at x v) \/ exists e' a', assigned x sc e' a' /\ doc_before a a' /\ text_at x a' = text_at x v)) as Hinner.
  { intros v. unfold inner. rewrite in_concat. split.
    - intros (l & Hl & Hv). apply in_imap in Hl as (m & [e a] & E & ->). apply filter_In in Hv as [Hv F]. apply andb_prop in F as [F1 F2]. cbn [Nat.add fst] in *.
      assert (assigned x sc e a) as As by (apply in_assignments; eapply nth_error_In, E). split; [apply Hmem, negb_true_iff, F1|]. exists e, a. split; [exact As|]. split.
      + destruct As as (i & j & -> & -> & [cs He] & _). exact (proj1 (in_unaggregated_at _ _ _ _ He) Hv).
      + exact (proj1 (assigned_later _ _ _ _ _ E) F2).
    - intros (Hg & e & a & As & U & Lt). pose proof As as As'. apply in_assignments in As' as Hin. apply In_nth_error in Hin as [m E]. eexists. split; [apply in_imap; exists m, (e, a); split; [exact E|reflexivity]|].
      apply filter_In. cbn [fst Nat.add]. split.
      + destruct As as (i & j & -> & -> & [cs He] & _). exact (proj2 (in_unaggregated_at _ _ _ _ He) U).
      + apply andb_true_intro. split; [apply negb_true_iff, Hmem, Hg|]. exact (proj2 (assigned_later _ _ _ (e, a) _ E) Lt). }
  assert (forall v, In v (plain ++ inner) -> exists y, at_path x v = Some y) as Hat.
  { intros v Hv. apply in_app_or in Hv as [Hv|Hv]; [apply Hplain in Hv as [(_ & H & _) _]; eapply node_some, H|apply Hinner in Hv as (_ & e & a & _ & (_ & [cs H] & _) & _); eauto]. }
  destruct (vmap_all err t x UngroupedSelectVar NoData _ D Hat) as (ds & E & F & C). exists ds. split; [exact E|]. split; [exact C|].
  eexists. split; [|split; [|exact F]].
  - rewrite map_map. cbn [fst]. rewrite map_id. apply NoDup_app.
    + apply NoDup_filter, sorted_NoDup, selected_sorted.
    + unfold inner. apply NoDup_concat_imap. 
      * intros m [e a] E'. apply NoDup_filter. unfold unaggregated_at. cbn [fst]. destruct (at_path x e); [|constructor]. apply NoDup_map_inj; [intros b c; apply app_inv_head|apply unaggregated_NoDup].
      * intros i j [e a] [e' a'] v L Ei Ej Hi Hj. apply filter_In in Hi as [Hi _], Hj as [Hj _]. cbn [fst] in *.
        apply nth_error_In in Ei as Ii, Ej as Ij. apply in_assignments in Ii, Ij. pose proof (assigned_expr _ _ _ _ Ii) as [ni [-> [csi Hci]]]. pose proof (assigned_expr _ _ _ _ Ij) as [nj [-> [csj Hcj]]].
        apply (in_unaggregated_at _ _ _ _ Hci) in Hi as [[r ->] _]. apply (in_unaggregated_at _ _ _ _ Hcj) in Hj as [[r' Er] _]. rewrite <- !app_assoc in Er. apply app_inv_head in Er. cbn [app] in Er. injection Er as <- _.
        pose proof (assigned_expr_fun _ _ _ _ _ Ii Ij). subst a'. pose proof (assignments_snd_sorted x sc) as So. apply sorted_NoDup in So. rewrite NoDup_nth_error in So.
        assert (i = j) as Eij; [|lia]. apply So; [rewrite map_length; apply nth_error_Some; congruence|]. rewrite !nth_error_map, Ei, Ej. reflexivity.
    + intros v Hv Hi. apply Hplain in Hv as [([n ->] & Hn & _) _]. apply Hinner in Hi as (_ & e & a & As & ([r Er] & _) & _). pose proof As as (i & j & -> & _ & He & _). rewrite <- app_assoc in Er. apply app_inv_head in Er. cbn in Er. injection Er as -> Er. pose proof (node_at_fun _ _ _ _ Hn He). discriminate.
  - intros v dat. rewrite in_map_iff. split.
    + intros (p & [= <- <-] & Hp). split; [reflexivity|]. exists sq, sc, gc. split; [exact Hsq|]. split; [exact Psc|]. split; [exact G|]. apply in_app_or in Hp as [Hp|Hp]; [apply Hplain in Hp as [H1 H2]; split; [exact H2|left; exact H1]|].
      apply Hinner in Hp as [H1 H2]. split; [exact H1|right; exact H2].
    + intros (-> & sq' & sc' & gc' & H1 & H2 & H3 & H4 & H5). exists v. split; [reflexivity|]. pose proof (select_unique _ _ _ _ _ D Q Hsq H1). subst sq'.
      assert (sc' = sc) as -> by (apply (select_clause_iff _ _ _ _ _ _ D Hsq eq_refl) in H2; congruence).
      assert (gc' = gc) as ->. { assert (group_clause x sq = Some gc') by (apply (group_clause_iff _ _ _ _ _ _ D Hsq eq_refl); split; [exact H3|exact (select_not_hidden _ _ _ _ D Hsq)]). congruence. }
      apply in_or_app. destruct H5 as [H5|H5]; [left; apply Hplain; split; assumption|right; apply Hinner; split; assumption].
Qed.
