(** The syntax tree of a document as a function of the run of the parser: where the whitespace and the comments go,
    and what the nodes can look like.  Generic facts for the request handlers. *)
From Coq Require Import String List Arith NArith Bool Lia.
Import ListNotations.
From Verif Require Import Kinds KindFacts ParserSyntax ParserModel GrammarData ParserTree ParserTerm ParserBuild ParserSpec ParserChecks ParserOutcome
  TextModel Utf8Model LexerModel LexerSpec LexerProps FormatData FormatModel FormatTree FormatText FormatParse.

(** ** placing tokens (of type [T]) in a raw tree *)
Section place.
Context {T O : Type} (knd : T -> kind) (leaf : T -> O) (node : kind -> list O -> O).
Fixpoint split_trivia (l : list T) : list T * list T :=
  match l with
  | [] => ([], [])
  | t :: r => if is_trivia (knd t) then let '(u, n) := split_trivia r in (t :: u, n) else ([], l)
  end.
Fixpoint place (t : ptree) (l : list T) : list O * list T :=
  match t with
  | PLeaf _ => let '(u, n) := split_trivia l in match n with x :: n => (map leaf u ++ [leaf x], n) | [] => (map leaf u, []) end
  | PNode k ts =>
    let '(u, n) := if is_unit k then ([], l) else split_trivia l in
    let '(cs, n) := (fix go (ts : list ptree) (l : list T) : list O * list T :=
                       match ts with [] => ([], l) | t :: ts => let '(a, l) := place t l in let '(b, l) := go ts l in (a ++ b, l) end) ts n in
    (map leaf u ++ [node k cs], n)
  | PErr _ => ([], l)
  end.
Fixpoint places (ts : list ptree) (l : list T) : list O * list T :=
  match ts with [] => ([], l) | t :: ts => let '(a, l) := place t l in let '(b, l) := places ts l in (a ++ b, l) end.
Lemma place_node k ts l : place (PNode k ts) l =
  let '(u, n) := if is_unit k then ([], l) else split_trivia l in let '(cs, n) := places ts n in (map leaf u ++ [node k cs], n).
Proof. reflexivity. Qed.
(** the children of the root: the rest is whitespace and comments *)
Definition placed (ts : list ptree) (l : list T) : list O := let '(cs, n) := places ts l in cs ++ map leaf n.
(** kinds of the tokens that are not trivia *)
Definition significant_kinds (l : list T) : list kind := filter (fun k => negb (is_trivia k)) (map knd l).
Lemma split_trivia_spec l : exists u n, split_trivia l = (u, n) /\ l = u ++ n /\ Forall (fun t => is_trivia (knd t) = true) u /\
  match n with x :: _ => is_trivia (knd x) = false | [] => True end.
Proof.
  induction l as [|t r (u & n & E & -> & F & H)]; cbn [split_trivia].
  - exists [], []. split; [reflexivity|]. split; [reflexivity|]. split; [constructor|exact I].
  - destruct (is_trivia (knd t)) eqn:K.
    + rewrite E. exists (t :: u), n. split; [reflexivity|]. split; [reflexivity|]. split; [constructor; assumption|exact H].
    + exists [], (t :: u ++ n). split; [reflexivity|]. split; [reflexivity|]. split; [constructor|exact K].
Qed.
Lemma sig_app a b : significant_kinds (a ++ b) = significant_kinds a ++ significant_kinds b.
Proof. unfold significant_kinds. rewrite map_app, filter_app. reflexivity. Qed.
Lemma sig_trivia u : Forall (fun t => is_trivia (knd t) = true) u -> significant_kinds u = [].
Proof. induction 1 as [|t u H _ IH]; [reflexivity|]. unfold significant_kinds. cbn. rewrite H. exact IH. Qed.
Lemma sig_nil u : significant_kinds u = [] -> Forall (fun t => is_trivia (knd t) = true) u.
Proof. induction u as [|t u IH]; intros H; constructor; unfold significant_kinds in H; cbn in H; destruct (is_trivia (knd t)); try discriminate; [reflexivity|apply IH, H]. Qed.
Lemma sig_cons x n : is_trivia (knd x) = false -> significant_kinds (x :: n) = knd x :: significant_kinds n.
Proof. intros H. unfold significant_kinds. cbn. rewrite H. reflexivity. Qed.
End place.

Arguments place {T O} knd leaf node t l.
Arguments places {T O} knd leaf node ts l.
Arguments placed {T O} knd leaf node ts l.
Definition gplace := place (fun t => tk (ltok t)) (fun t => GToken (ltok t)) GNodeT.
Definition gplaces := places (fun t => tk (ltok t)) (fun t => GToken (ltok t)) GNodeT.
Definition lkind (l : lexeme) : kind := fst l.
Definition tok (l : lexeme) : tree := Tok (fst l) (snd l).
Definition tplace := place lkind tok Node.
Definition tplaces := places lkind tok Node.

(** ** the builder places *)
Lemma kinds_sig l : kinds_of l = significant_kinds (fun t => tk (ltok t)) l.
Proof. unfold kinds_of, significant_kinds, ntrivia, trivia. induction l as [|t l IH]; [reflexivity|]. cbn. destruct (is_trivia (tk (ltok t))); cbn; [exact IH|]. f_equal. exact IH. Qed.
Lemma emit_split next : forall past k cs r d, exists past',
  emit_trivia past next (mkbuilder ((k, cs) :: r) d) =
    let '(u, n) := split_trivia (fun t => tk (ltok t)) next in (past', n, mkbuilder ((k, cs ++ map (fun t => GToken (ltok t)) u) :: r) d).
Proof.
  induction next as [|t next IH]; intros past k cs r d; cbn [emit_trivia split_trivia].
  - exists past. cbn. rewrite app_nil_r. reflexivity.
  - unfold trivia. destruct (is_trivia (tk (ltok t))).
    + cbn [b_token b_open b_done]. destruct (IH (t :: past) k (cs ++ [GToken (ltok t)]) r d) as [past' ->].
      destruct (split_trivia _ next) as [u n]. exists past'. cbn [map]. rewrite <- app_assoc. reflexivity.
    + exists past. cbn. rewrite app_nil_r. reflexivity.
Qed.
Definition build_places (evs : list event) (leaves : list kind) (pl : list ltoken -> list green * list ltoken) : Prop :=
  forall evs' past next bk bcs br d errs rest, kinds_of next = leaves ++ rest ->
  kinds_of (snd (pl next)) = rest /\
  exists past' errs', build_steps (evs ++ evs') (mkbstate past next (mkbuilder ((bk, bcs) :: br) d) errs) =
    build_steps evs' (mkbstate past' (snd (pl next)) (mkbuilder ((bk, bcs ++ fst (pl next)) :: br) d) errs').
Lemma build_places_tree t : build_places (flat t) (pleaves t) (gplace t).
Proof.
  induction t as [k|k ts IH|e] using ptree_rect'; intros evs' past next bk bcs br d errs rest Hk.
  - cbn [flat app build_steps build_step bs_past bs_next bs_b bs_errs]. unfold gplace, place.
    destruct (emit_split next past bk bcs br d) as [past' ->]. destruct (split_trivia_spec (fun t => tk (ltok t)) next) as (u & n & -> & -> & F & Hn).
    rewrite kinds_sig, sig_app, (sig_trivia _ u F) in Hk. cbn [app pleaves] in Hk. destruct n as [|x n]; [discriminate|].
    rewrite sig_cons in Hk by exact Hn. injection Hk as _ Hk. cbn [fst snd b_token b_open b_done]. split; [rewrite kinds_sig; exact Hk|].
    rewrite <- app_assoc. eauto.
  - assert (Hl : build_places (flats ts) (pleavess ts) (gplaces ts)).
    { clear Hk. induction IH as [|t ts Ht _ IHl]; intros evs1 past1 next1 bk1 bcs1 br1 d1 errs1 rest1 Hk.
      - split; [exact Hk|]. cbn. rewrite app_nil_r. eauto.
      - unfold pleavess in Hk. cbn [flat_map] in Hk. rewrite <- app_assoc in Hk. change (flats (t :: ts)) with (flat t ++ flats ts). rewrite <- app_assoc.
        destruct (Ht (flats ts ++ evs1) past1 next1 bk1 bcs1 br1 d1 errs1 _ Hk) as (K1 & past2 & errs2 & ->).
        unfold gplaces in *. cbn [places]. unfold gplace in *.
        destruct (place _ _ _ t next1) as [a n1]. cbn [fst snd] in *.
        destruct (IHl evs1 past2 n1 bk1 (bcs1 ++ a) br1 d1 errs2 _ K1) as (K2 & past3 & errs3 & ->).
        destruct (places _ _ _ ts n1) as [b n2]. cbn [fst snd] in *. split; [exact K2|]. rewrite <- app_assoc. eauto. }
    cbn [flat app build_steps build_step bs_past bs_next bs_b bs_errs]. unfold gplace. rewrite place_node. cbn [pleaves] in Hk.
    assert (exists u n past1, (if is_unit k then ([], next) else split_trivia (fun t => tk (ltok t)) next) = (u, n) /\
              (if is_unit k then (past, next, mkbuilder ((bk, bcs) :: br) d) else emit_trivia past next (mkbuilder ((bk, bcs) :: br) d)) =
              (past1, n, mkbuilder ((bk, bcs ++ map (fun t => GToken (ltok t)) u) :: br) d) /\ kinds_of n = pleavess ts ++ rest) as (u & n & past1 & -> & -> & Hk1).
    { destruct (is_unit k).
      - exists [], next, past. cbn. rewrite app_nil_r. split; [reflexivity|]. split; [reflexivity|exact Hk].
      - destruct (emit_split next past bk bcs br d) as [past1 ->]. destruct (split_trivia_spec (fun t => tk (ltok t)) next) as (u & n & -> & -> & F & Hn).
        exists u, n, past1. split; [reflexivity|]. split; [reflexivity|]. rewrite kinds_sig, sig_app, (sig_trivia _ u F) in Hk. rewrite kinds_sig. exact Hk. }
    unfold b_start. cbn [b_open b_done]. rewrite <- app_assoc. cbn [app]. fold (flats ts).
    destruct (Hl (Close :: evs') past1 n k [] ((bk, bcs ++ map (fun t => GToken (ltok t)) u) :: br) d errs rest Hk1) as (K2 & past2 & errs2 & ->).
    unfold gplaces in *. destruct (places _ _ _ ts n) as [cs n2]. cbn [fst snd] in *. split; [exact K2|].
    cbn [build_steps build_step bs_b b_finish_node b_open b_done app bs_past bs_next bs_errs]. rewrite <- app_assoc. eauto.
  - cbn [flat app build_steps build_step bs_past bs_next bs_b bs_errs]. split; [exact Hk|]. destruct (error_span past next). cbn. rewrite app_nil_r. eauto.
Qed.
Lemma build_places_forest ts : build_places (flats ts) (pleavess ts) (gplaces ts).
Proof.
  induction ts as [|t ts IHl]; intros evs1 past1 next1 bk1 bcs1 br1 d1 errs1 rest1 Hk.
  - split; [exact Hk|]. cbn. rewrite app_nil_r. eauto.
  - unfold pleavess in Hk. cbn [flat_map] in Hk. rewrite <- app_assoc in Hk. change (flats (t :: ts)) with (flat t ++ flats ts). rewrite <- app_assoc.
    destruct (build_places_tree t (flats ts ++ evs1) past1 next1 bk1 bcs1 br1 d1 errs1 _ Hk) as (K1 & past2 & errs2 & ->).
    unfold gplaces in *. cbn [places]. unfold gplace in *.
    destruct (place _ _ _ t next1) as [a n1]. cbn [fst snd] in *.
    destruct (IHl evs1 past2 n1 bk1 (bcs1 ++ a) br1 d1 errs2 _ K1) as (K2 & past3 & errs3 & ->).
    destruct (places _ _ _ ts n1) as [b n2]. cbn [fst snd] in *. split; [exact K2|]. rewrite <- app_assoc. eauto.
Qed.
Theorem build_tree_places toks k ts : is_unit k = true -> kinds_of toks = pleavess ts ->
  exists errs, build_tree toks (flat (PNode k ts)) = Some (GNodeT k (placed (fun t => tk (ltok t)) (fun t => GToken (ltok t)) GNodeT ts toks), errs).
Proof.
  intros Hk Hl. unfold build_tree.
  assert (Er : rev (flat (PNode k ts)) = Close :: rev (Open k :: flats ts)).
  { cbn [flat]. change (Open k :: flat_map flat ts ++ [Close]) with ((Open k :: flats ts) ++ [Close]). now rewrite rev_app_distr. }
  rewrite Er.
  assert (El : removelast (flat (PNode k ts)) = Open k :: flats ts).
  { cbn [flat]. change (Open k :: flat_map flat ts ++ [Close]) with ((Open k :: flats ts) ++ [Close]). apply removelast_last. }
  rewrite El. clear Er El. cbn [build_steps build_step bs_past bs_next bs_b bs_errs]. rewrite Hk. unfold b_start. cbn [b_open b_done].
  destruct (build_places_forest ts [] [] toks k [] [] [] [] []) as (K & past & errs & E). { now rewrite app_nil_r. }
  rewrite app_nil_r in E. rewrite E. cbn [build_steps bs_past bs_next bs_b bs_errs app]. unfold placed. fold gplaces.
  destruct (gplaces ts toks) as [cs n]. cbn [fst snd] in *. rewrite emit_all_trivia.
  - cbn [b_finish_node b_open b_done app b_finish]. eauto.
  - unfold kinds_of in K. now destruct (filter ntrivia n).
Qed.

(** ** ... and so does grafting *)
Definition same_kinds := Forall2 (fun (a : ltoken) (b : lexeme) => tk (ltok a) = lkind b).
Lemma split_same toks ls : same_kinds toks ls -> let '(u, n) := split_trivia (fun t => tk (ltok t)) toks in let '(u', n') := split_trivia lkind ls in
  length u = length u' /\ ls = u' ++ n' /\ same_kinds n n'.
Proof.
  induction 1 as [|a b toks ls E H IH]; cbn [split_trivia]; [split; [reflexivity|]; split; [reflexivity|constructor]|]. rewrite E. destruct (is_trivia (lkind b)).
  - destruct (split_trivia (fun t => tk (ltok t)) toks) as [u n], (split_trivia lkind ls) as [u' n']. destruct IH as (IH1 & IH2 & IH3). cbn [length app]. split; [lia|]. split; [now rewrite IH2|exact IH3].
  - split; [reflexivity|]. split; [reflexivity|]. constructor; assumption.
Qed.
Lemma graft_list_app a : forall b l, graft_list (a ++ b) l = let '(x, l) := graft_list a l in let '(y, l) := graft_list b l in (x ++ y, l).
Proof.
  induction a as [|c a IH]; intros b l; cbn [app graft_list]; [now destruct (graft_list b l)|]. destruct (graft c l) as [t l1]. rewrite IH.
  destruct (graft_list a l1) as [x l2]. now destruct (graft_list b l2) as [y l3].
Qed.
Lemma graft_leaves (u : list ltoken) : forall (u' r : list lexeme), length u = length u' -> graft_list (map (fun t => GToken (ltok t)) u) (u' ++ r) = (map tok u', r).
Proof.
  induction u as [|t u IH]; intros [|[k w] u'] r H; try discriminate; [reflexivity|]. cbn [map graft_list graft app]. rewrite IH by (cbn in H; lia). reflexivity.
Qed.
Definition graft_places (pg : list ltoken -> list green * list ltoken) (pt : list lexeme -> list tree * list lexeme) : Prop :=
  forall toks ls, same_kinds toks ls -> let '(gs, n) := pg toks in let '(xs, n') := pt ls in
    same_kinds n n' /\ exists used, ls = used ++ n' /\ forall r, graft_list gs (used ++ r) = (xs, r).
Lemma graft_places_cons p1 p2 q1 q2 : graft_places p1 q1 -> graft_places p2 q2 ->
  graft_places (fun l => let '(a, l) := p1 l in let '(b, l) := p2 l in (a ++ b, l)) (fun l => let '(a, l) := q1 l in let '(b, l) := q2 l in (a ++ b, l)).
Proof.
  intros H1 H2 toks ls S. specialize (H1 _ _ S). destruct (p1 toks) as [gs n], (q1 ls) as [xs n']. destruct H1 as (S1 & used1 & -> & G1).
  specialize (H2 _ _ S1). destruct (p2 n) as [gs2 m], (q2 n') as [xs2 m']. destruct H2 as (S2 & used2 & -> & G2).
  split; [exact S2|]. exists (used1 ++ used2). split; [now rewrite app_assoc|]. intros r. rewrite graft_list_app, <- app_assoc, G1, G2. reflexivity.
Qed.
Lemma graft_places_tree t : graft_places (gplace t) (tplace t).
Proof.
  induction t as [k|k ts IH|e] using ptree_rect'; intros toks ls S.
  - unfold gplace, tplace, place. pose proof (split_same _ _ S) as H. destruct (split_trivia (fun t => tk (ltok t)) toks) as [u n], (split_trivia lkind ls) as [u' n'].
    destruct H as (L & -> & Sn). destruct Sn as [|a b n n' E Sn]; cbv beta iota.
    + split; [constructor|]. exists u'. split; [reflexivity|]. intros r. apply graft_leaves, L.
    + split; [exact Sn|]. exists (u' ++ [b]). split; [now rewrite <- app_assoc|]. intros r. rewrite graft_list_app, <- app_assoc. cbn [app]. rewrite graft_leaves by exact L.
      cbn [graft_list graft]. destruct b as [kb wb]. reflexivity.
  - assert (Hl : graft_places (gplaces ts) (tplaces ts)).
    { clear S. induction IH as [|t ts Ht _ IHl]; intros toks1 ls1 S.
      - split; [exact S|]. exists []. split; [reflexivity|]. intros r. reflexivity.
      - exact (graft_places_cons _ _ _ _ Ht IHl _ _ S). }
    unfold gplace, tplace. rewrite !place_node. fold gplaces tplaces.
    assert (let '(u, n) := if is_unit k then ([], toks) else split_trivia (fun t => tk (ltok t)) toks in let '(u', n') := if is_unit k then ([], ls) else split_trivia lkind ls in
      length u = length u' /\ ls = u' ++ n' /\ same_kinds n n') as H.
    { destruct (is_unit k); [split; [reflexivity|]; split; [reflexivity|exact S]|apply split_same, S]. }
    destruct (if is_unit k then ([], toks) else _) as [u n], (if is_unit k then ([], ls) else _) as [u' n']. destruct H as (L & -> & Sn).
    specialize (Hl _ _ Sn). destruct (gplaces ts n) as [cs m], (tplaces ts n') as [xs m']. destruct Hl as (Sm & used & -> & G).
    split; [exact Sm|]. exists (u' ++ used). split; [now rewrite app_assoc|]. intros r. rewrite graft_list_app, <- app_assoc, graft_leaves by exact L.
    cbn [graft_list]. rewrite graft_node, G. reflexivity.
  - split; [exact S|]. exists []. split; [reflexivity|]. intros r. reflexivity.
Qed.
Lemma graft_places_forest ts : graft_places (gplaces ts) (tplaces ts).
Proof.
  induction ts as [|t ts IHl]; intros toks1 ls1 S.
  - split; [exact S|]. exists []. split; [reflexivity|]. intros r. reflexivity.
  - exact (graft_places_cons _ _ _ _ (graft_places_tree t) IHl _ _ S).
Qed.
Lemma graft_placed k ts toks ls : same_kinds toks ls ->
  fst (graft (GNodeT k (placed (fun t => tk (ltok t)) (fun t => GToken (ltok t)) GNodeT ts toks)) ls) = Node k (placed lkind tok Node ts ls).
Proof.
  intros S. unfold placed. fold gplaces tplaces. pose proof (graft_places_forest ts _ _ S) as H. destruct (gplaces ts toks) as [gs n], (tplaces ts ls) as [xs n'].
  destruct H as (Sn & used & -> & G). rewrite graft_node, graft_list_app, G. rewrite <- (app_nil_r n') at 1. rewrite graft_leaves; [reflexivity|].
  clear -Sn. induction Sn; cbn; congruence.
Qed.
Lemma with_spans_same ls : forall from, same_kinds (with_spans from ls) ls.
Proof. induction ls as [|[k w] ls IH]; intros from; cbn [with_spans]; constructor; [reflexivity|apply IH]. Qed.

(** ** the tree of a document *)
(** [x] is the syntax tree of the text [t] *)
Definition doc_tree (err : text -> nat) (t : text) (x : tree) : Prop :=
  exists gas g errs, parse rule_of gas (with_spans 0 (lex err t)) = Ok (Some (g, errs)) /\ x = fst (graft g (lex err t)).
(** kinds of the tokens that the parser sees *)
Definition seen (ls : list lexeme) : list kind := significant_kinds lkind ls.
Lemma seen_kinds ls : kinds_of (with_spans 0 ls) = seen ls.
Proof.
  rewrite kinds_sig. unfold seen, significant_kinds. f_equal. generalize 0. induction ls as [|[k w] ls IH]; intros n; [reflexivity|]. cbn [with_spans map]. now rewrite IH.
Qed.
Definition entry_for (ls : list lexeme) : kind := entry_of (with_spans 0 ls).
(** the run of the parser on a list of kinds *)
Definition run_of (entry : kind) (ks : list kind) (ts : list ptree) : Prop :=
  exists gas f, ex_rule rule_of gas entry ks max_fuel = Ok ([PNode entry ts], [], f).
Theorem doc_tree_run err t x : doc_tree err t x -> exists ts, run_of (entry_for (lex err t)) (seen (lex err t)) ts /\
  pleavess ts = seen (lex err t) /\ x = Node (entry_for (lex err t)) (placed lkind tok Node (prunes ts) (lex err t)).
Proof.
  intros (gas & g & errs & H & ->). set (ls := lex err t) in *. set (toks := with_spans 0 ls) in *.
  assert (Hn : no_eof toks) by (apply with_spans_no_eof, lex_kinds). pose proof (entry_of_unit toks) as He.
  unfold parse in H. pose proof (ParserOutcome.outcome (entry_of toks) toks gas He Hn) as O.
  destruct (ex_rule rule_of gas (entry_of toks) (kinds_of toks) max_fuel) as [[[pts rest] f]| | |] eqn:E; try (rewrite O in H; discriminate); [|destruct O].
  destruct O as (ts & cs & -> & -> & Hl & P & _ & _). exists ts. unfold toks in E at 2. rewrite seen_kinds in E.
  split; [exists gas, f; exact E|]. split; [rewrite Hl; apply seen_kinds|].
  rewrite parse_tokens_ex in H. unfold toks in H at 2. rewrite seen_kinds, E in H. cbn [bind fst] in H.
  assert (F : flats [PNode (entry_of toks) ts] = flat (PNode (entry_of toks) ts)) by (unfold flats; cbn [flat_map]; apply app_nil_r).
  rewrite F, remove_empty_nodes_root in H.
  destruct (build_tree_places toks (entry_of toks) (prunes ts)) as (errs' & B).
  { destruct He as [-> | ->]; reflexivity. }
  { rewrite <- Hl. clear. unfold pleavess, prunes.
    assert (K : forall t, flat_map pleaves (prune t) = pleaves t).
    { induction t as [k|k l IH|e] using ptree_rect'; try reflexivity.
      assert (K : flat_map pleaves (flat_map prune l) = flat_map pleaves l).
      { induction IH as [|t l Ht _ IHl]; [reflexivity|]. cbn. now rewrite flat_map_app, Ht, IHl. }
      cbn [prune pleaves]. destruct (flat_map pleaves l) eqn:El; [exact K|]. cbn. now rewrite app_nil_r, K, <- El. }
    induction ts as [|t ts IH]; [reflexivity|]. cbn. now rewrite flat_map_app, K, IH. }
  rewrite B in H. injection H as <- _. apply graft_placed. apply with_spans_same.
Qed.
