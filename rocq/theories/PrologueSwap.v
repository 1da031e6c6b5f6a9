(** Other declarations at the start of a query: the rest of the tree is the same. *)
From Coq Require Import String List Arith NArith Bool Lia.
Import ListNotations.
From Verif Require Import ServerModel Kinds KindFacts ParserSyntax ParserModel GrammarData ParserTree ParserTerm ParserBuild ParserSpec ParserChecks ParserOutcome ParserProps
  TextModel TextSpec TextProofs Utf8Model LexerRegex LexerModel LexerSpec LexerProps FormatData FormatModel FormatTree FormatText FormatParse FormatWeave
  TreeModel TreePlace TreeShape TreeRename VarModel VarSpec VarProps DiagModel DiagSpec LexRename LexInsert LayoutProps PrologueRun.

Inductive decls : list kind -> list ptree -> Prop :=
| decls_nil : decls [] []
| decls_cons D d Ds ds : decl D d -> decls Ds ds -> decls (D ++ Ds) (d :: ds).
Lemma loop_back D d ks g f o : decl D d -> ex rule_of g prologue_loop (D ++ ks) (S (S (S (S f)))) = Ok o -> exists g' b ts r f', ex rule_of g' prologue_loop ks max_fuel = Ok (b, (ts, r, f')) /\ o = (b, (d :: ts, r, f')).
Proof.
  intros H E. apply (ex_up g (S (g + 20)) _ _ _ _ ltac:(lia)) in E. unfold prologue_loop in E. cbn [ex] in E. rewrite tnth_S in E. cbn [bind] in E.
  assert (N : (length ks =? length (D ++ ks)) = false) by (apply Nat.eqb_neq; rewrite app_length; destruct H; cbn; lia).
  assert (B : ex rule_of (g + 20) (Match (Arm [K_BASE] (Call K_BaseDecl) (Arm [K_PREFIX] (Call K_PrefixDecl) (Arm [K_VERSION] (Call K_VersionDecl) (ArmEnd (DErr [K_BASE; K_PREFIX; K_VERSION])))))) (D ++ ks) (S (S (S f))) = Ok (false, ([d], ks, max_fuel))).
  { apply (ex_up 20); [lia|]. destruct H as [| |s [-> | ->]]; reflexivity. }
  assert (kind_in (look (D ++ ks)) [K_BASE; K_PREFIX; K_VERSION] = true) as Ek by (destruct H; reflexivity). rewrite Ek, B in E. cbn [bind] in E. rewrite N in E. fold prologue_loop in E.
  destruct (ex rule_of (g + 20) prologue_loop ks max_fuel) as [[b [[ts r] f']]| | |] eqn:El; try discriminate. cbn [bind] in E. injection E as <-. exists (g + 20), b, ts, r, f'. split; [exact El|reflexivity].
Qed.
Lemma loop_all Ds ds : decls Ds ds -> forall g ks b ts r f, ex rule_of g prologue_loop ks max_fuel = Ok (b, (ts, r, f)) -> exists g', ex rule_of g' prologue_loop (Ds ++ ks) max_fuel = Ok (b, (ds ++ ts, r, f)).
Proof.
  induction 1 as [|D d Ds ds H _ IH]; intros g ks b ts r f E; [exists g; exact E|]. destruct (IH _ _ _ _ _ _ E) as [g' E']. destruct (loop_decl D d (Ds ++ ks) g' 1020 _ H E') as [g2 E2]. exists g2. rewrite <- app_assoc, max_fuel_S. exact E2.
Qed.
Lemma loop_all_back Ds ds : decls Ds ds -> forall g ks b us r f, ex rule_of g prologue_loop (Ds ++ ks) max_fuel = Ok (b, (us, r, f)) -> exists g' ts, us = ds ++ ts /\ ex rule_of g' prologue_loop ks max_fuel = Ok (b, (ts, r, f)).
Proof.
  induction 1 as [|D d Ds ds H _ IH]; intros g ks b us r f E; [exists g, us; auto|]. rewrite <- app_assoc, max_fuel_S in E. destruct (loop_back D d _ _ _ _ H E) as (g' & b' & ts & r' & f' & E' & Eo). injection Eo as <- -> <- <-.
  destruct (IH _ _ _ _ _ _ E') as (g2 & ts2 & -> & E2). exists g2, ts2. split; [reflexivity|exact E2].
Qed.
Lemma decls_first Ds ds ks : decls Ds ds -> ds <> [] -> kind_in (look (Ds ++ ks)) [K_BASE; K_PREFIX; K_VERSION] = true.
Proof. intros H N. destruct H as [|D d Ds ds H _]; [congruence|]. destruct H; reflexivity. Qed.
Lemma prologue_swap Ds ds Ds' ds' g ks ps r f : decls Ds ds -> decls Ds' ds' -> ds <> [] -> ds' <> [] -> ex_rule rule_of g K_Prologue (Ds ++ ks) max_fuel = Ok (ps, r, f) ->
  exists ts m, ps = PNode K_Prologue (ds ++ ts) :: m /\ (m = [] \/ m = [PNode K_Error []]) /\ exists g', ex_rule rule_of g' K_Prologue (Ds' ++ ks) max_fuel = Ok (PNode K_Prologue (ds' ++ ts) :: m, r, f).
Proof.
  intros H H' N N' E. destruct g as [|g]; [discriminate|]. cbn [ex_rule rule_of parse_Prologue r_escape r_body r_kind r_unit] in E. fold prologue_loop in E. change max_fuel with (S (S (S (S (S 1019))))) in E. rewrite tnth_S in E. cbn [bind] in E.
  rewrite (decls_first _ _ _ H N) in E. destruct (ex rule_of g prologue_loop (Ds ++ ks) (S (S (S (S 1019))))) as [[b [[us r0] f0]]| | |] eqn:El; try discriminate. cbn [bind] in E.
  destruct H as [|D d Ds ds Hd H]; [congruence|]. rewrite <- app_assoc in El. destruct (loop_back _ _ _ _ _ _ Hd El) as (g1 & b1 & ts1 & r1 & f1 & E1 & Eo). injection Eo as <- -> <- <-. destruct (loop_all_back _ _ H _ _ _ _ _ _ E1) as (g2 & ts & -> & E2).
  destruct H' as [|D' d' Ds' ds' Hd' H']; [congruence|]. destruct (loop_all _ _ H' _ _ _ _ _ _ E2) as [g3 E3]. destruct (loop_decl D' d' _ g3 1019 _ Hd' E3) as [g4 E4].
  exists ts, (if b then [PNode K_Error []] else []). split; [destruct b; injection E as <- <- <-; reflexivity|]. split; [destruct b; auto|]. exists (S g4). cbn [ex_rule rule_of parse_Prologue r_escape r_body r_kind r_unit]. fold prologue_loop. change max_fuel with (S (S (S (S (S 1019))))) at 1. rewrite tnth_S. cbn [bind].
  rewrite (decls_first (D' ++ Ds') (d' :: ds')); [|constructor; assumption|discriminate]. rewrite <- app_assoc, E4. cbn [bind]. destruct b; injection E as <- <- <-; reflexivity.
Qed.
Lemma unit_swap Ds ds Ds' ds' g ks ts f : decls Ds ds -> decls Ds' ds' -> ds <> [] -> ds' <> [] -> ex_rule rule_of g K_QueryUnit (Ds ++ ks) max_fuel = Ok ([PNode K_QueryUnit ts], [], f) ->
  exists ps m bs more es, (m = [] \/ m = [PNode K_Error []]) /\ (more = [] \/ more = [PNode K_Error []]) /\
    ts = PNode K_Query (PNode K_Prologue (ds ++ ps) :: m ++ bs) :: more ++ es /\
    exists g' h, ex_rule rule_of g' K_QueryUnit (Ds' ++ ks) max_fuel = Ok ([PNode K_QueryUnit (PNode K_Query (PNode K_Prologue (ds' ++ ps) :: m ++ bs) :: more ++ es)], [], h).
Proof.
  intros H H' N N' E. destruct (unit_cong _ _ _ _ E) as (g0 & qs & rest & f0 & es & Eq & -> & He & Fu). destruct (query_cong _ _ _ _ _ Eq) as (g1 & ps & r0 & f1 & bs & more & Ep & -> & Hm & Hb & Fq).
  destruct (prologue_swap _ _ _ _ _ _ _ _ _ H H' N N' Ep) as (ts & m & -> & Hm' & g2 & Ep'). destruct (Fq _ _ _ _ (le_n _) Ep') as (g3 & h3 & L3 & Eq'). destruct (Fu _ _ _ _ L3 Eq') as (g4 & h4 & Eu).
  exists ts, m, bs, more, es. split; [exact Hm'|]. split; [exact Hm|]. split; [reflexivity|]. exists g4, h4. exact Eu.
Qed.
(** ** trees *)
Lemma declarations_place DLs ys : Forall2 declaration DLs ys -> exists ds, decls (map lkind (concat DLs)) ds /\ plain_l (concat DLs) /\ prunes ds = ds /\ length (pleavess ds) = length (concat DLs) /\ (forall n, perrss n ds = []) /\ (length ds = length ys) /\ (forall l, tplaces ds (concat DLs ++ l) = (ys, l)).
Proof.
  induction 1 as [|dl y DLs ys H _ (ds & Hd & Hp & Pr & Ll & Pe & Len & Pl)].
  - exists []. split; [constructor|]. split; [constructor|]. repeat split; reflexivity.
  - destruct (declaration_place _ _ H) as (D & d & HD & Ek & Pdl & Pd & Ld & Pe1 & Pl1). exists (d :: ds). cbn [concat]. rewrite map_app, Ek. split; [constructor; assumption|]. split; [apply Forall_app; auto|].
    split; [rewrite prunes_cons, Pd, Pr; reflexivity|]. split; [unfold pleavess in *; cbn [flat_map]; rewrite !app_length, Ld, <- Ek, map_length, Ll; reflexivity|].
    split; [intros n; cbn [perrss]; rewrite Pe1, Pe; reflexivity|]. split; [cbn [length]; rewrite Len; reflexivity|]. intros l. rewrite <- app_assoc, places_cons, Pl1, Pl. reflexivity.
Qed.
Definition with_decls (ys : list tree) (x : tree) : tree := fold_right with_decl x ys.
Lemma with_decls_in ys u A B C : with_decls ys (Node u (Node K_Query (Node K_Prologue A :: B) :: C)) = Node u (Node K_Query (Node K_Prologue (ys ++ A) :: B) :: C).
Proof. induction ys as [|y ys IH]; [reflexivity|]. unfold with_decls in *. cbn [fold_right]. rewrite IH. reflexivity. Qed.
Section tree.
Context (u : kind) (ps m bs more es : list ptree) (l0 : list lexeme).
Context (Hm : m = [] \/ m = [PNode K_Error []]) (Hmore : more = [] \/ more = [PNode K_Error []]) (P0 : plain_l l0).
Definition shape (ds : list ptree) : list ptree := PNode K_Query (PNode K_Prologue (ds ++ ps) :: m ++ bs) :: more ++ es.
Definition hole : tree := let '(a, n) := tplaces (prunes ps) l0 in let '(b, n2) := tplaces (prunes bs) n in let '(c, n3) := tplaces (prunes es) n2 in Node u (Node K_Query (Node K_Prologue a :: b) :: c ++ map tok n3).
Lemma placed_shape DLs ys ds : plain_l (concat DLs) -> prunes ds = ds -> pleavess ds <> [] -> (forall l, tplaces ds (concat DLs ++ l) = (ys, l)) ->
  Node u (placed lkind tok Node (prunes (shape ds)) (concat DLs ++ l0)) = with_decls ys hole.
Proof.
  intros Hp Pr Nl Pl. assert (PP : plain_l (concat DLs ++ l0)) by (apply Forall_app; auto). unfold shape.
  assert (N1 : pleavess (ds ++ ps) <> []) by (rewrite pleavess_app; intros K; apply app_eq_nil in K as [K _]; exact (Nl K)).
  assert (N2 : pleavess (PNode K_Prologue (ds ++ ps) :: m ++ bs) <> []) by (unfold pleavess in *; cbn [flat_map pleaves]; intros K; apply app_eq_nil in K as [K _]; exact (N1 K)).
  rewrite prunes_cons, prunes_app, (prunes_more _ Hmore). cbn [app]. rewrite (prune_node _ _ N2), prunes_cons, prunes_app, (prunes_more _ Hm), (prune_node _ _ N1), prunes_app, Pr. cbn [app].
  rewrite placed_eq, places_cons, (place_node_plain _ _ _ PP), places_cons, (place_node_plain _ _ _ PP), places_app, Pl. unfold hole. destruct (tplaces (prunes ps) l0) as [a n]. destruct (tplaces (prunes bs) n) as [b n2]. destruct (tplaces (prunes es) n2) as [c n3].
  rewrite with_decls_in. reflexivity.
Qed.
Lemma perrss_shape ds : (forall n, perrss n ds = []) -> perrss 0 (prunes (shape ds)) = map (fun x => (fst x + length (pleavess ds), snd x)) (perrss 0 (prunes (shape []))).
Proof.
  intros Pe. rewrite !perrss_prunes, <- perrss_shift. unfold shape. cbn [perrss]. rewrite !perrs_node. cbn [perrss plus]. rewrite !perrs_node, perrss_app, Pe. cbn [app].
  assert (length (pleaves (PNode K_Prologue (ds ++ ps))) = length (pleavess ds) + length (pleaves (PNode K_Prologue ps))) as -> by (cbn [pleaves]; change (flat_map pleaves) with pleavess; rewrite pleavess_app, app_length; reflexivity).
  assert (length (pleaves (PNode K_Query (PNode K_Prologue (ds ++ ps) :: m ++ bs))) = length (pleavess ds) + length (pleaves (PNode K_Query (PNode K_Prologue ps :: m ++ bs)))) as -> by (cbn [pleaves flat_map]; change (flat_map pleaves) with pleavess; rewrite pleavess_app, !app_length; lia).
  reflexivity.
Qed.
End tree.
(** the same errors: what is at token [i + n] in one is at token [i + n'] in the other *)
Definition errors_shifted (err : text -> nat) (t t' : text) (n n' : nat) (errs errs' : list parse_error) : Prop :=
  Forall2 (fun e e' => pe_expected e = pe_expected e' /\ exists i, error_at err t (i + n) e /\ error_at err t' (i + n') e') errs errs'.
Lemma entry_decls DLs ys l : Forall2 declaration DLs ys -> find (fun k => kind_in k query_keywords || kind_in k update_keywords) (map lkind (concat DLs ++ l)) = find (fun k => kind_in k query_keywords || kind_in k update_keywords) (map lkind l).
Proof.
  induction 1 as [|dl y DLs ys H _ IH]; [reflexivity|]. cbn [concat]. rewrite <- app_assoc, map_app. rewrite <- IH. destruct H as [| |k a b [-> | ->]]; reflexivity.
Qed.
Theorem decls_swapped err t t' x errs DLs ys DLs' ys' rest : doc_parse err t x errs -> query_doc x -> Forall2 declaration DLs ys -> Forall2 declaration DLs' ys' -> ys <> [] -> ys' <> [] ->
  tokens err t = concat DLs ++ rest -> tokens err t' = concat DLs' ++ rest ->
  exists x' errs' z, doc_parse err t' x' errs' /\ query_doc x' /\ bare same x = with_decls ys z /\ bare same x' = with_decls ys' z /\ errors_shifted err t t' (length (concat DLs)) (length (concat DLs')) errs errs'.
Proof.
  intros P Q H H' N N' Et Et'. destruct (doc_parse_run _ _ _ _ P) as (gas & ts & fu & R & Ee & _ & Ex).
  assert (entry_for (lex err t) = K_QueryUnit) as En. { destruct Q as [cs Q]. rewrite Ex in Q. cbn in Q. injection Q as Q _. exact Q. }
  assert (entry_for (lex err t') = K_QueryUnit) as En'. { rewrite entry_tokens in *. rewrite Et, (entry_decls _ _ _ H) in En. rewrite Et', (entry_decls _ _ _ H'). exact En. }
  destruct (declarations_place _ _ H) as (ds & Hd & Hp & Pr & Ll & Pe & Len & Pl). destruct (declarations_place _ _ H') as (ds' & Hd' & Hp' & Pr' & Ll' & Pe' & Len' & Pl').
  assert (Nd : ds <> []) by (destruct ds, ys; try congruence; discriminate). assert (Nd' : ds' <> []) by (destruct ds', ys'; try congruence; discriminate).
  assert (Ns : concat DLs <> []) by (destruct H as [|? ? ? ? K _]; [congruence|]; destruct K; discriminate). assert (Ns' : concat DLs' <> []) by (destruct H' as [|? ? ? ? K _]; [congruence|]; destruct K; discriminate).
  rewrite En in R, Ex. rewrite seen_tokens, Et, map_app in R. destruct (unit_swap _ _ _ _ _ _ _ _ Hd Hd' Nd Nd' R) as (ps & m & bs & more & es & Hm & Hmore & -> & g' & h & R').
  rewrite <- map_app, <- Et', <- seen_tokens, <- En' in R'. apply doc_tree_intro in R' as D'. destruct D' as (gas' & gr & errs' & E' & Eg). rewrite En' in Eg.
  assert (doc_parse err t' (fst (graft gr (lex err t'))) errs') as P' by (exists gas', gr; auto). destruct (doc_parse_run _ _ _ _ P') as (gas2 & ts2 & fu2 & R2 & Ee2 & _ & Ex2). pose proof (run_same _ _ _ _ _ _ _ _ R' R2) as <-.
  assert (Pl0 : plain_l rest). { pose proof (sigs_plain (lex err t)) as X. change (sigs (lex err t)) with (tokens err t) in X. rewrite Et in X. apply Forall_app in X as [_ X]. exact X. }
  assert (Nl : pleavess ds <> []) by (intros K; rewrite K in Ll; destruct (concat DLs); [congruence|discriminate]). assert (Nl' : pleavess ds' <> []) by (intros K; rewrite K in Ll'; destruct (concat DLs'); [congruence|discriminate]).
  exists (fst (graft gr (lex err t'))), errs', (hole K_QueryUnit ps bs es rest). split; [exact P'|]. split; [rewrite <- Eg; eexists; reflexivity|]. split; [|split].
  - rewrite Ex, bare_placed. change (sigs (lex err t)) with (tokens err t). rewrite Et. apply (placed_shape K_QueryUnit ps m bs more es rest Hm Hmore Pl0 DLs ys ds Hp Pr Nl Pl).
  - rewrite <- Eg, bare_placed. change (sigs (lex err t')) with (tokens err t'). rewrite Et'. apply (placed_shape K_QueryUnit ps m bs more es rest Hm Hmore Pl0 DLs' ys' ds' Hp' Pr' Nl' Pl').
  - rewrite Ee, Ee2. unfold errors_shifted. fold (shape ps m bs more es ds). fold (shape ps m bs more es ds'). rewrite (perrss_shape ps m bs more es ds Pe), (perrss_shape ps m bs more es ds' Pe'), Ll, Ll'.
    clear. induction (perrss 0 _) as [|[n e] l IH]; [constructor|]. constructor; [|exact IH]. cbn [map fst snd]. split; [|exists n; split; apply mkerr_at]. unfold mkerr. destruct (span_of _ _), (span_of _ _). reflexivity.
Qed.

(** ** errors and their tokens *)
Lemma sigs_app a b : sigs (a ++ b) = sigs a ++ sigs b.
Proof. unfold sigs. apply filter_app. Qed.
Lemma sigs_split L : forall A B, sigs L = A ++ B -> exists L1 L2, L = L1 ++ L2 /\ sigs L1 = A /\ sigs L2 = B.
Proof.
  induction L as [|x L IH]; intros A B E; [destruct A, B; try discriminate; exists [], []; auto|]. destruct A as [|a A]; [exists [], (x :: L); auto|].
  unfold sigs in E. cbn [filter] in E. destruct (negb (trivial x)) eqn:T.
  - injection E as -> E. destruct (IH _ _ E) as (L1 & L2 & -> & E1 & E2). exists (a :: L1), L2. split; [reflexivity|]. split; [|exact E2]. unfold sigs in *. cbn [filter]. rewrite T, E1. reflexivity.
  - destruct (IH _ _ E) as (L1 & L2 & -> & E1 & E2). exists (x :: L1), L2. split; [reflexivity|]. split; [|exact E2]. unfold sigs in *. cbn [filter]. rewrite T. exact E1.
Qed.
Lemma lexeme_bytes err t l : In l (lex err t) -> 0 < byte_len (snd l).
Proof.
  intros H. destruct (C25_tiles err t) as [_ F]. rewrite Forall_forall in F. specialize (F _ H). destruct (snd l) as [|c w] eqn:W; [exfalso; exact (F W)|]. unfold byte_len. cbn [map fold_right list_sum]. pose proof (len_utf8_pos c). lia.
Qed.
Lemma bytes_flat (l : list lexeme) : Forall (fun x => 0 < byte_len (snd x)) l -> byte_len (flat_map snd l) = 0 -> l = [].
Proof. intros F E. destruct F as [|[k w] l H _]; [reflexivity|]. cbn [snd] in H. cbn [flat_map] in E. cbn [snd] in E. rewrite byte_len_app in E. lia. Qed.
Lemma token_nr_fun err t i i' a b b' : token_nr err t i a b -> token_nr err t i' a b' -> i = i'.
Proof.
  intros (l1 & l & l2 & E & _ & Li & Ea & _) (m1 & m & m2 & E' & _ & Li' & Ea' & _). assert (F : Forall (fun x => 0 < byte_len (snd x)) (lex err t)) by (apply Forall_forall; intros x; apply lexeme_bytes).
  assert (l1 = m1) as ->; [|congruence]. pose proof E as E2. rewrite E' in E2. destruct (app_cut _ _ _ _ E2) as [(e & -> & _)|(e & -> & _)].
  - rewrite E in F. apply Forall_app in F as [F _]. apply Forall_app in F as [_ F]. assert (Z : byte_len (flat_map snd m1) + byte_len (flat_map snd e) = byte_len (flat_map snd m1)) by (rewrite <- byte_len_app, <- flat_map_app, <- Ea'; symmetry; exact Ea). assert (e = []) as -> by (apply bytes_flat; [exact F|lia]). apply app_nil_r.
  - rewrite E' in F. apply Forall_app in F as [F _]. apply Forall_app in F as [_ F]. assert (Z : byte_len (flat_map snd l1) + byte_len (flat_map snd e) = byte_len (flat_map snd l1)) by (rewrite <- byte_len_app, <- flat_map_app, <- Ea; symmetry; exact Ea'). assert (e = []) as -> by (apply bytes_flat; [exact F|lia]). symmetry. apply app_nil_r.
Qed.
Lemma token_nr_range err t i a b : token_nr err t i a b -> i < length (tokens err t) /\ a < b.
Proof.
  intros (l1 & l & l2 & E & T & Li & Ea & Eb). split.
  - change (tokens err t) with (sigs (lex err t)). rewrite E, sigs_app. unfold sigs. cbn [filter]. rewrite T. cbn [negb]. rewrite app_length. cbn [length]. lia.
  - assert (In l (lex err t)) as H by (rewrite E; apply in_app_iff; right; left; reflexivity). apply lexeme_bytes in H. lia.
Qed.
Lemma error_at_fun err t i i' e : error_at err t i e -> error_at err t i' e -> i = i' \/ (length (tokens err t) <= i /\ length (tokens err t) <= i').
Proof.
  intros [A|(A & Ae & _)] [B|(B & Be & _)]; [left; eapply token_nr_fun; eassumption| | |auto].
  - apply token_nr_range in A. lia.
  - apply token_nr_range in B. lia.
Qed.
Lemma error_beyond err t i j e : error_at err t i e -> length (tokens err t) <= i -> length (tokens err t) <= j -> error_at err t j e.
Proof. intros [A|(_ & A)] H1 H2; [apply token_nr_range in A; lia|]. right. split; [exact H2|exact A]. Qed.
Lemma errors_trans err a b c n1 n m ea eb ec : errors_shifted err a b n1 n ea eb -> errors_shifted err b c n m eb ec -> length (tokens err b) + m = length (tokens err c) + n -> n <= length (tokens err b) -> errors_shifted err a c n1 m ea ec.
Proof.
  unfold errors_shifted. intros F G L Ln. revert ec G. induction F as [|e1 e2 ea eb [X (i & A & B)] _ IH]; intros ec G; inversion G as [|? e3 ? ec' [Y (j & B' & C)] G']; subst; [constructor|]. constructor; [|apply IH, G'].
  split; [congruence|]. exists i. split; [exact A|]. destruct (error_at_fun _ _ _ _ _ B B') as [E|[H1 H2]]; [replace i with j by lia; exact C|]. eapply error_beyond; [exact C|lia|lia].
Qed.
Lemma errors_shifted_sym err a b n m ea eb : errors_shifted err a b n m ea eb -> errors_shifted err b a m n eb ea.
Proof. unfold errors_shifted. induction 1 as [|e1 e2 ea eb [X (i & A & B)] _ IH]; constructor; [|exact IH]. split; [congruence|eauto]. Qed.
(** ** declarations in front of a document without them *)
Theorem decls_put err t t' x' errs' DLs ys : doc_parse err t' x' errs' -> query_doc x' -> Forall2 declaration DLs ys -> tokens err t = concat DLs ++ tokens err t' ->
  exists x errs, doc_parse err t x errs /\ query_doc x /\ bare same x = with_decls ys (bare same x') /\ errors_shifted err t' t 0 (length (concat DLs)) errs' errs.
Proof.
  intros P Q H Et. destruct H as [|dl y DLs ys Hd H].
  { destruct (layout_parses same (fun _ => eq_refl) err t' t x' errs' P) as (x & errs & P1); [f_equal; symmetry; exact Et|]. exists x, errs. split; [exact P1|]. cbn [concat app] in Et. pose proof (C58_same_tree err t t' x x' (DiagFacts.doc_parse_tree _ _ _ _ P1) (DiagFacts.doc_parse_tree _ _ _ _ P) Et) as B.
    split; [|split; [exact B|]].
    - destruct (doc_parse_run _ _ _ _ P1) as (? & ts & ? & _ & _ & _ & ->). destruct Q as [cs Q]. cbn in Q. injection Q as ->. cbn [bare] in B. injection B as -> _. eexists. reflexivity.
    - pose proof (C58_same_errors err t' t x' errs' x errs P P1 (eq_sym Et)) as S. unfold same_errors in S. unfold errors_shifted. cbn [concat length]. clear -S. induction S as [|e e' l l' [X (i & A & B')] _ IH]; [constructor|]. constructor; [|exact IH]. split; [exact X|]. exists i. rewrite !Nat.add_0_r. auto. }
  assert (exists DLs0 ys0 dl0 y0, dl :: DLs = DLs0 ++ [dl0] /\ y :: ys = ys0 ++ [y0] /\ Forall2 declaration DLs0 ys0 /\ declaration dl0 y0) as (DLs0 & ys0 & dl0 & y0 & E1 & E2 & H0 & Hd0).
  { clear Et. revert dl y Hd. induction H as [|dl' y' DLs ys Hd' _ IH]; intros dl y Hd; [exists [], [], dl, y; repeat split; auto|]. destruct (IH _ _ Hd') as (A & B & c & d & E1 & E2 & F & G). exists (dl :: A), (y :: B), c, d. rewrite E1, E2. split; [reflexivity|]. split; [reflexivity|]. split; [constructor; assumption|exact G]. }
  rewrite E1 in *. rewrite E2. rewrite concat_app in Et. cbn [concat] in Et. rewrite app_nil_r, <- app_assoc in Et. change (tokens err t) with (sigs (lex err t)) in Et. destruct (sigs_split _ _ _ Et) as (L1 & L2 & EL & S1 & S2).
  pose proof (lex_suffix _ _ _ _ EL) as Es. assert (T2 : tokens err (flat_map snd L2) = dl0 ++ tokens err t') by (change (tokens err (flat_map snd L2)) with (sigs (lex err (flat_map snd L2))); rewrite Es; exact S2).
  destruct (declaration_put _ _ _ _ _ _ _ P Q Hd0 T2) as (x2 & errs2 & P2 & B2 & M2).
  assert (Q2 : query_doc x2). { destruct (doc_parse_run _ _ _ _ P2) as (? & ts & ? & _ & _ & _ & Ex2). rewrite Ex2. rewrite entry_tokens, T2. destruct (doc_parse_run _ _ _ _ P) as (? & ts' & ? & _ & _ & _ & Ex'). destruct Q as [cs Q]. rewrite Ex' in Q. cbn in Q. injection Q as Q _. rewrite entry_tokens in Q.
    pose proof (entry_decls [dl0] [y0] (tokens err t') (Forall2_cons _ _ Hd0 (Forall2_nil _))) as Z. cbn [concat] in Z. rewrite app_nil_r in Z. rewrite Z, Q. eexists. reflexivity. }
  destruct (decls_swapped err (flat_map snd L2) t x2 errs2 [dl0] [y0] (DLs0 ++ [dl0]) (ys0 ++ [y0]) (tokens err t') P2 Q2) as (x & errs & z & P3 & Q3 & B3 & B4 & M3).
  { constructor; [exact Hd0|constructor]. } { apply Forall2_app; [exact H0|constructor; [exact Hd0|constructor]]. } { discriminate. } { destruct ys0; discriminate. } { cbn [concat]. rewrite app_nil_r. exact T2. }
  { rewrite concat_app. cbn [concat]. rewrite app_nil_r, <- app_assoc. exact Et. }
  exists x, errs. split; [exact P3|]. split; [exact Q3|]. split.
  - rewrite B4. unfold with_decls in *. rewrite !fold_right_app. cbn [fold_right] in *. congruence.
  - eapply (errors_trans err t' (flat_map snd L2) t 0 (length (concat [dl0])) (length (concat (DLs0 ++ [dl0])))); [|exact M3| |].
    + unfold errors_shifted, errors_moved in *. cbn [concat]. rewrite app_nil_r. clear -M2. induction M2 as [|e e' l l' [X (i & A & B')] _ IH]; [constructor|]. constructor; [|exact IH]. split; [exact X|]. exists i. rewrite Nat.add_0_r. auto.
    + change (tokens err t) with (sigs (lex err t)). rewrite Et, T2, concat_app. cbn [concat]. rewrite app_nil_r, !app_length. lia.
    + rewrite T2. cbn [concat]. rewrite app_nil_r, app_length. lia.
Qed.
