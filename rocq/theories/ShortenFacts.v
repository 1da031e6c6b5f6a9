(** Facts for the quick fix that shortens an IRI: a prefixed name in the place of an IRI. *)
From Coq Require Import String List Arith NArith Bool Lia.
Import ListNotations.
From Verif Require Import ServerModel Kinds KindFacts ParserSyntax ParserModel GrammarData ParserTree ParserTerm ParserBuild ParserSpec ParserChecks ParserOutcome ParserProps
  TextModel TextSpec TextProofs Utf8Model LexerRegex LexerData LexerModel LexerProofs LexerSpec LexerProps FormatData FormatModel FormatTree FormatText FormatParse FormatWeave
  TreeModel TreePlace TreeShape TreeRename VarModel VarSpec VarRegions VarDoc LexRename VarProps DiagModel DiagSpec AstFacts DiagFacts DiagGroup DiagRest ParseTreeProps LexLayout DiagProps OnTypeProofs OnTypeProps LayoutProps LexInsert PrologueRun PrologueSwap QuickFixModel QuickFixFacts CoverFacts RemoveFacts UngramData Replant LexMiddle QuickFixProps RemoveProps.
From Verif Require GrammarSpec GrammarFacts.

(** ** a prefixed name and what follows it *)
Definition is_name (k : kind) : Prop := k = K_PNAME_LN \/ k = K_PNAME_NS.
(** white space and ; , ) ] } ( * / | + ? < > double quote ' ^ ! = & { [ $ @ # *)
Definition delimiters : list N := [9; 10; 12; 13; 32; 59; 44; 41; 93; 125; 40; 42; 47; 124; 43; 63; 60; 62; 34; 39; 94; 33; 61; 38; 123; 91; 36; 64; 35]%N.
Definition name_rules : list re := map (fun x => snd (fst x)) (filter (fun x => kind_eqb (fst (fst x)) K_PNAME_LN || kind_eqb (fst (fst x)) K_PNAME_NS) lexer_rules).
Lemma name_rules_in k r wb : is_name k -> In (k, r, wb) lexer_rules -> In r name_rules.
Proof. intros K H. unfold name_rules. apply in_map_iff. exists (k, r, wb). split; [reflexivity|]. apply filter_In. split; [exact H|]. destruct K; subst k; reflexivity. Qed.
Definition delimited (a : re) : bool := forallb (fun x => not_extended delimiters a (snd (fst x))) lexer_rules.
Lemma delimited_checked : forallb delimited name_rules = true.
Proof. vm_cast_no_check (eq_refl true). Qed.
Definition dotted (a : re) : bool := forallb (fun x => disjoint_re (Cat a (Chr 46)) (snd (fst x)) && not_extended blank_chars (Cat a (Chr 46)) (snd (fst x))) lexer_rules.
Lemma dotted_checked : forallb dotted name_rules = true.
Proof. vm_cast_no_check (eq_refl true). Qed.
Definition solid_rest : re := Cat (Star (Cls space_class)) (Cat (Cls [(33, 40); (42, 92); (94, 132); (134, 159); (161, 5759); (5761, 8191); (8203, 8231); (8234, 8238); (8240, 8286); (8288, 12287); (12289, 1114111)]%N) (Star top)).
Definition opens_well (a : re) : bool := included a solid_rest && included a (Cat unblank (Star top)).
Lemma name_opens_checked : forallb opens_well name_rules = true.
Proof. vm_cast_no_check (eq_refl true). Qed.
(** what may follow a prefixed name: nothing, one of these characters, or a dot with nothing or white space behind it *)
Definition ends_name (v : text) : Prop := match v with [] => True | c :: v' => In c delimiters \/ (c = 46%N /\ opens_blank v') end.
Lemma delimited_each r : In r name_rules -> delimited r = true.
Proof. exact (proj1 (forallb_forall delimited name_rules) delimited_checked r). Qed.
Lemma delimited_rule r x : delimited r = true -> In x lexer_rules -> not_extended delimiters r (snd (fst x)) = true.
Proof. unfold delimited. rewrite forallb_forall. intros H. apply H. Qed.
Lemma dotted_each r : In r name_rules -> dotted r = true.
Proof. exact (proj1 (forallb_forall dotted name_rules) dotted_checked r). Qed.
Lemma dotted_rule r x : dotted r = true -> In x lexer_rules -> disjoint_re (Cat r (Chr 46)) (snd (fst x)) && not_extended blank_chars (Cat r (Chr 46)) (snd (fst x)) = true.
Proof. unfold dotted. rewrite forallb_forall. intros H. apply H. Qed.
Lemma name_opens_each r : In r name_rules -> opens_well r = true.
Proof. exact (proj1 (forallb_forall opens_well name_rules) name_opens_checked r). Qed.
Lemma opens_well_sound r w : opens_well r = true -> matches r w -> matches solid_rest w /\ matches (Cat unblank (Star top)) w.
Proof. unfold opens_well. intros C M. apply andb_true_iff in C as [C1 C2]. split; [exact (included_sound _ _ C1 _ M)|exact (included_sound _ _ C2 _ M)]. Qed.
Lemma name_rule k w : is_name k -> one_token k w -> exists r wb, In (k, r, wb) lexer_rules /\ matches r w /\ w <> [] /\ longest_rule lexer_rules (w ++ []) = Some (k, length w).
Proof.
  intros K H. assert (k <> K_Error) as N by (destruct K; subst k; discriminate). pose proof (one_token_longest _ _ H N) as L. destruct (token_rule _ _ _ L) as (r & wb & Hin & M & Ne). exists r, wb. auto.
Qed.
Lemma dot_in : matches (Chr 46) [46%N].
Proof. constructor. reflexivity. Qed.
Lemma name_then err k w v : is_name k -> one_token k w -> ends_name v -> lex err (w ++ v) = (k, w) :: lex err v.
Proof.
  intros K H O. destruct (name_rule _ _ K H) as (r & wb & Hin & M & Ne & L). pose proof (name_rules_in _ _ _ K Hin) as Hr. apply lex_one; [|exact Ne]. apply longest_rule_some in L as [S L]. apply longest_rule_some.
  assert (wb = false) as -> by (destruct wb; [|reflexivity]; assert (forallb (fun x => negb ((kind_eqb (fst (fst x)) K_PNAME_NS || kind_eqb (fst (fst x)) K_PNAME_LN) && snd x)) lexer_rules = true) as W by (vm_compute; reflexivity); rewrite forallb_forall in W; specialize (W _ Hin); destruct K; subst k; discriminate W).
  split; [eapply some_match_intro; [exact Hin|exact M|discriminate]|]. intros k' m Hm. destruct (some_match_elim _ _ _ Hm) as (r' & wb' & z & y & Hin' & Ez & Lz & Mz & _). subst m. destruct (le_lt_dec (length z) (length w)) as [J|J]; [exact J|exfalso].
  destruct (LexRename.app_cut _ _ _ _ Ez) as [(e & Ee & Ev)|(e & Ee & _)]; [|apply (f_equal (@length _)) in Ee; rewrite app_length in Ee; lia]. destruct e as [|c e]; [rewrite app_nil_r in Ee; subst z; lia|]. rewrite Ee in Mz. rewrite Ev in O. cbn [app ends_name] in O. destruct O as [O|[-> O]].
  - exact (not_extended_sound _ _ _ (delimited_rule _ _ (delimited_each _ Hr) Hin') w c e O M Mz).
  - pose proof (dotted_rule _ _ (dotted_each _ Hr) Hin') as C. apply andb_true_iff in C as [C1 C2]. cbn [fst snd] in *. assert (M1 : matches (Cat r (Chr 46)) (w ++ [46%N])) by (constructor; [exact M|exact dot_in]).
    destruct e as [|d e]; [exact (disjoint_re_sound _ _ C1 _ M1 Mz)|]. cbn [app opens_blank] in O. apply blank_in in O. refine (not_extended_sound _ _ _ C2 (w ++ [46%N]) d e O M1 _). rewrite <- app_assoc. exact Mz.
Qed.
Lemma solid_rest_class c : matches (Cls [(33, 40); (42, 92); (94, 132); (134, 159); (161, 5759); (5761, 8191); (8203, 8231); (8234, 8238); (8240, 8286); (8288, 12287); (12289, 1114111)]%N) [c] -> space c = false /\ c <> 41%N /\ c <> 93%N.
Proof.
  intros M. inversion M as [|d rs H| | | | |]; subst. rewrite !in_class_cons, in_class_nil in H. split; [|lia]. apply not_true_iff_false. unfold space, space_class. rewrite !in_class_cons, in_class_nil. lia.
Qed.
Lemma name_opens k w v : is_name k -> one_token k w -> opens_solid (w ++ v).
Proof.
  intros K H. destruct (name_rule _ _ K H) as (r & wb & Hin & M & Ne & _). destruct (opens_well_sound _ _ (name_opens_each _ (name_rules_in _ _ _ K Hin)) M) as [C1 C2]. clear M. split.
  - pose proof C2 as M. apply cat_split in M as (a & b & -> & M & _). inversion M as [|c rs Hc| | | | |]; subst. cbn [app]. apply unblank_not. exact M.
  - right. pose proof C1 as M. apply cat_split in M as (a & b & -> & Ma & Mb). apply cat_split in Mb as (b1 & b2 & -> & Mb & _). inversion Mb as [|c rs Hc| | | | |]; subst. destruct (solid_rest_class _ Mb) as (A & B & C).
    exists a, c, (b2 ++ v). split; [rewrite <- !app_assoc; reflexivity|]. split; [apply spaces_star, Ma|auto].
Qed.
(** ** a node and the text around it *)
Section node.
Context (err : text -> nat) (t : text) (x : tree) (q : path) (y : tree).
Context (D : doc_tree err t x) (E : at_path x q = Some y).
Let U : text := flat_map snd (leaves_before x q).
Let V : text := flat_map snd (leaves_behind x q).
Lemma node_split : lex err t = leaves_before x q ++ leaves y ++ leaves_behind x q.
Proof. rewrite <- (doc_leaves _ _ _ D). exact (proj1 (leaves_around _ _ _ E)). Qed.
Lemma node_text : t = U ++ tree_text y ++ V.
Proof. rewrite leaves_text. unfold U, V. rewrite <- !flat_map_app. refine (eq_trans _ (f_equal (flat_map snd) node_split)). rewrite <- (doc_leaves _ _ _ D), <- leaves_text. symmetry. exact (doc_text _ _ _ D). Qed.
Lemma node_range r : located x t q r -> r = mkrange (position_after U) (position_after (U ++ tree_text y)).
Proof.
  intros (_ & _ & Hs & He). pose proof node_text as Et. assert (Ty : text_at x q = tree_text y) by (unfold text_at; rewrite E; reflexivity). rewrite <- (before_length _ _ _ E) in Hs, He. fold U in Hs, He. rewrite Ty in He.
  assert (F1 : firstn (length U) t = U) by (rewrite Et; apply firstn_exact). assert (F2 : firstn (length U + length (tree_text y)) t = U ++ tree_text y) by (rewrite Et, app_assoc, <- app_length; apply firstn_exact). rewrite F1 in Hs. rewrite F2 in He.
  destruct r as [s e]. cbn [rstart rend] in *. congruence.
Qed.
Lemma node_denotes r w : located x t q r -> edit_denotes t (mkedit r w) (mkcedit (length U) (length (U ++ tree_text y)) w).
Proof.
  intros L. pose proof (node_range _ L) as ->. pose proof node_text as Et. unfold edit_denotes. cbn [ci cj cnew erange rstart rend new_text].
  assert (F1 : firstn (length U) t = U) by (rewrite Et; apply firstn_exact). assert (F2 : firstn (length (U ++ tree_text y)) t = U ++ tree_text y) by (rewrite Et, app_assoc; apply firstn_exact).
  rewrite F1, F2. split; [|auto]. rewrite Et, !app_length. lia.
Qed.
Lemma node_splice w : splice 0 t [mkcedit (length U) (length (U ++ tree_text y)) w] = U ++ w ++ V.
Proof.
  pose proof node_text as Et. cbn [splice ci cj cnew]. rewrite !Nat.sub_0_r. rewrite Et at 1. rewrite firstn_exact. f_equal. f_equal. rewrite Et, app_assoc, skipn_app, Nat.sub_diag, skipn_all. reflexivity.
Qed.
(** the node opens with a token that starts neither with a line feed nor with a carriage return: white space before it is a token of its own *)
Lemma blank_token k0 w0 ls : leaves y = (k0, w0) :: ls -> match w0 with c :: _ => c <> 10%N /\ c <> 13%N /\ (c <= 1114111)%N | [] => False end -> Forall query_token (leaves_before x q) -> blank_before x q -> leaves_before x q = [] \/ exists L0 w, leaves_before x q = L0 ++ [(K_WHITESPACE, w)].
Proof.
  intros El Hw F B. unfold blank_before in B. destruct (leaves_before x q) as [|[k w] L0 _] eqn:EL using rev_ind; [auto|]. right. pose proof node_split as Ex. rewrite EL, El, <- app_assoc in Ex. cbn [app] in Ex.
  apply Forall_app in F as [_ F]. inversion F as [|? ? Fk _]; subst. destruct (query_token_known _ Fk) as (Nk & _). cbn [fst] in Nk.
  destruct (munched _ _ _ _ _ _ Ex Nk) as (_ & _ & _ & _ & Nw). assert (exists a c, w = a ++ [c] /\ ws_char c = true) as (a & c & Ew & W).
  { destruct w as [|c a _] using rev_ind; [congruence|]. exists a, c. split; [reflexivity|]. apply (B (flat_map snd L0 ++ a) c). rewrite flat_map_app. cbn [flat_map snd]. rewrite app_nil_r, app_assoc. reflexivity. }
  destruct (kind_eqb_spec k K_WHITESPACE) as [->|N1]; [eauto|]. exfalso. destruct (kind_eqb_spec k K_Comment) as [->|N2].
  - destruct (comment_token _ _ _ _ _ Ex) as [_ H]. cbn [flat_map snd] in H. destruct w0 as [|d w0]; [destruct Hw|]. cbn [app] in H. lia.
  - destruct (token_end _ _ _ _ _ _ Ex Nk N1 N2) as (b & d & Eb & Wd). rewrite Ew in Eb. apply app_inj_tail in Eb as [_ ->]. congruence.
Qed.
(** other text in the place of the node *)
Lemma node_relex k0 w0 ls v : leaves y = (k0, w0) :: ls -> match w0 with c :: _ => c <> 10%N /\ c <> 13%N /\ (c <= 1114111)%N | [] => False end -> Forall query_token (lex err t) -> not_fused (leaves_before x q) -> blank_before x q -> opens_solid v ->
  lex err (U ++ v) = leaves_before x q ++ lex err v.
Proof.
  intros El Hw F NF B O. assert (F1 : Forall query_token (leaves_before x q)) by (rewrite node_split in F; apply Forall_app in F; apply F). destruct (blank_token _ _ _ El Hw F1 B) as [EL|(L0 & w & EL)].
  - unfold U. rewrite EL. reflexivity.
  - pose proof node_split as Ex. unfold U. rewrite EL in *. rewrite <- app_assoc in Ex. cbn [app] in Ex. rewrite flat_map_app. cbn [flat_map snd]. rewrite app_nil_r, <- !app_assoc. cbn [app].
    apply (left_kept err t L0 w (leaves y ++ leaves_behind x q) v Ex); [apply Forall_app in F1; apply F1| |exact O].
    clear -NF. induction L0 as [|[k u] L0 IH]; [exact I|]. destruct L0 as [|[k' u'] L0]; [exact I|]. cbn [app] in *. destruct NF as [N1 N2]. split; [exact N1|]. apply IH, N2.
Qed.
End node.
