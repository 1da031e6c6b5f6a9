(** What a rename does to the meaning of a document: C43, C44. *)
From Coq Require Import String List Arith NArith Bool Lia Relations Sorted.
Import ListNotations.
From Verif Require Import ServerModel Kinds KindFacts ParserModel GrammarData ParserOutcome
  TextModel TextSpec TextProofs TextProps LexerRegex LexerModel LexerSpec LexerProps FormatData FormatModel FormatTree FormatText
  TreeModel TreePlace TreeShape TreeKids VarModel VarUnion VarSpec VarRegions VarOcc VarDoc LexRename VarProps TreeRename RenameDoc RenameScope.

Lemma doc_leafy err t x : doc_tree err t x -> leafy x.
Proof.
  intros D p cs E. assert (variable x p) as V by (exists cs; exact E). destruct (doc_var_node _ _ _ _ D V) as [(kw & w & E' & _)|(kw & w & E')]; rewrite E in E'; injection E' as ->;
    constructor; [reflexivity|constructor|reflexivity|constructor].
Qed.
(** the occurrences of the variable at [v] are variable tokens, not other words in their place *)
Definition well_formed_occurrences (x : tree) (v : path) : Prop := forall b, same_variable x v b -> exists k w, at_path x b = Some (Node K_Var [Tok k w]).
Definition no_lexical_error (err : text -> nat) (t : text) : Prop := forall k w, In (k, w) (lex err t) -> k <> K_Error.
Lemma class_sound err t x v l : doc_tree err t x -> well_formed_occurrences x v -> (forall b, In b l <-> same_variable x v b) -> sound_sel (member l) x.
Proof.
  intros D W H p cs M E. apply member_In in M. assert (variable x p) as V by (exists cs; exact E). destruct (W p (proj1 (H p) M)) as (k & w & E'). rewrite E in E'. injection E' as ->.
  destruct (doc_var_node _ _ _ _ D V) as [(kw & w' & E' & K)|(kw & w' & E')]; rewrite E in E'; [|discriminate]. injection E' as -> ->. exists kw, w'. split; [reflexivity|exact K].
Qed.
Lemma class_text err t x n l : doc_tree err t x -> StronglySorted doc_before l -> (forall b, In b l -> variable x b) ->
  splice 0 t (map (occurrence_edit x n) l) = tree_text (renamed_tree (QUESTION :: n) (member l) x).
Proof.
  intros D S V. pose proof (renamed_text n x (member l) 0 [] [] (doc_leafy _ _ _ D) I) as H. rewrite !app_nil_r, (doc_text _ _ _ D) in H. cbn [splice] in H. rewrite <- H.
  assert (filter (member l) (vars_below x) = l) as ->; [|reflexivity]. apply sorted_unique; [apply StronglySorted_filter, vars_below_sorted|exact S|].
  intros b. rewrite filter_In, in_vars_below, member_In. split; [tauto|]. intros Hb. auto.
Qed.
(** C44: the document after the rename parses to the same tree with the occurrences renamed *)
Theorem C44_renamed_document err t x at_ offset p v new_name n : doc_tree err t x -> no_lexical_error err t ->
  byte_index at_ t = Some offset -> cursor_on x t offset p -> parent p = Some v -> variable x v -> asks_for new_name n -> well_formed_occurrences x v ->
  exists es cs l, rename x t at_ new_name = Reply es /\ Forall2 (edit_denotes t) es cs /\ StronglySorted before cs /\ (forall b, In b l <-> same_variable x v b) /\
    doc_tree err (splice 0 t cs) (renamed_tree (QUESTION :: n) (member l) x).
Proof.
  intros D Hne B C Hp Hv A W. destruct (C42_rename _ _ _ _ _ _ _ _ _ D B C Hp Hv A) as (es & l & E & H & Nd & F & S).
  destruct (C41_occurrences x v Hv) as (l' & _ & S' & Nd' & H' & _).
  (* the list of C42 is sorted as its edits are *)
  assert (l = l') as ->.
  { apply sorted_unique; [|exact S'|intros b; rewrite H, H'; reflexivity]. assert (forall b, In b l -> variable x b) as V by (intros b Hb; apply H in Hb; apply Hb). clear -D S V Nd.
    induction l as [|b l IH]; [constructor|]. cbn [map] in S. inversion S as [|? ? S1 S2]; subst. inversion Nd as [|? ? N1 N2]; subst. constructor; [apply IH; [exact N2|exact S1|intros c Hc; apply V; right; exact Hc]|].
    apply Forall_forall. intros c Hc. destruct (doc_before_total b c) as [<-|[K|K]]; [contradiction|exact K|]. exfalso. rewrite Forall_forall in S2. specialize (S2 _ (in_map _ _ _ Hc)).
    pose proof (doc_vars_apart _ _ _ _ _ D (V c (or_intror Hc)) (V b (or_introl eq_refl)) K) as K'. destruct (doc_var_text _ _ _ _ D (V c (or_intror Hc))) as (kw & w & Ew & _ & Hw).
    unfold before, occurrence_edit in S2. cbn [ci cj] in S2. destruct S2 as [S2 _]. rewrite Ew in *. destruct w; [congruence|]. cbn [length] in *.
    destruct (doc_var_text _ _ _ _ D (V b (or_introl eq_refl))) as (kw' & w' & Ew' & _ & Hw'). rewrite Ew' in S2. destruct w'; [congruence|]. cbn [length] in *. lia. }
  exists es, (map (occurrence_edit x n) l'), l'. split; [exact E|]. split; [exact F|]. split; [exact S|]. split; [exact H'|].
  rewrite (class_text _ _ _ _ _ D S'); [|intros b Hb; apply H' in Hb; apply Hb]. destruct (asks_strip _ _ A) as [_ Av].
  apply (renamed_doc err t); [exact D| |exact Av|exact (class_sound _ _ _ _ _ D W H')].
  apply Forall_forall. intros [k w] Hin. apply (Hne k w Hin).
Qed.
(** C43: ... and its variables are the same as before *)
Theorem C43_same_variables err t x v n l : doc_tree err t x -> variable x v -> (forall b, In b l <-> same_variable x v b) -> well_formed_occurrences x v ->
  (forall b, variable x b -> name_at x b <> n) -> no_filter_select x ->
  let x' := renamed_tree (QUESTION :: n) (member l) x in
  (forall b, variable x' b <-> variable x b) /\
  (forall b, variable x b -> text_at x' b = if member l b then QUESTION :: n else text_at x b) /\
  forall a b, same_variable x' a b <-> same_variable x a b.
Proof.
  intros D Hv H W Hf Hs x'. assert (Hsound := class_sound _ _ _ _ _ D W H). assert (Hleafy := doc_leafy _ _ _ D). split; [|split].
  - intros b. symmetry. apply (alike_variable n). apply renamed_trel, Hsound.
  - intros b Hb. apply renamed_name; assumption.
  - intros a b. eapply preserved with (v := v); try eassumption. eapply doc_calm; eassumption.
Qed.
(** both together, for the request *)
Theorem C43_rename_partial err t x at_ offset p v new_name n : doc_tree err t x -> no_lexical_error err t ->
  byte_index at_ t = Some offset -> cursor_on x t offset p -> parent p = Some v -> variable x v -> asks_for new_name n -> well_formed_occurrences x v ->
  (forall b, variable x b -> name_at x b <> n) -> no_filter_select x ->
  exists es cs x', rename x t at_ new_name = Reply es /\ Forall2 (edit_denotes t) es cs /\ StronglySorted before cs /\ doc_tree err (splice 0 t cs) x' /\
    (forall b, variable x' b <-> variable x b) /\
    (forall b, same_variable x v b -> text_at x' b = QUESTION :: n) /\
    (forall b, variable x b -> ~ same_variable x v b -> text_at x' b = text_at x b) /\
    forall a b, same_variable x' a b <-> same_variable x a b.
Proof.
  intros D Hne B C Hp Hv A W Hf Hs. destruct (C44_renamed_document _ _ _ _ _ _ _ _ _ D Hne B C Hp Hv A W) as (es & cs & l & E & F & S & H & D').
  destruct (C43_same_variables _ _ _ _ _ _ D Hv H W Hf Hs) as (K1 & K2 & K3). exists es, cs. eexists. split; [exact E|]. split; [exact F|]. split; [exact S|]. split; [exact D'|]. split; [exact K1|].
  split; [|split; [|exact K3]].
  - intros b Hb. rewrite K2 by apply Hb. rewrite (proj2 (member_In l b) (proj2 (H b) Hb)). reflexivity.
  - intros b Hb Hn. rewrite (K2 _ Hb). destruct (member l b) eqn:M; [|reflexivity]. exfalso. apply Hn, H, member_In, M.
Qed.
(** a rename can be undone: renaming any of the occurrences back gives the document back *)
Lemma renamed_twice w w' x : forall sel, (forall p cs, sel p = true -> at_path x p = Some (Node K_Var cs) -> cs = [Tok K_VAR1 w]) -> renamed_tree w sel (renamed_tree w' sel x) = x.
Proof.
  induction x as [k u|k cs IH] using tree_ind'; intros sel H; [reflexivity|]. cbn [renamed_tree]. destruct (kind_eqb k K_Var && sel []) eqn:S; cbn [renamed_tree]; rewrite S.
  - apply andb_prop in S as [S1 S2]. destruct (kind_eqb_spec k K_Var) as [->|]; [|discriminate]. rewrite (H [] cs S2 eq_refl). reflexivity.
  - f_equal. assert (forall j c, nth_error cs j = Some c -> renamed_tree w (fun p => sel (j :: p)) (renamed_tree w' (fun p => sel (j :: p)) c) = c) as K.
    { intros j c Hj. apply (nth_error_Forall _ _ _ _ IH Hj). intros p ds Hs E. apply (H (j :: p)); [exact Hs|]. cbn [at_path]. rewrite Hj. exact E. }
    clear -K. assert (forall i ds, (forall j c, nth_error ds j = Some c -> renamed_tree w (fun p => sel (i + j :: p)) (renamed_tree w' (fun p => sel (i + j :: p)) c) = c) ->
      imap (fun i c => renamed_tree w (fun p => sel (i :: p)) c) i (imap (fun i c => renamed_tree w' (fun p => sel (i :: p)) c) i ds) = ds) as L; [|apply L, K].
    clear. intros i ds. revert i. induction ds as [|d ds IH]; intros i K; [reflexivity|]. cbn [imap]. f_equal.
    + specialize (K 0 d eq_refl). rewrite Nat.add_0_r in K. exact K.
    + apply IH. intros j c Hj. replace (S i + j) with (i + S j) by lia. apply K. exact Hj.
Qed.
Theorem C43_undo_partial err t x at_ offset p v new_name n m : doc_tree err t x -> no_lexical_error err t ->
  byte_index at_ t = Some offset -> cursor_on x t offset p -> parent p = Some v -> variable x v -> asks_for new_name n -> well_formed_occurrences x v ->
  (forall b, variable x b -> name_at x b <> n) -> no_filter_select x ->
  text_at x v = QUESTION :: m ->
  exists es cs, rename x t at_ new_name = Reply es /\ Forall2 (edit_denotes t) es cs /\ forall at_' offset' p' v' old_name x',
    doc_tree err (splice 0 t cs) x' -> byte_index at_' (splice 0 t cs) = Some offset' -> cursor_on x' (splice 0 t cs) offset' p' -> parent p' = Some v' -> same_variable x' v v' -> asks_for old_name m ->
    exists es' cs', rename x' (splice 0 t cs) at_' old_name = Reply es' /\ Forall2 (edit_denotes (splice 0 t cs)) es' cs' /\ splice 0 (splice 0 t cs) cs' = t.
Proof.
  intros D Hne B C Hp Hv A W Hf Hs Hm. destruct (C44_renamed_document _ _ _ _ _ _ _ _ _ D Hne B C Hp Hv A W) as (es & cs & l & E & F & S & H & D').
  destruct (C43_same_variables _ _ _ _ _ _ D Hv H W Hf Hs) as (K1 & K2 & K3). exists es, cs. split; [exact E|]. split; [exact F|].
  intros at_' offset' p' v' old_name x' Dx B' C' Hp' Sv A'. assert (x' = renamed_tree (QUESTION :: n) (member l) x) as Ex.
  { clear -Dx D'. destruct Dx as (gas & g & errs & P & ->). destruct D' as (gas' & g' & errs' & P' & ->).
    assert (Ok (Some (g, errs)) = Ok (Some (g', errs'))) as Eg; [|injection Eg as -> _; reflexivity].
    unfold parse in P, P'. eapply parses_to_det; [apply (parses_to_intro gas); [exact P|discriminate]|apply (parses_to_intro gas'); [exact P'|discriminate]]. }
  subst x'. set (y := renamed_tree (QUESTION :: n) (member l) x) in *. assert (Hsound := class_sound _ _ _ _ _ D W H). pose proof (renamed_trel n x _ Hsound) as T. fold y in T.
  assert (variable y v') as Hv' by apply Sv.
  assert (forall b, same_variable y v' b <-> same_variable x v b) as Hc.
  { intros b. destruct (C41_equivalence y) as (_ & Sy & Tr). rewrite <- K3. split; intros Hb; eapply Tr; [exact Sv|exact Hb|apply Sy, Sv|exact Hb]. }
  assert (well_formed_occurrences y v') as W'.
  { intros b Hb. apply Hc in Hb. destruct (W b Hb) as (k & w & Eb). pose proof (trel_at _ _ _ T b) as Tb. rewrite Eb in Tb. destruct (at_path y b) as [d|]; [|destruct Tb].
    inversion Tb as [|? ? ds' Fd]; subst. inversion Fd as [|? d' ? l' Hd Fd']; subst. inversion Fd'; subst. inversion Hd as [[k1 w1] [k2 w2] Hab Ea Eb'|]; subst. exists k2, w2. reflexivity. }
  assert (no_lexical_error err (splice 0 t cs)) as Hne'.
  { intros k w Hin. rewrite <- (doc_leaves _ _ _ D') in Hin. pose proof (trel_leaves _ _ _ T) as Fl. rewrite (doc_leaves _ _ _ D) in Fl.
    assert (exists z, In z (lex err t) /\ lex_resp n z (k, w)) as ([k0 w0] & Hz & R).
    { clear -Fl Hin. change (renamed_tree (QUESTION :: n) (member l) x) with y in Hin. induction Fl as [|a b la lb Hab _ IH]; [destruct Hin|]. destruct Hin as [->|Hin]; [exists a; split; [left; reflexivity|exact Hab]|].
      destruct (IH Hin) as (z & Hz & R). exists z. split; [right; exact Hz|exact R]. }
    destruct R as [R|[_ R]]; [injection R as <- <-; exact (Hne _ _ Hz)|injection R as -> _; discriminate]. }
  destruct (C44_renamed_document _ _ _ _ _ _ _ _ _ D' Hne' B' C' Hp' Hv' A' W') as (es' & cs' & l' & E' & F' & S' & H' & D'').
  exists es', cs'. split; [exact E'|]. split; [exact F'|]. apply doc_text in D''. rewrite <- D''.
  assert (forall b, member l' b = member l b) as Em.
  { intros b. apply eq_true_iff_eq. rewrite !member_In, H', H. apply Hc. }
  assert (renamed_tree (QUESTION :: m) (member l') y = x) as ->; [|apply (doc_text _ _ _ D)].
  assert (forall z sel sel', (forall b, sel b = sel' b) -> renamed_tree (QUESTION :: m) sel z = renamed_tree (QUESTION :: m) sel' z) as Hext.
  { clear. induction z as [k w|k cs IH] using tree_ind'; intros sel sel' Hs; [reflexivity|]. cbn [renamed_tree]. rewrite Hs. destruct (_ && _); [reflexivity|]. f_equal.
    generalize 0. induction IH as [|c cs Hc _ IHl]; intros i; [reflexivity|]. cbn [imap]. f_equal; [apply Hc; intros b; apply Hs|apply IHl]. }
  rewrite (Hext y _ _ Em). apply renamed_twice. intros q ds Hq Eq. destruct (Hsound q ds Hq Eq) as (k & w & -> & Kk).
  assert (text_at x q = w) as Eq' by (unfold text_at; rewrite Eq; cbn [tree_text flat_map]; apply app_nil_r).
  apply member_In, H in Hq. destruct Hq as (_ & Vq & En & _). assert (name_at x v = m) as Nv by (unfold name_at; rewrite Hm; reflexivity). rewrite Nv in En. unfold name_at in En. rewrite Eq' in En.
  destruct (doc_token err t x (q ++ [0]) k w D) as [Hl _]; [rewrite at_path_app, Eq; reflexivity|].
  destruct (lex_var_text _ _ _ _ Hl Kk) as (a & -> & Ha). destruct Kk as [-> | ->]; cbn [sigil_of] in *.
  - cbn in En. subst a. reflexivity.
  - exfalso. destruct A' as [A' _]. apply C42_names in A'. change (m = DOLLAR :: a) in En. rewrite En in A'. discriminate.
Qed.

(** ** a case that meets the hypotheses *)
Local Open Scope string_scope.
Fixpoint has_kind (K : kind) (x : tree) : bool := match x with Tok k _ => false | Node k cs => kind_eqb k K || existsb (has_kind K) cs end.
Fixpoint filters_ok (x : tree) : bool := match x with Tok _ _ => true | Node k cs => (negb (kind_eqb k K_Filter) || negb (has_kind K_SubSelect x)) && forallb filters_ok cs end.
Lemma has_kind_complete K : forall x q cs, at_path x q = Some (Node K cs) -> has_kind K x = true.
Proof.
  induction x as [k w|k ds IH] using tree_ind'; intros [|i q] cs E; try discriminate.
  - injection E as -> ->. cbn [has_kind]. destruct (kind_eqb_spec K K); [reflexivity|congruence].
  - cbn [at_path] in E. cbn [has_kind]. destruct (nth_error ds i) as [d|] eqn:N; [|discriminate]. apply Bool.orb_true_iff. right. apply existsb_exists. exists d. split; [apply (nth_error_In _ _ N)|].
    apply (nth_error_Forall _ _ _ _ IH N _ _ E).
Qed.
Lemma filters_ok_sound : forall x, filters_ok x = true -> no_filter_select x.
Proof.
  induction x as [k w|k ds IH] using tree_ind'; intros H [|i p] cs q E [ss S]; try discriminate; cbn [filters_ok] in H; apply andb_prop in H as [H1 H2].
  - injection E as -> ->. rewrite (has_kind_complete _ _ _ _ S) in H1. destruct (kind_eqb_spec K_Filter K_Filter); [discriminate|congruence].
  - cbn [at_path app] in E, S. destruct (nth_error ds i) as [d|] eqn:N; [|discriminate]. rewrite forallb_forall in H2.
    apply (nth_error_Forall _ _ _ _ IH N (H2 _ (nth_error_In _ _ N)) _ _ q E). exists ss. exact S.
Qed.
Definition occurrences_ok (x : tree) : bool := forallb (fun b => match at_path x b with Some (Node K_Var [Tok _ _]) => true | _ => false end) (vars_below x).
Lemma occurrences_ok_sound x v : occurrences_ok x = true -> well_formed_occurrences x v.
Proof.
  intros H b (_ & V & _). unfold occurrences_ok in H. rewrite forallb_forall in H. specialize (H b (proj2 (in_vars_below x b) V)). destruct V as [cs E]. rewrite E in H.
  destruct cs as [|[k w|] [|]]; try discriminate. exists k, w. exact E.
Qed.
Definition fresh_ok (x : tree) (n : text) : bool := forallb (fun b => if list_eq_dec N.eq_dec (name_at x b) n then false else true) (vars_below x).
Lemma fresh_ok_sound x n : fresh_ok x n = true -> forall b, variable x b -> name_at x b <> n.
Proof.
  intros H b V. unfold fresh_ok in H. rewrite forallb_forall in H. specialize (H b (proj2 (in_vars_below x b) V)). destruct (list_eq_dec _ _ _); [discriminate|assumption].
Qed.
(** two nested sub-selects, a FILTER, and three classes of occurrences *)
Definition nested : text := chars "SELECT ?x { ?x <p> ?y . FILTER(?y > 1) { SELECT ?y { ?x <q> ?y { SELECT * { ?x <r> ?z } } } } }".
Definition lex_ok (t : text) : bool := forallb (fun z => negb (kind_eqb (fst z) K_Error)) (lex (fun _ => 0) t).
Lemma lex_ok_sound t : lex_ok t = true -> no_lexical_error (fun _ => 0) t.
Proof. intros H k w Hin E. subst k. unfold lex_ok in H. rewrite forallb_forall in H. specialize (H _ Hin). discriminate. Qed.
Example C43_witness : exists x offset p v m,
  doc_tree (fun _ => 0) nested x /\ no_lexical_error (fun _ => 0) nested /\ byte_index (mkpos 0 20) nested = Some offset /\ cursor_on x nested offset p /\ parent p = Some v /\ variable x v /\ asks_for (chars "$new") (chars "new") /\ well_formed_occurrences x v /\
  (forall b, variable x b -> name_at x b <> chars "new") /\ no_filter_select x /\ text_at x v = QUESTION :: m.
Proof.
  assert (D : doc_tree (fun _ => 0) nested (tree_of nested)) by (apply parses_tree; vm_compute; reflexivity).
  assert (exists es, rename (tree_of nested) nested (mkpos 0 20) (chars "$new") = Reply es) as [es E] by (eexists; vm_compute; reflexivity).
  pose proof (C42_answers _ _ _ (mkpos 0 20) (chars "$new") D) as H. rewrite E in H. destruct H as (offset & p & v & n & B & C & Hp & Hv & A).
  assert (n = chars "new") as -> by (destruct (asks_strip _ _ A) as [<- _]; reflexivity).
  assert (forallb (fun b => match text_at (tree_of nested) b with c :: _ => N.eqb c QUESTION | [] => false end) (vars_below (tree_of nested)) = true) as Q by (vm_compute; reflexivity).
  rewrite forallb_forall in Q. specialize (Q v (proj2 (in_vars_below _ v) Hv)). destruct (text_at (tree_of nested) v) as [|c m] eqn:Et; [discriminate|]. apply N.eqb_eq in Q. subst c.
  exists (tree_of nested), offset, p, v, m. split; [exact D|]. split; [apply lex_ok_sound; vm_compute; reflexivity|]. split; [exact B|]. split; [exact C|]. split; [exact Hp|]. split; [exact Hv|].
  split; [exact A|]. split; [apply occurrences_ok_sound; vm_compute; reflexivity|]. split; [apply fresh_ok_sound; vm_compute; reflexivity|]. split; [apply filters_ok_sound; vm_compute; reflexivity|exact Et].
Qed.
Example C43_witness_text : renamed nested (mkpos 0 20) (chars "$new") =
  Some (chars "SELECT ?x { ?x <p> ?new . FILTER(?new > 1) { SELECT ?new { ?x <q> ?new { SELECT * { ?x <r> ?z } } } } }" ++ [NL])%list.
Proof. vm_compute. reflexivity. Qed.

(** ** without its hypotheses the claim fails *)
(** the new name is in use: nothing is refused, and the two variables are one afterwards *)
Theorem C43_capture_refuted :
  same_from "SELECT ?a { ?a <p> ?b }" 20 = Some [(19, 21)] /\
  renamed (chars "SELECT ?a { ?a <p> ?b }") (mkpos 0 20) (chars "a") = Some (chars "SELECT ?a { ?a <p> ?a }" ++ [NL])%list /\
  same_from "SELECT ?a { ?a <p> ?a }" 20 = Some [(7, 9); (12, 14); (19, 21)].
Proof. split; [|split]; vm_compute; reflexivity. Qed.
(** a sub-select within a FILTER: its variables count as exported by the [SELECT *] around the FILTER, but are no occurrences, so that after the rename nothing links the other two *)
Theorem C43_filter_select_refuted :
  same_from "SELECT ?x { { SELECT * { BIND(?x AS ?z) FILTER EXISTS { { SELECT ?y { ?x <q> ?y } } } } } }" 8 = Some [(7, 9); (30, 32)] /\
  renamed (chars "SELECT ?x { { SELECT * { BIND(?x AS ?z) FILTER EXISTS { { SELECT ?y { ?x <q> ?y } } } } } }") (mkpos 0 8) (chars "n") =
    Some (chars "SELECT ?n { { SELECT * { BIND(?n AS ?z) FILTER EXISTS { { SELECT ?y { ?x <q> ?y } } } } } }" ++ [NL])%list /\
  same_from "SELECT ?n { { SELECT * { BIND(?n AS ?z) FILTER EXISTS { { SELECT ?y { ?x <q> ?y } } } } } }" 8 = Some [(7, 9)].
Proof. split; [|split]; vm_compute; reflexivity. Qed.
