(** Facts for the quick fixes: a declaration put in front of a document. *)
From Coq Require Import String List Arith NArith Bool Lia Sorted.
Import ListNotations.
From Verif Require Import ServerModel Kinds KindFacts ParserSyntax ParserModel GrammarData ParserTree ParserTerm ParserBuild ParserSpec ParserChecks ParserOutcome ParserProps
  TextModel TextSpec TextProofs Utf8Model LexerRegex LexerData LexerModel LexerProofs LexerSpec LexerProps FormatData FormatModel FormatTree FormatText FormatParse FormatWeave
  TreeModel TreePlace TreeShape TreeRename VarModel VarSpec VarRegions VarDoc LexRename VarProps DiagModel DiagSpec AstFacts DiagFacts LexLayout DiagProps OnTypeProofs OnTypeProps LayoutProps LexInsert PrologueRun QuickFixModel.

(** ** lexing *)
(** [w] alone is one token of the kind [k] *)
Definition one_token (k : kind) (w : text) : Prop := forall err, lex err w = [(k, w)].
Lemma one_token_nil k w : one_token k w -> w <> [].
Proof. intros H ->. specialize (H (fun _ => 0)). discriminate. Qed.
Lemma one_token_longest k w : one_token k w -> k <> K_Error -> longest_rule lexer_rules (w ++ []) = Some (k, length w).
Proof. intros H N. apply (lex_first (fun _ => 0) k w []); [|exact N]. cbn [flat_map snd]. rewrite app_nil_r. apply H. Qed.
Lemma lex_blank err k w v : one_token k w -> k <> K_Error -> ~ In k extensible -> opens_blank v -> lex err (w ++ v) = (k, w) :: lex err v.
Proof. intros H N X O. apply lex_one; [|apply (one_token_nil _ _ H)]. destruct (ends_before_blank _ _ _ v (one_token_longest _ _ H N) X O) as [E _]. exact E. Qed.
Fixpoint blank_prefix (t : text) : text := match t with c :: r => if ws_char c then c :: blank_prefix r else [] | [] => [] end.
Lemma blank_prefix_spec t : exists r, t = blank_prefix t ++ r /\ forallb ws_char (blank_prefix t) = true /\ match r with c :: _ => ws_char c = false | [] => True end.
Proof.
  induction t as [|c t (r & E & F & H)]; [exists []; auto|]. cbn [blank_prefix]. destruct (ws_char c) eqn:W; [|exists (c :: t); auto].
  exists r. split; [cbn [app]; congruence|]. split; [cbn [forallb]; rewrite W; exact F|exact H].
Qed.
Lemma tokens_blank err c v : ws_char c = true -> tokens err (c :: v) = tokens err v.
Proof.
  intros W. destruct (blank_prefix_spec v) as (r & E & F & H). remember (blank_prefix v) as b eqn:Eb. clear Eb. subst v. unfold tokens.
  change (c :: b ++ r) with ((c :: b) ++ r). rewrite (lex_ws err (c :: b) r); [|discriminate|cbn [forallb]; rewrite W; exact F|exact H]. cbn [filter trivial fst negb].
  destruct b as [|d b]; [reflexivity|]. rewrite (lex_ws err (d :: b) r); [|discriminate|exact F|exact H]. reflexivity.
Qed.
Lemma tokens_first err k w v : one_token k w -> k <> K_Error -> ~ In k extensible -> opens_blank v -> tokens err (w ++ v) = (k, w) :: tokens err v.
Proof.
  intros H N X O. unfold tokens. rewrite (lex_blank err _ _ _ H N X O). cbn [filter]. replace (trivial (k, w)) with false; [reflexivity|]. symmetry. unfold trivial. cbn [fst].
  destruct k; try reflexivity; exfalso; apply X; unfold extensible; cbn; auto.
Qed.
Definition iri_text (ns : text) : text := 60%N :: ns ++ [62%N].
Definition decl_tokens (p ns : text) : list lexeme := [(K_PREFIX, chars "PREFIX"); (K_PNAME_NS, p ++ [COLON]); (K_IRIREF, iri_text ns)].
Definition decl_tree (p ns : text) : tree := Node K_PrefixDecl [Tok K_PREFIX (chars "PREFIX"); Tok K_PNAME_NS (p ++ [COLON]); Tok K_IRIREF (iri_text ns)].
Lemma decl_tree_ok p ns : declaration (decl_tokens p ns) (decl_tree p ns).
Proof. apply is_prefix. Qed.
Lemma prefix_word : one_token K_PREFIX (chars "PREFIX").
Proof. intros err. apply is_token; [discriminate|vm_compute; reflexivity]. Qed.
Ltac not_ext := let H := fresh in intros H; cbn in H; repeat (destruct H as [H|H]; [discriminate H|]); exact H.
Lemma tokens_decl err p ns t : one_token K_PNAME_NS (p ++ [COLON]) -> one_token K_IRIREF (iri_text ns) -> tokens err (declaration_text p ns ++ t) = decl_tokens p ns ++ tokens err t.
Proof.
  intros Hp Hn. unfold decl_tokens. cbn [app].
  assert (declaration_text p ns ++ t = chars "PREFIX" ++ 32%N :: (p ++ [COLON]) ++ 32%N :: iri_text ns ++ 10%N :: t) as ->.
  { unfold declaration_text, iri_text. cbn. rewrite <- !app_assoc. cbn. rewrite <- !app_assoc. reflexivity. }
  rewrite (tokens_first err _ _ _ prefix_word); [|discriminate|not_ext|reflexivity]. f_equal. rewrite tokens_blank by reflexivity.
  rewrite (tokens_first err _ _ _ Hp); [|discriminate|not_ext|reflexivity]. f_equal. rewrite tokens_blank by reflexivity.
  rewrite (tokens_first err _ _ _ Hn); [|discriminate|not_ext|reflexivity]. f_equal. apply tokens_blank. reflexivity.
Qed.
(** the prefix of a name is a prefix label *)
Definition ns_shape (x : kind * re * bool) : bool :=
  let '(k, r, _) := x in
  match k with
  | K_PNAME_LN => match r with Cat a (Cat b _) => existsb (fun y => kind_eqb (fst (fst y)) K_PNAME_NS && re_eqb (snd (fst y)) (Cat a b) && negb (snd y)) lexer_rules | _ => false end
  | _ => true
  end.
Lemma ns_shaped : forallb ns_shape lexer_rules = true.
Proof. vm_compute. reflexivity. Qed.
Lemma rule_token k r w : In (k, r, false) lexer_rules -> matches r w -> one_token k w.
Proof.
  intros Hin M err. assert (w <> []) as N. { intros ->. apply nullable_matches in M. apply rule_plain in Hin as (? & _). congruence. }
  transitivity (lex err (w ++ [])); [rewrite app_nil_r; reflexivity|]. rewrite (lex_one err k w []); [reflexivity| |exact N]. apply longest_rule_some. split; [eapply some_match_intro; [exact Hin|exact M|discriminate]|].
  intros k' m Hm. destruct (some_match_elim _ _ _ Hm) as (r' & wb' & z & y & _ & Ez & Lz & _). rewrite app_nil_r in Ez. rewrite Ez, app_length. lia.
Qed.
Lemma label_of_name err t k w p r : In (k, w) (lex err t) -> k = K_PNAME_NS \/ k = K_PNAME_LN -> w = p ++ COLON :: r -> ~ In COLON p -> one_token K_PNAME_NS (p ++ [COLON]).
Proof.
  intros Hin Hk Ew Np. destruct (lex_rule _ _ _ _ Hin) as (re & wb & Hr & M); [destruct Hk; subst; discriminate|]. destruct Hk as [-> | ->].
  - destruct (lex_ns_text _ _ _ Hin) as (p' & Ew' & Np'). rewrite Ew in Ew'. assert (p' = p /\ r = []) as [-> ->].
    { destruct (app_cut _ _ _ _ Ew') as [(e & -> & E)|(e & -> & E)]; destruct e as [|c e]; cbn [app] in E.
      - rewrite app_nil_r. injection E as E. auto.
      - injection E as <- _. exfalso. apply Np'. apply in_app_iff. right. left. reflexivity.
      - rewrite app_nil_r. injection E as E. auto.
      - injection E as <- E. exfalso. apply Np. apply in_app_iff. right. left. reflexivity. }
    assert (wb = false) as -> by (destruct wb; [|reflexivity]; assert (forallb (fun x => negb (kind_eqb (fst (fst x)) K_PNAME_NS && snd x)) lexer_rules = true) as W by (vm_compute; reflexivity); rewrite forallb_forall in W; specialize (W _ Hr); discriminate W).
    rewrite <- Ew. exact (rule_token _ _ _ Hr M).
  - pose proof ns_shaped as C. rewrite forallb_forall in C. pose proof (C _ Hr) as X. cbn [ns_shape] in X. clear C. pose proof names_shaped as C. rewrite forallb_forall in C. pose proof (C _ Hr) as Y. cbn [name_shape] in Y. clear C.
    destruct re as [| |a [| |b c| |]| |]; try discriminate X. apply andb_prop in Y as [A B]. apply cat_split in M as (u & v & Ew' & M1 & M2). apply cat_split in M2 as (v1 & v2 & -> & M2 & M3). pose proof (is_chr_ok _ _ _ B M2) as ->.
    pose proof (avoids_ok _ _ _ M1 A) as Nu. rewrite Ew in Ew'. assert (u = p) as ->.
    { cbn [app] in Ew'. destruct (app_cut _ _ _ _ Ew') as [(e & -> & E)|(e & -> & E)]; destruct e as [|d e]; cbn [app] in E; rewrite ?app_nil_r; [reflexivity| |reflexivity|].
      - injection E as <- _. exfalso. apply Nu. apply in_app_iff. right. left. reflexivity.
      - injection E as <- _. exfalso. apply Np. apply in_app_iff. right. left. reflexivity. }
    apply existsb_exists in X as ([[k1 r1] wb1] & Hin1 & X). apply andb_prop in X as [X X3]. apply andb_prop in X as [X1 X2]. cbn [fst snd] in *. apply kind_eqb_eq in X1. apply re_eqb_eq in X2. subst. destruct wb1; [discriminate|].
    apply (rule_token _ _ _ Hin1). constructor; assumption.
Qed.
Lemma label_of_use err t x p w : doc_tree err t x -> uses x p w -> one_token K_PNAME_NS (w ++ [COLON]).
Proof.
  intros D [[cs E] (r & Er & Nr)]. destruct (doc_name _ _ _ _ _ D E) as (k & u & -> & Hk). assert (at_path x (p ++ [0]) = Some (Tok k u)) as E0 by (rewrite (AstFacts.at_child _ _ _ _ _ E); reflexivity).
  destruct (doc_token _ _ _ _ _ _ D E0) as [Hin _]. unfold text_at in Er. rewrite E in Er. cbn [tree_text flat_map] in Er. rewrite app_nil_r in Er. exact (label_of_name _ _ _ _ _ _ Hin Hk Er Nr).
Qed.

(** ** what a tree contains *)
Definition sub (x y : tree) : Prop := exists p, at_path x p = Some y.
Lemma sub_refl x : sub x x.
Proof. exists []. reflexivity. Qed.
Lemma sub_trans x y z : sub x y -> sub y z -> sub x z.
Proof. intros [p E] [q F]. exists (p ++ q). rewrite at_path_app, E. exact F. Qed.
Lemma sub_node k cs y : sub (Node k cs) y <-> y = Node k cs \/ exists c, In c cs /\ sub c y.
Proof.
  split.
  - intros [[|i p] E]; [injection E as <-; auto|]. cbn [at_path] in E. destruct (nth_error cs i) as [c|] eqn:Ec; [|discriminate]. right. exists c. split; [eapply nth_error_In, Ec|exists p; exact E].
  - intros [->|(c & Hc & p & E)]; [apply sub_refl|]. apply In_nth_error in Hc as [i Ei]. exists (i :: p). cbn [at_path]. rewrite Ei. exact E.
Qed.
Lemma sub_tok k w y : sub (Tok k w) y <-> y = Tok k w.
Proof. split; [|intros ->; apply sub_refl]. intros [[|i p] E]; [injection E as <-; reflexivity|discriminate]. Qed.
Definition is_inner (y : tree) : Prop := exists k cs, y = Node k cs.
Lemma in_bare k cs z : In z (match bare same (Node k cs) with Node _ l => l | _ => [] end) <-> exists c, In c cs /\ z = bare same c /\ (forall a b, c = Tok a b -> trivial (a, b) = false).
Proof.
  cbn [bare]. rewrite in_flat_map. split.
  - intros (c & Hc & Hz). exists c. split; [exact Hc|]. destruct c as [a b|a b]; [|destruct Hz as [<-|[]]; split; [reflexivity|discriminate]].
    destruct (trivial (a, b)) eqn:T; [destruct Hz|]. destruct Hz as [<-|[]]. split; [reflexivity|]. intros ? ? E. injection E as <- <-. exact T.
  - intros (c & Hc & -> & H). exists c. split; [exact Hc|]. destruct c as [a b|a b]; [|left; reflexivity]. rewrite (H a b eq_refl). left. reflexivity.
Qed.
Lemma bare_node k cs : exists l, bare same (Node k cs) = Node k l.
Proof. cbn [bare]. eauto. Qed.
Lemma sub_bare x z : is_inner z -> sub (bare same x) z <-> exists y, sub x y /\ is_inner y /\ z = bare same y.
Proof.
  intros Z. induction x as [k w|k cs IH] using tree_ind'.
  - cbn [bare]. unfold tok. rewrite sub_tok. split; [intros ->; destruct Z as (? & ? & Z); discriminate|]. intros (y & H & (a & b & ->) & _). apply sub_tok in H. discriminate.
  - destruct (bare_node k cs) as [l El]. rewrite El, sub_node. rewrite Forall_forall in IH. split.
    + intros [->|(c & Hc & Hs)].
      * exists (Node k cs). split; [apply sub_refl|]. split; [eexists _, _; reflexivity|symmetry; exact El].
      * pose proof (in_bare k cs c) as B. rewrite El in B. apply B in Hc as (c0 & Hc0 & -> & _). apply (IH _ Hc0) in Hs as (y & Hy & Iy & ->). exists y. split; [apply sub_node; eauto|auto].
    + intros (y & Hy & Iy & ->). apply sub_node in Hy as [->|(c & Hc & Hs)]; [left; exact El|]. right. exists (bare same c). split.
      * pose proof (in_bare k cs (bare same c)) as B. rewrite El in B. apply B. exists c. split; [exact Hc|]. split; [reflexivity|]. intros a b ->. apply sub_tok in Hs. subst y. destruct Iy as (? & ? & Iy). discriminate.
      * apply (IH _ Hc). eauto.
Qed.
Lemma sub_with_decl d x k cs : ~ In k [K_Query; K_Prologue] -> (forall u l, x = Node u l -> k <> u) -> (exists u l, x = Node u l) -> sub (with_decl d x) (Node k cs) <-> sub d (Node k cs) \/ sub x (Node k cs).
Proof.
  intros Nk Nu (u & l & ->). specialize (Nu _ _ eq_refl).
  assert (Q : forall a l, In a [K_Query; K_Prologue] \/ a = u -> sub (Node a l) (Node k cs) <-> exists c, In c l /\ sub c (Node k cs)).
  { intros a b Ha. rewrite sub_node. split; [|auto]. intros [E|E]; [|exact E]. injection E as -> _. exfalso. destruct Ha as [Ha|Ha]; [exact (Nk Ha)|congruence]. }
  assert (A1 : In K_Query [K_Query; K_Prologue]) by (left; reflexivity). assert (A2 : In K_Prologue [K_Query; K_Prologue]) by (right; left; reflexivity).
  assert (D : sub (Node K_Query [Node K_Prologue [d]]) (Node k cs) <-> sub d (Node k cs)).
  { rewrite Q by auto. split; [intros (c & [<-|[]] & H); apply Q in H; [|auto]; destruct H as (c' & [<-|[]] & H); exact H|]. intros H. eexists. split; [left; reflexivity|]. apply Q; [auto|]. eexists. split; [left; reflexivity|exact H]. }
  assert (E1 : forall c l, sub (Node u (c :: l)) (Node k cs) <-> sub c (Node k cs) \/ sub (Node u l) (Node k cs)).
  { intros c l0. rewrite !Q by auto. split; [intros (e & [<-|H] & H'); eauto|]. intros [H|(e & H & H')]; [exists c|exists e]; cbn; auto. }
  assert (E2 : forall c l, sub (Node K_Query (c :: l)) (Node k cs) <-> sub c (Node k cs) \/ sub (Node K_Query l) (Node k cs)).
  { intros c l0. rewrite !Q by auto. split; [intros (e & [<-|H] & H'); eauto|]. intros [H|(e & H & H')]; [exists c|exists e]; cbn; auto. }
  assert (E3 : forall c l, sub (Node K_Prologue (c :: l)) (Node k cs) <-> sub c (Node k cs) \/ sub (Node K_Prologue l) (Node k cs)).
  { intros c l0. rewrite !Q by auto. split; [intros (e & [<-|H] & H'); eauto|]. intros [H|(e & H & H')]; [exists c|exists e]; cbn; auto. }
  assert (E4 : sub (Node K_Prologue []) (Node k cs) <-> False). { rewrite Q by auto. split; [intros (? & [] & _)|intros []]. }
  cbn [with_decl]. destruct l as [|[a w|q qs] rest].
  - rewrite E1, D. reflexivity.
  - rewrite E1, D. reflexivity.
  - destruct (kind_eqb_spec q K_Query) as [->|Nq]; [|rewrite E1, D; reflexivity]. destruct qs as [|[a w|a ds] qs].
    + rewrite !E1, E2, E3, E4. tauto.
    + rewrite !E1, E2, E3, E4. tauto.
    + destruct (kind_eqb_spec a K_Prologue) as [->|Na].
      * rewrite !E1, !E2, E3. tauto.
      * rewrite !E1, !E2, E3, E4. tauto.
Qed.

(** ** prefixes used and declared *)
Definition used (x : tree) (w : text) : Prop := exists cs, sub x (Node K_PrefixedName cs) /\ prefix_part (tree_text (Node K_PrefixedName cs)) w.
Definition used_in_select (x : tree) (w : text) : Prop := exists cs, sub x (Node K_SelectQuery cs) /\ used (Node K_SelectQuery cs) w.
Definition declared (x : tree) (w : text) : Prop := exists cs u, sub x (Node K_PrefixDecl cs) /\ In (Tok K_PNAME_NS u) cs /\ prefix_part u w.
Lemma uses_iff x w : (exists p, uses x p w) <-> used x w.
Proof.
  split.
  - intros (p & [cs E] & H). exists cs. split; [exists p; exact E|]. unfold text_at in H. rewrite E in H. exact H.
  - intros (cs & [p E] & H). exists p. split; [exists cs; exact E|]. unfold text_at. rewrite E. exact H.
Qed.
Lemma select_uses_iff x w : (exists p, in_select x p /\ uses x p w) <-> used_in_select x w.
Proof.
  split.
  - intros (p & (sq & [cs E] & r & ->) & U). exists cs. split; [exists sq; exact E|]. apply uses_iff. exists r. destruct U as [[ds F] H]. rewrite at_path_app, E in F. split; [exists ds; exact F|]. unfold text_at in *. rewrite at_path_app, E, F in H. rewrite F. exact H.
  - intros (cs & [sq E] & U). apply uses_iff in U as (r & [ds F] & H). exists (sq ++ r). split; [exists sq; split; [exists cs; exact E|exists r; reflexivity]|].
    assert (at_path x (sq ++ r) = Some (Node K_PrefixedName ds)) as G by (rewrite at_path_app, E; exact F). split; [exists ds; exact G|]. unfold text_at in *. rewrite G. rewrite F in H. exact H.
Qed.
Lemma declares_iff x w : (exists d, declares x d w) <-> declared x w.
Proof.
  split.
  - intros (d & [cs E] & i & u & F & H). exists cs, u. split; [exists d; exact E|]. split; [|exact H]. rewrite (AstFacts.at_child _ _ _ _ _ E) in F. eapply nth_error_In, F.
  - intros (cs & u & [d E] & Hin & H). exists d. split; [exists cs; exact E|]. apply In_nth_error in Hin as [i Hi]. exists i, u. split; [rewrite (AstFacts.at_child _ _ _ _ _ E); exact Hi|exact H].
Qed.
Definition plain_names (x : tree) : Prop := forall cs, sub x (Node K_PrefixedName cs) -> bare same (Node K_PrefixedName cs) = Node K_PrefixedName cs.
Lemma doc_plain_names err t x : doc_tree err t x -> plain_names x.
Proof. intros D cs [p E]. destruct (doc_name _ _ _ _ _ D E) as (k & w & -> & [-> | ->]); reflexivity. Qed.
Lemma plain_names_sub x y : plain_names x -> sub x y -> plain_names y.
Proof. intros H S cs S'. apply H. eapply sub_trans; eassumption. Qed.
Lemma bare_kind y k cs : is_inner y -> Node k cs = bare same y -> exists ds, y = Node k ds.
Proof. intros (a & b & ->) E. cbn [bare] in E. injection E as -> _. eauto. Qed.
Lemma used_bare x w : plain_names x -> used (bare same x) w <-> used x w.
Proof.
  intros P. split.
  - intros (cs & S & H). apply sub_bare in S; [|eexists _, _; reflexivity]. destruct S as (y & Sy & Iy & E). destruct (bare_kind _ _ _ Iy E) as [ds ->]. rewrite (P _ Sy) in E. exists ds. split; [exact Sy|]. rewrite <- E. exact H.
  - intros (cs & S & H). exists cs. split; [|exact H]. apply sub_bare; [eexists _, _; reflexivity|]. exists (Node K_PrefixedName cs). split; [exact S|]. split; [eexists _, _; reflexivity|]. symmetry. apply P, S.
Qed.
Lemma used_in_select_bare x w : plain_names x -> used_in_select (bare same x) w <-> used_in_select x w.
Proof.
  intros P. split.
  - intros (cs & S & H). apply sub_bare in S; [|eexists _, _; reflexivity]. destruct S as (y & Sy & Iy & E). destruct (bare_kind _ _ _ Iy E) as [ds ->]. exists ds. split; [exact Sy|]. rewrite E in H. exact (proj1 (used_bare _ _ (plain_names_sub _ _ P Sy)) H).
  - intros (cs & S & H). destruct (bare_node K_SelectQuery cs) as [l El]. exists l. split; [|rewrite <- El; apply used_bare; [exact (plain_names_sub _ _ P S)|exact H]].
    apply sub_bare; [eexists _, _; reflexivity|]. exists (Node K_SelectQuery cs). split; [exact S|]. split; [eexists _, _; reflexivity|auto].
Qed.
Lemma declared_bare x w : declared (bare same x) w <-> declared x w.
Proof.
  split.
  - intros (cs & u & S & Hin & H). apply sub_bare in S; [|eexists _, _; reflexivity]. destruct S as (y & Sy & Iy & E). destruct (bare_kind _ _ _ Iy E) as [ds ->]. exists ds, u. split; [exact Sy|]. split; [|exact H].
    pose proof (in_bare K_PrefixDecl ds (Tok K_PNAME_NS u)) as B. rewrite <- E in B. apply B in Hin as (c & Hc & Ec & _). destruct c as [a b|a b]; [|cbn in Ec; discriminate]. cbn in Ec. unfold tok, same in Ec. cbn in Ec. injection Ec as <- <-. exact Hc.
  - intros (cs & u & S & Hin & H). destruct (bare_node K_PrefixDecl cs) as [l El]. exists l, u. split; [apply sub_bare; [eexists _, _; reflexivity|]; exists (Node K_PrefixDecl cs); split; [exact S|]; split; [eexists _, _; reflexivity|auto]|].
    split; [|exact H]. pose proof (in_bare K_PrefixDecl cs (Tok K_PNAME_NS u)) as B. rewrite El in B. apply B. exists (Tok K_PNAME_NS u). split; [exact Hin|]. split; [reflexivity|]. intros a b E. injection E as <- <-. reflexivity.
Qed.
Section put.
Context (p ns : text) (x : tree) (cs : list tree).
Context (X : x = Node K_QueryUnit cs) (Np : ~ In COLON p).
Let d := decl_tree p ns.
Lemma put_sub k l : ~ In k [K_QueryUnit; K_Query; K_Prologue] -> sub (with_decl d x) (Node k l) <-> Node k l = d \/ sub x (Node k l).
Proof.
  intros N. rewrite sub_with_decl.
  - unfold d, decl_tree. rewrite sub_node. split; (intros [H|H]; [|auto]); [|auto]. destruct H as [H|(c & [<-|[<-|[<-|[]]]] & H)]; [auto| | |]; apply sub_tok in H; discriminate.
  - intros H. apply N. right. exact H.
  - intros u l0 E Ek. rewrite X in E. injection E as E _. apply N. left. congruence.
  - rewrite X. eauto.
Qed.
Lemma put_used w : used (with_decl d x) w <-> used x w.
Proof.
  assert (K : ~ In K_PrefixedName [K_QueryUnit; K_Query; K_Prologue]) by (intros [H|[H|[H|[]]]]; discriminate). split; intros (l & S & H); exists l; (split; [|exact H]).
  - apply put_sub in S as [S|S]; [discriminate|exact S|exact K].
  - apply put_sub; auto.
Qed.
Lemma put_used_in_select w : used_in_select (with_decl d x) w <-> used_in_select x w.
Proof.
  assert (K : ~ In K_SelectQuery [K_QueryUnit; K_Query; K_Prologue]) by (intros [H|[H|[H|[]]]]; discriminate). split; intros (l & S & H); exists l; (split; [|exact H]).
  - apply put_sub in S as [S|S]; [discriminate|exact S|exact K].
  - apply put_sub; auto.
Qed.
Lemma put_declared w : declared (with_decl d x) w <-> w = p \/ declared x w.
Proof.
  assert (K : ~ In K_PrefixDecl [K_QueryUnit; K_Query; K_Prologue]) by (intros [H|[H|[H|[]]]]; discriminate). split.
  - intros (l & u & S & Hin & H). apply put_sub in S as [S|S]; [|right; exists l, u; auto|exact K]. left. unfold d, decl_tree in S. injection S as ->. destruct Hin as [E|[E|[E|[]]]]; try discriminate. injection E as <-.
    eapply prefix_part_fun; [exact H|]. exists []. auto.
  - intros [->|(l & u & S & H)]; [|exists l, u; split; [apply put_sub; auto|exact H]]. unfold declared. eexists _, (p ++ [COLON]). split; [apply put_sub; [exact K|left; reflexivity]|]. split; [cbn; auto|]. exists []. auto.
Qed.
End put.

(** ** what the diagnostics say about prefixes *)
Definition missing (x : tree) (w : text) : Prop := used_in_select x w /\ ~ declared x w.
Definition idle (x : tree) (w : text) : Prop := declared x w /\ ~ used x w.
Lemma in_of_code c d ds : In d (of_code c ds) <-> In d ds /\ d_code d = c.
Proof. unfold of_code. rewrite filter_In. split; intros [H E]; (split; [exact H|]); [destruct (d_code d), c; try discriminate; reflexivity|subst c; destruct (d_code d); reflexivity]. Qed.
Lemma reports_data x t P ds dat : reports_in_order x t P ds -> (exists d, In d ds /\ d_data d = dat) <-> exists p, P p dat.
Proof.
  intros (l & _ & H & F). split.
  - intros (d & Hd & E). destruct (forall2_in _ _ _ _ F Hd) as ([p dt] & Hin & E' & _). cbn [fst snd] in *. exists p. apply H. rewrite <- E, E'. exact Hin.
  - intros (p & Hp). apply H in Hp. destruct (forall2_in_l _ _ _ _ F Hp) as (d & Hd & E & _). eauto.
Qed.
Lemma reports_data' x t P ds dat : reports x t P ds -> (exists d, In d ds /\ d_data d = dat) <-> exists p, P p dat.
Proof.
  intros (l & _ & H & F). split.
  - intros (d & Hd & E). destruct (forall2_in _ _ _ _ F Hd) as ([p dt] & Hin & E' & _). cbn [fst snd] in *. exists p. apply H. rewrite <- E, E'. exact Hin.
  - intros (p & Hp). apply H in Hp. destruct (forall2_in_l _ _ _ _ F Hp) as (d & Hd & E & _). eauto.
Qed.
Section said.
Context (err : text -> nat) (t : text) (x : tree) (errs : list parse_error) (shorten : text -> option (text * text * text)) (order : path -> list (text * list path) -> list (text * list path)) (ds : list diag).
Context (P : doc_parse err t x errs) (O : any_order order) (E : diagnostics shorten order x errs t = Reply ds).
Lemma said_undeclared w : (exists d, In d ds /\ d_code d = UndeclaredPrefix /\ d_data d = DString w) <-> missing x w.
Proof.
  pose proof (a_undeclared _ _ _ _ _ (answered _ _ _ _ _ _ _ P O E)) as R. transitivity (exists d, In d (of_code UndeclaredPrefix ds) /\ d_data d = DString w).
  { split; intros (d & H); exists d; rewrite in_of_code in *; tauto. }
  rewrite (reports_data _ _ _ _ _ R). unfold missing. rewrite <- select_uses_iff, <- declares_iff. split.
  - intros (p & Hs & w' & U & Ew & N). injection Ew as <-. split; [eauto|]. intros [d Hd]. exact (N d Hd).
  - intros ((p & Hs & U) & N). exists p. split; [exact Hs|]. exists w. split; [exact U|]. split; [reflexivity|]. intros d Hd. apply N. eauto.
Qed.
Lemma said_unused w : (exists d, In d ds /\ d_code d = UnusedPrefix /\ d_data d = DString w) <-> idle x w.
Proof.
  pose proof (a_unused _ _ _ _ _ (answered _ _ _ _ _ _ _ P O E)) as R. transitivity (exists d, In d (of_code UnusedPrefix ds) /\ d_data d = DString w).
  { split; intros (d & H); exists d; rewrite in_of_code in *; tauto. }
  rewrite (reports_data _ _ _ _ _ R). unfold idle. rewrite <- uses_iff, <- declares_iff. split.
  - intros (p & [(w' & Hd & Ew & N)|(_ & Ew & _)]); [|discriminate]. injection Ew as <-. split; [eauto|]. intros [d H]. exact (N d H).
  - intros ((d & Hd) & N). exists d. left. exists w. split; [exact Hd|]. split; [reflexivity|]. intros q Hq. apply N. eauto.
Qed.
End said.
