(** A query gets another column: grammar, tokens and text. *)
From Coq Require Import String List Arith NArith Bool Lia Sorted Permutation.
Import ListNotations.
From Verif Require Import ServerModel Kinds KindFacts ParserSyntax ParserModel GrammarData ParserTree ParserTerm ParserBuild ParserSpec ParserChecks ParserOutcome ParserProps
  TextModel TextSpec TextProofs Utf8Model LexerRegex LexerData LexerModel LexerProofs LexerSpec LexerProps FormatData FormatModel FormatTree FormatText FormatParse FormatWeave
  TreeModel TreePlace TreeItems TreeShape TreeRename VarModel VarSpec VarRegions VarDoc LexRename VarProps DiagModel DiagSpec AstFacts DiagFacts DiagGroup DiagRest ParseTreeProps LexLayout DiagProps OnTypeProofs OnTypeProps LayoutProps LexInsert PrologueRun PrologueSwap QuickFixModel QuickFixFacts CoverFacts RemoveFacts UngramData Replant LexMiddle QuickFixProps RemoveProps ShortenFacts GrammarCheck DiagScope ShortenProps SelectModel SelectFacts SelectProps ResultModel.
From Verif Require GrammarSpec GrammarFacts.

(** ** the specification of the columns *)
Definition opens_paren (c : tree) : bool := kind_eqb (tkind c) K_LParen.
(** [c] before the first element that is [p] *)
Fixpoint put_before {A} (p : A -> bool) (c l : list A) : list A := match l with [] => c | a :: r => if p a then c ++ l else a :: put_before p c r end.
(** a select clause with the column [c]: instead of the star; else [first]: before the expressions, or at the end *)
Definition with_column (first : bool) (c ps : list tree) : list tree :=
  match last_of ps with
  | Some (Tok K_Star _) => removelast ps ++ c
  | _ => if first then put_before opens_paren c ps else ps ++ c
  end.

(** ** grammar *)
Definition gparen (g : gtree) : bool := match g with GrammarSpec.Leaf k | GrammarSpec.Node k _ => kind_eqb k K_LParen end.
Lemma gparen_shape c : gparen (shape c) = opens_paren c.
Proof. destruct c; reflexivity. Qed.
Lemma map_put_before {A B} (f : A -> B) p q c l : (forall a, q (f a) = p a) -> map f (put_before p c l) = put_before q (map f c) (map f l).
Proof. intros H. induction l as [|a l IH]; [reflexivity|]. cbn [put_before map]. rewrite H. destruct (p a); [rewrite map_app; reflexivity|cbn [map]; rewrite IH; reflexivity]. Qed.
Lemma put_before_app {A} (p : A -> bool) c u v : existsb p u = false -> put_before p c (u ++ v) = u ++ put_before p c v.
Proof. induction u as [|a u IH]; intros H; [reflexivity|]. cbn [existsb] in H. apply orb_false_iff in H as [H1 H2]. cbn [app put_before]. rewrite H1, (IH H2). reflexivity. Qed.
Lemma put_before_none {A} (p : A -> bool) c u : existsb p u = false -> put_before p c u = u ++ c.
Proof. intros H. rewrite <- (app_nil_r u) at 1. rewrite (put_before_app _ _ _ _ H). reflexivity. Qed.
Lemma put_before_here {A} (p : A -> bool) c a v : p a = true -> put_before p c (a :: v) = c ++ a :: v.
Proof. intros H. cbn [put_before]. rewrite H. reflexivity. Qed.
Notation columns := (GrammarSpec.GRep column).
Lemma column_cases u : derives column u -> (exists k, u = [gnode K_Var [gleaf k]] /\ (k = K_VAR1 \/ k = K_VAR2)) \/ (exists us k, u = gleaf K_LParen :: us ++ [gleaf K_AS; gnode K_Var [gleaf k]; gleaf K_RParen] /\ (us = [] \/ exists vs, us = [gnode K_Expression vs])).
Proof.
  intros H. apply alt_inv in H as [H|H]; [left; apply var_inv, H|right]. apply seq_inv in H as (a & b & -> & Ha & H). apply tok_inv in Ha as ->. apply seq_inv in H as (c & d & -> & Hc & H).
  apply seq_inv in H as (e & f & -> & He & H). apply tok_inv in He as ->. apply seq_inv in H as (g & h & -> & Hv & H). apply tok_inv in H as ->. destruct (var_inv _ Hv) as (k & -> & Hk).
  exists c, k. split; [reflexivity|]. destruct (node_inv K_Expression G_Expression c eq_refl Hc) as [[-> _]|(us & -> & _)]; eauto.
Qed.
Lemma columns_put c : derives column c -> forall ts, derives columns ts -> derives columns (put_before gparen c ts).
Proof.
  intros Hc ts H. apply (rep_inv (fun ts => derives columns ts /\ derives columns (put_before gparen c ts)) _ _ H).
  - split; [constructor|]. cbn [put_before]. rewrite <- (app_nil_r c). apply GrammarSpec.d_rep_cons; [exact Hc|constructor].
  - intros u v Hu [V1 V2]. split; [apply GrammarSpec.d_rep_cons; assumption|]. destruct (column_cases u Hu) as [(k & -> & Hk)|(us & k & -> & _)].
    + rewrite put_before_app by reflexivity. apply GrammarSpec.d_rep_cons; assumption.
    + cbn [app]. rewrite put_before_here by reflexivity. apply GrammarSpec.d_rep_cons; [exact Hc|]. change (derives columns ((gleaf K_LParen :: us ++ [gleaf K_AS; gnode K_Var [gleaf k]; gleaf K_RParen]) ++ v)). apply GrammarSpec.d_rep_cons; assumption.
Qed.
Lemma columns_end c : derives column c -> forall ts, derives columns ts -> derives columns (ts ++ c).
Proof.
  intros Hc ts H. apply (rep_inv (fun ts => derives columns (ts ++ c)) _ _ H); [cbn [app]; rewrite <- (app_nil_r c); apply GrammarSpec.d_rep_cons; [exact Hc|constructor]|].
  intros u v Hu Hv. rewrite <- app_assoc. apply GrammarSpec.d_rep_cons; assumption.
Qed.
Lemma columns_some ts : derives columns ts -> ts <> [] -> derives (GrammarSpec.GSeq column columns) ts.
Proof. intros H N. inversion H; subst; [congruence|apply GrammarSpec.d_seq; assumption]. Qed.
Lemma column_some c : derives column c -> c <> [].
Proof. intros H. destruct (column_cases _ H) as [(k & -> & _)|(us & k & -> & _)]; discriminate. Qed.
(** the parts of a select clause *)
Definition gmod (o : list gtree) : Prop := o = [] \/ o = [gleaf K_DISTINCT] \/ o = [gleaf K_REDUCED].
Lemma clause_parts ts : derives (GrammarSpec.GNode K_SelectClause) [gnode K_SelectClause ts] -> exists o r, ts = gleaf K_SELECT :: o ++ r /\ gmod o /\ (r = [gleaf K_Star] \/ r <> [] /\ derives columns r).
Proof.
  intros H. apply (node_inv1 _ G_SelectClause) in H; [|reflexivity]. unfold G_SelectClause in H. fold column in H. apply seq_inv in H as (a & b & -> & Ha & H). apply tok_inv in Ha as ->. apply seq_inv in H as (o & c & -> & Ho & H).
  exists o, c. split; [reflexivity|]. split.
  - apply opt_inv in Ho as [->|Ho]; [left; reflexivity|]. apply alt_inv in Ho as [Ho|Ho]; apply tok_inv in Ho as ->; [right; left|right; right]; reflexivity.
  - apply alt_inv in H as [H|H]; [right|left; apply tok_inv, H]. apply seq_inv in H as (u & v & -> & Hu & Hv). split; [|apply GrammarSpec.d_rep_cons; assumption]. pose proof (column_some _ Hu). destruct u; [congruence|discriminate].
Qed.
Lemma clause_made o r : gmod o -> r = [gleaf K_Star] \/ r <> [] /\ derives columns r -> derives (GrammarSpec.GNode K_SelectClause) [gnode K_SelectClause (gleaf K_SELECT :: o ++ r)].
Proof.
  intros Ho Hr. eapply GrammarSpec.d_node; [reflexivity| |discriminate]. unfold G_SelectClause. fold column. apply (GrammarSpec.d_seq _ _ _ [_] _); [constructor|]. apply GrammarSpec.d_seq.
  - destruct Ho as [->|[->| ->]]; [constructor|apply GrammarSpec.d_opt_some, GrammarSpec.d_alt_l; constructor|apply GrammarSpec.d_opt_some, GrammarSpec.d_alt_r; constructor].
  - destruct Hr as [->|[N Hr]]; [apply GrammarSpec.d_alt_r; constructor|apply GrammarSpec.d_alt_l, columns_some; assumption].
Qed.
Definition gwith (first : bool) (c ts : list gtree) : list gtree :=
  match last_of ts with Some (GrammarSpec.Leaf K_Star) => removelast ts ++ c | _ => if first then put_before gparen c ts else ts ++ c end.
Lemma last_of_cons {A} (a : A) r : r <> [] -> last_of (a :: r) = last_of r.
Proof. destruct r as [|b r _] using rev_ind; [congruence|]. intros _. change (a :: r ++ [b]) with ((a :: r) ++ [b]). rewrite !last_of_app. reflexivity. Qed.
Lemma columns_last ts : derives columns ts -> ts <> [] -> exists pre z, ts = pre ++ [z] /\ ((exists k, z = gnode K_Var [gleaf k] /\ (k = K_VAR1 \/ k = K_VAR2)) \/ z = gleaf K_RParen /\ existsb gparen ts = true).
Proof.
  intros H. apply (rep_inv (fun ts => ts <> [] -> exists pre z, ts = pre ++ [z] /\ ((exists k, z = gnode K_Var [gleaf k] /\ (k = K_VAR1 \/ k = K_VAR2)) \/ z = gleaf K_RParen /\ existsb gparen ts = true)) _ _ H); [congruence|].
  intros u v Hu Hv _. destruct v as [|a v].
  - rewrite app_nil_r. destruct (column_cases u Hu) as [(k & -> & Hk)|(us & k & -> & _)]; [exists [], (gnode K_Var [gleaf k]); split; [reflexivity|left; eauto]|].
    exists (gleaf K_LParen :: us ++ [gleaf K_AS; gnode K_Var [gleaf k]]), (gleaf K_RParen). split; [cbn [app]; rewrite <- app_assoc; reflexivity|right; auto].
  - destruct (Hv ltac:(discriminate)) as (pre & z & E & Z). exists (u ++ pre), z. split; [rewrite E, app_assoc; reflexivity|]. destruct Z as [Z|[Z1 Z2]]; [left; exact Z|right; split; [exact Z1|]]. rewrite existsb_app, Z2. apply orb_true_r.
Qed.
Lemma gmod_paren o : gmod o -> existsb gparen (gleaf K_SELECT :: o) = false.
Proof. intros [->|[->| ->]]; reflexivity. Qed.
Lemma clause_with first c ts : derives (GrammarSpec.GNode K_SelectClause) [gnode K_SelectClause ts] -> derives column c -> derives (GrammarSpec.GNode K_SelectClause) [gnode K_SelectClause (gwith first c ts)].
Proof.
  intros H Hc. destruct (clause_parts _ H) as (o & r & -> & Ho & Hr). pose proof (column_some _ Hc) as Nc. destruct Hr as [->|[Nr Hr]].
  - unfold gwith. change (gleaf K_SELECT :: o ++ [gleaf K_Star]) with ((gleaf K_SELECT :: o) ++ [gleaf K_Star]). rewrite last_of_app, removelast_last. apply (clause_made o c Ho). right. split; [exact Nc|]. rewrite <- (app_nil_r c). apply GrammarSpec.d_rep_cons; [exact Hc|constructor].
  - assert (E : gwith first c (gleaf K_SELECT :: o ++ r) = gleaf K_SELECT :: o ++ (if first then put_before gparen c r else r ++ c)).
    { unfold gwith. destruct (columns_last _ Hr Nr) as (pre & z & Er & Z). rewrite Er at 1. replace (gleaf K_SELECT :: o ++ pre ++ [z]) with ((gleaf K_SELECT :: o ++ pre) ++ [z]) by (cbn [app]; rewrite <- app_assoc; reflexivity). rewrite last_of_app.
      assert (G : (if first then put_before gparen c (gleaf K_SELECT :: o ++ r) else (gleaf K_SELECT :: o ++ r) ++ c) = gleaf K_SELECT :: o ++ (if first then put_before gparen c r else r ++ c)).
      { destruct first; [|cbn [app]; rewrite <- app_assoc; reflexivity]. change (gleaf K_SELECT :: o ++ r) with ((gleaf K_SELECT :: o) ++ r). rewrite put_before_app by (apply gmod_paren, Ho). reflexivity. }
      destruct Z as [(k & -> & _)|[-> _]]; exact G. }
    rewrite E. apply clause_made; [exact Ho|right]. destruct first.
    + split; [|apply columns_put; assumption]. destruct r as [|a r]; [congruence|]. cbn [put_before]. destruct (gparen a); [destruct c; [congruence|discriminate]|discriminate].
    + split; [destruct r; [congruence|discriminate]|apply columns_end; assumption].
Qed.
Lemma with_shape first c ps : map shape (with_column first c ps) = gwith first (map shape c) (map shape ps).
Proof.
  unfold with_column, gwith. destruct ps as [|p ps _] using rev_ind.
  - destruct first; reflexivity.
  - rewrite map_app. cbn [map]. rewrite !last_of_app, !removelast_last.
    assert (G : map shape (if first then put_before opens_paren c (ps ++ [p]) else (ps ++ [p]) ++ c) = if first then put_before gparen (map shape c) (map shape ps ++ [shape p]) else (map shape ps ++ [shape p]) ++ map shape c).
    { destruct first; [rewrite (map_put_before shape opens_paren gparen _ _ gparen_shape), map_app; reflexivity|rewrite !map_app; reflexivity]. }
    destruct p as [k w|k ds]; [destruct k; try exact G; apply map_app|exact G].
Qed.
(** the elements of a select clause: variables, expressions and tokens *)
Lemma clause_elements ts : derives (GrammarSpec.GNode K_SelectClause) [gnode K_SelectClause ts] -> forall g, In g ts -> gparen g = true -> g = gleaf K_LParen.
Proof.
  intros H. destruct (clause_parts _ H) as (o & r & -> & Ho & Hr). assert (Hd : forall g, In g (gleaf K_SELECT :: o) -> gparen g = true -> g = gleaf K_LParen).
  { intros g Hg Pg. pose proof (gmod_paren _ Ho) as E. exfalso. assert (existsb gparen (gleaf K_SELECT :: o) = true) by (apply existsb_exists; eauto). congruence. }
  intros g Hg Pg. change (gleaf K_SELECT :: o ++ r) with ((gleaf K_SELECT :: o) ++ r) in Hg. apply in_app_iff in Hg as [Hg|Hg]; [apply Hd; assumption|]. destruct Hr as [->|[_ Hr]]; [destruct Hg as [<-|[]]; discriminate|].
  revert g Hg Pg. apply (rep_inv (fun ts => forall g, In g ts -> gparen g = true -> g = gleaf K_LParen) _ _ Hr); [intros g []|]. intros u v Hu Hv g Hg Pg. apply in_app_iff in Hg as [Hg|Hg]; [|apply Hv; assumption].
  destruct (column_cases u Hu) as [(k & -> & _)|(us & k & -> & Hus)]; [destruct Hg as [<-|[]]; discriminate|]. destruct Hg as [<-|Hg]; [reflexivity|]. apply in_app_iff in Hg as [Hg|Hg].
  - destruct Hus as [->|[vs ->]]; [destruct Hg|destruct Hg as [<-|[]]; discriminate].
  - destruct Hg as [<-|[<-|[<-|[]]]]; try discriminate.
Qed.

(** ** tokens *)
(** a variable ends where no character of a name follows *)
Definition no_name (v : text) : Prop := match v with c :: _ => var_char c = false | [] => True end.
Lemma var_longest k a v : var_kind k -> is_valid_variable_name a = true -> no_name v -> longest_rule lexer_rules ((sigil_of k :: a) ++ v) = Some (k, length (sigil_of k :: a)).
Proof.
  intros Hk Ha Hv. apply longest_rule_some. split.
  - destruct (var_matched k (sigil_of k :: a)) as (r' & Hin' & M'); [exact Hk|apply var_re_iff; exists a; auto|]. eapply some_match_intro; [exact Hin'|exact M'|discriminate].
  - intros k' m Hm. destruct (le_lt_dec m (length (sigil_of k :: a))) as [Lm'|Lm']; [exact Lm'|exfalso].
    destruct (some_match_elim _ _ _ Hm) as (r' & wb' & z & v' & Hin' & E' & Lz' & M' & _). destruct (LexRename.app_cut _ _ _ _ E') as [(u' & -> & Eu)|(e & Ee & _)].
    2: { rewrite Ee, app_length in Lm'. lia. }
    destruct (valid_names _ Ha) as [_ En]. destruct a as [|c n]; [congruence|].
    assert (k' = k) as -> by (eapply (sigil_start k); [exact Hk|exact Hin'|exact M']).
    apply (var_rule k _ _ _ Hk Hin') in M'. apply var_re_iff in M' as (b & Eb & Hb). injection Eb as <-.
    destruct u' as [|d u']; [rewrite app_nil_r in Lz'; cbn [length] in *; lia|].
    assert (var_char d = true) as Hd by (apply valid_names in Hb as [Hb _]; change (c :: n ++ d :: u') with ((c :: n) ++ d :: u') in Hb; apply names_app in Hb as [_ Hb]; unfold names in Hb; cbn [forallb] in Hb; apply andb_prop in Hb; tauto).
    subst v. cbn [app no_name] in Hv. congruence.
Qed.
Lemma var_then err k w v : (exists t, In (k, w) (lex err t)) -> var_kind k -> no_name v -> lex err (w ++ v) = (k, w) :: lex err v.
Proof.
  intros [t Hin] Hk Hv. destruct (lex_var_text _ _ _ _ Hin Hk) as (a & -> & Ha). apply lex_one; [|discriminate]. apply var_longest; assumption.
Qed.
(** what follows a variable is no character of a name *)
Lemma behind_var err t l1 k w l2 : lex err t = l1 ++ (k, w) :: l2 -> var_kind k -> no_name (flat_map snd l2).
Proof.
  intros E Hk. assert (Nk : k <> K_Error) by (destruct Hk as [-> | ->]; discriminate). pose proof (munch _ _ _ _ _ _ E Nk) as L.
  destruct (lex_var_text err t k w ltac:(rewrite E; apply in_app_iff; right; left; reflexivity) Hk) as (a & -> & Ha). destruct (flat_map snd l2) as [|d v]; [exact I|]. cbn [no_name]. destruct (var_char d) eqn:Hd; [exfalso|reflexivity].
  apply longest_rule_some in L as [_ L]. destruct (var_matched k (sigil_of k :: a ++ [d]) Hk) as (r2 & Hin2 & M2); [apply var_re_iff; exists (a ++ [d]); split; [reflexivity|]; apply valid_more; assumption|].
  assert (some_match k ((sigil_of k :: a ++ [d]) ++ v) (length (sigil_of k :: a ++ [d]))) as K by (eapply some_match_intro; [exact Hin2|exact M2|discriminate]).
  cbn [app] in K. rewrite <- app_assoc in K. apply L in K. cbn [length] in K. rewrite app_length in K. cbn in K. lia.
Qed.
Lemma star_rule r wb : In (K_Star, r, wb) lexer_rules -> r = Chr 42 /\ wb = false.
Proof. intros H. assert (forallb (fun x => match x with (K_Star, r, wb) => re_eqb r (Chr 42) && negb wb | _ => true end) lexer_rules = true) as C by (vm_compute; reflexivity). rewrite forallb_forall in C. specialize (C _ H). apply andb_true_iff in C as [C1 C2]. split; [apply re_eqb_eq, C1|destruct wb; [discriminate|reflexivity]]. Qed.
Lemma mark_char err t k w c : In (k, w) (lex err t) -> (k, c) = (K_LParen, 40%N) \/ (k, c) = (K_Star, 42%N) -> w = [c].
Proof.
  intros Hin Hk. apply in_split in Hin as (l1 & l2 & E). destruct (munched _ _ _ _ _ _ E ltac:(destruct Hk as [H|H]; injection H as -> ->; discriminate)) as (r & wb & Hr & M & _).
  destruct Hk as [H|H]; injection H as -> ->; [destruct (paren_rule _ _ Hr) as [-> _]|destruct (star_rule _ _ Hr) as [-> _]]; apply chr_inv, M.
Qed.
Lemma sigil_solid k w err t v : In (k, w) (lex err t) -> var_kind k -> opens_solid (w ++ v).
Proof. intros Hin Hk. destruct (lex_var_text _ _ _ _ Hin Hk) as (a & -> & _). destruct Hk as [-> | ->]; apply opens_solid_char; (reflexivity || discriminate). Qed.
