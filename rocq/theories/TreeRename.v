(** Renaming variables: the tree of the renamed document is the renamed tree.  First the parser: whether a variable
    is written with '?' or with '$' makes no difference to it. *)
From Coq Require Import String List Arith NArith Bool Lia.
Import ListNotations.
From Verif Require Import Kinds KindFacts ParserSyntax ParserModel GrammarData ParserTree ParserTerm ParserBuild ParserSpec ParserChecks ParserOutcome
  TextModel Utf8Model LexerModel LexerSpec LexerProps FormatData FormatModel FormatTree FormatText FormatParse TreeModel TreePlace TreeShape.

(** ** related kinds, related runs *)
Definition kr (k k' : kind) : Prop := k = k' \/ (k = K_VAR2 /\ k' = K_VAR1).
Inductive prel : ptree -> ptree -> Prop :=
| pr_leaf k k' : kr k k' -> prel (PLeaf k) (PLeaf k')
| pr_node k ts ts' : Forall2 prel ts ts' -> prel (PNode k ts) (PNode k ts')
| pr_err e : prel (PErr e) (PErr e).
Definition orel (o o' : out) : Prop := Forall2 prel (fst (fst o)) (fst (fst o')) /\ Forall2 kr (snd (fst o)) (snd (fst o')) /\ snd o = snd o'.
Definition both (ks : list kind) : bool := Bool.eqb (kind_in K_VAR1 ks) (kind_in K_VAR2 ks).
Fixpoint indiff (s : stmt) : bool :=
  match s with
  | Skip | Call _ => true
  | Expect k => negb (kind_in k [K_VAR1; K_VAR2])
  | Seq a b => indiff a && indiff b
  | If fs s | While fs s => both fs && indiff s
  | Sync fs => both fs
  | Match a => indiff_arms a
  end
with indiff_arms (a : arms) : bool := match a with Arm fs s a => both fs && indiff s && indiff_arms a | ArmEnd _ => true end.
Definition indiff_rule (r : kind) (R : rule) : bool :=
  match r_escape R with Some fs => both fs | None => true end && (kind_eqb r K_Var || indiff (r_body R)).
Lemma grammar_indiff : forall r R, rule_of r = Some R -> indiff_rule r R = true.
Proof. apply all_rules_spec. vm_compute. reflexivity. Qed.
Lemma recovery_both : both recovery_tokens = true.
Proof. reflexivity. Qed.

Lemma kr_in c c' ks : kr c c' -> both ks = true -> kind_in c' ks = kind_in c ks.
Proof. intros [<-|[-> ->]] H; [reflexivity|]. apply eqb_prop in H. exact H. Qed.
Lemma kr_eof c c' : kr c c' -> kind_eqb c' K_Eof = kind_eqb c K_Eof.
Proof. intros [<-|[-> ->]]; reflexivity. Qed.
Lemma kr_eqb c c' k : kr c c' -> kind_in k [K_VAR1; K_VAR2] = false -> kind_eqb c' k = kind_eqb c k.
Proof.
  intros [<-|[-> ->]] H; [reflexivity|]. destruct (kind_eqb_spec K_VAR1 k) as [<-|_]; [discriminate|]. destruct (kind_eqb_spec K_VAR2 k) as [<-|_]; [discriminate|reflexivity].
Qed.
Lemma kr_look rest rest' : Forall2 kr rest rest' -> kr (look rest) (look rest').
Proof. intros [|k k' r r' H _]; [left; reflexivity|exact H]. Qed.
Lemma kr_length rest rest' : Forall2 kr rest rest' -> length rest' = length rest.
Proof. induction 1; cbn; congruence. Qed.
Lemma orel_intro ts ts' r r' f : Forall2 prel ts ts' -> Forall2 kr r r' -> orel (ts, r, f) (ts', r', f).
Proof. intros H1 H2. split; [exact H1|]. split; [exact H2|reflexivity]. Qed.
Lemma f2_app {A B} (R : A -> B -> Prop) a a' b b' : Forall2 R a a' -> Forall2 R b b' -> Forall2 R (a ++ b) (a' ++ b').
Proof. apply Forall2_app. Qed.
Lemma tnth_inv rest f c f' : tnth rest f = Ok (c, f') -> c = look rest /\ f = S f'.
Proof. destruct f; [discriminate|]. cbn. intros H. injection H as <- <-. auto. Qed.

Lemma sim_expect k rest rest' f o : Forall2 kr rest rest' -> kind_in k [K_VAR1; K_VAR2] = false -> texpect k rest f = Ok o -> exists o', texpect k rest' f = Ok o' /\ orel o o'.
Proof.
  intros F Hk H. unfold texpect in *. inv_bind H. destruct a as [c f1]. apply tnth_inv in E as [-> ->]. cbn [tnth bind]. rewrite (kr_eqb _ _ _ (kr_look _ _ F) Hk).
  destruct (kind_eqb (look rest) k).
  - destruct F as [|a a' r r' Ha F]; [discriminate|]. cbn in *. injection H as <-. eexists. split; [reflexivity|]. apply orel_intro; [constructor; [constructor; exact Ha|constructor]|exact F].
  - injection H as <-. eexists. split; [reflexivity|]. apply orel_intro; [constructor; [constructor|constructor]|exact F].
Qed.
Lemma sim_awe e rest rest' f o : Forall2 kr rest rest' -> tawe e rest f = Ok o -> exists o', tawe e rest' f = Ok o' /\ orel o o'.
Proof.
  intros F H. unfold tawe in *. inv_bind H. destruct a as [c f1]. apply tnth_inv in E as [-> ->]. cbn [tnth bind]. rewrite (kr_in _ _ _ (kr_look _ _ F) recovery_both).
  destruct (kind_in (look rest) recovery_tokens).
  - injection H as <-. eexists. split; [reflexivity|]. apply orel_intro; [constructor; [constructor|constructor]|exact F].
  - destruct F as [|a a' r r' Ha F]; [discriminate|]. cbn in *. injection H as <-. eexists. split; [reflexivity|].
    apply orel_intro; [constructor; [constructor|constructor; [|constructor]]|exact F]. constructor. constructor; [constructor; exact Ha|constructor].
Qed.
Lemma sim_junk stop : both stop = true -> forall gas rest rest' f o, Forall2 kr rest rest' -> tskip_junk gas stop rest f = Ok o -> exists o', tskip_junk gas stop rest' f = Ok o' /\ orel o o'.
Proof.
  intros Hs. induction gas as [|g IH]; intros rest rest' f o F H; [discriminate|]. cbn [tskip_junk] in *. inv_bind H. destruct a as [c f1]. apply tnth_inv in E as [-> ->]. cbn [tnth bind].
  rewrite (kr_in _ _ _ (kr_look _ _ F) Hs). destruct (kind_in (look rest) stop).
  - injection H as <-. eexists. split; [reflexivity|]. apply orel_intro; [constructor|exact F].
  - destruct F as [|a a' r r' Ha F]; [injection H as <-; eexists; split; [reflexivity|]; apply orel_intro; constructor|].
    inv_bind H. destruct a0 as [[ts r1] f2]. destruct (IH _ _ _ _ F E) as ([[ts' r1'] f2'] & -> & S1 & S2 & S3). cbn in S1, S2, S3. subst f2'. injection H as <-.
    cbn [bind]. eexists. split; [reflexivity|]. apply orel_intro; [constructor; [constructor; exact Ha|exact S1]|exact S2].
Qed.
Lemma sim_until g e stop rest rest' f o : both stop = true -> Forall2 kr rest rest' -> terror_until g e stop rest f = Ok o -> exists o', terror_until g e stop rest' f = Ok o' /\ orel o o'.
Proof.
  intros Hs F H. unfold terror_until in *. inv_bind H. destruct a as [c f1]. apply tnth_inv in E as [-> ->]. cbn [tnth bind].
  rewrite (kr_in _ _ _ (kr_look _ _ F) Hs). assert (match rest' with [] => true | _ => false end = match rest with [] => true | _ => false end) as -> by (destruct F; reflexivity).
  destruct (_ || _).
  - injection H as <-. eexists. split; [reflexivity|]. apply orel_intro; [constructor; [constructor|constructor]|exact F].
  - inv_bind H. destruct a as [[ts r1] f2]. destruct (sim_junk _ Hs _ _ _ _ _ F E) as ([[ts' r1'] f2'] & -> & S1 & S2 & S3). cbn in S1, S2, S3. subst f2'. injection H as <-.
    cbn [bind]. eexists. split; [reflexivity|]. apply orel_intro; [constructor; [constructor|constructor; [constructor; exact S1|constructor]]|exact S2].
Qed.
Lemma sim_rest : forall gas rest rest' f o, Forall2 kr rest rest' -> tskip_rest gas rest f = Ok o -> exists o', tskip_rest gas rest' f = Ok o' /\ orel o o'.
Proof.
  induction gas as [|g IH]; intros rest rest' f o F H; [discriminate|]. cbn [tskip_rest] in *. inv_bind H. destruct a as [c f1]. apply tnth_inv in E as [-> ->]. cbn [tnth bind].
  rewrite (kr_eof _ _ (kr_look _ _ F)). destruct (kind_eqb (look rest) K_Eof).
  - injection H as <-. eexists. split; [reflexivity|]. apply orel_intro; [constructor|exact F].
  - destruct F as [|a a' r r' Ha F]; [discriminate|]. cbn [tadvance bind] in *.
    inv_bind H. destruct a0 as [[ts r1] f2]. destruct (IH _ _ _ _ F E) as ([[ts' r1'] f2'] & -> & S1 & S2 & S3). cbn in S1, S2, S3. subst f2'. injection H as <-.
    cbn [bind]. eexists. split; [reflexivity|]. apply orel_intro; [constructor; [constructor; exact Ha|exact S1]|exact S2].
Qed.

(** the function for variables *)
Lemma sim_var gas rest rest' f ret o : Forall2 kr rest rest' -> ex rule_of gas (r_body parse_Var) rest f = Ok (ret, o) ->
  exists o', ex rule_of gas (r_body parse_Var) rest' f = Ok (ret, o') /\ orel o o'.
Proof.
  intros F H. destruct gas as [|g]; [discriminate|]. unfold parse_Var in *. cbn [r_body ex] in *. inv_bind H. destruct a as [c f1]. apply tnth_inv in E as [-> ->]. cbn [tnth bind].
  pose proof (kr_look _ _ F) as L. assert (forall k, kr k k) as R by (intros; left; reflexivity).
  destruct L as [L|[L L']].
  - rewrite <- L. destruct g as [|g]; [discriminate|]. cbn [ex_arms] in *. destruct (kind_in (look rest) [K_VAR1]) eqn:V1.
    { destruct g as [|g]; [discriminate|]. cbn [ex] in *. inv_bind H. injection H as <- <-. unfold texpect in *. inv_bind E. destruct a0 as [c f2]. apply tnth_inv in E0 as [-> ->].
      cbn [tnth bind]. rewrite <- L. destruct (kind_eqb (look rest) K_VAR1).
      - destruct F as [|h h' r r' Ha F]; [discriminate|]. cbn in *. injection E as <-. eexists. split; [reflexivity|]. apply orel_intro; [constructor; [constructor; exact Ha|constructor]|exact F].
      - injection E as <-. eexists. split; [reflexivity|]. apply orel_intro; [constructor; [constructor|constructor]|exact F]. }
    destruct g as [|g]; [discriminate|]. cbn [ex_arms] in *. destruct (kind_in (look rest) [K_VAR2]) eqn:V2.
    { destruct g as [|g]; [discriminate|]. cbn [ex] in *. inv_bind H. injection H as <- <-. unfold texpect in *. inv_bind E. destruct a0 as [c f2]. apply tnth_inv in E0 as [-> ->].
      cbn [tnth bind]. rewrite <- L. destruct (kind_eqb (look rest) K_VAR2).
      - destruct F as [|h h' r r' Ha F]; [discriminate|]. cbn in *. injection E as <-. eexists. split; [reflexivity|]. apply orel_intro; [constructor; [constructor; exact Ha|constructor]|exact F].
      - injection E as <-. eexists. split; [reflexivity|]. apply orel_intro; [constructor; [constructor|constructor]|exact F]. }
    destruct g as [|g]; [discriminate|]. cbn [ex_arms] in *. destruct (kind_eqb (look rest) K_Eof).
    { injection H as <- <-. eexists. split; [reflexivity|]. apply orel_intro; [constructor|exact F]. }
    inv_bind H. injection H as <- <-. unfold tdflt in *. destruct (sim_awe _ _ _ _ _ F E) as (o' & -> & S). cbn [bind]. eexists. split; [reflexivity|exact S].
  - rewrite L in H. rewrite L'. destruct g as [|g]; [discriminate|]. cbn [ex_arms kind_in] in *.
    change (kind_in K_VAR2 [K_VAR1]) with false in H. change (kind_in K_VAR1 [K_VAR1]) with true. cbv iota in H |- *.
    destruct g as [|g]; [discriminate|]. cbn [ex_arms] in H. change (kind_in K_VAR2 [K_VAR2]) with true in H. cbv iota in H.
    destruct g as [|g]; [discriminate|]. cbn [ex] in H |- *. inv_bind H. injection H as <- <-. unfold texpect in *. inv_bind E. destruct a0 as [c f2]. apply tnth_inv in E0 as [-> ->].
    rewrite L in E. cbn [tnth bind]. rewrite L'. change (kind_eqb K_VAR2 K_VAR2) with true in E. change (kind_eqb K_VAR1 K_VAR1) with true. cbv iota in E |- *.
    destruct F as [|h h' r r' Ha F]; [discriminate|]. cbn in *. injection E as <-. eexists. split; [reflexivity|]. apply orel_intro; [constructor; [constructor; exact Ha|constructor]|exact F].
Qed.

Theorem sim_ex gas :
  (forall s rest rest' f ret o, indiff s = true -> Forall2 kr rest rest' -> ex rule_of gas s rest f = Ok (ret, o) -> exists o', ex rule_of gas s rest' f = Ok (ret, o') /\ orel o o') /\
  (forall a c c' rest rest' f ret o, indiff_arms a = true -> kr c c' -> Forall2 kr rest rest' -> ex_arms rule_of gas c a rest f = Ok (ret, o) ->
     exists o', ex_arms rule_of gas c' a rest' f = Ok (ret, o') /\ orel o o') /\
  (forall r rest rest' f o, Forall2 kr rest rest' -> ex_rule rule_of gas r rest f = Ok o -> exists o', ex_rule rule_of gas r rest' f = Ok o' /\ orel o o').
Proof.
  induction gas as [|g (IHs & IHa & IHr)]; [split; [|split]; intros; discriminate|]. split; [|split].
  - intros s rest rest' f ret o Hi F H. destruct s; cbn [ex indiff] in *.
    + injection H as <- <-. eexists. split; [reflexivity|]. apply orel_intro; [constructor|exact F].
    + apply andb_prop in Hi as [H1 H2]. inv_bind H. destruct a as [ret1 [[ts1 rest1] f1]].
      destruct (IHs _ _ _ _ _ _ H1 F E) as ([[ts1' rest1'] f1'] & -> & S1 & S2 & S3). cbn [bind fst snd] in *. subst f1'.
      destruct ret1; [injection H as <- <-; eexists; split; [reflexivity|]; apply orel_intro; assumption|].
      inv_bind H. destruct a as [ret2 [[ts2 rest2] f2]]. destruct (IHs _ _ _ _ _ _ H2 S2 E0) as ([[ts2' rest2'] f2'] & -> & S4 & S5 & S6). cbn [bind fst snd] in *. subst f2'.
      injection H as <- <-. eexists. split; [reflexivity|]. apply orel_intro; [apply f2_app; assumption|assumption].
    + inv_bind H. injection H as <- <-. apply negb_true_iff in Hi. destruct (sim_expect _ _ _ _ _ F Hi E) as (o' & -> & S). cbn [bind]. eexists. split; [reflexivity|exact S].
    + inv_bind H. injection H as <- <-. destruct (IHr _ _ _ _ _ F E) as (o' & -> & S). cbn [bind]. eexists. split; [reflexivity|exact S].
    + apply andb_prop in Hi as [H1 H2]. inv_bind H. destruct a as [c f1]. apply tnth_inv in E as [-> ->]. cbn [tnth bind]. rewrite (kr_in _ _ _ (kr_look _ _ F) H1).
      destruct (kind_in _ _); [eapply IHs; eassumption|]. injection H as <- <-. eexists. split; [reflexivity|]. apply orel_intro; [constructor|exact F].
    + inv_bind H. destruct a as [c f1]. apply tnth_inv in E as [-> ->]. cbn [tnth bind]. rewrite (kr_in _ _ _ (kr_look _ _ F) Hi).
      assert (match rest' with [] => false | _ => true end = match rest with [] => false | _ => true end) as -> by (destruct F; reflexivity).
      destruct (negb _ && _).
      * inv_bind H. injection H as <- <-. destruct (sim_until _ _ _ _ _ _ _ Hi F E) as (o' & -> & S). cbn [bind]. eexists. split; [reflexivity|exact S].
      * injection H as <- <-. eexists. split; [reflexivity|]. apply orel_intro; [constructor|exact F].
    + assert (Hw := Hi). apply andb_prop in Hi as [H1 H2]. inv_bind H. destruct a as [c f1]. apply tnth_inv in E as [-> ->]. cbn [tnth bind]. rewrite (kr_in _ _ _ (kr_look _ _ F) H1).
      destruct (kind_in _ _); [|injection H as <- <-; eexists; split; [reflexivity|]; apply orel_intro; [constructor|exact F]].
      inv_bind H. destruct a as [ret1 [[ts1 rest1] f1']]. destruct (IHs _ _ _ _ _ _ H2 F E) as ([[ts1' rest1'] f2'] & -> & S1 & S2 & S3). cbn [bind fst snd] in *. subst f2'.
      rewrite (kr_length _ _ S2), (kr_length _ _ F).
      destruct ret1; [injection H as <- <-; eexists; split; [reflexivity|]; apply orel_intro; assumption|].
      destruct (length rest1 =? length rest); [injection H as <- <-; eexists; split; [reflexivity|]; apply orel_intro; assumption|].
      inv_bind H. destruct a as [ret2 [[ts2 rest2] f2]]. destruct (IHs (While fs s) _ _ _ _ _ Hw S2 E0) as ([[ts2' rest2'] f2'] & -> & S4 & S5 & S6). cbn [bind fst snd] in *. subst f2'.
      injection H as <- <-. eexists. split; [reflexivity|]. apply orel_intro; [apply f2_app; assumption|assumption].
    + inv_bind H. destruct a0 as [c f1]. apply tnth_inv in E as [-> ->]. cbn [tnth bind]. eapply IHa; [exact Hi|apply kr_look, F|exact F|exact H].
  - intros a c c' rest rest' f ret o Hi Hc F H. destruct a; cbn [ex_arms indiff_arms] in *.
    + apply andb_prop in Hi as [Hi H3]. apply andb_prop in Hi as [H1 H2]. rewrite (kr_in _ _ _ Hc H1). destruct (kind_in _ _); [eapply IHs; eassumption|eapply IHa; eassumption].
    + rewrite (kr_eof _ _ Hc). destruct (kind_eqb _ _).
      * injection H as <- <-. eexists. split; [reflexivity|]. apply orel_intro; [constructor|exact F].
      * inv_bind H. injection H as <- <-. unfold tdflt in *. destruct d.
        -- injection E as <-. eexists. split; [reflexivity|]. apply orel_intro; [constructor|exact F].
        -- destruct (sim_awe _ _ _ _ _ F E) as (o' & -> & S). cbn [bind]. eexists. split; [reflexivity|exact S].
  - intros r rest rest' f o F H. cbn [ex_rule] in *. destruct (rule_of r) as [R|] eqn:ER; [|discriminate].
    pose proof (grammar_indiff _ _ ER) as Hi. unfold indiff_rule in Hi. apply andb_prop in Hi as [Hesc Hbody]. inv_bind H. destruct a as [go f1].
    assert (match r_escape R with Some fs => let* (c, f) := tnth rest' f in Ok (kind_in c fs, f) | None => Ok (true, f) end = Ok (go, f1)) as ->.
    { destruct (r_escape R); [|exact E]. inv_bind E. destruct a as [c f2]. apply tnth_inv in E0 as [-> ->]. cbn [tnth bind]. rewrite (kr_in _ _ _ (kr_look _ _ F) Hesc). exact E. }
    cbn [bind]. destruct go; [|injection H as <-; eexists; split; [reflexivity|]; apply orel_intro; [constructor|exact F]].
    inv_bind H. destruct a as [ret [[ts1 rest1] f2]].
    assert (exists o', ex rule_of g (r_body R) rest' f1 = Ok (ret, o') /\ orel (ts1, rest1, f2) o') as ([[ts1' rest1'] f2'] & -> & S1 & S2 & S3).
    { destruct (kind_eqb_spec r K_Var) as [->|_]; [|eapply IHs; [exact Hbody|exact F|exact E0]]. injection ER as <-. eapply sim_var; [exact F|exact E0]. }
    cbn [bind fst snd] in *. subst f2'.
    destruct ret; [injection H as <-; eexists; split; [reflexivity|]; apply orel_intro; [|exact S2]; constructor; [constructor; exact S1|constructor; [constructor; constructor|constructor]]|].
    destruct (r_unit R); [|injection H as <-; eexists; split; [reflexivity|]; apply orel_intro; [|exact S2]; constructor; [constructor; exact S1|constructor]].
    inv_bind H. destruct a as [c f3]. apply tnth_inv in E1 as [-> ->]. cbn [tnth bind]. rewrite (kr_eof _ _ (kr_look _ _ S2)). destruct (kind_eqb _ _).
    + injection H as <-. eexists. split; [reflexivity|]. apply orel_intro; [|exact S2]. constructor; [constructor; exact S1|constructor].
    + inv_bind H. destruct a as [[us rest3] f4]. destruct (sim_rest _ _ _ _ _ S2 E1) as ([[us' rest3'] f4'] & -> & S4 & S5 & S6). cbn [bind fst snd] in *. subst f4'.
      injection H as <-. eexists. split; [reflexivity|]. apply orel_intro; [|exact S5]. constructor; [|constructor]. constructor. apply f2_app; [exact S1|].
      constructor; [constructor; exact S4|constructor].
Qed.

(** ** from runs to trees *)
Lemma doc_tree_intro err t gas ts f : ex_rule rule_of gas (entry_for (lex err t)) (seen (lex err t)) max_fuel = Ok ([PNode (entry_for (lex err t)) ts], [], f) ->
  doc_tree err t (Node (entry_for (lex err t)) (placed lkind tok Node (prunes ts) (lex err t))).
Proof.
  set (ls := lex err t). set (toks := with_spans 0 ls). intros E. assert (Hn : no_eof toks) by (apply with_spans_no_eof, lex_kinds). pose proof (entry_of_unit toks) as He.
  assert (E0 : ex_rule rule_of gas (entry_of toks) (kinds_of toks) max_fuel = Ok ([PNode (entry_of toks) ts], [], f)) by (unfold toks at 2; rewrite seen_kinds; exact E).
  pose proof (ParserOutcome.outcome (entry_of toks) toks gas He Hn) as O. rewrite E0 in O. destruct O as (us & cs & Eu & _ & Hl & _). injection Eu as <-.
  assert (F : flats [PNode (entry_of toks) ts] = flat (PNode (entry_of toks) ts)) by (unfold flats; cbn [flat_map]; apply app_nil_r).
  destruct (build_tree_places toks (entry_of toks) (prunes ts)) as (errs' & B).
  { destruct He as [-> | ->]; reflexivity. }
  { rewrite pleavess_prunes. symmetry. exact Hl. }
  exists gas. eexists. exists errs'. split.
  - change (with_spans 0 (lex err t)) with toks. unfold parse. rewrite parse_tokens_ex, E0. cbn [bind fst]. rewrite F, remove_empty_nodes_root, B. reflexivity.
  - change (lex err t) with ls. symmetry. apply graft_placed. apply with_spans_same.
Qed.

(** ** related tokens are placed alike *)
Section related.
Context (lr : lexeme -> lexeme -> Prop) (lr_kr : forall x y, lr x y -> kr (lkind x) (lkind y)).
Inductive trel : tree -> tree -> Prop :=
| tr_tok x y : lr x y -> trel (tok x) (tok y)
| tr_node k cs cs' : Forall2 trel cs cs' -> trel (Node k cs) (Node k cs').
Lemma kr_trivia k k' : kr k k' -> is_trivia k' = is_trivia k.
Proof. intros [<-|[-> ->]]; reflexivity. Qed.
Lemma seen_rel ls ls' : Forall2 lr ls ls' -> Forall2 kr (seen ls) (seen ls').
Proof.
  induction 1 as [|x y ls ls' H F IH]; [constructor|]. apply lr_kr in H. unfold seen, significant_kinds in *. cbn [map filter]. rewrite (kr_trivia _ _ H).
  destruct (is_trivia (lkind x)); cbn [negb]; [exact IH|constructor; assumption].
Qed.
Lemma kr_keyword k k' ks : kr k k' -> kind_in K_VAR1 ks = false -> kind_in K_VAR2 ks = false -> kind_in k' ks = kind_in k ks.
Proof. intros [<-|[-> ->]] H1 H2; [reflexivity|congruence]. Qed.
Lemma entry_rel ls ls' : Forall2 lr ls ls' -> entry_for ls' = entry_for ls.
Proof.
  intros F. unfold entry_for, entry_of. assert (forall n m, guess_operation_type (with_spans n ls') = guess_operation_type (with_spans m ls)) as K; [|rewrite (K 0 0); reflexivity].
  induction F as [|[k w] [k' w'] ls ls' H F IH]; intros n m; [reflexivity|]. apply lr_kr in H. cbn [with_spans guess_operation_type ltok tk lkind fst] in *.
  rewrite (kr_keyword _ _ query_keywords H), (kr_keyword _ _ update_keywords H) by reflexivity.
  destruct (kind_in k query_keywords); [reflexivity|]. destruct (kind_in k update_keywords); [reflexivity|]. apply IH.
Qed.
Lemma split_rel l l' : Forall2 lr l l' -> let '(u, n) := split_trivia lkind l in let '(u', n') := split_trivia lkind l' in Forall2 lr u u' /\ Forall2 lr n n'.
Proof.
  induction 1 as [|x y l l' H F IH]; cbn [split_trivia]; [split; constructor|]. rewrite (kr_trivia _ _ (lr_kr _ _ H)). destruct (is_trivia (lkind x)).
  - destruct (split_trivia lkind l) as [u n], (split_trivia lkind l') as [u' n']. destruct IH. split; [constructor; assumption|assumption].
  - split; [constructor|constructor; assumption].
Qed.
Lemma toks_rel u u' : Forall2 lr u u' -> Forall2 trel (map tok u) (map tok u').
Proof. induction 1; cbn; constructor; [constructor; assumption|assumption]. Qed.
Lemma prel_ind' (P : ptree -> ptree -> Prop) :
  (forall k k', kr k k' -> P (PLeaf k) (PLeaf k')) ->
  (forall k ts ts', Forall2 prel ts ts' -> Forall2 P ts ts' -> P (PNode k ts) (PNode k ts')) ->
  (forall e, P (PErr e) (PErr e)) -> forall t t', prel t t' -> P t t'.
Proof.
  intros H1 H2 H3. fix F 3. intros t t' H. destruct H as [k k' H|k ts ts' H|e]; [apply H1, H| |apply H3]. apply H2; [exact H|].
  induction H as [|a b l m Hab _ IH]; constructor; [apply F, Hab|exact IH].
Qed.
Definition places_rel (p q : list lexeme -> list tree * list lexeme) : Prop :=
  forall l l', Forall2 lr l l' -> Forall2 trel (fst (p l)) (fst (q l')) /\ Forall2 lr (snd (p l)) (snd (q l')).
Lemma places_rel_forest ts ts' : Forall2 (fun t t' => places_rel (tplace t) (tplace t')) ts ts' -> places_rel (tplaces ts) (tplaces ts').
Proof.
  induction 1 as [|t t' ts ts' H F IH]; intros l l' Hl; [split; [constructor|exact Hl]|]. unfold tplaces. cbn [places]. fold tplace tplaces.
  destruct (H _ _ Hl) as [H1 H2]. destruct (tplace t l) as [a n], (tplace t' l') as [a' n']. cbn [fst snd] in *.
  destruct (IH _ _ H2) as [H3 H4]. destruct (tplaces ts n) as [b m], (tplaces ts' n') as [b' m']. cbn [fst snd] in *. split; [apply f2_app; assumption|assumption].
Qed.
Lemma place_rel t t' : prel t t' -> places_rel (tplace t) (tplace t').
Proof.
  intros H. induction H as [k k' H|k ts ts' _ IH|e] using prel_ind'; intros l l' Hl.
  - unfold tplace, place. pose proof (split_rel _ _ Hl) as S. destruct (split_trivia lkind l) as [u n], (split_trivia lkind l') as [u' n']. destruct S as [Su Sn].
    destruct Sn as [|x y n n' Hx Sn]; cbn [fst snd]; (split; [|assumption || constructor]); [apply toks_rel, Su|]. apply f2_app; [apply toks_rel, Su|]. constructor; [constructor; exact Hx|constructor].
  - apply places_rel_forest in IH. unfold tplace. rewrite !place_node. fold tplaces.
    assert (let '(u, n) := if is_unit k then ([], l) else split_trivia lkind l in let '(u', n') := if is_unit k then ([], l') else split_trivia lkind l' in Forall2 lr u u' /\ Forall2 lr n n') as S.
    { destruct (is_unit k); [split; [constructor|exact Hl]|apply split_rel, Hl]. }
    destruct (if is_unit k then ([], l) else _) as [u n], (if is_unit k then ([], l') else _) as [u' n']. destruct S as [Su Sn].
    destruct (IH _ _ Sn) as [H1 H2]. destruct (tplaces ts n) as [cs m], (tplaces ts' n') as [cs' m']. cbn [fst snd] in *. split; [|exact H2].
    apply f2_app; [apply toks_rel, Su|]. constructor; [constructor; exact H1|constructor].
  - split; [constructor|exact Hl].
Qed.
Lemma prel_leaves ts ts' : Forall2 prel ts ts' -> (pleavess ts = [] <-> pleavess ts' = []).
Proof.
  assert (forall t t', prel t t' -> (pleaves t = [] <-> pleaves t' = [])) as K.
  { intros t t' H. induction H as [k k' H|k us us' _ IH|e] using prel_ind'; cbn [pleaves]; [split; discriminate| |tauto].
    induction IH as [|a b l m H _ IH]; [tauto|]. cbn [flat_map]. split; intros E; apply app_eq_nil in E as [E1 E2]; [rewrite (proj1 H E1), (proj1 IH E2)|rewrite (proj2 H E1), (proj2 IH E2)]; reflexivity. }
  induction 1 as [|a b l m H _ IH]; [tauto|]. unfold pleavess in *. cbn [flat_map]. specialize (K _ _ H).
  split; intros E; apply app_eq_nil in E as [E1 E2]; [rewrite (proj1 K E1), (proj1 IH E2)|rewrite (proj2 K E1), (proj2 IH E2)]; reflexivity.
Qed.
Lemma prune_rel t t' : prel t t' -> Forall2 prel (prune t) (prune t').
Proof.
  intros H. induction H as [k k' H|k ts ts' F IH|e] using prel_ind'; cbn [prune].
  - constructor; [constructor; exact H|constructor].
  - assert (Forall2 prel (flat_map prune ts) (flat_map prune ts')) as K.
    { clear F. induction IH as [|a b l m H _ IH]; [constructor|]. cbn [flat_map]. apply f2_app; assumption. }
    pose proof (prel_leaves _ _ F) as L. unfold pleavess in L. destruct (flat_map pleaves ts) as [|h r]; destruct (flat_map pleaves ts') as [|h' r'].
    + exact K.
    + destruct L as [L _]. specialize (L eq_refl). discriminate.
    + destruct L as [_ L]. specialize (L eq_refl). discriminate.
    + constructor; [constructor; exact K|constructor].
  - constructor; [constructor|constructor].
Qed.
Lemma prunes_rel ts ts' : Forall2 prel ts ts' -> Forall2 prel (prunes ts) (prunes ts').
Proof. induction 1 as [|a b l m H _ IH]; [constructor|]. unfold prunes in *. cbn [flat_map]. apply f2_app; [apply prune_rel, H|exact IH]. Qed.
(** the tree of a text whose tokens are related to those of another text *)
Theorem doc_tree_rel err t t' x : doc_tree err t x -> Forall2 lr (lex err t) (lex err t') -> exists x', doc_tree err t' x' /\ trel x x'.
Proof.
  intros D F. destruct (doc_tree_run _ _ _ D) as (ts & (gas & f & E) & _ & ->).
  destruct (proj2 (proj2 (sim_ex gas)) _ _ _ _ _ (seen_rel _ _ F) E) as ([[pts r] f'] & E' & S1 & S2 & S3). cbn [fst snd] in *. subst f'.
  inversion S2; subst. inversion S1 as [|? q ? l P L]; subst. inversion L; subst. inversion P as [|? ? ts' Pt|]; subst.
  rewrite <- (entry_rel _ _ F) in E'. apply doc_tree_intro in E'. eexists. split; [exact E'|]. rewrite (entry_rel _ _ F). constructor.
  unfold placed. fold tplaces. assert (Forall2 (fun t t' => places_rel (tplace t) (tplace t')) (prunes ts) (prunes ts')) as K.
  { apply prunes_rel in Pt. clear -Pt lr_kr. induction Pt as [|a b m m' Hab _ IH]; constructor; [apply place_rel, Hab|exact IH]. }
  destruct (places_rel_forest _ _ K _ _ F) as [H1 H2]. destruct (tplaces (prunes ts) (lex err t)) as [cs n], (tplaces (prunes ts') (lex err t')) as [cs' n']. cbn [fst snd] in *.
  apply f2_app; [exact H1|apply toks_rel, H2].
Qed.
End related.
