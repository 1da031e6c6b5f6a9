(** The parser at the start of a query: a declaration put in front of the tokens. *)
From Coq Require Import String List Arith NArith Bool Lia.
Import ListNotations.
From Verif Require Import ServerModel Kinds KindFacts ParserSyntax ParserModel GrammarData ParserTree ParserTerm ParserBuild ParserSpec ParserChecks ParserOutcome ParserProps
  TextModel TextSpec TextProofs Utf8Model LexerRegex LexerModel LexerSpec LexerProps FormatData FormatModel FormatTree FormatText FormatParse FormatWeave
  TreeModel TreePlace TreeShape TreeRename VarModel VarSpec VarProps DiagModel DiagSpec LayoutProps.

(** ** more fuel does not hurt *)
Definition grows (o o2 : res out) : Prop := forall ts r f, o = Ok (ts, r, f) -> exists h, f <= h /\ o2 = Ok (ts, r, h).
Definition grows_b (o o2 : res (bool * out)) : Prop := forall b ts r f, o = Ok (b, (ts, r, f)) -> exists h, f <= h /\ o2 = Ok (b, (ts, r, h)).
Lemma tnth_more rest f h c f' : tnth rest f = Ok (c, f') -> f <= h -> exists h', f' <= h' /\ tnth rest h = Ok (c, h').
Proof. unfold tnth. destruct f; [discriminate|]. intros E. injection E as <- <-. destruct h; [lia|]. exists h. split; [lia|reflexivity]. Qed.
Ltac on_nth f h L :=
  match goal with |- context [tnth ?rest f] =>
    let E := fresh "En" in destruct (tnth rest f) as [[? ?]| | |] eqn:E; try (intros; discriminate);
    let L' := fresh "L" in destruct (tnth_more _ _ h _ _ E L) as (? & L' & ->) end; cbn [bind].
Lemma texpect_more k rest f h : f <= h -> grows (texpect k rest f) (texpect k rest h).
Proof.
  intros L ts r f'. unfold texpect. on_nth f h L. destruct (kind_eqb k0 k).
  - destruct rest; cbn; [discriminate|]. intros E. injection E as <- <- <-. eauto.
  - intros E. injection E as <- <- <-. eauto.
Qed.
Lemma tawe_more e rest f h : f <= h -> grows (tawe e rest f) (tawe e rest h).
Proof.
  intros L ts r f'. unfold tawe. on_nth f h L. destruct (kind_in k recovery_tokens).
  - intros E. injection E as <- <- <-. eauto.
  - destruct rest; cbn; [discriminate|]. intros E. injection E as <- <- <-. eauto.
Qed.
Lemma tskip_junk_more g stop : forall rest f h, f <= h -> grows (tskip_junk g stop rest f) (tskip_junk g stop rest h).
Proof.
  destruct g as [|g]; intros rest f h L ts r f'; cbn [tskip_junk]; [discriminate|]. on_nth f h L. destruct (kind_in k stop); [intros E; injection E as <- <- <-; eauto|]. destruct rest; [intros E; injection E as <- <- <-; eauto|].
  intros E. rewrite E. eauto.
Qed.
Lemma terror_until_more g e stop rest f h : f <= h -> grows (terror_until g e stop rest f) (terror_until g e stop rest h).
Proof.
  intros L ts r f'. unfold terror_until. on_nth f h L. destruct (_ || _); [intros E; injection E as <- <- <-; eauto|].
  destruct (tskip_junk g stop rest n) as [[[us r0] f0]| | |] eqn:E; try (intros; discriminate). destruct (tskip_junk_more g stop rest n x L0 _ _ _ E) as (h' & L' & ->). cbn [bind]. intros K. injection K as <- <- <-. eauto.
Qed.
Lemma tskip_rest_more g : forall rest f h, f <= h -> grows (tskip_rest g rest f) (tskip_rest g rest h).
Proof.
  destruct g as [|g]; intros rest f h L ts r f'; cbn [tskip_rest]; [discriminate|]. on_nth f h L. destruct (kind_eqb k K_Eof); [intros E; injection E as <- <- <-; eauto|]. intros E. rewrite E. eauto.
Qed.
Lemma tdflt_more d rest f h : f <= h -> grows (tdflt d rest f) (tdflt d rest h).
Proof. intros L. destruct d; [|apply tawe_more, L]. intros ts r f' E. injection E as <- <- <-. cbn. eauto. Qed.
Ltac inj := let E := fresh in intros E; injection E as <- <- <- <-; eauto.
Lemma ex_more G g :
  (forall s rest f h, f <= h -> grows_b (ex G g s rest f) (ex G g s rest h)) /\
  (forall c a rest f h, f <= h -> grows_b (ex_arms G g c a rest f) (ex_arms G g c a rest h)) /\
  (forall r rest f h, f <= h -> grows (ex_rule G g r rest f) (ex_rule G g r rest h)).
Proof.
  induction g as [|g (IHs & IHa & IHr)]; [split; [|split]; intros; [intros b ts r f' E|intros b ts r f' E|intros ts r0 f' E]; discriminate E|].
  assert (Out : forall o o2, grows o o2 -> grows_b (let* o := o in Ok (false, o)) (let* o := o2 in Ok (false, o))).
  { intros o o2 H b ts r f. destruct o as [[[us r0] f0]| | |]; cbn; try discriminate. intros E. injection E as <- <- <- <-. destruct (H _ _ _ eq_refl) as (h & L & ->). cbn. eauto. }
  split; [|split].
  - intros s rest f h L. destruct s; cbn [ex].
    + intros b ts r f'. inj.
    + intros b ts r f'. destruct (ex G g s1 rest f) as [[ret [[us r0] f0]]| | |] eqn:E; try discriminate. destruct (IHs _ _ _ _ L _ _ _ _ E) as (h0 & L0 & ->). cbn [bind]. destruct ret; [inj|].
      destruct (ex G g s2 r0 f0) as [[ret' [[us' r1] f1]]| | |] eqn:E2; try discriminate. destruct (IHs _ _ _ _ L0 _ _ _ _ E2) as (h1 & L1 & ->). cbn [bind]. inj.
    + apply Out, texpect_more, L.
    + apply Out, IHr, L.
    + intros b ts r f'. on_nth f h L. destruct (kind_in k fs); [apply IHs, L0|inj].
    + intros b ts r f'. on_nth f h L. destruct (_ && _); [|inj]. revert b ts r f'. apply Out, terror_until_more, L0.
    + intros b ts r f'. on_nth f h L. destruct (kind_in k fs); [|inj].
      destruct (ex G g s rest n) as [[ret [[us r0] f0]]| | |] eqn:E; try discriminate. destruct (IHs _ _ _ _ L0 _ _ _ _ E) as (h0 & L1 & ->). cbn [bind]. destruct ret; [inj|]. destruct (_ =? _); [inj|].
      destruct (ex G g (While fs s) r0 f0) as [[ret' [[us' r1] f1]]| | |] eqn:E2; try discriminate. destruct (IHs _ _ _ _ L1 _ _ _ _ E2) as (h1 & L2 & ->). cbn [bind]. inj.
    + intros b ts r f'. on_nth f h L. apply IHa, L0.
  - intros c a rest f h L. destruct a as [fs s a|d]; cbn [ex_arms].
    + destruct (kind_in c fs); [apply IHs, L|apply IHa, L].
    + destruct (kind_eqb c K_Eof); [intros b ts r f'; inj|]. apply Out, tdflt_more, L.
  - intros r rest f h L ts r' f'. cbn [ex_rule]. destruct (G r) as [R|]; [|discriminate].
    assert (T : forall f0 h0, f0 <= h0 -> grows (let* (ret, (ts, rest, f)) := ex G g (r_body R) rest f0 in if ret then Ok ([PNode (r_kind R) ts; PNode K_Error []], rest, f)
        else if r_unit R then let* (c, f) := tnth rest f in if kind_eqb c K_Eof then Ok ([PNode (r_kind R) ts], rest, f) else let* (us, rest, f) := tskip_rest g rest f in Ok ([PNode (r_kind R) (ts ++ [PNode K_Error us])], rest, f)
        else Ok ([PNode (r_kind R) ts], rest, f))
      (let* (ret, (ts, rest, f)) := ex G g (r_body R) rest h0 in if ret then Ok ([PNode (r_kind R) ts; PNode K_Error []], rest, f)
        else if r_unit R then let* (c, f) := tnth rest f in if kind_eqb c K_Eof then Ok ([PNode (r_kind R) ts], rest, f) else let* (us, rest, f) := tskip_rest g rest f in Ok ([PNode (r_kind R) (ts ++ [PNode K_Error us])], rest, f)
        else Ok ([PNode (r_kind R) ts], rest, f))).
    { clear ts r' f'. intros f0 h0 L0 ts r' f'. destruct (ex G g (r_body R) rest f0) as [[ret [[us r0] f1]]| | |] eqn:E; try discriminate. destruct (IHs _ _ _ _ L0 _ _ _ _ E) as (h1 & L1 & ->). cbn [bind].
      destruct ret; [intros K; injection K as <- <- <-; eauto|]. destruct (r_unit R); [|intros K; injection K as <- <- <-; eauto]. on_nth f1 h1 L1. destruct (kind_eqb k K_Eof); [intros K; injection K as <- <- <-; eauto|].
      destruct (tskip_rest g r0 n) as [[[vs r1] f2]| | |] eqn:E2; try discriminate. destruct (tskip_rest_more g r0 n x L2 _ _ _ E2) as (h2 & L3 & ->). cbn [bind]. intros K. injection K as <- <- <-. eauto. }
    destruct (r_escape R) as [fs|]; [|apply T, L]. on_nth f h L. destruct (kind_in k fs); [apply T, L0|intros E; injection E as <- <- <-; eauto].
Qed.
Lemma ex_rule_up g g' r rest f x : g <= g' -> ex_rule rule_of g r rest f = Ok x -> ex_rule rule_of g' r rest f = Ok x.
Proof. intros Hg E. destruct (proj2 (proj2 (ex_gas rule_of g g' Hg)) r rest f) as [K|K]; congruence. Qed.
Lemma ex_up g g' s rest f x : g <= g' -> ex rule_of g s rest f = Ok x -> ex rule_of g' s rest f = Ok x.
Proof. intros Hg E. destruct (proj1 (ex_gas rule_of g g' Hg) s rest f) as [K|K]; congruence. Qed.
Lemma skip_rest_up g g' rest f x : g <= g' -> tskip_rest g rest f = Ok x -> tskip_rest g' rest f = Ok x.
Proof.
  revert g' rest f x. induction g as [|g IH]; intros g' rest f x L E; [discriminate|]. destruct g' as [|g']; [lia|]. cbn [tskip_rest] in *. destruct (tnth rest f) as [[c f']| | |]; try discriminate. cbn [bind] in *. destruct (kind_eqb c K_Eof); [exact E|].
  destruct rest as [|k r]; [discriminate|]. cbn [tadvance bind] in *. destruct (tskip_rest g r max_fuel) as [o| | |] eqn:K; try discriminate. rewrite (IH g' _ _ _ ltac:(lia) K). exact E.
Qed.
(** ** declarations of the prologue *)
Inductive decl : list kind -> ptree -> Prop :=
| decl_base : decl [K_BASE; K_IRIREF] (PNode K_BaseDecl [PLeaf K_BASE; PLeaf K_IRIREF])
| decl_prefix : decl [K_PREFIX; K_PNAME_NS; K_IRIREF] (PNode K_PrefixDecl [PLeaf K_PREFIX; PLeaf K_PNAME_NS; PLeaf K_IRIREF])
| decl_version s : s = K_STRING_LITERAL1 \/ s = K_STRING_LITERAL2 -> decl [K_VERSION; s] (PNode K_VersionDecl [PLeaf K_VERSION; PNode K_VersionSpecifier [PLeaf s]]).
Lemma tnth_S rest f : tnth rest (S f) = Ok (look rest, f).
Proof. reflexivity. Qed.
Lemma max_fuel_S : max_fuel = S (S (S (S 1020))).
Proof. reflexivity. Qed.
Definition prologue_loop : stmt := While [K_BASE; K_PREFIX; K_VERSION] (Match (Arm [K_BASE] (Call K_BaseDecl) (Arm [K_PREFIX] (Call K_PrefixDecl) (Arm [K_VERSION] (Call K_VersionDecl) (ArmEnd (DErr [K_BASE; K_PREFIX; K_VERSION])))))).
Lemma loop_decl D d ks g f o : decl D d -> ex rule_of g prologue_loop ks max_fuel = Ok o -> exists g', ex rule_of g' prologue_loop (D ++ ks) (S (S (S (S f)))) = let '(b, (ts, r, f)) := o in Ok (b, (d :: ts, r, f)).
Proof.
  intros H E. exists (S (g + 20)). unfold prologue_loop. cbn [ex]. rewrite tnth_S. cbn [bind].
  assert (N : (length ks =? length (D ++ ks)) = false) by (apply Nat.eqb_neq; rewrite app_length; destruct H; cbn; lia).
  assert (B : ex rule_of (g + 20) (Match (Arm [K_BASE] (Call K_BaseDecl) (Arm [K_PREFIX] (Call K_PrefixDecl) (Arm [K_VERSION] (Call K_VersionDecl) (ArmEnd (DErr [K_BASE; K_PREFIX; K_VERSION])))))) (D ++ ks) (S (S (S f))) = Ok (false, ([d], ks, max_fuel))).
  { apply (ex_up 20); [lia|]. destruct H as [| |s [-> | ->]]; reflexivity. }
  assert (kind_in (look (D ++ ks)) [K_BASE; K_PREFIX; K_VERSION] = true) as -> by (destruct H; reflexivity). rewrite B. cbn [bind]. rewrite N. fold prologue_loop. rewrite (ex_up g (g + 20) _ _ _ _ ltac:(lia) E). destruct o as [b [[ts r] f']]. reflexivity.
Qed.
Lemma seq_expect g k s r f : ex rule_of (S (S g)) (Seq (Expect k) s) (k :: r) (S f) = let* (ret, (ts, rest, f)) := ex rule_of (S g) s r max_fuel in Ok (ret, (PLeaf k :: ts, rest, f)).
Proof. remember (S g) as g1 eqn:Eg. cbn [ex]. subst g1. cbn [ex texpect]. unfold texpect. rewrite tnth_S. cbn [look bind tadvance]. rewrite kind_eqb_refl. reflexivity. Qed.
Lemma loop_first g k ks f b ts r f' : In k [K_BASE; K_PREFIX; K_VERSION] -> ex rule_of g prologue_loop (k :: ks) f = Ok (b, (ts, r, f')) -> pleavess ts <> [].
Proof.
  intros Hk E. destruct g as [|g]; [discriminate|]. unfold prologue_loop in E. cbn [ex] in E. destruct (tnth (k :: ks) f) as [[c f0]| | |] eqn:En; try discriminate. unfold tnth in En. destruct f as [|f]; [discriminate|]. injection En as <- <-. cbn [look bind] in E.
  assert (kind_in k [K_BASE; K_PREFIX; K_VERSION] = true) as X by (destruct Hk as [<-|[<-|[<-|[]]]]; reflexivity). rewrite X in E.
  match type of E with context [ex rule_of g (Match ?a)] => destruct (ex rule_of g (Match a) (k :: ks) f) as [[ret [[us r0] f1]]| | |] eqn:Em; try discriminate end. cbn [bind] in E.
  assert (pleavess us <> []) as Hu.
  { clear E X. destruct g as [|[|[|[|[|g]]]]]; try discriminate Em; [destruct f as [|f]; [discriminate|]; destruct Hk as [<-|[<-|[<-|[]]]]; discriminate Em..|].
    assert (Go : forall K R s g2 h, rule_of K = Some R -> r_escape R = None -> r_body R = Seq (Expect k) s -> k <> K_Eof -> ex rule_of (S g2) (Call K) (k :: ks) h = Ok (ret, (us, r0, f1)) -> pleavess us <> []).
    { clear Em. intros K R s g2 h ER Ee Eb Nk. cbn [ex]. destruct g2 as [|g2]; [discriminate|]. cbn [ex_rule]. rewrite ER, Ee. cbn [bind]. rewrite Eb. destruct g2 as [|g2]; [discriminate|]. destruct g2 as [|g2]; [discriminate|]. destruct h as [|h]; [discriminate|]. rewrite seq_expect.
      destruct (ex rule_of (S g2) s ks max_fuel) as [[ret' [[us' r1] f2]]| | |]; cbn [bind]; try discriminate. destruct ret'; cbn [bind]; [intros Q; injection Q as _ <- _ _; discriminate|].
      destruct (r_unit R); cbn [bind]; [|intros Q; injection Q as _ <- _ _; discriminate].
      destruct (tnth r1 f2) as [[c f3]| | |]; cbn [bind]; try discriminate. destruct (kind_eqb c K_Eof); cbn [bind]; [intros Q; injection Q as _ <- _ _; discriminate|]. destruct (tskip_rest _ r1 f3) as [[[vs r2] f4]| | |]; cbn [bind]; try discriminate. intros Q. injection Q as _ <- _ _. discriminate. }
    cbn [ex] in Em. destruct f as [|f]; [discriminate|]. rewrite tnth_S in Em. cbn [look bind] in Em.
    destruct Hk as [<-|[<-|[<-|[]]]]; cbn [ex_arms kind_in existsb kind_eqb orb] in Em.
    - eapply (Go K_BaseDecl parse_BaseDecl); [reflexivity|reflexivity|reflexivity|discriminate|exact Em].
    - eapply (Go K_PrefixDecl parse_PrefixDecl); [reflexivity|reflexivity|reflexivity|discriminate|exact Em].
    - eapply (Go K_VersionDecl parse_VersionDecl); [reflexivity|reflexivity|reflexivity|discriminate|exact Em]. }
  destruct ret; [injection E as _ <- _ _; exact Hu|]. destruct (length r0 =? length (k :: ks)); [injection E as _ <- _ _; exact Hu|].
  match type of E with context [ex rule_of g ?w r0 f1] => destruct (ex rule_of g w r0 f1) as [[ret' [[us' r1] f2]]| | |]; try discriminate end. cbn [bind] in E. injection E as _ <- _ _. unfold pleavess. rewrite flat_map_app. intros K. apply app_eq_nil in K as [K _]. exact (Hu K).
Qed.
Lemma prologue_decl D d g ks ps r f : decl D d -> ex_rule rule_of g K_Prologue ks max_fuel = Ok (ps, r, f) ->
  exists g' ps' h, f <= h /\ ex_rule rule_of g' K_Prologue (D ++ ks) max_fuel = Ok (ps', r, h) /\
    ((ps = [] /\ ps' = [PNode K_Prologue [d]]) \/ exists ds more, ps = PNode K_Prologue ds :: more /\ ps' = PNode K_Prologue (d :: ds) :: more /\ pleavess ds <> [] /\ (more = [] \/ more = [PNode K_Error []])).
Proof.
  intros H E. destruct g as [|g]; [discriminate|]. cbn [ex_rule rule_of parse_Prologue r_escape r_body r_kind r_unit] in E. fold prologue_loop in E. rewrite max_fuel_S in E. rewrite tnth_S in E. cbn [bind] in E.
  assert (Esc : kind_in (look (D ++ ks)) [K_BASE; K_PREFIX; K_VERSION] = true) by (destruct H; reflexivity).
  assert (Fin : forall g0 b ts r0 f0, ex rule_of g0 prologue_loop ks max_fuel = Ok (b, (ts, r0, f0)) -> exists g', ex_rule rule_of g' K_Prologue (D ++ ks) max_fuel = Ok (PNode K_Prologue (d :: ts) :: if b then [PNode K_Error []] else [], r0, f0)).
  { intros g0 b ts r0 f0 El. destruct (loop_decl D d ks g0 1019 _ H El) as [g' Eg]. exists (S g'). cbn [ex_rule rule_of parse_Prologue r_escape r_body r_kind r_unit]. fold prologue_loop. change max_fuel with (S (S (S (S (S 1019))))) at 1. rewrite tnth_S. cbn [bind]. rewrite Esc, Eg. cbn [bind]. destruct b; reflexivity. }
  destruct (kind_in (look ks) [K_BASE; K_PREFIX; K_VERSION]) eqn:Ek.
  - destruct (ex rule_of g prologue_loop ks (S (S (S 1020)))) as [[b [[ts r0] f0]]| | |] eqn:El; try discriminate. cbn [bind] in E. destruct (proj1 (ex_more rule_of g) prologue_loop ks (S (S (S 1020))) max_fuel ltac:(rewrite max_fuel_S; lia) _ _ _ _ El) as (h & Lh & Eh).
    destruct (Fin _ _ _ _ _ Eh) as [g' Eg]. destruct ks as [|k ks]; [discriminate Ek|]. apply kind_in_In in Ek. pose proof (loop_first _ _ _ _ _ _ _ _ Ek El) as Nl. exists g'. destruct b; injection E as <- <- <-.
    + exists [PNode K_Prologue (d :: ts); PNode K_Error []], h. split; [exact Lh|]. split; [exact Eg|]. right. exists ts, [PNode K_Error []]. auto.
    + exists [PNode K_Prologue (d :: ts)], h. split; [exact Lh|]. split; [exact Eg|]. right. exists ts, []. auto.
  - injection E as <- <- <-. destruct (Fin 1 false [] ks (S (S (S 1020)))) as [g' Eg]. { unfold prologue_loop. cbn [ex]. rewrite max_fuel_S, tnth_S. cbn [bind]. rewrite Ek. reflexivity. }
    exists g', [PNode K_Prologue [d]], (S (S (S 1020))). split; [lia|]. split; [exact Eg|]. left. auto.
Qed.
Definition is_prologue (t : ptree) : bool := match t with PNode k _ => kind_eqb k K_Prologue | _ => false end.
Lemma rule_tops g r rest f ts r' f' R : rule_of r = Some R -> kind_eqb (r_kind R) K_Prologue = false -> ex_rule rule_of g r rest f = Ok (ts, r', f') -> forallb (fun t => negb (is_prologue t)) ts = true.
Proof.
  intros ER N E. destruct g as [|g]; [discriminate|]. cbn [ex_rule] in E. rewrite ER in E. match type of E with context [let* (go, f) := ?a in _] => destruct a as [[go f0]| | |]; try discriminate end. cbn [bind] in E. destruct go; [|injection E as <- <- <-; reflexivity].
  destruct (ex rule_of g (r_body R) rest f0) as [[ret [[us r0] f1]]| | |]; try discriminate. cbn [bind] in E. destruct ret; [injection E as <- <- <-; cbn; rewrite N; reflexivity|]. destruct (r_unit R); [|injection E as <- <- <-; cbn; rewrite N; reflexivity].
  destruct (tnth r0 f1) as [[c f2]| | |]; try discriminate. cbn [bind] in E. destruct (kind_eqb c K_Eof); [injection E as <- <- <-; cbn; rewrite N; reflexivity|]. destruct (tskip_rest g r0 f2) as [[[vs r2] f4]| | |]; cbn [bind] in E; try discriminate. injection E as <- <- <-. cbn. rewrite N. reflexivity.
Qed.
Definition query_body : stmt := Seq (Match (Arm [K_SELECT] (Call K_SelectQuery) (Arm [K_CONSTRUCT] (Call K_ConstructQuery) (Arm [K_DESCRIBE] (Call K_DescribeQuery) (Arm [K_ASK] (Call K_AskQuery) (ArmEnd (DErr [K_SELECT; K_CONSTRUCT; K_DESCRIBE; K_ASK]))))))) (Call K_ValuesClause).
Lemma call_tops g r rest f b ts r' f' R : rule_of r = Some R -> kind_eqb (r_kind R) K_Prologue = false -> ex rule_of g (Call r) rest f = Ok (b, (ts, r', f')) -> forallb (fun t => negb (is_prologue t)) ts = true.
Proof. intros ER N E. destruct g as [|g]; [discriminate|]. cbn [ex] in E. destruct (ex_rule rule_of g r rest f) as [[[us r0] f0]| | |] eqn:Er; try discriminate. cbn [bind] in E. injection E as <- <- <- <-. eapply rule_tops; eassumption. Qed.
Lemma query_tops g rest f b ts r f' : ex rule_of g query_body rest f = Ok (b, (ts, r, f')) -> forallb (fun t => negb (is_prologue t)) ts = true.
Proof.
  intros E. destruct g as [|g]; [discriminate|]. unfold query_body in E. remember (Call K_ValuesClause) as vc eqn:Ev. cbn [ex] in E. subst vc.
  match type of E with context [ex rule_of g (Match ?a)] => destruct (ex rule_of g (Match a) rest f) as [[ret [[us r0] f1]]| | |] eqn:Em; try discriminate end. cbn [bind] in E.
  assert (forallb (fun t => negb (is_prologue t)) us = true) as Hu.
  { clear E. destruct g as [|g]; [discriminate|]. cbn [ex] in Em. destruct (tnth rest f) as [[c f0]| | |]; try discriminate. cbn [bind] in Em.
    do 5 (destruct g as [|g]; [discriminate|]; cbn [ex_arms] in Em; match type of Em with (if kind_in _ _ then ex _ _ (Call ?K) _ _ else _) = _ => destruct (kind_in c _); [refine (call_tops _ K _ _ _ _ _ _ _ _ _ Em); reflexivity|] | _ => idtac end).
    destruct (kind_eqb c K_Eof); [injection Em as _ <- _ _; reflexivity|]. unfold tdflt, tawe in Em. destruct (tnth rest f0) as [[c' f2]| | |]; try discriminate. cbn [bind] in Em. destruct (kind_in c' recovery_tokens); [cbn [bind] in Em; injection Em as _ <- _ _; reflexivity|].
    destruct (tadvance rest) as [[c2 r2]| | |]; try discriminate. cbn [bind] in Em. injection Em as _ <- _ _. reflexivity. }
  destruct ret; [injection E as _ <- _ _; exact Hu|]. destruct (ex rule_of g (Call K_ValuesClause) r0 f1) as [[ret' [[us' r1] f2]]| | |] eqn:Ev; try discriminate. cbn [bind] in E. injection E as _ <- _ _. rewrite forallb_app, Hu. eapply call_tops; [| |exact Ev]; reflexivity.
Qed.
Lemma query_cong g ks qs rest f : ex_rule rule_of g K_Query ks max_fuel = Ok (qs, rest, f) ->
  exists g0 ps r0 f0 bs more, ex_rule rule_of g0 K_Prologue ks max_fuel = Ok (ps, r0, f0) /\ qs = PNode K_Query (ps ++ bs) :: more /\ (more = [] \/ more = [PNode K_Error []]) /\ forallb (fun t => negb (is_prologue t)) bs = true /\
    forall g' ks' ps' h0, f0 <= h0 -> ex_rule rule_of g' K_Prologue ks' max_fuel = Ok (ps', r0, h0) -> exists g'' h, f <= h /\ ex_rule rule_of g'' K_Query ks' max_fuel = Ok (PNode K_Query (ps' ++ bs) :: more, rest, h).
Proof.
  intros E. destruct g as [|g]; [discriminate|]. cbn [ex_rule rule_of parse_Query r_escape r_body r_kind r_unit bind] in E. fold query_body in E. destruct g as [|g]; [discriminate|].
  assert (Sq : forall g a b r f, ex rule_of (S g) (Seq a b) r f = let* (ret, (ts, rest, f)) := ex rule_of g a r f in if ret then Ok (true, (ts, rest, f)) else let* (ret, (ts', rest, f)) := ex rule_of g b rest f in Ok (ret, (ts ++ ts', rest, f))) by reflexivity. rewrite Sq in E.
  destruct g as [|g]; [discriminate|]. assert (Cl : forall g r0 r f, ex rule_of (S g) (Call r0) r f = let* o := ex_rule rule_of g r0 r f in Ok (false, o)) by reflexivity. rewrite Cl in E. destruct (ex_rule rule_of g K_Prologue ks max_fuel) as [[[ps r0] f0]| | |] eqn:Ep; try discriminate. cbn [bind] in E.
  destruct (ex rule_of (S g) query_body r0 f0) as [[ret [[bs r1] f1]]| | |] eqn:Eb; try discriminate. cbn [bind] in E. exists g, ps, r0, f0, bs, (if ret then [PNode K_Error []] else []). split; [exact Ep|].
  split; [destruct ret; injection E as <- <- <-; reflexivity|]. split; [destruct ret; auto|]. split; [exact (query_tops _ _ _ _ _ _ _ Eb)|].
  intros g' ks' ps' h0 L E'. destruct (proj1 (ex_more rule_of (S g)) query_body r0 f0 h0 L _ _ _ _ Eb) as (h & Lh & Eh). exists (S (S (S (g + g')))), h.
  cbn [ex_rule rule_of parse_Query r_escape r_body r_kind r_unit bind]. fold query_body. rewrite Sq, Cl, (ex_rule_up g' (g + g') _ _ _ _ ltac:(lia) E'). cbn [bind]. rewrite (ex_up (S g) (S (g + g')) _ _ _ _ ltac:(lia) Eh). cbn [bind]. destruct ret; injection E as <- <- <-; auto.
Qed.
Lemma unit_cong g ks ts f : ex_rule rule_of g K_QueryUnit ks max_fuel = Ok ([PNode K_QueryUnit ts], [], f) ->
  exists g0 qs rest f0 es, ex_rule rule_of g0 K_Query ks max_fuel = Ok (qs, rest, f0) /\ ts = qs ++ es /\ (es = [] \/ exists us, es = [PNode K_Error us]) /\
    forall g' ks' qs' h0, f0 <= h0 -> ex_rule rule_of g' K_Query ks' max_fuel = Ok (qs', rest, h0) -> exists g'' h, ex_rule rule_of g'' K_QueryUnit ks' max_fuel = Ok ([PNode K_QueryUnit (qs' ++ es)], [], h).
Proof.
  intros E. destruct g as [|g]; [discriminate|]. cbn [ex_rule rule_of parse_QueryUnit r_escape r_body r_kind r_unit bind] in E. destruct g as [|g]; [discriminate|].
  assert (Cl : forall g r0 r f, ex rule_of (S g) (Call r0) r f = let* o := ex_rule rule_of g r0 r f in Ok (false, o)) by reflexivity. rewrite Cl in E. destruct (ex_rule rule_of g K_Query ks max_fuel) as [[[qs rest] f0]| | |] eqn:Eq; try discriminate. cbn [bind] in E.
  destruct (tnth rest f0) as [[c f1]| | |] eqn:En; try discriminate. cbn [bind] in E. destruct (kind_eqb c K_Eof) eqn:Ec.
  - injection E as <- -> <-. exists g, qs, [], f0, []. split; [exact Eq|]. split; [rewrite app_nil_r; reflexivity|]. split; [auto|]. intros g' ks' qs' h0 L E'. destruct (tnth_more _ _ _ _ _ En L) as (h & Lh & Eh). exists (S (S g')), h.
    cbn [ex_rule rule_of parse_QueryUnit r_escape r_body r_kind r_unit bind]. rewrite Cl, E'. cbn [bind]. rewrite Eh. cbn [bind]. rewrite Ec, app_nil_r. reflexivity.
  - destruct (tskip_rest (S g) rest f1) as [[[us r1] f2]| | |] eqn:Es; try discriminate. cbn [bind] in E. injection E as <- -> <-. exists g, qs, rest, f0, [PNode K_Error us]. split; [exact Eq|]. split; [reflexivity|]. split; [eauto|].
    intros g' ks' qs' h0 L E'. destruct (tnth_more _ _ _ _ _ En L) as (h & Lh & Eh). destruct (tskip_rest_more _ _ _ _ Lh _ _ _ Es) as (h1 & Lh1 & Eh1). exists (S (S (g + g'))), h1.
    cbn [ex_rule rule_of parse_QueryUnit r_escape r_body r_kind r_unit bind]. rewrite Cl, (ex_rule_up g' (g + g') _ _ _ _ ltac:(lia) E'). cbn [bind]. rewrite Eh. cbn [bind]. rewrite Ec, (skip_rest_up (S g) (S (g + g')) _ _ _ ltac:(lia) Eh1). reflexivity.
Qed.
(** a declaration put in front *)
Lemma unit_decl D d g ks ts f : decl D d -> ex_rule rule_of g K_QueryUnit ks max_fuel = Ok ([PNode K_QueryUnit ts], [], f) ->
  exists g' h ps bs ps' more es, ex_rule rule_of g' K_QueryUnit (D ++ ks) max_fuel = Ok ([PNode K_QueryUnit (PNode K_Query (ps' ++ bs) :: more ++ es)], [], h) /\ ts = PNode K_Query (ps ++ bs) :: more ++ es /\ (more = [] \/ more = [PNode K_Error []]) /\ (es = [] \/ exists us, es = [PNode K_Error us]) /\
    forallb (fun t => negb (is_prologue t)) bs = true /\ ((ps = [] /\ ps' = [PNode K_Prologue [d]]) \/ exists ds m, ps = PNode K_Prologue ds :: m /\ ps' = PNode K_Prologue (d :: ds) :: m /\ pleavess ds <> [] /\ (m = [] \/ m = [PNode K_Error []])).
Proof.
  intros H E. destruct (unit_cong _ _ _ _ E) as (g0 & qs & rest & f0 & es & Eq & -> & He & Fu). destruct (query_cong _ _ _ _ _ Eq) as (g1 & ps & r0 & f1 & bs & more & Ep & -> & Hm & Hb & Fq). destruct (prologue_decl _ _ _ _ _ _ _ H Ep) as (g2 & ps' & h & L & Ep' & Hp).
  destruct (Fq _ _ _ _ L Ep') as (g3 & h3 & L3 & Eq'). destruct (Fu _ _ _ _ L3 Eq') as (g4 & h4 & Eu). exists g4, h4, ps, bs, ps', more, es. split; [exact Eu|]. auto.
Qed.

(** ** the trees *)
(** a complete declaration, and its tree *)
Inductive declaration : list lexeme -> tree -> Prop :=
| is_base a b : declaration [(K_BASE, a); (K_IRIREF, b)] (Node K_BaseDecl [Tok K_BASE a; Tok K_IRIREF b])
| is_prefix a b c : declaration [(K_PREFIX, a); (K_PNAME_NS, b); (K_IRIREF, c)] (Node K_PrefixDecl [Tok K_PREFIX a; Tok K_PNAME_NS b; Tok K_IRIREF c])
| is_version k a b : k = K_STRING_LITERAL1 \/ k = K_STRING_LITERAL2 -> declaration [(K_VERSION, a); (k, b)] (Node K_VersionDecl [Tok K_VERSION a; Node K_VersionSpecifier [Tok k b]]).
(** [x] with a declaration in front *)
Definition with_decl (d : tree) (x : tree) : tree :=
  match x with
  | Node u (Node q cs :: rest) =>
      if kind_eqb q K_Query then
        match cs with
        | Node k ds :: cs' => if kind_eqb k K_Prologue then Node u (Node q (Node k (d :: ds) :: cs') :: rest) else Node u (Node q (Node K_Prologue [d] :: cs) :: rest)
        | _ => Node u (Node q (Node K_Prologue [d] :: cs) :: rest)
        end
      else Node u (Node K_Query [Node K_Prologue [d]] :: Node q cs :: rest)
  | Node u cs => Node u (Node K_Query [Node K_Prologue [d]] :: cs)
  | Tok k w => Tok k w
  end.
Definition plain_l (l : list lexeme) : Prop := Forall (fun x => is_trivia (lkind x) = false) l.
Lemma plain_split l : plain_l l -> split_trivia lkind l = ([], l).
Proof. intros H. destruct H as [|x l H]; [reflexivity|]. cbn [split_trivia]. rewrite H. reflexivity. Qed.
Lemma place_plain t : forall l, plain_l l -> plain_l (snd (tplace t l)).
Proof.
  induction t as [k|k ts IH|e] using ptree_rect'; intros l P.
  - unfold tplace, place. rewrite (plain_split _ P). destruct P; [constructor|exact P].
  - assert (Hl : forall l, plain_l l -> plain_l (snd (tplaces ts l))).
    { clear l P. induction IH as [|t ts Ht _ IHl]; intros l P; [exact P|]. unfold tplaces in *. cbn [places]. pose proof (Ht l P) as A. unfold tplace in A. destruct (place lkind tok Node t l) as [a n]. cbn [snd] in A. pose proof (IHl n A) as B. destruct (places lkind tok Node ts n) as [b m]. exact B. }
    unfold tplace. rewrite place_node, (plain_split _ P). assert ((if is_unit k then ([], l) else ([] : list lexeme, l)) = ([], l)) as -> by (destruct (is_unit k); reflexivity).
    pose proof (Hl l P) as B. unfold tplaces in B. destruct (places lkind tok Node ts l) as [b m]. exact B.
  - exact P.
Qed.
Lemma places_app a b l : tplaces (a ++ b) l = let '(x, n) := tplaces a l in let '(y, m) := tplaces b n in (x ++ y, m).
Proof.
  revert l. induction a as [|t a IH]; intros l; cbn [app].
  - change (tplaces [] l) with (@nil tree, l). cbn. destruct (tplaces b l). reflexivity.
  - unfold tplaces in *. cbn [places]. destruct (place lkind tok Node t l) as [u n]. rewrite IH. destruct (places lkind tok Node a n) as [x n']. destruct (places lkind tok Node b n') as [y m]. rewrite app_assoc. reflexivity.
Qed.
Lemma place_node_plain k ts l : plain_l l -> tplace (PNode k ts) l = let '(cs, n) := tplaces ts l in ([Node k cs], n).
Proof. intros P. unfold tplace. rewrite place_node, (plain_split _ P). destruct (is_unit k); reflexivity. Qed.
Lemma prune_leafless t : pleaves t = [] -> Forall (fun u => exists e, u = PErr e) (prune t).
Proof.
  induction t as [k|k ts IH|e] using ptree_rect'; cbn [pleaves prune]; intros H; [discriminate| |constructor; [eauto|constructor]].
  rewrite H. induction IH as [|t ts Ht _ IHl]; [constructor|]. cbn [flat_map] in *. apply app_eq_nil in H as [H1 H2]. apply Forall_app. split; auto.
Qed.
Lemma prunes_leafless ts : pleavess ts = [] -> Forall (fun u => exists e, u = PErr e) (prunes ts).
Proof. unfold pleavess, prunes. induction ts as [|t ts IH]; cbn [flat_map]; [constructor|]. intros H. apply app_eq_nil in H as [H1 H2]. apply Forall_app. split; [apply prune_leafless, H1|apply IH, H2]. Qed.
Lemma places_errs ts l : Forall (fun u => exists e, u = PErr e) ts -> tplaces ts l = ([], l).
Proof. induction 1 as [|t ts [e ->] _ IH]; [reflexivity|]. unfold tplaces in *. cbn [places place]. rewrite IH. reflexivity. Qed.
Definition no_prologue (y : tree) : Prop := forall cs, y <> Node K_Prologue cs.
Lemma places_tops ts : forallb (fun t => negb (is_prologue t)) ts = true -> forall l, plain_l l -> Forall no_prologue (fst (tplaces ts l)).
Proof.
  induction ts as [|t ts IH]; cbn [forallb]; intros H l P; [constructor|]. apply andb_prop in H as [H1 H2]. pose proof (place_plain t l P) as P1. unfold tplaces in *. cbn [places].
  assert (Forall no_prologue (fst (tplace t l))) as F.
  { destruct t as [k|k us|e]; [|rewrite (place_node_plain _ _ _ P); destruct (tplaces us l); repeat constructor; intros ds Q; injection Q as -> _; discriminate|constructor]. unfold tplace, place. rewrite (plain_split _ P). destruct l; [constructor|]. repeat constructor. intros cs Q. discriminate. }
  unfold tplace in *. destruct (place lkind tok Node t l) as [a n]. cbn [fst snd] in *. specialize (IH H2 n P1). destruct (places lkind tok Node ts n) as [b m]. apply Forall_app. auto.
Qed.
Lemma prunes_tops ts : forallb (fun t => negb (is_prologue t)) ts = true -> forallb (fun t => negb (is_prologue t)) (prunes ts) = true.
Proof.
  induction ts as [|t ts IH]; cbn [forallb prunes flat_map]; intros H; [reflexivity|]. apply andb_prop in H as [H1 H2]. rewrite forallb_app. unfold prunes in IH. rewrite (IH H2), andb_true_r. destruct t as [k|k us|e]; try reflexivity. cbn [prune]. destruct (flat_map pleaves us) eqn:E; [|cbn; rewrite andb_true_r; exact H1].
  pose proof (prunes_leafless us E) as F. unfold prunes in F. induction F as [|u us' [e ->] _ IHf]; [reflexivity|exact IHf].
Qed.
Lemma declaration_place dl y : declaration dl y -> exists D d, decl D d /\ map lkind dl = D /\ plain_l dl /\ prune d = [d] /\ pleaves d = D /\ (forall n, perrs n d = []) /\ (forall l, tplace d (dl ++ l) = ([y], l)).
Proof.
  intros [a b|a b c|k a b H].
  - exists [K_BASE; K_IRIREF], (PNode K_BaseDecl [PLeaf K_BASE; PLeaf K_IRIREF]). split; [constructor|]. repeat split; try reflexivity. repeat constructor.
  - exists [K_PREFIX; K_PNAME_NS; K_IRIREF], (PNode K_PrefixDecl [PLeaf K_PREFIX; PLeaf K_PNAME_NS; PLeaf K_IRIREF]). split; [constructor|]. repeat split; try reflexivity. repeat constructor.
  - exists [K_VERSION; k], (PNode K_VersionDecl [PLeaf K_VERSION; PNode K_VersionSpecifier [PLeaf k]]). split; [constructor; exact H|]. destruct H as [-> | ->]; (repeat split; try reflexivity; repeat constructor).
Qed.
Lemma prune_node k ts : pleavess ts <> [] -> prune (PNode k ts) = [PNode k (prunes ts)].
Proof. unfold pleavess, prunes. intros H. cbn [prune]. destruct (flat_map pleaves ts); [congruence|reflexivity]. Qed.
Lemma prune_empty k ts : pleavess ts = [] -> prune (PNode k ts) = prunes ts.
Proof. unfold pleavess, prunes. intros H. cbn [prune]. rewrite H. reflexivity. Qed.
Lemma prunes_cons t ts : prunes (t :: ts) = prune t ++ prunes ts.
Proof. reflexivity. Qed.
Lemma placed_eq ts l : placed lkind tok Node ts l = let '(cs, n) := tplaces ts l in cs ++ map tok n.
Proof. reflexivity. Qed.
Lemma places_cons t ts l : tplaces (t :: ts) l = let '(a, n) := tplace t l in let '(b, m) := tplaces ts n in (a ++ b, m).
Proof. reflexivity. Qed.
Lemma prunes_more m : m = [] \/ m = [PNode K_Error []] -> prunes m = [].
Proof. intros [-> | ->]; reflexivity. Qed.
Lemma places_none l : tplaces [] l = ([], l).
Proof. reflexivity. Qed.
Lemma placed_decl u dl y D d ps bs ps' more es l : decl D d -> plain_l dl -> dl <> [] -> prune d = [d] -> pleaves d = D -> (forall l, tplace d (dl ++ l) = ([y], l)) -> plain_l l ->
  (more = [] \/ more = [PNode K_Error []]) -> (es = [] \/ exists us, es = [PNode K_Error us]) -> forallb (fun t => negb (is_prologue t)) bs = true ->
  ((ps = [] /\ ps' = [PNode K_Prologue [d]]) \/ exists ds m, ps = PNode K_Prologue ds :: m /\ ps' = PNode K_Prologue (d :: ds) :: m /\ pleavess ds <> [] /\ (m = [] \/ m = [PNode K_Error []])) ->
  Node u (placed lkind tok Node (prunes (PNode K_Query (ps' ++ bs) :: more ++ es)) (dl ++ l)) = with_decl y (Node u (placed lkind tok Node (prunes (PNode K_Query (ps ++ bs) :: more ++ es)) l)).
Proof.
  intros Hd Pdl Ndl Pd Ld Pl P Hm He Hb Hp. assert (ND : pleaves d <> []) by (rewrite Ld; destruct Hd; discriminate). assert (PP : plain_l (dl ++ l)) by (apply Forall_app; auto).
  assert (Pm : forall m, m = [] \/ m = [PNode K_Error []] -> pleavess m = []) by (intros m [-> | ->]; reflexivity).
  rewrite !prunes_cons, prunes_app, (prunes_more _ Hm). cbn [app].
  assert (N' : pleavess (ps' ++ bs) <> []).
  { rewrite pleavess_app. destruct Hp as [[_ ->]|(ds & m & _ & -> & _)]; unfold pleavess; cbn [flat_map pleaves]; intros K; apply app_eq_nil in K as [K _]; apply app_eq_nil in K as [K _]; apply app_eq_nil in K as [K _]; congruence. }
  rewrite (prune_node _ _ N'), prunes_app. cbn [app]. rewrite !placed_eq, places_cons, (place_node_plain _ _ _ PP), places_app.
  destruct Hp as [[-> ->]|(ds & m & -> & -> & Nds & Hm')].
  - (* no prologue before *)
    rewrite prunes_cons, (prune_node K_Prologue [d]) by (unfold pleavess; cbn; rewrite app_nil_r; exact ND). cbn [prunes flat_map app]. rewrite Pd. cbn [app]. rewrite places_cons, (place_node_plain _ _ _ PP), places_cons, Pl. cbv beta iota.
    repeat (rewrite (places_none l); cbv beta iota). cbn [app].
    destruct (pleavess bs) as [|kb lb] eqn:Eb.
    + rewrite (prune_empty _ _ Eb). pose proof (prunes_leafless _ Eb) as F. rewrite places_app, !(places_errs _ l F). cbv beta iota. cbn [app].
      destruct He as [->|[us ->]]; [destruct l; reflexivity|]. unfold prunes. cbn [flat_map]. rewrite app_nil_r. destruct (pleavess us) as [|ku lu] eqn:Eu.
      * rewrite (prune_empty _ _ Eu), (places_errs _ _ (prunes_leafless _ Eu)). cbn [app]. destruct l; reflexivity.
      * rewrite prune_node by (rewrite Eu; discriminate). rewrite places_cons, (place_node_plain _ _ _ P). destruct (tplaces (prunes us) l) as [a n]. reflexivity.
    + rewrite (prune_node K_Query bs) by (rewrite Eb; discriminate). cbn [app]. rewrite places_cons, (place_node_plain _ _ _ P). pose proof (places_tops _ (prunes_tops _ Hb) l P) as F. destruct (tplaces (prunes bs) l) as [cs n]. cbn [fst] in F.
      destruct (tplaces (prunes es) n) as [b m]. cbn [app with_decl]. rewrite kind_eqb_refl. destruct cs as [|[k w|k c] cs]; [reflexivity..|]. destruct (kind_eqb_spec k K_Prologue) as [->|Nk]; [|reflexivity]. inversion F as [|? ? F1 _]; subst. destruct (F1 c eq_refl).
  - (* a prologue *)
    assert (N : pleavess ((PNode K_Prologue ds :: m) ++ bs) <> []) by (cbn [app]; unfold pleavess in *; cbn [flat_map pleaves]; intros K; apply app_eq_nil in K as [K _]; exact (Nds K)).
    rewrite (prune_node _ _ N), prunes_app. cbn [app]. rewrite places_cons, (place_node_plain _ _ _ P), places_app. rewrite !prunes_cons, (prunes_more _ Hm'), !app_nil_r.
    rewrite (prune_node K_Prologue (d :: ds)) by (unfold pleavess in *; cbn [flat_map]; intros K; apply app_eq_nil in K as [K _]; exact (ND K)). rewrite (prune_node K_Prologue ds Nds), prunes_cons, Pd. cbn [app].
    rewrite !places_cons, (place_node_plain _ _ _ PP), (place_node_plain _ _ _ P), places_cons, Pl. cbv beta iota. destruct (tplaces (prunes ds) l) as [a n]. rewrite (places_none n). destruct (tplaces (prunes bs) n) as [b n2]. destruct (tplaces (prunes es) n2) as [c n3]. reflexivity.
Qed.
(** errors *)
Lemma perrs_shift t : forall n k, perrs (n + k) t = map (fun x => (fst x + k, snd x)) (perrs n t).
Proof.
  induction t as [q|q ts IH|e] using ptree_rect'; intros n k; [reflexivity| |reflexivity]. rewrite !perrs_node.
  revert n. induction IH as [|t ts Ht _ IHl]; intros n; [reflexivity|]. cbn [perrss]. rewrite map_app, Ht. f_equal. rewrite <- IHl. f_equal. lia.
Qed.
Lemma perrss_shift ts n k : perrss (n + k) ts = map (fun x => (fst x + k, snd x)) (perrss n ts).
Proof. revert n. induction ts as [|t ts IHl]; intros n; [reflexivity|]. cbn [perrss]. rewrite map_app, perrs_shift. f_equal. rewrite <- IHl. f_equal. lia. Qed.
Lemma perrss_app a b n : perrss n (a ++ b) = perrss n a ++ perrss (n + length (pleavess a)) b.
Proof. revert n. induction a as [|t a IH]; intros n; cbn [app perrss]; [rewrite Nat.add_0_r; reflexivity|]. rewrite IH, <- app_assoc. unfold pleavess. cbn [flat_map]. rewrite app_length, Nat.add_assoc. reflexivity. Qed.
Lemma prune_len t : pleavess (prune t) = pleaves t.
Proof. pose proof (pleavess_prunes [t]) as H. unfold prunes, pleavess in *. cbn [flat_map] in H. rewrite !app_nil_r in H. exact H. Qed.
Lemma perrs_prune t : forall n, perrss n (prune t) = perrs n t.
Proof.
  induction t as [q|q ts IH|e] using ptree_rect'; intros n; [reflexivity| |reflexivity].
  assert (X : forall n, perrss n (prunes ts) = perrss n ts). { clear n. induction IH as [|t ts Ht _ IHl]; intros n; [reflexivity|]. rewrite prunes_cons, perrss_app, Ht, IHl, prune_len. reflexivity. }
  rewrite perrs_node. cbn [prune]. destruct (flat_map pleaves ts); [apply X|]. cbn [perrss]. rewrite perrs_node, app_nil_r. apply X.
Qed.
Lemma perrss_prunes ts : forall n, perrss n (prunes ts) = perrss n ts.
Proof. induction ts as [|t ts IH]; intros n; [reflexivity|]. rewrite prunes_cons, perrss_app, perrs_prune, IH, prune_len. reflexivity. Qed.
Lemma perrss_decl d ps bs ps' more es : (forall n, perrs n d = []) ->
  ((ps = [] /\ ps' = [PNode K_Prologue [d]]) \/ exists ds m, ps = PNode K_Prologue ds :: m /\ ps' = PNode K_Prologue (d :: ds) :: m /\ pleavess ds <> [] /\ (m = [] \/ m = [PNode K_Error []])) ->
  perrss 0 (prunes (PNode K_Query (ps' ++ bs) :: more ++ es)) = map (fun x => (fst x + length (pleaves d), snd x)) (perrss 0 (prunes (PNode K_Query (ps ++ bs) :: more ++ es))).
Proof.
  intros Hd Hp. rewrite !perrss_prunes. rewrite <- perrss_shift. cbn [perrss]. rewrite !perrs_node. cbn [plus].
  assert (A : perrss 0 (ps' ++ bs) = perrss (length (pleaves d)) (ps ++ bs) /\ length (pleaves (PNode K_Query (ps' ++ bs))) = length (pleaves d) + length (pleaves (PNode K_Query (ps ++ bs)))).
  { destruct Hp as [[-> ->]|(ds & m & -> & -> & _)]; cbn [app perrss pleaves flat_map]; rewrite !perrs_node; cbn [perrss plus pleaves flat_map]; rewrite Hd; rewrite ?app_nil_r, ?app_length; cbn [app]; (split; [f_equal; f_equal; lia|lia]). }
  destruct A as [-> ->]. reflexivity.
Qed.
(** ** documents *)
Lemma piece_id y : Forall (fun x => is_trivia (lkind x) = false) (FormatWeave.leaves y) -> piece same y = [y].
Proof.
  induction y as [k w|k cs IH] using tree_ind'; cbn [FormatWeave.leaves]; intros F.
  - inversion F as [|? ? H _]; subst. unfold piece. rewrite trivial_is, H. reflexivity.
  - unfold piece. cbn [bare]. f_equal. f_equal. induction IH as [|c cs Hc _ IHl]; [reflexivity|]. cbn [flat_map] in *. apply Forall_app in F as [F1 F2]. change (piece same c ++ flat_map (piece same) cs = c :: cs). rewrite (Hc F1). cbn [app]. f_equal. apply IHl, F2.
Qed.
Lemma places_leaves_all ts l : Forall (fun t => forall l, flat_map FormatWeave.leaves (fst (tplace t l)) ++ snd (tplace t l) = l) ts -> flat_map FormatWeave.leaves (fst (tplaces ts l)) ++ snd (tplaces ts l) = l.
Proof.
  intros F. revert l. induction F as [|t ts Ht _ IH]; intros l; [reflexivity|]. rewrite places_cons. specialize (Ht l). destruct (tplace t l) as [a n]. cbn [fst snd] in *. specialize (IH n). destruct (tplaces ts n) as [b m]. cbn [fst snd] in *. rewrite flat_map_app, <- app_assoc, IH. exact Ht.
Qed.
Lemma tok_leaves u : flat_map FormatWeave.leaves (map tok u) = u.
Proof. induction u as [|[k w] u IH]; [reflexivity|]. cbn. f_equal. exact IH. Qed.
Lemma place_leaves t : forall l, flat_map FormatWeave.leaves (fst (tplace t l)) ++ snd (tplace t l) = l.
Proof.
  induction t as [k|k ts IH|e] using ptree_rect'; intros l; [| |reflexivity].
  - unfold tplace, place. destruct (split_trivia_spec lkind l) as (u & n & -> & -> & _). destruct n as [|x n]; cbn [fst snd]; rewrite ?flat_map_app, tok_leaves; [reflexivity|]. destruct x. cbn. rewrite <- app_assoc. reflexivity.
  - unfold tplace. rewrite place_node. assert (exists u n, (if is_unit k then ([], l) else split_trivia lkind l) = (u, n) /\ l = u ++ n) as (u & n & -> & ->).
    { destruct (is_unit k); [exists [], l; auto|]. destruct (split_trivia_spec lkind l) as (u & n & -> & -> & _). eauto. }
    pose proof (places_leaves_all ts n IH) as H. unfold tplaces in H. destruct (places lkind tok Node ts n) as [cs m]. cbn [fst snd] in *. rewrite flat_map_app, tok_leaves. cbn [flat_map FormatWeave.leaves]. rewrite app_nil_r, <- app_assoc, H. reflexivity.
Qed.
Lemma placed_leaves ts l : flat_map FormatWeave.leaves (placed lkind tok Node ts l) = l.
Proof.
  rewrite placed_eq. pose proof (places_leaves_all ts l (proj2 (Forall_forall _ _) (fun t _ => place_leaves t))) as H. destruct (tplaces ts l) as [cs n]. cbn [fst snd] in H. rewrite flat_map_app, tok_leaves. exact H.
Qed.
Lemma sigs_plain l : plain_l (sigs l).
Proof. unfold plain_l, sigs. apply Forall_forall. intros x Hx. apply filter_In in Hx as [_ Hx]. rewrite trivial_is in Hx. apply negb_true_iff, Hx. Qed.
Lemma sigs_sigs l : sigs (sigs l) = sigs l.
Proof. unfold sigs. induction l as [|x l IH]; [reflexivity|]. cbn [filter]. destruct (trivial x) eqn:E; cbn [negb]; [exact IH|]. cbn [filter]. rewrite E. cbn [negb]. f_equal. exact IH. Qed.
Lemma bare_placed k ts l : bare same (Node k (placed lkind tok Node ts l)) = Node k (placed lkind tok Node ts (sigs l)).
Proof.
  cbn [bare]. f_equal. change (flat_map (piece same) (placed lkind tok Node ts l) = placed lkind tok Node ts (sigs l)). rewrite (placed_same same ts l (sigs l)) by (rewrite sigs_sigs; reflexivity).
  pose proof (placed_leaves ts (sigs l)) as L. pose proof (sigs_plain l) as P. rewrite <- L in P at 1. clear L. induction (placed lkind tok Node ts (sigs l)) as [|y ys IH]; [reflexivity|]. cbn [flat_map] in *. apply Forall_app in P as [P1 P2]. rewrite (piece_id _ P1), (IH P2). reflexivity.
Qed.
(** the same errors, [n] tokens further on *)
Definition errors_moved (err : text -> nat) (t t' : text) (n : nat) (errs errs' : list parse_error) : Prop :=
  Forall2 (fun e e' => pe_expected e = pe_expected e' /\ exists i, error_at err t i e /\ error_at err t' (i + n) e') errs errs'.
Lemma seen_tokens err t : seen (lex err t) = map lkind (tokens err t).
Proof. rewrite (sigs_seen same (fun _ => eq_refl)). rewrite map_map. reflexivity. Qed.
Lemma entry_tokens err t : entry_for (lex err t) = match find (fun k => kind_in k query_keywords || kind_in k update_keywords) (map lkind (tokens err t)) with Some k => if kind_in k query_keywords then K_QueryUnit else K_UpdateUnit | None => K_QueryUnit end.
Proof. rewrite entry_seen, seen_tokens. reflexivity. Qed.
Theorem declaration_put err t t' x errs dl y : doc_parse err t x errs -> query_doc x -> declaration dl y -> tokens err t' = dl ++ tokens err t ->
  exists x' errs', doc_parse err t' x' errs' /\ bare same x' = with_decl y (bare same x) /\ errors_moved err t t' (length dl) errs errs'.
Proof.
  intros P Q Hd Et. destruct (doc_parse_run _ _ _ _ P) as (gas & ts & fu & R & Ee & _ & Ex).
  assert (entry_for (lex err t) = K_QueryUnit) as En. { destruct Q as [cs Q]. rewrite Ex in Q. cbn in Q. injection Q as Q _. exact Q. }
  destruct (declaration_place _ _ Hd) as (D & d & HD & Ek & Pdl & Pd & Ld & Pe & Pl).
  assert (entry_for (lex err t') = K_QueryUnit) as En'. { rewrite entry_tokens in *. rewrite Et, map_app, Ek. destruct HD as [| |s [-> | ->]]; exact En. }
  rewrite En in R, Ex. destruct (unit_decl _ _ _ _ _ _ HD R) as (g' & h & ps & bs & ps' & more & es & R' & -> & Hm & He & Hb & Hp).
  assert (seen (lex err t') = D ++ seen (lex err t)) as Es by (rewrite !seen_tokens, Et, map_app, Ek; reflexivity). rewrite <- Es, <- En' in R'. apply doc_tree_intro in R' as D'. destruct D' as (gas' & gr & errs' & E' & Eg).
  rewrite En' in Eg. exists (fst (graft gr (lex err t'))), errs'. assert (doc_parse err t' (fst (graft gr (lex err t'))) errs') as P' by (exists gas', gr; auto). split; [exact P'|].
  destruct (doc_parse_run _ _ _ _ P') as (gas2 & ts2 & fu2 & R2 & Ee2 & _ & Ex2). pose proof (run_same _ _ _ _ _ _ _ _ R' R2) as <-. split.
  - rewrite <- Eg, Ex, !bare_placed. change (sigs (lex err t')) with (tokens err t'). change (sigs (lex err t)) with (tokens err t). rewrite Et. eapply placed_decl; try eassumption; [destruct Hd; discriminate|apply sigs_plain].
  - rewrite Ee, Ee2. unfold errors_moved. rewrite (perrss_decl d _ _ _ _ _ Pe Hp). assert (length (pleaves d) = length dl) as -> by (rewrite Ld, <- Ek, map_length; reflexivity).
    clear. induction (perrss 0 _) as [|[n e] l IH]; [constructor|]. constructor; [|exact IH]. split; [|exists n; split; apply mkerr_at]. unfold mkerr. destruct (span_of _ _), (span_of _ _). reflexivity.
Qed.
