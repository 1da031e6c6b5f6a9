(** Property C24: N-Triples parsing. *)
From Coq Require Import List Arith NArith Bool Lia.
Import ListNotations.
From Verif Require Import Utf8Model NTriplesModel.

(** ** specification *)
(** an RDF term token and its bytes *)
Definition term_bytes (k : nt_token) : option (list byte) :=
  match k with NIri b | NBlank b | NLiteral b => Some b | _ => None end.
(** a statement: four tokens, with anything in between only comments *)
Record statement := mkst { st_s : nt_lexed; st_p : nt_lexed; st_o : nt_lexed; st_dot : nt_lexed; st_triple : triple }.
Definition st_ok (s : statement) : Prop :=
  exists ks kp ko bs bp bo,
    nt_tok (st_s s) = Some ks /\ nt_tok (st_p s) = Some kp /\ nt_tok (st_o s) = Some ko /\ nt_tok (st_dot s) = Some NDot /\
    term_bytes ks = Some bs /\ term_bytes kp = Some bp /\ term_bytes ko = Some bo /\ st_triple s = (bs, bp, bo).
Definition st_tokens (s : statement) : list nt_lexed := [st_s s; st_p s; st_o s; st_dot s].
Definition is_comment (t : nt_lexed) : bool := match nt_tok t with Some NComment => true | _ => false end.
(** what is reported for a statement: literals as subject, anything but an IRI as predicate *)
Definition at_token (t : nt_lexed) (m : nt_message) : nt_error := mknterr (nt_start t) (nt_end t) m.
Definition st_errors (s : statement) : list nt_error :=
  (match nt_tok (st_s s) with Some (NLiteral _) => [at_token (st_s s) ExpectedNode_FoundLiteral] | _ => [] end) ++
  (match nt_tok (st_p s) with
   | Some (NLiteral _) => [at_token (st_p s) ExpectedNode_FoundLiteral]
   | Some (NBlank _) => [at_token (st_p s) ExpectedNode_FoundBlank]
   | _ => [] end).
(** a statement as the N-Triples grammar has it *)
Definition st_grammatical (s : statement) : Prop :=
  (exists b, nt_tok (st_s s) = Some (NIri b) \/ nt_tok (st_s s) = Some (NBlank b)) /\ (exists b, nt_tok (st_p s) = Some (NIri b)).

Definition sig (toks : list nt_lexed) := filter (fun t => negb (is_comment t)) toks.

(** ** proofs *)
Lemma nt_loop_comments toks : forall c s p ts es, nt_loop toks c s p ts es = nt_loop (sig toks) c s p ts es.
Proof.
  induction toks as [|t r IH]; intros c s p ts es; [reflexivity|]. cbn [sig filter]. unfold is_comment at 1.
  destruct (nt_tok t) as [[]|] eqn:E; cbn [negb]; cbn [nt_loop]; rewrite E; try apply IH; try reflexivity;
    destruct c as [|[|[|[|c]]]]; try reflexivity; try (rewrite IH; reflexivity).
Qed.
Lemma nt_statements sts : Forall st_ok sts -> forall s p ts es,
  nt_loop (flat_map st_tokens sts) 0 s p ts es = Some (ts ++ map st_triple sts, es ++ flat_map st_errors sts).
Proof.
  induction 1 as [|st sts H _ IH]; intros s p ts es; [cbn; now rewrite !app_nil_r|].
  destruct H as (ks & kp & ko & bs & bp & bo & E1 & E2 & E3 & E4 & T1 & T2 & T3 & Et).
  cbn [flat_map st_tokens app map]. rewrite Et. unfold st_errors at 1. rewrite E1, E2. cbn [nt_loop].
  rewrite E1. destruct ks; cbn in T1; try discriminate; injection T1 as <-.
  all: rewrite E2; destruct kp; cbn in T2; try discriminate; injection T2 as <-.
  all: rewrite E3; destruct ko; cbn in T3; try discriminate; injection T3 as <-.
  all: rewrite E4, IH; rewrite <- ?app_assoc; reflexivity.
Qed.
Ltac tok t E := destruct (nt_tok t) as [[]|] eqn:E; try discriminate.
Lemma nt_inv n : forall toks, length toks <= n -> (forall t, In t toks -> is_comment t = false) -> forall s p ts es r,
  nt_loop toks 0 s p ts es = Some r -> exists sts, Forall st_ok sts /\ toks = flat_map st_tokens sts.
Proof.
  induction n as [|n IH]; intros toks Hn Hc s p ts es r H.
  - destruct toks; [|cbn in Hn; lia]. exists []. auto.
  - destruct toks as [|a toks]; [exists []; auto|].
    assert (Ca : is_comment a = false) by (apply Hc; now left). unfold is_comment in Ca.
    destruct toks as [|b toks]; [cbn [nt_loop] in H; tok a Ea|].
    assert (Cb : is_comment b = false) by (apply Hc; right; now left). unfold is_comment in Cb.
    destruct toks as [|c toks]; [cbn [nt_loop] in H; tok a Ea; tok b Eb|].
    assert (Cc : is_comment c = false) by (apply Hc; right; right; now left). unfold is_comment in Cc.
    destruct toks as [|d toks]; [cbn [nt_loop] in H; tok a Ea; tok b Eb; tok c Ec|].
    assert (Cd : is_comment d = false) by (apply Hc; right; right; right; now left). unfold is_comment in Cd.
    assert (K : exists ba bb bc s' p' ts' es', term_bytes (match nt_tok a with Some k => k | None => NDot end) = Some ba /\
       term_bytes (match nt_tok b with Some k => k | None => NDot end) = Some bb /\
       term_bytes (match nt_tok c with Some k => k | None => NDot end) = Some bc /\ nt_tok d = Some NDot /\ nt_loop toks 0 s' p' ts' es' = Some r).
    { cbn [nt_loop] in H. tok a Ea; tok b Eb; tok c Ec; tok d Ed; cbn [term_bytes]; do 7 eexists; repeat (split; [reflexivity|]); exact H. }
    destruct K as (ba & bb & bc & s' & p' & ts' & es' & Ta & Tb & Tc & Td & K).
    destruct (IH toks ltac:(cbn in Hn; lia) (fun t Ht => Hc t (or_intror (or_intror (or_intror (or_intror Ht))))) _ _ _ _ _ K) as (sts & Hs & ->).
    exists (mkst a b c d (ba, bb, bc) :: sts). split; [|reflexivity]. constructor; [|exact Hs].
    destruct (nt_tok a) as [ka|] eqn:Ea; [|discriminate]. destruct (nt_tok b) as [kb|] eqn:Eb; [|discriminate]. destruct (nt_tok c) as [kc|] eqn:Ec; [|discriminate].
    exists ka, kb, kc, ba, bb, bc. cbn. repeat split; assumption.
Qed.

(** ** C24 *)
(** accepted are exactly the token sequences that are, comments aside, a sequence of statements
    term term term dot; the triples are theirs, in order, with the tokens' bytes, and the errors are
    exactly the misplaced terms, with their spans *)
Theorem C24_parse_exact : forall toks triples errors,
  nt_parse toks = Some (triples, errors) <->
  exists sts, Forall st_ok sts /\ filter (fun t => negb (is_comment t)) toks = flat_map st_tokens sts /\
    triples = map st_triple sts /\ errors = flat_map st_errors sts.
Proof.
  intros toks triples errors. unfold nt_parse. rewrite nt_loop_comments. fold (sig toks). split.
  - intros H. assert (Hc : forall t, In t (sig toks) -> is_comment t = false).
    { intros t Ht. apply filter_In in Ht as [_ Ht]. now apply negb_true_iff in Ht. }
    destruct (nt_inv _ _ (Nat.le_refl _) Hc _ _ _ _ _ H) as (sts & Hs & E).
    exists sts. split; [exact Hs|]. split; [exact E|]. clear Hc. rewrite E, (nt_statements sts Hs) in H. cbn in H. injection H as <- <-. auto.
  - intros (sts & Hs & E & -> & ->). change (sig toks = flat_map st_tokens sts) in E. rewrite E, (nt_statements sts Hs). reflexivity.
Qed.
(** nothing is reported exactly when every statement is grammatical *)
Theorem C24_no_errors_iff_grammatical : forall sts, Forall st_ok sts ->
  flat_map st_errors sts = [] <-> Forall st_grammatical sts.
Proof.
  induction 1 as [|st sts H _ IH]; [split; [constructor|reflexivity]|].
  destruct H as (ks & kp & ko & bs & bp & bo & E1 & E2 & E3 & E4 & T1 & T2 & T3 & Et).
  cbn [flat_map]. unfold st_errors at 1. rewrite E1, E2. split.
  - intros K. apply app_eq_nil in K as [K K']. apply IH in K'. constructor; [|exact K'].
    unfold st_grammatical. rewrite E1, E2. destruct ks; cbn in T1; try discriminate; destruct kp; cbn in T2; try discriminate; try discriminate K; split; eauto.
  - intros K. inversion K as [|? ? [(b & G1) (b' & G2)] K']; subst. rewrite E1, E2 in *.
    apply IH in K'. rewrite K'. destruct G1 as [G1|G1]; injection G1 as ->; injection G2 as ->; reflexivity.
Qed.
(** an unfinished last statement is refused *)
Theorem C24_incomplete_refused : forall sts toks rest, Forall st_ok sts ->
  filter (fun t => negb (is_comment t)) toks = flat_map st_tokens sts ++ rest -> 0 < length rest < 4 -> nt_parse toks = None.
Proof.
  intros sts toks rest _ E Hr. destruct (nt_parse toks) as [[ts es]|] eqn:P; [|reflexivity]. exfalso.
  apply C24_parse_exact in P as (sts' & _ & E' & _).
  assert (L : forall l, length (flat_map st_tokens l) = 4 * length l).
  { induction l as [|x l IH]; [reflexivity|]. cbn [flat_map]. rewrite app_length, IH. cbn. lia. }
  rewrite E in E'. apply (f_equal (@length _)) in E'. rewrite app_length, !L in E'. lia.
Qed.
(** a text with a part no token matches is refused *)
Theorem C24_bad_token_refused : forall toks t, In t toks -> nt_tok t = None -> nt_parse toks = None.
Proof.
  intros toks t Ht E. destruct (nt_parse toks) as [[ts es]|] eqn:P; [|reflexivity]. exfalso.
  apply C24_parse_exact in P as (sts & Hs & E' & _).
  assert (K : In t (flat_map st_tokens sts)) by (rewrite <- E'; apply filter_In; split; [exact Ht|unfold is_comment; rewrite E; reflexivity]).
  apply in_flat_map in K as (st & Hst & K). rewrite Forall_forall in Hs.
  destruct (Hs st Hst) as (ks & kp & ko & bs & bp & bo & E1 & E2 & E3 & E4 & _).
  destruct K as [<-|[<-|[<-|[<-|[]]]]]; congruence.
Qed.
Example C24_witness : nt_parse [mknt (Some NComment) 0 1; mknt (Some (NLiteral [34; 34]%N)) 1 3; mknt (Some NComment) 3 4;
    mknt (Some (NIri [60; 62]%N)) 4 6; mknt (Some (NBlank [95]%N)) 6 7; mknt (Some NDot) 7 8] =
  Some ([([34; 34], [60; 62], [95])%N], [mknterr 1 3 ExpectedNode_FoundLiteral]).
Proof. reflexivity. Qed.
