(** Derivations: height-indexed form, normal forms, change of grammar, words. *)
From Coq Require Import List Arith Bool Lia.
Import ListNotations.
From Verif Require Import Kinds KindFacts GrammarSpec ParserSyntax GrammarData UngramData ParserModel ParserChecks ParserLL.

Lemma gexp_eqb_eq a : forall b, gexp_eqb a b = true -> a = b.
Proof.
  induction a; intros [] H; cbn in H; try discriminate; try reflexivity.
  - now apply kind_eqb_eq in H as ->.
  - now apply kind_eqb_eq in H as ->.
  - apply andb_true_iff in H as [H1 H2]. now rewrite (IHa1 _ H1), (IHa2 _ H2).
  - apply andb_true_iff in H as [H1 H2]. now rewrite (IHa1 _ H1), (IHa2 _ H2).
  - now rewrite (IHa _ H).
  - now rewrite (IHa _ H).
Qed.

(** ** derivations of height at most [n] *)
Section Derivations.
  Context (G : kind -> option gexp).
  Inductive dh : nat -> gexp -> list tree -> Prop :=
  | h_eps : forall n, dh n GEps []
  | h_tok : forall n k, dh n (GTok k) [Leaf k]
  | h_node : forall n r e ts, G r = Some e -> dh n e ts -> ts <> [] -> dh (S n) (GNode r) [Node r ts]
  | h_node_empty : forall n r e, G r = Some e -> dh n e [] -> dh (S n) (GNode r) []
  | h_seq : forall n a b u v, dh n a u -> dh n b v -> dh n (GSeq a b) (u ++ v)
  | h_alt_l : forall n a b ts, dh n a ts -> dh n (GAlt a b) ts
  | h_alt_r : forall n a b ts, dh n b ts -> dh n (GAlt a b) ts
  | h_opt_none : forall n a, dh n (GOpt a) []
  | h_opt_some : forall n a ts, dh n a ts -> dh n (GOpt a) ts
  | h_rep_nil : forall n a, dh n (GRep a) []
  | h_rep_cons : forall n a u v, dh n a u -> dh n (GRep a) v -> dh n (GRep a) (u ++ v).

  Lemma dh_mono n e ts : dh n e ts -> forall m, n <= m -> dh m e ts.
  Proof.
    induction 1 as [n|n k|n r e ts HG H IH Hne|n r e HG H IH|n a b u v H1 IH1 H2 IH2|n a b ts H IH|n a b ts H IH|n a|n a ts H IH|n a|n a u v H1 IH1 H2 IH2];
      intros m Hm; try (destruct m as [|m]; [lia|]).
    all: try (solve [constructor; auto]).
    - eapply h_node; [eassumption|apply IH; lia|assumption].
    - eapply h_node_empty; [eassumption|apply IH; lia].
  Qed.
  Lemma derives_dh e ts : derives G e ts -> exists n, dh n e ts.
  Proof.
    induction 1 as [|k|r e ts HG H [n IH] Hne|r e HG H [n IH]|a b u v H1 [n1 IH1] H2 [n2 IH2]|a b ts H [n IH]|a b ts H [n IH]|a|a ts H [n IH]|a|a u v H1 [n1 IH1] H2 [n2 IH2]].
    - exists 0. constructor.
    - exists 0. constructor.
    - exists (S n). econstructor; eassumption.
    - exists (S n). eapply h_node_empty; eassumption.
    - exists (n1 + n2). constructor; eapply dh_mono; try eassumption; lia.
    - exists n. now constructor.
    - exists n. now apply h_alt_r.
    - exists 0. constructor.
    - exists n. now apply h_opt_some.
    - exists 0. constructor.
    - exists (n1 + n2). apply h_rep_cons; eapply dh_mono; try eassumption; lia.
  Qed.
  Lemma dh_derives n e ts : dh n e ts -> derives G e ts.
  Proof.
    induction 1; try (econstructor; eassumption).
  Qed.

  (** a derived forest is empty iff it derives the empty word *)
  Lemma dh_nonempty n e ts : dh n e ts -> Forall (fun t => leaves t <> []) ts.
  Proof.
    induction 1 as [n|n k|n r e ts HG H IH Hne|n r e HG H IH|n a b u v H1 IH1 H2 IH2|n a b ts H IH|n a b ts H IH|n a|n a ts H IH|n a|n a u v H1 IH1 H2 IH2];
      try constructor; auto; try discriminate.
    - cbn. destruct IH as [|t ts Ht _]; [congruence|]. cbn. intros E. apply app_eq_nil in E as [E _]. now apply Ht.
    - apply Forall_app; auto.
    - apply Forall_app; auto.
  Qed.
  Lemma dh_leaves_nil n e ts : dh n e ts -> flat_map leaves ts = [] -> ts = [].
  Proof.
    intros H E. apply dh_nonempty in H. destruct H as [|t ts Ht _]; [reflexivity|].
    cbn in E. apply app_eq_nil in E as [E _]. now apply Ht in E.
  Qed.
End Derivations.

(** ** trees and words *)
Lemma derives_matches G e ts : derives G e ts -> matches G e (flat_map leaves ts).
Proof.
  induction 1 as [|k|r e ts HG H IH Hne|r e HG H IH|a b u v H1 IH1 H2 IH2|a b ts H IH|a b ts H IH|a|a ts H IH|a|a u v H1 IH1 H2 IH2].
  - constructor.
  - constructor.
  - cbn. rewrite app_nil_r. econstructor; eassumption.
  - econstructor; eassumption.
  - rewrite flat_map_app. now constructor.
  - now constructor.
  - now apply m_alt_r.
  - constructor.
  - now apply m_opt_some.
  - constructor.
  - rewrite flat_map_app. now apply m_rep_cons.
Qed.
Lemma matches_derives G e w : matches G e w -> exists ts, derives G e ts /\ flat_map leaves ts = w.
Proof.
  induction 1 as [|k|r e w HG H (ts & D & E)|a b u v H1 (t1 & D1 & E1) H2 (t2 & D2 & E2)|a b w H (ts & D & E)|a b w H (ts & D & E)|a|a w H (ts & D & E)|a|a u v H1 (t1 & D1 & E1) H2 (t2 & D2 & E2)].
  - exists []. split; [constructor|reflexivity].
  - exists [Leaf k]. split; [constructor|reflexivity].
  - destruct ts as [|t ts].
    + exists []. split; [eapply d_node_empty; eassumption|assumption].
    + exists [Node r (t :: ts)]. split; [eapply d_node; [eassumption..|discriminate]|]. cbn in *. now rewrite app_nil_r.
  - exists (t1 ++ t2). split; [now constructor|]. now rewrite flat_map_app, E1, E2.
  - exists ts. split; [now constructor|assumption].
  - exists ts. split; [now apply d_alt_r|assumption].
  - exists []. split; [constructor|reflexivity].
  - exists ts. split; [now apply d_opt_some|assumption].
  - exists []. split; [constructor|reflexivity].
  - exists (t1 ++ t2). split; [now apply d_rep_cons|]. now rewrite flat_map_app, E1, E2.
Qed.

(** ** normal forms derive the same forests *)
Section Norm.
  Context (G : kind -> option gexp).
  Notation D := (derives G).
  Lemma d_seq_inv a b ts : D (GSeq a b) ts -> exists u v, ts = u ++ v /\ D a u /\ D b v.
  Proof. inversion 1; subst; eauto. Qed.
  Lemma d_alt_inv a b ts : D (GAlt a b) ts -> D a ts \/ D b ts.
  Proof. inversion 1; subst; auto. Qed.
  Lemma d_eps_inv ts : D GEps ts -> ts = [].
  Proof. inversion 1; reflexivity. Qed.

  Lemma gseq_derives a : forall b ts, D (gseq a b) ts <-> D (GSeq a b) ts.
  Proof.
    assert (Hdef : forall a b ts, D (match b with GEps => a | _ => GSeq a b end) ts <-> D (GSeq a b) ts).
    { intros a0 b ts. destruct b; try reflexivity. split.
      - intros H. rewrite <- (app_nil_r ts). constructor; [assumption|constructor].
      - intros H. apply d_seq_inv in H as (u & v & -> & Hu & Hv). apply d_eps_inv in Hv as ->. now rewrite app_nil_r. }
    induction a; intros b ts; try apply Hdef.
    - cbn. split.
      + intros H. change ts with ([] ++ ts). constructor; [constructor|assumption].
      + intros H. apply d_seq_inv in H as (u & v & -> & Hu & Hv). now apply d_eps_inv in Hu as ->.
    - cbn. split.
      + intros H. apply d_seq_inv in H as (u & v & -> & Hu & Hv). apply IHa2 in Hv.
        apply d_seq_inv in Hv as (u2 & v2 & -> & Hu2 & Hv2). rewrite app_assoc. constructor; [now constructor|assumption].
      + intros H. apply d_seq_inv in H as (u & v & -> & Hu & Hv). apply d_seq_inv in Hu as (u1 & u2 & -> & Hu1 & Hu2).
        rewrite <- app_assoc. constructor; [assumption|]. apply IHa2. now constructor.
  Qed.
  Lemma galt_derives a : forall b ts, D (galt a b) ts <-> D (GAlt a b) ts.
  Proof.
    induction a; intros b ts; try reflexivity. cbn. split.
    - intros H. apply d_alt_inv in H as [H|H]; [now do 2 constructor|]. apply IHa2, d_alt_inv in H as [H|H].
      + constructor. now apply d_alt_r.
      + now apply d_alt_r.
    - intros H. apply d_alt_inv in H as [H|H].
      + apply d_alt_inv in H as [H|H]; [now constructor|]. apply d_alt_r, IHa2. now constructor.
      + apply d_alt_r, IHa2. now apply d_alt_r.
  Qed.
  Lemma rep_ext a b : (forall ts, D a ts -> D b ts) -> forall ts, D (GRep a) ts -> D (GRep b) ts.
  Proof.
    intros H ts K. remember (GRep a) as e eqn:Ee. induction K; try discriminate; injection Ee as ->.
    - constructor.
    - apply d_rep_cons; [now apply H|now apply IHK2].
  Qed.
  Lemma norm_derives e : forall ts, D (norm e) ts <-> D e ts.
  Proof.
    induction e; intros ts; cbn [norm]; try reflexivity.
    - rewrite gseq_derives. split; intros H; apply d_seq_inv in H as (u & v & -> & Hu & Hv);
        (constructor; [now apply IHe1|now apply IHe2]).
    - rewrite galt_derives. split; intros H; apply d_alt_inv in H as [H|H];
        solve [apply d_alt_l; now apply IHe1|apply d_alt_r; now apply IHe2].
    - split; inversion 1; subst; solve [constructor | apply d_opt_some; now apply IHe].
    - split; apply rep_ext; intros; now apply IHe.
  Qed.
End Norm.

(** ** the statements denote the .ungram grammar *)
Lemma derives_change G H :
  (forall r e, G r = Some e -> exists e', H r = Some e' /\ (forall ts, derives H e ts -> derives H e' ts)) ->
  forall e ts, derives G e ts -> derives H e ts.
Proof.
  intros HGH e ts D.
  induction D as [|k|r e ts HG D IH Hne|r e HG D IH|a b u v D1 IH1 D2 IH2|a b ts D IH|a b ts D IH|a|a ts D IH|a|a u v D1 IH1 D2 IH2];
    try (constructor; assumption); try (now apply d_alt_r); try (now apply d_opt_some); try (now apply d_rep_cons).
  - destruct (HGH r e HG) as (e' & E & K). eapply d_node; [eassumption|now apply K|assumption].
  - destruct (HGH r e HG) as (e' & E & K). eapply d_node_empty; [eassumption|now apply K].
Qed.
Lemma denoted_grammar e ts : derives denoted e ts <-> derives sparql_grammar e ts.
Proof.
  split; apply derives_change; clear e ts; intros r e E; pose proof (grammar_agrees_ok r) as A; unfold grammar_agrees in A; rewrite E in A.
  - destruct (sparql_grammar r) as [e'|]; [|discriminate]. exists e'. split; [reflexivity|]. apply gexp_eqb_eq in A.
    intros ts D. rewrite <- norm_derives, <- A. now apply norm_derives.
  - destruct (denoted r) as [e'|]; [|discriminate]. exists e'. split; [reflexivity|]. apply gexp_eqb_eq in A.
    intros ts D. rewrite <- norm_derives, A. now apply norm_derives.
Qed.

(** ** nullable and FIRST are sound *)
Lemma rule_table r e : denoted r = Some e ->
  NT r = nul NT e /\ (forall k, In k (first NT FT e) -> In k (FT r)).
Proof.
  unfold denoted. destruct (rule_of r) as [R|] eqn:ER; [|discriminate]. intros [= <-].
  apply chk_rules_ok in ER. unfold chk_rule in ER. rewrite !andb_true_iff in ER.
  destruct ER as [[[[[_ _] A] B] _] _]. split; [now apply eqb_prop in A|now apply subset_In].
Qed.
Lemma in_union k a b : In k (union a b) <-> In k a \/ In k b.
Proof.
  unfold union. induction a as [|x a IH]; cbn; [tauto|]. destruct (kind_in x _) eqn:E.
  - apply kind_in_In in E. rewrite IH in *. split; [tauto|]. intros [[<-|H]|H]; tauto.
  - cbn. rewrite IH. tauto.
Qed.
Lemma dh_nul n e ts : dh denoted n e ts -> ts = [] -> nul NT e = true.
Proof.
  induction 1 as [n|n k|n r e ts HG H IH Hne|n r e HG H IH|n a b u v H1 IH1 H2 IH2|n a b ts H IH|n a b ts H IH|n a|n a ts H IH|n a|n a u v H1 IH1 H2 IH2];
    intros E; cbn [nul]; try reflexivity; try discriminate.
  - apply rule_table in HG as [-> _]. now apply IH.
  - apply app_eq_nil in E as [E1 E2]. now rewrite IH1, IH2.
  - now rewrite IH.
  - rewrite IH by assumption. apply orb_true_r.
Qed.
Lemma dh_first n e ts : dh denoted n e ts -> forall k w, flat_map leaves ts = k :: w -> In k (first NT FT e).
Proof.
  induction 1 as [n|n k|n r e ts HG H IH Hne|n r e HG H IH|n a b u v H1 IH1 H2 IH2|n a b ts H IH|n a b ts H IH|n a|n a ts H IH|n a|n a u v H1 IH1 H2 IH2];
    intros k0 w E; cbn [first]; try discriminate.
  - injection E as <- _. now left.
  - cbn in E. rewrite app_nil_r in E. apply rule_table in HG as [_ K]. apply K. eapply IH; eassumption.
  - rewrite flat_map_app in E. destruct (flat_map leaves u) as [|k1 u'] eqn:Eu.
    + rewrite (dh_nul _ _ _ H1) by (eapply dh_leaves_nil; eassumption). apply in_union. right. eapply IH2; eassumption.
    + cbn in E. injection E as -> _. destruct (nul NT a); [apply in_union; left|]; eapply IH1; reflexivity.
  - apply in_union. left. eapply IH; eassumption.
  - apply in_union. right. eapply IH; eassumption.
  - eapply IH; eassumption.
  - rewrite flat_map_app in E. destruct (flat_map leaves u) as [|k1 u'] eqn:Eu.
    + cbn in E. eapply IH2; eassumption.
    + cbn in E. injection E as -> _. eapply IH1; reflexivity.
Qed.
