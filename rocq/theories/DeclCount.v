(** How often a tree declares a prefix. *)
From Coq Require Import String List Arith NArith Bool Lia Sorted.
Import ListNotations.
From Verif Require DiagRest.
From Verif Require Import ServerModel Kinds KindFacts ParserModel GrammarData
  TextModel TextSpec TextProofs LexerRegex LexerModel LexerSpec LexerProps FormatData FormatModel FormatTree FormatText FormatParse FormatWeave
  TreeModel TreePlace TreeShape TreeRename VarModel VarSpec VarRegions VarDoc LexRename VarProps DiagModel DiagSpec AstFacts DiagFacts LexLayout LayoutProps LexInsert PrologueRun PrologueSwap QuickFixModel QuickFixFacts CoverFacts.

Definition labelled (w u : text) : bool := text_eqb (firstn (S (length w)) u) (w ++ [COLON]) && forallb (fun c => negb (N.eqb c COLON)) w.
Lemma labelled_iff w u : labelled w u = true <-> prefix_part u w.
Proof.
  unfold labelled. rewrite andb_true_iff. split.
  - intros [H1 H2]. apply DiagRest.text_eqb_iff in H1. exists (skipn (S (length w)) u). split.
    + rewrite <- (firstn_skipn (S (length w)) u) at 1. rewrite H1, <- app_assoc. reflexivity.
    + intros K. rewrite forallb_forall in H2. specialize (H2 _ K). rewrite N.eqb_refl in H2. discriminate.
  - intros (r & -> & N). split.
    + apply DiagRest.text_eqb_iff. change (w ++ COLON :: r) with (w ++ [COLON] ++ r). rewrite app_assoc. replace (S (length w)) with (length (w ++ [COLON])) by (rewrite app_length; cbn; lia). apply firstn_exact.
    + apply forallb_forall. intros c Hc. apply negb_true_iff, N.eqb_neq. intros ->. contradiction.
Qed.
Fixpoint total (l : list nat) : nat := match l with [] => 0 | n :: l => n + total l end.
Lemma total_app a b : total (a ++ b) = total a + total b.
Proof. induction a as [|n a IH]; [reflexivity|]. cbn [app total]. lia. Qed.
Definition hit (w : text) (k : kind) (cs : list tree) : bool :=
  kind_eqb k K_PrefixDecl && existsb (fun c => match c with Tok a u => kind_eqb a K_PNAME_NS && labelled w u | Node _ _ => false end) cs.
Fixpoint hits (w : text) (x : tree) : nat := match x with Tok _ _ => 0 | Node k cs => (if hit w k cs then 1 else 0) + total (map (hits w) cs) end.
Definition hit_at (w : text) (x : tree) (p : path) : bool := match at_path x p with Some (Node k cs) => hit w k cs | _ => false end.
Lemma hit_iff w k cs : hit w k cs = true <-> k = K_PrefixDecl /\ exists u, In (Tok K_PNAME_NS u) cs /\ prefix_part u w.
Proof.
  unfold hit. rewrite andb_true_iff, kind_eqb_eq, existsb_exists. split; intros [-> H]; (split; [reflexivity|]).
  - destruct H as ([a u|a ds] & Hin & H); [|discriminate]. apply andb_true_iff in H as [H1 H2]. apply kind_eqb_eq in H1. subst a. apply labelled_iff in H2. eauto.
  - destruct H as (u & Hin & H). exists (Tok K_PNAME_NS u). split; [exact Hin|]. cbn. apply labelled_iff, H.
Qed.
Lemma hit_at_iff w x p : hit_at w x p = true <-> declares x p w.
Proof.
  unfold hit_at, declares, node_at. split.
  - destruct (at_path x p) as [[k u|k cs]|] eqn:E; try discriminate. intros H. apply hit_iff in H as (-> & u & Hin & H). split; [eauto|]. apply In_nth_error in Hin as [i Ei]. exists i, u. split; [|exact H]. rewrite (AstFacts.at_child _ _ _ _ _ E). exact Ei.
  - intros [[cs E] (i & u & Ei & H)]. rewrite E. apply hit_iff. split; [reflexivity|]. exists u. split; [|exact H]. rewrite (AstFacts.at_child _ _ _ _ _ E) in Ei. eapply nth_error_In, Ei.
Qed.
Lemma hits_count w x : hits w x = length (filter (hit_at w x) (node_paths x)).
Proof.
  induction x as [k u|k cs IH] using tree_ind'; [reflexivity|]. cbn [node_paths hits filter]. unfold hit_at at 1. cbn [at_path].
  assert (G : forall l m i, cs = l ++ m -> length l = i -> total (map (hits w) m) = length (filter (hit_at w (Node k cs)) (concat (imap (fun i c => map (cons i) (node_paths c)) i m)))).
  { intros l m. revert l. induction m as [|c m IHm]; intros l i E L; [reflexivity|]. cbn [map imap concat total]. rewrite filter_app, app_length. f_equal.
    - assert (nth_error cs i = Some c) as Ei by (rewrite E, nth_error_app2, L, Nat.sub_diag by lia; reflexivity). rewrite (nth_error_Forall _ _ _ _ IH Ei). clear -Ei. induction (node_paths c) as [|p l IH]; [reflexivity|]. cbn [map filter]. assert (hit_at w (Node k cs) (i :: p) = hit_at w c p) as -> by (unfold hit_at; cbn [at_path]; rewrite Ei; reflexivity). destruct (hit_at w c p); cbn [length]; rewrite IH; reflexivity.
    - apply (IHm (l ++ [c])); [rewrite <- app_assoc; exact E|rewrite app_length; cbn; lia]. }
  rewrite (G [] cs 0 eq_refl eq_refl). destruct (hit w k cs); reflexivity.
Qed.
Lemma sorted_nodup (l : list path) : StronglySorted doc_before l -> NoDup l.
Proof. induction 1 as [|p l _ IH F]; constructor; [|exact IH]. intros H. rewrite Forall_forall in F. specialize (F _ H). clear -F. induction p as [|i p IHp]; inversion F; subst; [lia|auto]. Qed.
Lemma declares_listed w x p : In p (filter (hit_at w x) (node_paths x)) <-> declares x p w.
Proof. rewrite filter_In, hit_at_iff, in_node_paths. split; [tauto|]. intros H. split; [exists K_PrefixDecl; apply H|exact H]. Qed.
Lemma hits_pos w x : 0 < hits w x <-> exists p, declares x p w.
Proof.
  rewrite hits_count. split.
  - destruct (filter _ _) as [|p l] eqn:E; [cbn; lia|]. intros _. exists p. apply declares_listed. rewrite E. left. reflexivity.
  - intros [p H]. apply declares_listed in H. destruct (filter _ _); [destruct H|cbn; lia].
Qed.
Lemma hits_more w x p : declares x p w -> 1 < hits w x <-> exists q, q <> p /\ declares x q w.
Proof.
  intros H. rewrite hits_count. pose proof (DiagFacts.NoDup_filter (hit_at w x) _ (sorted_nodup _ (node_paths_sorted x))) as ND. apply declares_listed in H. split.
  - intros L. destruct (filter (hit_at w x) (node_paths x)) as [|a [|b l]] eqn:E; [cbn in L; lia|cbn in L; lia|].
    assert (a <> b) as Nab by (intros ->; inversion ND as [|? ? X _]; apply X; left; reflexivity).
    destruct (list_eq_dec Nat.eq_dec p a) as [->|N].
    + exists b. split; [congruence|]. apply declares_listed. rewrite E. right. left. reflexivity.
    + exists a. split; [congruence|]. apply declares_listed. rewrite E. left. reflexivity.
  - intros (q & N & Hq). apply declares_listed in Hq. destruct (filter (hit_at w x) (node_paths x)) as [|a [|b l]]; [destruct H| |cbn; lia]. destruct H as [<-|[]], Hq as [<-|[]]. congruence.
Qed.
Lemma hits_bare w x : hits w (bare same x) = hits w x.
Proof.
  induction x as [k u|k cs IH] using tree_ind'; [reflexivity|]. destruct (bare_node k cs) as [l El]. rewrite El. cbn [hits]. f_equal.
  - pose proof (in_bare k cs) as B. rewrite El in B. assert (hit w k l = hit w k cs) as ->; [|reflexivity]. apply eq_true_iff_eq. rewrite !hit_iff. split; intros (-> & u & Hin & H); (split; [reflexivity|]); exists u; (split; [|exact H]).
    + apply B in Hin as (c & Hc & Ec & _). destruct c as [a b|a b]; [|discriminate]. cbn in Ec. injection Ec as <- <-. exact Hc.
    + apply B. exists (Tok K_PNAME_NS u). split; [exact Hin|]. split; [reflexivity|]. intros a b X. injection X as <- <-. reflexivity.
  - cbn [bare] in El. injection El as <-. induction IH as [|c cs H _ IHc]; [reflexivity|]. cbn [flat_map map total]. rewrite map_app, total_app, IHc. f_equal. destruct c as [a b|a b]; [destruct (trivial (a, b)); reflexivity|]. cbn [map total]. rewrite H. lia.
Qed.
Lemma hits_put w d x u cs : x = Node u cs -> u <> K_PrefixDecl -> hits w (with_decl d x) = hits w d + hits w x.
Proof.
  assert (Z : forall k l, k <> K_PrefixDecl -> hit w k l = false) by (intros k l N; unfold hit; destruct (kind_eqb_spec k K_PrefixDecl); [congruence|reflexivity]).
  intros -> N. assert (NQ : K_Query <> K_PrefixDecl) by discriminate. assert (NP : K_Prologue <> K_PrefixDecl) by discriminate.
  destruct cs as [|[a b|q qs] rest]; cbn [with_decl].
  - cbn [hits map total]. rewrite !Z by assumption. lia.
  - cbn [hits map total]. rewrite !Z by assumption. lia.
  - destruct (kind_eqb_spec q K_Query) as [->|Nq].
    + destruct qs as [|[a b|k ds] qs]; [| |destruct (kind_eqb_spec k K_Prologue) as [->|Nk]]; cbn [hits map total]; rewrite ?(Z u), ?(Z K_Query), ?(Z K_Prologue) by assumption; lia.
    + cbn [hits map total]. rewrite ?(Z u), ?(Z K_Query), ?(Z K_Prologue) by assumption. lia.
Qed.
(** ** declarations in front *)
Lemma put_root d u cs : exists l, with_decl d (Node u cs) = Node u l.
Proof. destruct cs as [|[a b|q qs] rest]; cbn [with_decl]; eauto. destruct (kind_eqb q K_Query); [|eauto]. destruct qs as [|[a b|k ds] qs]; eauto. destruct (kind_eqb k K_Prologue); eauto. Qed.
Lemma puts_root ys u cs : exists l, with_decls ys (Node u cs) = Node u l.
Proof. induction ys as [|y ys [l IH]]; [exists cs; reflexivity|]. unfold with_decls in *. cbn [fold_right]. rewrite IH. apply put_root. Qed.
Lemma puts_tok ys k w : with_decls ys (Tok k w) = Tok k w.
Proof. induction ys as [|y ys IH]; [reflexivity|]. unfold with_decls in *. cbn [fold_right]. rewrite IH. reflexivity. Qed.
Lemma puts_rooted ys z u l : with_decls ys z = Node u l -> exists cs, z = Node u cs.
Proof. destruct z as [k w|k cs]; [rewrite puts_tok; discriminate|]. destruct (puts_root ys k cs) as [l' ->]. intros E. injection E as -> _. eauto. Qed.
Lemma hits_puts w ys u cs : u <> K_PrefixDecl -> hits w (with_decls ys (Node u cs)) = total (map (hits w) ys) + hits w (Node u cs).
Proof.
  intros N. induction ys as [|y ys IH]; [reflexivity|]. destruct (puts_root ys u cs) as [l El]. change (with_decls (y :: ys) (Node u cs)) with (with_decl y (with_decls ys (Node u cs))). rewrite (hits_put _ _ _ _ _ El N), IH. cbn [map total]. lia.
Qed.
Lemma sub_decl DLs ys y k cs : Forall2 declaration DLs ys -> In y ys -> k <> K_PrefixDecl -> k <> K_BaseDecl -> k <> K_VersionDecl -> k <> K_VersionSpecifier -> ~ sub y (Node k cs).
Proof.
  intros F Hin N1 N2 N3 N4 S. apply (forall2_in _ _ _ _ F) in Hin as (dl & _ & H). destruct H as [a b|a b c|k' a b _]; apply sub_node in S as [S|(d & Hd & S)]; try (injection S as -> _; congruence).
  - destruct Hd as [<-|[<-|[]]]; apply sub_tok in S; discriminate.
  - destruct Hd as [<-|[<-|[<-|[]]]]; apply sub_tok in S; discriminate.
  - destruct Hd as [<-|[<-|[]]]; [apply sub_tok in S; discriminate|]. apply sub_node in S as [S|(d & [<-|[]] & S)]; [injection S as -> _; congruence|apply sub_tok in S; discriminate].
Qed.
Lemma sub_puts DLs ys cs k l : Forall2 declaration DLs ys -> ~ In k [K_QueryUnit; K_Query; K_Prologue; K_PrefixDecl; K_BaseDecl; K_VersionDecl; K_VersionSpecifier] -> sub (with_decls ys (Node K_QueryUnit cs)) (Node k l) <-> sub (Node K_QueryUnit cs) (Node k l).
Proof.
  intros F N. induction F as [|dl y DLs ys H F IH]; [reflexivity|]. destruct (puts_root ys K_QueryUnit cs) as [l' El]. change (with_decls (y :: ys) (Node K_QueryUnit cs)) with (with_decl y (with_decls ys (Node K_QueryUnit cs))). rewrite sub_with_decl.
  - rewrite IH. split; [|auto]. intros [S|S]; [|exact S]. exfalso. eapply (sub_decl (dl :: DLs) (y :: ys)); [constructor; eassumption|left; reflexivity| | | | |exact S]; intros ->; apply N; cbn; tauto.
  - cbn in N |- *. tauto.
  - intros u m E X. rewrite El in E. injection E as <- _. apply N. left. congruence.
  - rewrite El. eauto.
Qed.
Lemma used_puts DLs ys cs w : Forall2 declaration DLs ys -> used (with_decls ys (Node K_QueryUnit cs)) w <-> used (Node K_QueryUnit cs) w.
Proof. intros F. unfold used. split; intros (l & S & H); exists l; (split; [|exact H]); eapply (sub_puts DLs ys cs); eauto; cbn; intros K; repeat destruct K as [K|K]; try discriminate; destruct K. Qed.
Lemma used_in_select_puts DLs ys cs w : Forall2 declaration DLs ys -> used_in_select (with_decls ys (Node K_QueryUnit cs)) w <-> used_in_select (Node K_QueryUnit cs) w.
Proof. intros F. unfold used_in_select. split; intros (l & S & H); exists l; (split; [|exact H]); eapply (sub_puts DLs ys cs); eauto; cbn; intros K; repeat destruct K as [K|K]; try discriminate; destruct K. Qed.
