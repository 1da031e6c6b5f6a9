(** Renaming and the same-variable relation. *)
From Coq Require Import String List Arith NArith Bool Lia Relations Sorted.
Import ListNotations.
From Verif Require Import ServerModel Kinds KindFacts ParserModel GrammarData ParserOutcome
  TextModel TextSpec TextProofs TextProps LexerRegex LexerModel LexerSpec LexerProps FormatData FormatModel FormatTree FormatText
  TreeModel TreePlace TreeShape TreeKids VarModel VarUnion VarSpec VarRegions VarOcc VarDoc LexRename VarProps TreeRename RenameDoc.

(** ** a variable that is visible from outside is linked to the outside *)
Definition linked (x : tree) (name : text) := clos_refl_sym_trans _ (shares x name).
Definition quiet (x : tree) (p : path) : Prop := forall q, q <> [] -> ~ sub_select x (p ++ q).
Lemma quiet_scope x p : quiet x p -> forall u, scope x (p ++ u) = scope x p.
Proof.
  intros Hq u. induction u as [|i u IH] using rev_ind; [rewrite app_nil_r; reflexivity|]. rewrite app_assoc, scope_snoc.
  destruct (boundary x ((p ++ u) ++ [i])) eqn:B; [|exact IH]. exfalso. apply boundary_spec in B. rewrite <- app_assoc in B. apply (Hq (u ++ [i])); [|exact B]. destruct u; discriminate.
Qed.
(** no sub-select below a FILTER *)
Definition no_filter_select (x : tree) : Prop := forall p cs q, at_path x p = Some (Node K_Filter cs) -> ~ sub_select x (p ++ q).
(** what of the shape of a parsed tree matters here *)
Definition calm (x : tree) : Prop := forall p k cs q, at_path x p = Some (Node k cs) -> k = K_TriplesBlock \/ k = K_InlineData \/ k = K_Filter -> ~ sub_select x (p ++ q).
Lemma doc_calm err t x : doc_tree err t x -> no_filter_select x -> calm x.
Proof.
  intros D Hf p k cs q E [->|[-> | ->]]; [| |apply (Hf p cs q E)]; intros [ds Es].
  - pose proof under_triples_ok as H. apply andb_prop in H as [H H3]. apply andb_prop in H as [H1 H2]. apply kind_in_In in H2.
    pose proof (doc_below _ _ _ _ D H1 _ _ _ _ _ _ E H2 Es) as Hin. apply kind_in_In in Hin. rewrite Hin in H3. discriminate.
  - pose proof under_data_ok as H. apply andb_prop in H as [H H3]. apply andb_prop in H as [H1 H2]. apply kind_in_In in H2.
    pose proof (doc_below _ _ _ _ D H1 _ _ _ _ _ _ E H2 Es) as Hin. apply kind_in_In in Hin. rewrite Hin in H3. discriminate.
Qed.
Lemma calm_quiet x p k cs : calm x -> at_path x p = Some (Node k cs) -> k = K_TriplesBlock \/ k = K_InlineData \/ k = K_Filter -> quiet x p.
Proof. intros C E H q _. exact (C _ _ _ _ E H). Qed.
Lemma at_snoc x p k cs i c : at_path x p = Some (Node k cs) -> nth_error cs i = Some c -> at_path x (p ++ [i]) = Some c.
Proof. intros E Ec. rewrite at_path_app, E. cbn [at_path]. rewrite Ec. reflexivity. Qed.
Lemma plain_scope x p k cs i c : at_path x p = Some (Node k cs) -> nth_error cs i = Some c -> tkind c <> K_SubSelect -> scope x (p ++ [i]) = scope x p.
Proof.
  intros E Ec Hk. rewrite scope_snoc. destruct (boundary x (p ++ [i])) eqn:B; [|reflexivity]. exfalso. apply boundary_spec in B as [ds B].
  rewrite (at_snoc _ _ _ _ _ _ E Ec) in B. injection B as ->. apply Hk. reflexivity.
Qed.
Lemma cons_snoc (p : path) i q : p ++ i :: q = (p ++ [i]) ++ q.
Proof. rewrite <- app_assoc. reflexivity. Qed.
Lemma is_var_kind c : is_var c = true -> tkind c <> K_SubSelect.
Proof. unfold is_var, is_kind. intros H. apply andb_prop in H as [_ H]. destruct (kind_eqb_spec (tkind c) K_Var) as [E|]; [rewrite E; discriminate|discriminate]. Qed.
Lemma is_kind_eq k c : is_kind k c = true -> tkind c = k.
Proof. unfold is_kind. intros H. destruct (kind_eqb_spec (tkind c) k) as [E|]; [exact E|discriminate]. Qed.
Lemma node_eta c : is_node c = true -> exists ds, c = Node (tkind c) ds.
Proof. destruct c as [|k ds]; [discriminate|]. intros _. exists ds. reflexivity. Qed.
Lemma linked_child x name p k cs i c u : at_path x p = Some (Node k cs) -> nth_error cs i = Some c -> is_node c = true -> In u (visible c) -> name_at x (p ++ i :: u) = name ->
  linked x name (scope x ((p ++ [i]) ++ u)) (scope x (p ++ [i])) -> linked x name (scope x (p ++ i :: u)) (scope x p).
Proof.
  intros E Ec Hn Hu Hname H. rewrite (cons_snoc p i u) in Hname. rewrite (cons_snoc p i u). eapply rst_trans; [exact H|]. rewrite (scope_snoc x p i). destruct (boundary x (p ++ [i])) eqn:B; [|apply rst_refl].
  apply rst_step. apply boundary_spec in B. constructor; [exact B| |apply in_scope_scope]. exists c, u. split; [eapply at_snoc; eassumption|]. split; [exact Hu|exact Hname].
Qed.
Lemma linked_below x name p k cs i c ds u : calm x -> at_path x p = Some (Node k cs) -> nth_error cs i = Some c -> c = Node (tkind c) ds ->
  tkind c = K_TriplesBlock \/ tkind c = K_InlineData \/ tkind c = K_Filter -> linked x name (scope x (p ++ i :: u)) (scope x p).
Proof.
  intros C E Ec En Hk. rewrite cons_snoc. pose proof (at_snoc _ _ _ _ _ _ E Ec) as Ei. rewrite En in Ei. rewrite (quiet_scope _ _ (calm_quiet _ _ _ _ C Ei Hk)).
  rewrite (plain_scope _ _ _ _ _ _ E Ec); [apply rst_refl|]. destruct Hk as [-> |[-> | ->]]; discriminate.
Qed.
Lemma visible_linked x name : calm x -> forall y p, at_path x p = Some y -> forall u, In u (visible y) -> name_at x (p ++ u) = name -> linked x name (scope x (p ++ u)) (scope x p).
Proof.
  intros C y. induction y as [y IH] using tree_strong. intros p E u Hu Hname. destruct y as [|k cs]; [destruct Hu|].
  assert (forall j c q, nth_error cs j = Some c -> is_node c = true -> In q (visible c) -> u = j :: q -> linked x name (scope x (p ++ u)) (scope x p)) as Hchild.
  { intros j c q Ec Hn Hq ->. eapply linked_child; [exact E|exact Ec|exact Hn|exact Hq|exact Hname|]. rewrite (cons_snoc p j q) in Hname.
    apply (IH j [] c); [cbn [at_path]; rewrite Ec; reflexivity|eapply at_snoc; eassumption|exact Hq|exact Hname]. }
  assert (In u match find (fun c => is_node c && is_kind K_SelectClause c) cs with
               | Some sc => if is_star sc then pick visible (fun c => is_node c && is_kind K_WhereClause c) 0 cs
                            else pick projected (fun c => is_node c && is_kind K_SelectClause c) 0 cs
               | None => []
               end -> linked x name (scope x (p ++ u)) (scope x p)) as Hsel.
  { intros H. destruct (find _ cs) as [sc|]; [|destruct H]. destruct (is_star sc); apply in_pick in H as (j & c & q & Ec & Hn & -> & Hq); apply andb_prop in Hn as [Hn Hk]; cbn [Nat.add] in *.
    - eapply Hchild; [exact Ec|exact Hn|exact Hq|reflexivity].
    - destruct c as [|kc ds]; [discriminate|]. cbn [projected] in Hq. apply in_pick_all in Hq as (j' & d & r & Ed & V & -> & Hr). destruct Hr as [<-|[]]. cbn [Nat.add].
      rewrite (cons_snoc p j [j']). apply is_kind_eq in Hk. cbn [tkind] in Hk. subst kc. pose proof (at_snoc _ _ _ _ _ _ E Ec) as Ei.
      rewrite (plain_scope _ _ _ _ _ _ Ei Ed (is_var_kind _ V)), (plain_scope _ _ _ _ _ _ E Ec); [apply rst_refl|discriminate]. }
  destruct k; try (destruct Hu; fail); try (apply Hsel, Hu); cbn [visible] in Hu.
  all: try (apply in_pick_last in Hu as (j & c & q & Ec & Hn & -> & Hq); cbn [Nat.add] in *; destruct (is_kind K_GroupGraphPattern c); [|destruct Hq]; eapply Hchild; [exact Ec|exact Hn|exact Hq|reflexivity]).
  all: try (apply in_pick_all in Hu as (j & c & q & Ec & Hn & -> & Hq); apply andb_prop in Hn as [Hn _]; eapply Hchild; [exact Ec|exact Hn|exact Hq|reflexivity]).
  all: try (apply in_pick in Hu as (j & c & q & Ec & Hn & -> & Hq); cbn [Nat.add] in *).
  all: try (destruct (is_kind K_GroupGraphPattern c); [|destruct Hq]; eapply Hchild; [exact Ec|exact Hn|exact Hq|reflexivity]).
  - destruct (select_like (tkind c)) eqn:Sl; [eapply Hchild; [exact Ec|exact Hn|exact Hq|reflexivity]|].
    destruct c as [|kc ds]; [destruct Hq|]. apply in_pick_all in Hq as (j' & d & r & Ed & Hd & -> & Hr). cbn [Nat.add] in *. apply andb_prop in Hd as [Hdn Hdk].
    pose proof (at_snoc _ _ _ _ _ _ E Ec) as Ei. assert (scope x (p ++ [j]) = scope x p) as Sj by (eapply plain_scope; [exact E|exact Ec|cbn [tkind] in *; intros ->; discriminate]).
    rewrite (cons_snoc p j (j' :: r)) in *. rewrite <- Sj. destruct (kind_eqb_spec (tkind d) K_TriplesBlock) as [Hk|Hk].
    + destruct (node_eta _ Hdn) as [es Ee]. eapply linked_below; [exact C|exact Ei|exact Ed|exact Ee|left; exact Hk].
    + assert (In r (visible d)) as Hr' by (destruct (tkind d); try exact Hr; congruence). eapply linked_child; [exact Ei|exact Ed|exact Hdn|exact Hr'|exact Hname|].
      rewrite (cons_snoc (p ++ [j]) j' r) in Hname. apply (IH j [j'] d); [cbn [at_path]; rewrite Ec; cbn [at_path]; rewrite Ed; reflexivity|eapply at_snoc; eassumption|exact Hr'|exact Hname].
  - destruct (node_eta _ Hn) as [ds Ed]. destruct (tkind c) eqn:Kc; try (destruct Hq; fail); try (eapply Hchild; [exact Ec|exact Hn|exact Hq|reflexivity]).
    all: try (eapply linked_below; [exact C|exact E|exact Ec|rewrite Kc; exact Ed|rewrite Kc; auto]; fail).
    subst c. apply in_pick_last in Hq as (j' & d & r & Er & Hd & -> & Hr). unfold cast_var in Hr. destruct (is_var d) eqn:V; [|destruct Hr]. destruct Hr as [<-|[]]. cbn [Nat.add].
    rewrite (cons_snoc p j [j']). pose proof (at_snoc _ _ _ _ _ _ E Ec) as Ei.
    rewrite (plain_scope _ _ _ _ _ _ Ei Er (is_var_kind _ V)), (plain_scope _ _ _ _ _ _ E Ec); [apply rst_refl|discriminate].
Qed.

(** ** the visible variables depend on the shape of the tree only *)
Definition skind (k : kind) : kind := match k with K_VAR2 => K_VAR1 | _ => k end.
Fixpoint skel (x : tree) : tree := match x with Tok k w => Tok (skind k) [] | Node k cs => Node k (map skel cs) end.
Lemma skel_node x : is_node (skel x) = is_node x.
Proof. destruct x; reflexivity. Qed.
Lemma skel_kind x : is_node x = true -> tkind (skel x) = tkind x.
Proof. destruct x; [discriminate|reflexivity]. Qed.
Lemma skind_eqb k k' : k' <> K_VAR1 -> k' <> K_VAR2 -> kind_eqb (skind k) k' = kind_eqb k k'.
Proof.
  intros H1 H2. destruct (kind_eqb_spec k K_VAR2) as [->|Hk]; [|destruct k; try reflexivity; congruence]. cbn [skind].
  destruct (kind_eqb_spec K_VAR1 k') as [<-|_]; [congruence|]. destruct (kind_eqb_spec K_VAR2 k') as [<-|_]; [congruence|reflexivity].
Qed.
Lemma skel_is k x : k <> K_VAR1 -> k <> K_VAR2 -> is_kind k (skel x) = is_kind k x.
Proof. intros H1 H2. destruct x as [k' w|k' cs]; unfold is_kind; cbn [skel tkind]; [|reflexivity]. apply skind_eqb; assumption. Qed.
Lemma skel_var x : is_var (skel x) = is_var x.
Proof. unfold is_var. rewrite skel_node, skel_is by discriminate. reflexivity. Qed.
Section pick_skel.
Context (f : tree -> list path) (P : tree -> bool) (HP : forall x, P (skel x) = P x).
Lemma skel_pick l : Forall (fun c => P c = true -> f (skel c) = f c) l -> forall i, pick f P i (map skel l) = pick f P i l.
Proof. induction 1 as [|c l H _ IH]; intros i; cbn [map pick]; [reflexivity|]. rewrite HP, IH. destruct (P c); [rewrite H by reflexivity|]; reflexivity. Qed.
Lemma skel_existsb l : existsb P (map skel l) = existsb P l.
Proof. induction l as [|c l IH]; cbn; [reflexivity|]. now rewrite HP, IH. Qed.
Lemma skel_pick_last l : Forall (fun c => P c = true -> f (skel c) = f c) l -> forall i, pick_last f P i (map skel l) = pick_last f P i l.
Proof. induction 1 as [|c l H _ IH]; intros i; cbn [map pick_last]; [reflexivity|]. rewrite HP, IH, skel_existsb. destruct (existsb P l); [reflexivity|]. destruct (P c); [rewrite H by reflexivity|]; reflexivity. Qed.
Lemma skel_pick_all l : Forall (fun c => P c = true -> f (skel c) = f c) l -> forall i, pick_all f P i (map skel l) = pick_all f P i l.
Proof. induction 1 as [|c l H _ IH]; intros i; cbn [map pick_all]; [reflexivity|]. rewrite HP, IH. destruct (P c); [rewrite H by reflexivity|]; reflexivity. Qed.
End pick_skel.
Lemma Forall_all {A} (P : A -> Prop) l : (forall x, P x) -> Forall P l.
Proof. intros H. apply Forall_forall. intros x _. apply H. Qed.
Lemma skel_take P l : (forall x, P (skel x) = P x) -> take_while P (map skel l) = map skel (take_while P l).
Proof. intros HP. induction l as [|c l IH]; cbn; [reflexivity|]. rewrite HP. destruct (P c); cbn; [now rewrite IH|reflexivity]. Qed.
Lemma skel_below x : vars_below (skel x) = vars_below x.
Proof.
  induction x as [k w|k cs IH] using tree_ind'; cbn [skel vars_below]; [reflexivity|]. f_equal. f_equal. generalize 0. induction IH as [|c cs Hc _ IHl]; intros i; cbn [map imap]; [reflexivity|].
  now rewrite Hc, IHl.
Qed.
Lemma skel_cast x : cast_var (skel x) = cast_var x.
Proof. unfold cast_var. now rewrite skel_var. Qed.
Lemma skel_projected x : projected (skel x) = projected x.
Proof. destruct x as [|k cs]; [reflexivity|]. cbn [skel projected]. apply skel_pick_all; [apply skel_var|]. apply Forall_all. reflexivity. Qed.
Lemma skel_star x : is_star (skel x) = is_star x.
Proof.
  destruct x as [|k cs]; [reflexivity|]. cbn [skel is_star]. rewrite <- map_rev. destruct (rev cs) as [|l r]; [reflexivity|]. cbn [map]. apply skel_is; discriminate.
Qed.
Lemma skel_data x : data_vars (skel x) = data_vars x.
Proof.
  destruct x as [|k cs]; [reflexivity|].
  assert (pick cast_var is_node 0 (map skel cs) = pick cast_var is_node 0 cs) as H1.
  { apply skel_pick; [apply skel_node|]. apply Forall_all. intros c _. apply skel_cast. }
  assert (pick_all (fun _ => [[]]) is_var 0 (take_while (fun c => negb (is_kind K_RParen c)) (map skel cs)) = pick_all (fun _ => [[]]) is_var 0 (take_while (fun c => negb (is_kind K_RParen c)) cs)) as H2.
  { rewrite skel_take; [|intros c; rewrite skel_is by discriminate; reflexivity]. apply skel_pick_all; [apply skel_var|]. apply Forall_all. reflexivity. }
  cbn [skel]. unfold data_vars. revert H1 H2. destruct k; intros H1 H2; try reflexivity; assumption.
Qed.
Lemma skel_inline x : inline_data (skel x) = inline_data x.
Proof.
  destruct x as [|k cs]; [reflexivity|]. cbn [skel inline_data]. apply skel_pick_last; [apply skel_node|]. apply Forall_all. intros [|kb ds] _; [reflexivity|]. cbn [skel].
  apply skel_pick; [apply skel_node|]. apply Forall_all. intros c _. apply skel_data.
Qed.
Lemma skel_find P l : (forall x, P (skel x) = P x) -> find P (map skel l) = option_map skel (find P l).
Proof. intros HP. induction l as [|c l IH]; cbn; [reflexivity|]. rewrite HP. destruct (P c); [reflexivity|exact IH]. Qed.
Lemma skel_node_is k x : k <> K_VAR1 -> k <> K_VAR2 -> is_node (skel x) && is_kind k (skel x) = is_node x && is_kind k x.
Proof. intros H1 H2. now rewrite skel_node, skel_is. Qed.
Theorem skel_visible x : visible (skel x) = visible x.
Proof.
  induction x as [x IH] using tree_strong. destruct x as [k w|k cs]; [reflexivity|].
  assert (Forall (fun c => visible (skel c) = visible c) cs) as IHc.
  { apply Forall_forall. intros c Hc. apply In_nth_error in Hc as [j Hj]. apply (IH j [] c). cbn. rewrite Hj. reflexivity. }
  assert (forall c, In c cs -> forall kc ds, c = Node kc ds -> Forall (fun d => visible (skel d) = visible d) ds) as IHd.
  { intros c Hc kc ds ->. apply Forall_forall. intros d Hd. apply In_nth_error in Hc as [j Hj]. apply In_nth_error in Hd as [i Hi]. apply (IH j [i] d). cbn. rewrite Hj. cbn. rewrite Hi. reflexivity. }
  clear IH. cbn [skel].
  assert (match find (fun c => is_node c && is_kind K_SelectClause c) (map skel cs) with
          | Some sc => if is_star sc then pick visible (fun c => is_node c && is_kind K_WhereClause c) 0 (map skel cs)
                       else pick projected (fun c => is_node c && is_kind K_SelectClause c) 0 (map skel cs)
          | None => []
          end = match find (fun c => is_node c && is_kind K_SelectClause c) cs with
          | Some sc => if is_star sc then pick visible (fun c => is_node c && is_kind K_WhereClause c) 0 cs
                       else pick projected (fun c => is_node c && is_kind K_SelectClause c) 0 cs
          | None => []
          end) as Hsel.
  { rewrite skel_find by (intros c; apply skel_node_is; discriminate). destruct (find _ cs) as [sc|]; cbn [option_map]; [|reflexivity]. rewrite skel_star.
    rewrite (skel_pick visible), (skel_pick projected); [reflexivity|intros c; apply skel_node_is; discriminate| |intros c; apply skel_node_is; discriminate|].
    - apply Forall_all. intros c _. apply skel_projected.
    - eapply Forall_impl; [|exact IHc]. intros c H _. exact H. }
  assert (Forall (fun c => is_node c = true -> (if is_kind K_GroupGraphPattern (skel c) then visible (skel c) else []) = (if is_kind K_GroupGraphPattern c then visible c else [])) cs) as Hif.
  { eapply Forall_impl; [|exact IHc]. intros c H _. cbv beta in H. rewrite skel_is by discriminate. now rewrite H. }
  destruct k; cbn [visible]; try reflexivity; try exact Hsel.
  all: try (apply skel_pick_last; [apply skel_node|exact Hif]).
  all: try (apply skel_pick_all; [intros c; apply skel_node_is; discriminate|]; eapply Forall_impl; [|exact IHc]; intros c H _; exact H).
  all: apply skel_pick; [apply skel_node|]; try exact Hif.
  - apply Forall_forall. intros c Hc Hn. rewrite (skel_kind _ Hn). rewrite Forall_forall in IHc. rewrite (IHc _ Hc). destruct (select_like (tkind c)); [reflexivity|].
    destruct c as [|kc ds]; [reflexivity|]. cbn [skel]. apply skel_pick_all.
    + intros d. rewrite skel_node, !skel_is by discriminate. reflexivity.
    + specialize (IHd _ Hc _ _ eq_refl). eapply Forall_impl; [|exact IHd]. intros d Hd Hp. apply andb_prop in Hp as [Hp _]. cbv beta in Hd. rewrite (skel_kind _ Hp), skel_below, Hd. reflexivity.
  - apply Forall_forall. intros c Hc Hn. rewrite (skel_kind _ Hn). rewrite Forall_forall in IHc. rewrite (IHc _ Hc), skel_below, skel_inline.
    destruct (tkind c); try reflexivity. destruct c as [|kc ds]; [reflexivity|]. cbn [skel]. apply skel_pick_last; [apply skel_node|]. apply Forall_all. intros d _. apply skel_cast.
Qed.

(** ** trees of the same shape *)
Section alike.
Context (n : text) (x y : tree) (T : trel (lex_resp n) x y).
Lemma trel_at lr a : forall b, trel lr a b -> forall p, match at_path a p, at_path b p with Some c, Some d => trel lr c d | None, None => True | _, _ => False end.
Proof.
  clear. induction a as [k w|k cs IH] using tree_ind'; intros b H p.
  - inversion H as [u v Hab Ea Eb|]; subst. destruct p; [exact H|exact I].
  - inversion H as [|? ? cs' F]; subst. destruct p as [|i p]; [exact H|]. cbn [at_path]. clear H. revert i. induction F as [|c c' cs cs' Hc _ IHl]; intros i; [destruct i; exact I|].
    inversion IH as [|? ? H1 H2]; subst. destruct i as [|i]; cbn [nth_error]; [apply H1, Hc|]. apply IHl, H2.
Qed.
Lemma trel_skel a : forall b, trel (lex_resp n) a b -> skel a = skel b.
Proof.
  clear T. induction a as [k w|k cs IH] using tree_ind'; intros b H.
  - inversion H as [u v Hab Ea Eb|]; subst. destruct u as [k1 w1], v as [k2 w2]. cbn [skel tok fst snd]. destruct Hab as [E|[[Hk|Hk] E]]; [injection E as -> ->; reflexivity| |];
      cbn [fst] in Hk; subst k1; injection E as -> ->; reflexivity.
  - inversion H as [|? ? cs' F]; subst. cbn [skel]. f_equal. clear H. induction F as [|c c' cs cs' Hc _ IHl]; [reflexivity|]. inversion IH; subst. cbn [map]. f_equal; [auto|apply IHl; assumption].
Qed.
Lemma alike_node p k : (exists cs, at_path x p = Some (Node k cs)) <-> (exists cs, at_path y p = Some (Node k cs)).
Proof.
  pose proof (trel_at _ _ _ T p) as H. split; intros [cs E]; rewrite E in H.
  - destruct (at_path y p) as [d|]; [|destruct H]. inversion H as [a b Hab Ea Eb|? ? cs' F]; subst. eauto.
  - destruct (at_path x p) as [d|]; [|destruct H]. inversion H as [a b Hab Ea Eb|? ? cs' F]; subst. eauto.
Qed.
Lemma alike_variable p : variable x p <-> variable y p.
Proof. apply alike_node. Qed.
Lemma alike_sub p : sub_select x p <-> sub_select y p.
Proof. apply alike_node. Qed.
Lemma alike_scope p : scope y p = scope x p.
Proof.
  induction p as [|i p IH] using rev_ind; [rewrite !scope_nil; reflexivity|]. rewrite !scope_snoc, IH.
  assert (boundary y (p ++ [i]) = boundary x (p ++ [i])) as ->; [|reflexivity]. apply eq_true_iff_eq. rewrite !boundary_spec, alike_sub. reflexivity.
Qed.
(** the variables visible from outside the node at [s] *)
Definition shows (t : tree) (s u : path) : Prop := exists z, at_path t s = Some z /\ In u (visible z).
Lemma alike_shows s u : shows x s u <-> shows y s u.
Proof.
  pose proof (trel_at _ _ _ T s) as H. unfold shows.
  destruct (at_path x s) as [c|], (at_path y s) as [d|]; [|destruct H|destruct H|split; intros (z & E & _); discriminate].
  assert (visible c = visible d) as Ev by (rewrite <- (skel_visible c), <- (skel_visible d), (trel_skel _ _ H); reflexivity).
  split; intros (z & E & Hu); injection E as <-; [exists d; rewrite <- Ev|exists c; rewrite Ev]; auto.
Qed.
End alike.
Lemma exports_shows t name s : exports t name s <-> exists u, shows t s u /\ name_at t (s ++ u) = name.
Proof. split; [intros (z & v & E & H & N); exists v; split; [exists z; auto|exact N]|intros (u & (z & E & H) & N); exists z, u; auto]. Qed.
Lemma shows_variable t s u : shows t s u -> variable t (s ++ u).
Proof. intros (z & E & H). apply visible_variable in H as [cs H]. exists cs. rewrite at_path_app, E. exact H. Qed.

(** ** the names after a rename *)
Lemma renamed_id w y : forall sel, vars_below y = [] -> renamed_tree w sel y = y.
Proof.
  induction y as [k u|k cs IH] using tree_ind'; intros sel H; [reflexivity|]. cbn [vars_below renamed_tree] in *. apply app_eq_nil in H as [H1 H2]. destruct (kind_eqb k K_Var); [discriminate|]. cbn [andb]. f_equal.
  revert H2. generalize 0. induction IH as [|c cs Hc _ IHl]; intros i H2; [reflexivity|]. cbn [imap concat] in *. apply app_eq_nil in H2 as [H2 H3]. apply map_eq_nil in H2. now rewrite (Hc _ H2), (IHl _ H3).
Qed.
Lemma renamed_name n x : forall sel p, leafy x -> variable x p -> text_at (renamed_tree (QUESTION :: n) sel x) p = if sel p then QUESTION :: n else text_at x p.
Proof.
  induction x as [k w|k cs IH] using tree_ind'; intros sel p Hl [ds E].
  - destruct p; discriminate.
  - destruct p as [|i p].
    + injection E as -> ->. cbn [renamed_tree]. unfold text_at. cbn [at_path]. change (kind_eqb K_Var K_Var) with true. cbn [andb]. destruct (sel []); cbn [tree_text flat_map]; [now rewrite app_nil_r|].
      specialize (Hl [] ds eq_refl). clear -Hl. generalize 0. induction Hl as [|c cs Hc _ IHl]; intros i; [reflexivity|]. cbn [imap flat_map]. rewrite (renamed_id _ _ _ Hc), IHl. reflexivity.
    + cbn [at_path] in E. destruct (nth_error cs i) as [c|] eqn:C; [|discriminate]. cbn [renamed_tree].
      destruct (kind_eqb k K_Var && sel []) eqn:S.
      { exfalso. apply andb_prop in S as [S _]. destruct (kind_eqb_spec k K_Var) as [->|]; [|discriminate]. specialize (Hl [] cs eq_refl). apply (nth_error_Forall _ _ _ _ Hl) in C.
        assert (In p (vars_below c)) as H by (apply in_vars_below; exists ds; exact E). rewrite C in H. destruct H. }
      unfold text_at. cbn [at_path]. rewrite imap_nth, C. cbn [option_map Nat.add]. change (text_at (renamed_tree (QUESTION :: n) (fun p => sel (i :: p)) c) p = if sel (i :: p) then QUESTION :: n else text_at c p).
      apply (nth_error_Forall _ _ _ _ IH C (fun p => sel (i :: p))); [eapply leafy_child; eassumption|exists ds; exact E].
Qed.

(** ** the relation is preserved *)
Section preserved.
Context (n : text) (x : tree) (v : path) (l : list path)
  (Hleafy : leafy x) (Hcalm : calm x) (Hv : variable x v) (Hl : forall b, In b l <-> same_variable x v b) (Hsound : sound_sel (member l) x)
  (Hfresh : forall b, variable x b -> name_at x b <> n).
Let y := renamed_tree (QUESTION :: n) (member l) x.
Let m := name_at x v.
Lemma y_alike : trel (lex_resp n) x y.
Proof. apply renamed_trel, Hsound. Qed.
Lemma name_in b : In b l -> name_at x b = m /\ name_at y b = n.
Proof.
  intros H. apply Hl in H as H'. destruct H' as (_ & Hb & E & _). split; [symmetry; exact E|]. unfold name_at, y. rewrite (renamed_name n x _ _ Hleafy Hb), (proj2 (member_In l b) H). reflexivity.
Qed.
Lemma name_out b : variable x b -> ~ In b l -> name_at y b = name_at x b.
Proof.
  intros Hb H. unfold name_at, y. rewrite (renamed_name n x _ _ Hleafy Hb). destruct (member l b) eqn:E; [|reflexivity]. exfalso. apply H, member_In, E.
Qed.
Lemma fresh_in b : variable x b -> name_at y b = n -> In b l.
Proof.
  intros Hb E. destruct (member l b) eqn:M; [apply member_In, M|]. exfalso. assert (~ In b l) as Hn by (intros H; apply member_In in H; congruence). rewrite (name_out _ Hb Hn) in E. exact (Hfresh _ Hb E).
Qed.
(** the scopes of the renamed variable *)
Definition mine (s : path) : Prop := linked x m (scope x v) s.
Lemma mine_in b : variable x b -> name_at x b = m -> mine (scope x b) -> In b l.
Proof. intros Hb E H. apply Hl. split; [exact Hv|]. split; [exact Hb|]. split; [symmetry; exact E|]. exists (scope x v), (scope x b). split; [apply in_scope_scope|]. split; [apply in_scope_scope|exact H]. Qed.
Lemma in_mine b : In b l -> mine (scope x b).
Proof. intros H. apply Hl in H as (_ & _ & _ & sa & sb & H1 & H2 & C). apply in_scope_iff in H1, H2. subst. exact C. Qed.
Lemma shares_y name s u : shares y name s u <-> exists q i, s = q ++ [i] /\ sub_select x s /\ (exists w, shows x s w /\ name_at y (s ++ w) = name) /\ u = scope x q.
Proof.
  rewrite shares_iff. split; intros (q & i & E & H1 & H2 & H3); exists q, i; (split; [exact E|]).
  - split; [apply (alike_sub n x y y_alike), H1|]. split; [|rewrite <- (alike_scope n x y y_alike); exact H3]. apply exports_shows in H2 as (w & H2 & H4). exists w. split; [|exact H4].
    apply (alike_shows n x y y_alike), H2.
  - split; [apply (alike_sub n x y y_alike), H1|]. split; [|rewrite (alike_scope n x y y_alike); exact H3]. apply exports_shows. destruct H2 as (w & H2 & H4). exists w. split; [|exact H4].
    apply (alike_shows n x y y_alike), H2.
Qed.
Lemma shares_x name s u : shares x name s u <-> exists q i, s = q ++ [i] /\ sub_select x s /\ (exists w, shows x s w /\ name_at x (s ++ w) = name) /\ u = scope x q.
Proof. rewrite shares_iff. split; intros (q & i & E & H1 & H2 & H3); exists q, i; (split; [exact E|]); (split; [exact H1|]); (split; [apply exports_shows, H2|exact H3]). Qed.
(** a variable visible in a sub-select is linked to it *)
Lemma shown_linked s w name : sub_select x s -> shows x s w -> name_at x (s ++ w) = name -> linked x name (scope x (s ++ w)) s.
Proof.
  intros [cs Es] (z & Ez & Hw) Hn. pose proof (visible_linked x name Hcalm z s Ez w Hw Hn) as H. assert (scope x s = s) as E; [|rewrite E in H; exact H].
  destruct s as [|i s _] using rev_ind; [apply scope_nil|]. rewrite scope_snoc. assert (boundary x (s ++ [i]) = true) as -> by (apply boundary_spec; exists cs; exact Es). reflexivity.
Qed.
Lemma other_names name : name <> m -> name <> n -> forall s u, shares y name s u <-> shares x name s u.
Proof.
  intros Hm Hn s u. rewrite shares_y, shares_x. split; intros (q & i & E & H1 & (w & H2 & H3) & H4); exists q, i; (split; [exact E|]); (split; [exact H1|]); (split; [|exact H4]); exists w; (split; [exact H2|]).
  - apply shows_variable in H2 as Hb. rewrite name_out in H3; [exact H3|exact Hb|]. intros H. apply name_in in H as [_ H]. congruence.
  - apply shows_variable in H2 as Hb. rewrite name_out; [exact H3|exact Hb|]. intros H. apply name_in in H as [H _]. congruence.
Qed.
(** the new name: exactly the steps between the scopes of the renamed variable *)
Lemma new_name s u : shares y n s u -> shares x m s u /\ mine s.
Proof.
  rewrite shares_y, shares_x. intros (q & i & E & H1 & (w & H2 & H3) & H4). apply shows_variable in H2 as Hb. apply fresh_in in H3; [|exact Hb]. split.
  - exists q, i. split; [exact E|]. split; [exact H1|]. split; [|exact H4]. exists w. split; [exact H2|]. apply name_in, H3.
  - unfold mine. eapply rst_trans; [apply in_mine, H3|]. apply shown_linked; [exact H1|exact H2|apply name_in, H3].
Qed.
Lemma old_step s u : shares x m s u -> (mine s -> shares y n s u) /\ (~ mine s -> shares y m s u).
Proof.
  rewrite !shares_y, shares_x. intros (q & i & E & H1 & (w & H2 & H3) & H4). apply shows_variable in H2 as Hb. pose proof (shown_linked _ _ _ H1 H2 H3) as Lk. split; intros Hm; exists q, i; (split; [exact E|]); (split; [exact H1|]); (split; [|exact H4]); exists w; (split; [exact H2|]).
  - apply name_in. apply mine_in; [exact Hb|exact H3|]. eapply rst_trans; [exact Hm|apply rst_sym; exact Lk].
  - rewrite name_out; [exact H3|exact Hb|]. intros H. apply Hm. unfold mine. eapply rst_trans; [apply in_mine, H|exact Lk].
Qed.
Lemma old_name s u : m <> n -> shares y m s u -> shares x m s u.
Proof.
  intros Hmn. rewrite shares_y, shares_x. intros (q & i & E & H1 & (w & H2 & H3) & H4). exists q, i. split; [exact E|]. split; [exact H1|]. split; [|exact H4]. exists w. split; [exact H2|].
  apply shows_variable in H2 as Hb. rewrite name_out in H3; [exact H3|exact Hb|]. intros H. apply name_in in H as [_ H]. congruence.
Qed.
Lemma linked_mine a b : linked x m a b -> (mine a <-> mine b).
Proof. intros H. unfold mine. split; intros K; eapply rst_trans; try exact K; [exact H|apply rst_sym, H]. Qed.
Lemma linked_new a b : linked x m a b -> mine a -> linked y n a b.
Proof.
  induction 1 as [a b H|a|a b H IH|a b c H1 IH1 H2 IH2]; intros Hm.
  - apply rst_step, old_step; assumption.
  - apply rst_refl.
  - apply rst_sym, IH. apply (linked_mine b a); [apply rst_sym, H|exact Hm].
  - eapply rst_trans; [apply IH1, Hm|]. apply IH2. apply (linked_mine a b); assumption.
Qed.
Lemma linked_old a b : linked x m a b -> ~ mine a -> linked y m a b.
Proof.
  induction 1 as [a b H|a|a b H IH|a b c H1 IH1 H2 IH2]; intros Hm.
  - apply rst_step, old_step; assumption.
  - apply rst_refl.
  - apply rst_sym, IH. intros K. apply Hm. apply (linked_mine a b); assumption.
  - eapply rst_trans; [apply IH1, Hm|]. apply IH2. intros K. apply Hm. apply (linked_mine a b); assumption.
Qed.
Lemma fresh_old : m <> n.
Proof. apply Hfresh, Hv. Qed.
Lemma closed_l a b : same_variable x a b -> In a l -> In b l.
Proof. intros S H. apply Hl. apply Hl in H. destruct (C41_equivalence x) as (_ & _ & Tr). eapply Tr; eassumption. Qed.
Theorem preserved a b : same_variable y a b <-> same_variable x a b.
Proof.
  destruct (C41_equivalence x) as (Rf & Sy & Tr). split.
  - intros (Ha & Hb & E & sa & sb & H1 & H2 & C). apply (alike_variable n x y y_alike) in Ha, Hb. apply in_scope_iff in H1, H2. rewrite (alike_scope n x y y_alike) in H1, H2. subst sa sb.
    destruct (member l a) eqn:Ma; [apply member_In in Ma|assert (~ In a l) as Na by (intros H; apply member_In in H; congruence)].
    + destruct (name_in _ Ma) as [_ En]. rewrite En in E. assert (In b l) as Mb by (apply fresh_in; [exact Hb|symmetry; exact E]). apply Hl in Ma, Mb. eapply Tr; [apply Sy, Ma|exact Mb].
    + rewrite (name_out _ Ha Na) in *. assert (~ In b l) as Nb by (intros H; apply name_in in H as [_ H]; apply (Hfresh _ Ha); congruence). rewrite (name_out _ Hb Nb) in E.
      split; [exact Ha|]. split; [exact Hb|]. split; [exact E|]. exists (scope x a), (scope x b). split; [apply in_scope_scope|]. split; [apply in_scope_scope|].
      destruct (list_eq_dec N.eq_dec (name_at x a) m) as [Em|Em].
      * rewrite Em in *. eapply rst_incl; [|exact C]. intros s u H. apply rst_step. apply old_name; [apply fresh_old|exact H].
      * eapply rst_incl; [|exact C]. intros s u H. apply rst_step. apply other_names; [exact Em|apply Hfresh, Ha|exact H].
  - intros S. assert (S' := S). destruct S' as (Ha & Hb & E & sa & sb & H1 & H2 & C). apply in_scope_iff in H1, H2. subst sa sb.
    split; [apply (alike_variable n x y y_alike), Ha|]. split; [apply (alike_variable n x y y_alike), Hb|].
    destruct (member l a) eqn:Ma; [apply member_In in Ma|assert (~ In a l) as Na by (intros H; apply member_In in H; congruence)].
    + pose proof (closed_l _ _ S Ma) as Mb. destruct (name_in _ Ma) as [Ea Ea'], (name_in _ Mb) as [_ Eb']. split; [congruence|]. exists (scope y a), (scope y b).
      split; [apply in_scope_scope|]. split; [apply in_scope_scope|]. rewrite Ea', !(alike_scope n x y y_alike). rewrite Ea in C. apply linked_new; [exact C|apply in_mine, Ma].
    + assert (~ In b l) as Nb by (intros H; apply Na; eapply closed_l; [apply Sy, S|exact H]). rewrite (name_out _ Ha Na), (name_out _ Hb Nb). split; [exact E|]. exists (scope y a), (scope y b).
      split; [apply in_scope_scope|]. split; [apply in_scope_scope|]. rewrite !(alike_scope n x y y_alike). destruct (list_eq_dec N.eq_dec (name_at x a) m) as [Em|Em].
      * rewrite Em in *. apply linked_old; [exact C|]. intros K. apply Na. apply mine_in; [exact Ha|exact Em|exact K].
      * eapply rst_incl; [|exact C]. intros s u H. apply rst_step. apply other_names; [exact Em|apply Hfresh, Ha|exact H].
Qed.
End preserved.
