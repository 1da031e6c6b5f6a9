(** C68: the code actions that add a FILTER. *)
From Coq Require Import String List Arith NArith Bool Lia Sorted Permutation.
Import ListNotations.
From Verif Require Import ServerModel Kinds KindFacts ParserSyntax ParserModel GrammarData ParserTree ParserTerm ParserBuild ParserSpec ParserChecks ParserOutcome ParserProps
  TextModel TextSpec TextProofs Utf8Model LexerRegex LexerData LexerModel LexerProofs LexerSpec LexerProps FormatData FormatModel FormatTree FormatText FormatParse FormatWeave
  TreeModel TreePlace TreeItems TreeShape TreeRename VarModel VarSpec VarRegions VarDoc LexRename VarProps DiagModel DiagSpec AstFacts DiagFacts DiagGroup DiagRest ParseTreeProps LexLayout DiagProps OnTypeProofs OnTypeProps LayoutProps LexInsert PrologueRun PrologueSwap QuickFixModel QuickFixFacts CoverFacts RemoveFacts UngramData Replant LexMiddle QuickFixProps RemoveProps ShortenFacts GrammarCheck DiagScope ShortenProps SelectModel SelectFacts SelectProps ResultModel ResultFacts ResultProps AggregateProps FilterModel.
From Verif Require GrammarSpec GrammarFacts.

(** ** a block of triples, cut behind a triple and its dot *)
(** [r] is the place of a triple in the block [y]; a block is a triple, a dot and the block of the other triples *)
Inductive in_block : tree -> path -> Prop :=
| block_triple cs i ts : nth_error cs i = Some (Node K_TriplesSameSubjectPath ts) -> in_block (Node K_TriplesBlock cs) [i]
| block_rest cs i c r : nth_error cs i = Some c -> in_block c r -> in_block (Node K_TriplesBlock cs) (i :: r).
(** up to the first dot, and the rest *)
Fixpoint upto_dot (cs : list tree) : option (list tree * list tree) :=
  match cs with
  | [] => None
  | c :: r => if kind_eqb (tkind c) K_Dot then Some ([c], r) else option_map (fun ab => (c :: fst ab, snd ab)) (upto_dot r)
  end.
Definition dot_of (cs : list tree) (i : nat) : list tree * list tree := match upto_dot (skipn (S i) cs) with Some ab => ab | None => ([], skipn (S i) cs) end.
(** the block up to the triple at [r] and its dot, and what is behind *)
Fixpoint cut_behind (y : tree) (r : path) : tree * list tree :=
  match r, y with
  | [i], Node k cs => (Node k (firstn (S i) cs ++ fst (dot_of cs i)), snd (dot_of cs i))
  | i :: r, Node k cs => match nth_error cs i with Some c => (Node k (firstn i cs ++ [fst (cut_behind c r)]), snd (cut_behind c r) ++ skipn (S i) cs) | None => (y, []) end
  | _, _ => (y, [])
  end.
Lemma upto_dot_some cs a b : upto_dot cs = Some (a, b) -> exists M d, a = M ++ [d] /\ cs = M ++ d :: b /\ tkind d = K_Dot /\ Forall (fun c => tkind c <> K_Dot) M.
Proof.
  revert a. induction cs as [|c cs IH]; intros a H; [discriminate|]. cbn [upto_dot] in H. destruct (kind_eqb_spec (tkind c) K_Dot) as [K|K].
  - injection H as <- <-. exists [], c. auto.
  - destruct (upto_dot cs) as [[a0 b0]|]; [|discriminate]. cbn [option_map fst snd] in H. injection H as <- <-. destruct (IH _ eq_refl) as (M & d & -> & -> & Hd & F). exists (c :: M), d. auto.
Qed.
Lemma upto_dot_none cs : upto_dot cs = None -> Forall (fun c => tkind c <> K_Dot) cs.
Proof.
  induction cs as [|c cs IH]; intros H; [constructor|]. cbn [upto_dot] in H. destruct (kind_eqb_spec (tkind c) K_Dot) as [K|K]; [discriminate|]. destruct (upto_dot cs); [discriminate|]. constructor; auto.
Qed.
Lemma dot_parts cs i T : nth_error cs i = Some T -> exists F c, firstn (S i) cs ++ fst (dot_of cs i) = F ++ [c] /\ cs = (F ++ [c]) ++ snd (dot_of cs i) /\ (c = T /\ length F = i /\ Forall (fun c => tkind c <> K_Dot) (snd (dot_of cs i)) \/ tkind c = K_Dot /\ exists M, F = firstn i cs ++ T :: M /\ Forall (fun c => tkind c <> K_Dot) M).
Proof.
  intros E. destruct (nth_error_split _ _ E) as (pre & post & Ec & Li). subst i. unfold dot_of.
  assert (Sk : skipn (S (length pre)) cs = post) by (rewrite Ec; change (T :: post) with ([T] ++ post); rewrite app_assoc; replace (S (length pre)) with (length (pre ++ [T])) by (rewrite app_length; cbn [length]; lia); apply skipn_exact).
  assert (Fi : firstn (S (length pre)) cs = pre ++ [T]) by (rewrite Ec; change (T :: post) with ([T] ++ post); rewrite app_assoc; replace (S (length pre)) with (length (pre ++ [T])) by (rewrite app_length; cbn [length]; lia); apply firstn_exact).
  assert (Fi0 : firstn (length pre) cs = pre) by (rewrite Ec; apply firstn_exact).
  rewrite Sk, Fi, Fi0. destruct (upto_dot post) as [[a b]|] eqn:U; cbn [fst snd].
  - destruct (upto_dot_some _ _ _ U) as (M & d & -> & -> & Hd & F). exists (pre ++ T :: M), d. split; [rewrite <- !app_assoc; reflexivity|]. split; [rewrite Ec, <- !app_assoc; reflexivity|]. right. split; [exact Hd|]. exists M. auto.
  - exists pre, T. rewrite app_nil_r. split; [reflexivity|]. split; [rewrite Ec, <- app_assoc; reflexivity|]. left. split; [reflexivity|]. split; [reflexivity|]. exact (upto_dot_none _ U).
Qed.
(** the place of the cut: in the list [cs] of a block at [r0], behind the element [c] *)
Lemma cut_place y r : in_block y r -> exists r0 i cs T F c, r = r0 ++ [i] /\ at_path y r0 = Some (Node K_TriplesBlock cs) /\ nth_error cs i = Some T /\ tkind T = K_TriplesSameSubjectPath /\ cs = (F ++ [c]) ++ snd (dot_of cs i) /\
  (c = T /\ length F = i /\ Forall (fun c => tkind c <> K_Dot) (snd (dot_of cs i)) \/ tkind c = K_Dot /\ exists M, F = firstn i cs ++ T :: M /\ Forall (fun c => tkind c <> K_Dot) M) /\
  leaves (fst (cut_behind y r)) = leaves_before y r0 ++ flat_map leaves (F ++ [c]) /\ flat_map leaves (snd (cut_behind y r)) = flat_map leaves (snd (dot_of cs i)) ++ leaves_behind y r0.
Proof.
  intros H. induction H as [cs i ts E|cs i c r E H IH].
  - destruct (dot_parts _ _ _ E) as (F & c & E1 & E2 & E3). exists [], i, cs, (Node K_TriplesSameSubjectPath ts), F, c. cbn [app at_path cut_behind leaves leaves_before leaves_behind fst snd]. rewrite E1, app_nil_r. auto 10.
  - destruct IH as (r0 & j & ds & T & F & d & -> & A & N & K & Es & Hc & L1 & L2). exists (i :: r0), j, ds, T, F, d. split; [reflexivity|]. split; [cbn [at_path]; rewrite E; exact A|]. split; [exact N|]. split; [exact K|]. split; [exact Es|]. split; [exact Hc|].
    assert (Eq : cut_behind (Node K_TriplesBlock cs) (i :: r0 ++ [j]) = (Node K_TriplesBlock (firstn i cs ++ [fst (cut_behind c (r0 ++ [j]))]), snd (cut_behind c (r0 ++ [j])) ++ skipn (S i) cs)) by (cbn [cut_behind]; destruct (r0 ++ [j]) eqn:R; [destruct r0; discriminate|]; rewrite E; reflexivity).
    change ((i :: r0) ++ [j]) with (i :: r0 ++ [j]). rewrite Eq. cbn [fst snd leaves leaves_before leaves_behind]. rewrite E, !flat_map_app. cbn [flat_map]. rewrite app_nil_r, L1, L2, !flat_map_app. rewrite <- !app_assoc. auto.
Qed.
(** the model finds that place *)
Lemma later_is x b k cs T i : at_path x b = Some (Node k cs) -> nth_error cs i = Some T -> forall F c, cs = (F ++ [c]) ++ snd (dot_of cs i) ->
  (c = T /\ length F = i /\ Forall (fun c => tkind c <> K_Dot) (snd (dot_of cs i)) \/ tkind c = K_Dot /\ exists M, F = firstn i cs ++ T :: M /\ Forall (fun c => tkind c <> K_Dot) M) ->
  match later_sibling x (b ++ [i]) K_Dot with Some d => d = b ++ [length F] | None => length F = i end.
Proof.
  intros E N F c Ec Hc. unfold later_sibling. rewrite removelast_last, last_last. unfold elements. rewrite E. cbv beta iota.
  destruct (nth_error_split _ _ N) as (pre & post & Ep & Li).
  assert (Sq : @skipn path (S i) (@map nat (list nat) (fun j => b ++ [j]) (List.seq 0 (length cs))) = @map nat path (fun j => b ++ [j]) (List.seq (S i) (length post))).
  { assert (length cs = S i + length post) as -> by (rewrite Ep, app_length; cbn [length]; lia). rewrite seq_app, map_app. cbn [Nat.add]. set (u := map (B := list nat) _ (List.seq 0 (S i))). assert (length u = S i) as Lu by (unfold u; rewrite map_length, seq_length; reflexivity). rewrite <- Lu at 1. apply skipn_exact. }
  rewrite Sq. assert (K : forall l m s, cs = l ++ m :: s -> DiagModel.kind_is x (b ++ [length l]) K_Dot = kind_eqb (tkind m) K_Dot).
  { intros l m s Es. assert (A : at_path x (b ++ [length l]) = Some m) by (rewrite (AstFacts.at_child _ _ _ _ _ E), Es, nth_error_app2, Nat.sub_diag by lia; reflexivity). unfold DiagModel.kind_is, kind_at. rewrite A. reflexivity. }
  assert (No : forall M l s n, cs = l ++ M ++ s -> Forall (fun c => tkind c <> K_Dot) M -> find (fun c => DiagModel.kind_is x c K_Dot) (@map nat path (fun j => b ++ [j]) (List.seq (length l) (length M + n))) = find (fun c => DiagModel.kind_is x c K_Dot) (@map nat path (fun j => b ++ [j]) (List.seq (length l + length M) n))).
  { induction M as [|m M IH]; intros l s n Es Fm; [cbn [length Nat.add]; rewrite Nat.add_0_r; reflexivity|]. cbn [length Nat.add List.seq map find]. inversion Fm as [|? ? H1 H2]; subst. rewrite (K l m (M ++ s) Es). destruct (kind_eqb_spec (tkind m) K_Dot) as [H|_]; [contradiction|].
    specialize (IH (l ++ [m]) s n ltac:(rewrite <- app_assoc; exact Es) H2). rewrite app_length in IH. cbn [length] in IH. rewrite Nat.add_1_r in IH. rewrite IH. f_equal. f_equal. f_equal. lia. }
  destruct Hc as [(-> & Lf & Fd)|(Kd & M & EF & FM)].
  - assert (snd (dot_of cs i) = post) as Es. { rewrite Ep in Ec at 1. assert (pre ++ T :: post = (pre ++ [T]) ++ post) as Eq by (rewrite <- app_assoc; reflexivity). rewrite Eq in Ec. apply app_eq_app in Ec as [z [[E1 E2]|[E1 E2]]]; assert (length z = 0) as Lz by (apply (f_equal (@length _)) in E1; rewrite !app_length in E1; cbn [length] in E1; lia); destruct z; try discriminate Lz; cbn [app] in E2; auto. }
    rewrite Es in Fd. specialize (No post (pre ++ [T]) [] 0). rewrite !app_length, app_nil_r, Nat.add_0_r in No. cbn [length] in No. rewrite Nat.add_1_r, Li in No. rewrite No; [exact Lf|rewrite <- app_assoc; exact Ep|exact Fd].
  - assert (firstn i cs = pre) as Fi by (rewrite Ep, <- Li; apply firstn_exact). rewrite Fi in EF. subst F.
    assert (post = M ++ c :: snd (dot_of cs i)) as Eq. { apply (app_inv_head (pre ++ [T])). rewrite <- !app_assoc. cbn [app]. rewrite <- Ep at 1. rewrite Ec at 1. rewrite <- !app_assoc. reflexivity. }
    rewrite Eq, app_length. specialize (No M (pre ++ [T]) (c :: snd (dot_of cs i)) (length (c :: snd (dot_of cs i)))). rewrite !app_length in No. cbn [length] in No. rewrite Nat.add_1_r, Li in No. cbn [length]. rewrite No; [|rewrite <- app_assoc; cbn [app]; rewrite <- Eq; exact Ep|exact FM].
    cbn [List.seq map find]. assert (Kc : DiagModel.kind_is x (b ++ [length (pre ++ T :: M)]) K_Dot = true) by (rewrite (K _ c (snd (dot_of cs i))); [rewrite Kd; reflexivity|rewrite <- app_assoc in Ec; exact Ec]).
    assert (length (pre ++ T :: M) = S i + length M) as El by (rewrite app_length; cbn [length]; lia). rewrite El in Kc. rewrite Kc, El. reflexivity.
Qed.

(** ** grammar *)
Notation gblock := (GrammarSpec.GNode K_TriplesBlock).
Notation gnot := (GrammarSpec.GNode K_GraphPatternNotTriples).
Notation ggroup := (GrammarSpec.GSeq gnot (GrammarSpec.GSeq (GrammarSpec.GOpt (GrammarSpec.GTok K_Dot)) (GrammarSpec.GOpt gblock))).
Notation pieces := (flat_map (piece same)).
Notation shapes l := (map shape (flat_map (piece same) l)).
Definition gkind (g : gtree) : kind := match g with GrammarSpec.Leaf k | GrammarSpec.Node k _ => k end.
Lemma node_list k us : derives (GrammarSpec.GNode k) us -> us = [] \/ exists vs, us = [gnode k vs].
Proof. intros H. inversion H; eauto. Qed.
Lemma block_parts ts : derives gblock [gnode K_TriplesBlock ts] -> exists o, derives (GrammarSpec.GNode K_TriplesSameSubjectPath) o /\ (o = [] \/ exists vs, o = [gnode K_TriplesSameSubjectPath vs]) /\
  (ts = o \/ ts = o ++ [gleaf K_Dot] \/ exists us, ts = o ++ [gleaf K_Dot; gnode K_TriplesBlock us] /\ derives gblock [gnode K_TriplesBlock us]).
Proof.
  intros H. apply (node_inv1 _ G_TriplesBlock) in H; [|reflexivity]. apply seq_inv in H as (o & u & -> & Ho & H). exists o. split; [exact Ho|]. split; [exact (node_list _ _ Ho)|].
  apply opt_inv in H as [->|H]; [left; apply app_nil_r|right]. apply seq_inv in H as (a & b & -> & Ha & H). apply tok_inv in Ha as ->. apply opt_inv in H as [->|H]; [left; reflexivity|].
  destruct (node_list _ _ H) as [->|[vs ->]]; [left; reflexivity|right]. exists vs. auto.
Qed.
Lemma block_made o : derives (GrammarSpec.GNode K_TriplesSameSubjectPath) o -> (o <> [] -> derives gblock [gnode K_TriplesBlock o]) /\ derives gblock [gnode K_TriplesBlock (o ++ [gleaf K_Dot])] /\
  (forall b, derives gblock [b] -> derives gblock [gnode K_TriplesBlock (o ++ [gleaf K_Dot; b])]).
Proof.
  intros Ho. split; [|split].
  - intros N. eapply GrammarSpec.d_node; [reflexivity| |exact N]. rewrite <- (app_nil_r o). apply GrammarSpec.d_seq; [exact Ho|constructor].
  - eapply GrammarSpec.d_node; [reflexivity| |destruct o; discriminate]. apply GrammarSpec.d_seq; [exact Ho|]. apply GrammarSpec.d_opt_some. apply (GrammarSpec.d_seq _ _ _ [gleaf K_Dot] []); constructor.
  - intros b Hb. eapply GrammarSpec.d_node; [reflexivity| |destruct o; discriminate]. apply GrammarSpec.d_seq; [exact Ho|]. apply GrammarSpec.d_opt_some. apply (GrammarSpec.d_seq _ _ _ [gleaf K_Dot] [b]); [constructor|]. apply GrammarSpec.d_opt_some, Hb.
Qed.
Lemma rep_cut ts : derives (GrammarSpec.GRep ggroup) ts -> forall A bs B, ts = A ++ gnode K_TriplesBlock bs :: B ->
  derives (GrammarSpec.GRep ggroup) B /\ derives gblock [gnode K_TriplesBlock bs] /\ forall b u, derives gblock [b] -> derives (GrammarSpec.GRep ggroup) u -> derives (GrammarSpec.GRep ggroup) (A ++ b :: u).
Proof.
  intros H. apply (rep_inv (fun ts => derives (GrammarSpec.GRep ggroup) ts /\ forall A bs B, ts = A ++ gnode K_TriplesBlock bs :: B ->
    derives (GrammarSpec.GRep ggroup) B /\ derives gblock [gnode K_TriplesBlock bs] /\ forall b u, derives gblock [b] -> derives (GrammarSpec.GRep ggroup) u -> derives (GrammarSpec.GRep ggroup) (A ++ b :: u)) _ _ H).
  - split; [constructor|]. intros [|a A] bs B E; discriminate.
  - intros u v Hu [Hv IH]. split; [apply GrammarSpec.d_rep_cons; assumption|]. intros A bs B E.
    apply seq_inv in Hu as (n & u1 & -> & Hn & Hu). apply seq_inv in Hu as (d & e & -> & Hd & He).
    assert (Sk : forall A', A = (n ++ d ++ e) ++ A' -> v = A' ++ gnode K_TriplesBlock bs :: B -> derives (GrammarSpec.GRep ggroup) B /\ derives gblock [gnode K_TriplesBlock bs] /\ forall b u, derives gblock [b] -> derives (GrammarSpec.GRep ggroup) u -> derives (GrammarSpec.GRep ggroup) (A ++ b :: u)).
    { intros A' -> Ev. destruct (IH _ _ _ Ev) as (I1 & I2 & I3). split; [exact I1|]. split; [exact I2|]. intros b u Hb Hu. rewrite <- app_assoc. apply GrammarSpec.d_rep_cons; [|apply I3; assumption]. repeat (apply GrammarSpec.d_seq); assumption. }
    assert (Nb : forall a l, In a (n ++ d) -> a = gnode K_TriplesBlock l -> False).
    { intros a l Ha ->. apply in_app_iff in Ha as [Ha|Ha]; [destruct (node_list _ _ Hn) as [->|[vs ->]]|apply opt_inv in Hd as [->|Hd]; [|apply tok_inv in Hd as ->]]; cbn in Ha; intuition discriminate. }
    rewrite app_assoc in E, Sk. rewrite <- app_assoc in E. apply opt_inv in He as [->|He].
    + rewrite app_nil_r in Sk. cbn [app] in E. apply app_eq_app in E as [z [[E1 E2]|[E1 E2]]].
      * destruct z as [|a z]; [apply (Sk []); [rewrite app_nil_r in *; auto|auto]|]. cbn [app] in E2. injection E2 as E2 E3. exfalso. apply (Nb a bs); [rewrite E1; apply in_app_iff; right; left; reflexivity|auto].
      * apply (Sk z); auto.
    + destruct (node_list _ _ He) as [->|[vs ->]].
      * rewrite app_nil_r in Sk. cbn [app] in E. apply app_eq_app in E as [z [[E1 E2]|[E1 E2]]].
        -- destruct z as [|a z]; [apply (Sk []); [rewrite app_nil_r in *; auto|auto]|]. cbn [app] in E2. injection E2 as E2 E3. exfalso. apply (Nb a bs); [rewrite E1; apply in_app_iff; right; left; reflexivity|auto].
        -- apply (Sk z); auto.
      * cbn [app] in E. apply app_eq_app in E as [z [[E1 E2]|[E1 E2]]].
        -- destruct z as [|a z]; [|cbn [app] in E2; injection E2 as E2 E3; exfalso; apply (Nb a bs); [rewrite E1; apply in_app_iff; right; left; reflexivity|auto]]. cbn [app] in E2. injection E2 as <- <-. rewrite app_nil_r in E1. subst A.
           split; [exact Hv|]. split; [exact He|]. intros b u Hb Hu. change (b :: u) with ([b] ++ u). rewrite app_assoc. apply GrammarSpec.d_rep_cons; [|exact Hu]. rewrite <- app_assoc. apply GrammarSpec.d_seq; [exact Hn|]. apply GrammarSpec.d_seq; [exact Hd|]. apply GrammarSpec.d_opt_some, Hb.
        -- destruct z as [|a z].
           ++ cbn [app] in E2. injection E2 as -> <-. rewrite app_nil_r in E1. subst A. split; [exact Hv|]. split; [exact He|]. intros b u Hb Hu. change (b :: u) with ([b] ++ u). rewrite app_assoc. apply GrammarSpec.d_rep_cons; [|exact Hu]. rewrite <- app_assoc. apply GrammarSpec.d_seq; [exact Hn|]. apply GrammarSpec.d_seq; [exact Hd|]. apply GrammarSpec.d_opt_some, Hb.
           ++ cbn [app] in E2. injection E2 as <- E2. apply (Sk z); [rewrite E1, <- !app_assoc; reflexivity|auto].
Qed.
Lemma group_cut A bs B : derives (GrammarSpec.GNode K_GroupGraphPatternSub) [gnode K_GroupGraphPatternSub (A ++ gnode K_TriplesBlock bs :: B)] ->
  derives (GrammarSpec.GRep ggroup) B /\ derives gblock [gnode K_TriplesBlock bs] /\ forall b u, derives gblock [b] -> derives (GrammarSpec.GRep ggroup) u -> derives (GrammarSpec.GNode K_GroupGraphPatternSub) [gnode K_GroupGraphPatternSub (A ++ b :: u)].
Proof.
  intros H. apply (node_inv1 _ G_GroupGraphPatternSub) in H; [|reflexivity]. apply seq_inv in H as (o & g & E & Ho & Hg).
  assert (M : forall l, l <> [] -> derives G_GroupGraphPatternSub l -> derives (GrammarSpec.GNode K_GroupGraphPatternSub) [gnode K_GroupGraphPatternSub l]) by (intros l N Hl; eapply GrammarSpec.d_node; [reflexivity|exact Hl|exact N]).
  assert (Sk : forall A', A = o ++ A' -> g = A' ++ gnode K_TriplesBlock bs :: B -> derives (GrammarSpec.GRep ggroup) B /\ derives gblock [gnode K_TriplesBlock bs] /\ forall b u, derives gblock [b] -> derives (GrammarSpec.GRep ggroup) u -> derives (GrammarSpec.GNode K_GroupGraphPatternSub) [gnode K_GroupGraphPatternSub (A ++ b :: u)]).
  { intros A' -> Eg. destruct (rep_cut _ Hg _ _ _ Eg) as (I1 & I2 & I3). split; [exact I1|]. split; [exact I2|]. intros b u Hb Hu. apply M; [destruct (o ++ A'); discriminate|]. rewrite <- app_assoc. apply GrammarSpec.d_seq; [exact Ho|apply I3; assumption]. }
  pose proof (opt_inv _ _ Ho) as [->|Hb]; [apply (Sk A); auto|]. destruct (node_list _ _ Hb) as [->|[vs ->]]; [apply (Sk A); auto|]. cbn [app] in E.
  destruct A as [|a A]; cbn [app] in E; injection E as E1 E2.
  - subst vs B. split; [exact Hg|]. split; [exact Hb|]. intros b u H1 H2. apply M; [discriminate|]. apply (GrammarSpec.d_seq _ _ _ [b] u); [apply GrammarSpec.d_opt_some, H1|exact H2].
  - apply (Sk A); [rewrite E1; reflexivity|auto].
Qed.

(** ** the cut block *)
Lemma shape_bare_node k cs : shape (bare same (Node k cs)) = gnode k (shapes cs).
Proof. reflexivity. Qed.
Lemma gkind_shape c : gkind (shape c) = tkind c.
Proof. destruct c; reflexivity. Qed.
Lemma piece_kind c z : In z (piece same c) -> tkind z = tkind c.
Proof. destruct c as [k w|k cs]; unfold piece; [destruct (trivial (k, w)); [intros []|]|]; intros [<-|[]]; reflexivity. Qed.
Lemma piece_node k cs : piece same (Node k cs) = [bare same (Node k cs)].
Proof. reflexivity. Qed.
Lemma no_dots M : Forall (fun c => tkind c <> K_Dot) M -> Forall (fun g => gkind g <> K_Dot) (shapes M).
Proof.
  intros F. apply Forall_forall. intros g Hg. apply in_map_iff in Hg as (z & <- & Hz). apply in_flat_map in Hz as (c & Hc & Hz). rewrite gkind_shape, (piece_kind _ _ Hz). rewrite Forall_forall in F. exact (F c Hc).
Qed.
Lemma dot_piece c : tkind c = K_Dot -> exists z, piece same c = [z] /\ gkind (shape z) = K_Dot /\ leaves z = sigs (leaves c).
Proof.
  intros K. destruct c as [k w|k cs].
  - cbn [tkind] in K. subst k. exists (Tok K_Dot w). auto.
  - cbn [tkind] in K. subst k. exists (bare same (Node K_Dot cs)). split; [reflexivity|]. split; [reflexivity|]. apply bare_leaves. eexists; eexists; reflexivity.
Qed.
Lemma shapes_app a b : shapes (a ++ b) = shapes a ++ shapes b.
Proof. rewrite flat_map_app. apply map_app. Qed.
Lemma shapes_one c z : piece same c = [z] -> shapes [c] = [shape z].
Proof. intros H. cbn [flat_map]. rewrite H. reflexivity. Qed.
Ltac no_dot := match goal with H : Forall (fun g => gkind g <> K_Dot) (_ :: _) |- _ => exfalso; let N := fresh in inversion H as [|? ? N ?]; apply N; first [reflexivity|assumption] end.
Lemma cut_derives y r : in_block y r -> derives gblock [shape (bare same y)] ->
  (exists cs, fst (cut_behind y r) = Node K_TriplesBlock cs) /\ derives gblock [shape (bare same (fst (cut_behind y r)))] /\
  (pieces (snd (cut_behind y r)) = [] \/ exists z, pieces (snd (cut_behind y r)) = [z] /\ derives gblock [shape z]).
Proof.
  intros H. induction H as [cs i ts E|cs i c r E H IH]; intros Db.
  - rewrite shape_bare_node in Db. destruct (dot_parts _ _ _ E) as (F & c & E1 & E2 & E3). cbn [cut_behind fst snd]. rewrite E1. split; [eauto|]. rewrite shape_bare_node. revert E2 E3. generalize (snd (dot_of cs i)). intros b E2 E3. clear E1.
    destruct (block_parts _ Db) as (o & Ho & Oo & Hts). destruct (block_made _ Ho) as (M1 & M2 & M3).
    rewrite E2, !shapes_app in Hts. rewrite shapes_app. destruct E3 as [(Ec & _ & Nb)|(Kc & M & EF & NM)].
    + subst c. pose proof (no_dots _ Nb) as Nb'. assert (Et : shapes [Node K_TriplesSameSubjectPath ts] = [shape (bare same (Node K_TriplesSameSubjectPath ts))]) by reflexivity. rewrite Et in *. rewrite shape_bare_node in *.
      assert (B0 : pieces b = [] <-> shapes b = []) by (split; [intros ->; reflexivity|apply map_eq_nil]).
      revert Nb' Hts. rewrite B0. generalize (shapes b) as sb. generalize (shapes F) as sf. generalize (shapes ts) as tt. intros tt sf sb Nb' Hts.
      assert (sf = [] /\ sb = [] /\ o = [gnode K_TriplesSameSubjectPath tt]) as (-> & -> & ->).
      { destruct Oo as [->|[vs ->]]; (destruct Hts as [Hts|[Hts|(us & Hts & _)]]); destruct sf as [|f1 [|f2 [|f3 sf]]]; cbn [app] in Hts; try discriminate Hts; injection Hts; intros; subst; try discriminate; try no_dot; auto; try (destruct sf; discriminate). }
      split; [apply M1; discriminate|left; reflexivity].
    + destruct (dot_piece _ Kc) as (z & Ez & Kz & _). rewrite (shapes_one _ _ Ez) in *. pose proof (no_dots _ NM) as NM'. subst F. change (firstn i cs ++ Node K_TriplesSameSubjectPath ts :: M) with (firstn i cs ++ [Node K_TriplesSameSubjectPath ts] ++ M) in *. rewrite !shapes_app in *.
      assert (Et : shapes [Node K_TriplesSameSubjectPath ts] = [shape (bare same (Node K_TriplesSameSubjectPath ts))]) by reflexivity. rewrite Et in *. rewrite shape_bare_node in *.
      assert (Hb : (shapes b = [] \/ exists us, shapes b = [gnode K_TriplesBlock us] /\ derives gblock [gnode K_TriplesBlock us]) /\ (shapes (firstn i cs) ++ [gnode K_TriplesSameSubjectPath (shapes ts)] ++ shapes M) ++ [shape z] = o ++ [gleaf K_Dot]).
      { revert NM' Kz Hts. generalize (shapes b) as sb. generalize (shapes (firstn i cs)) as sp. generalize (shapes M) as sm. generalize (shapes ts) as tt. generalize (shape z) as sz. intros sz tt sm sp sb NM' Kz Hts.
        destruct Oo as [->|[vs ->]]; (destruct Hts as [Hts|[Hts|(us & Hts & Hu)]]); destruct sp as [|f1 [|f2 [|f3 sp]]]; cbn [app] in Hts; try discriminate Hts; destruct sm as [|m1 [|m2 sm]]; cbn [app] in Hts; try discriminate Hts; injection Hts; intros; subst; try discriminate; try no_dot;
          try (split; [left; reflexivity|reflexivity]); try (split; [right; exists us; auto|reflexivity]); try (destruct sp; discriminate); try (destruct sm; discriminate). }
      destruct Hb as [Hb Hl]. split; [rewrite Hl; exact M2|]. destruct Hb as [Hb|(us & Hb & Du)]; [left; apply map_eq_nil in Hb; exact Hb|right]. destruct (pieces b) as [|z1 [|z2 l]]; try discriminate Hb. exists z1. split; [reflexivity|]. cbn [map] in Hb. injection Hb as Hb. rewrite Hb. exact Du.
  - rewrite shape_bare_node in Db. destruct (nth_error_split _ _ E) as (pre & post & Ec & Li). assert (r <> []) as Nr by (destruct H; discriminate).
    assert (Kc : exists ds, c = Node K_TriplesBlock ds) by (destruct H; eauto). destruct Kc as [ds ->].
    assert (Eq : cut_behind (Node K_TriplesBlock cs) (i :: r) = (Node K_TriplesBlock (pre ++ [fst (cut_behind (Node K_TriplesBlock ds) r)]), snd (cut_behind (Node K_TriplesBlock ds) r) ++ post)).
    { cbn [cut_behind]. destruct r as [|r1 r]; [congruence|]. rewrite E. f_equal; [|f_equal].
      - do 2 f_equal. rewrite Ec, <- Li. apply firstn_exact.
      - rewrite Ec, <- Li. change (Node K_TriplesBlock ds :: post) with ([Node K_TriplesBlock ds] ++ post). rewrite app_assoc. replace (S (length pre)) with (length (pre ++ [Node K_TriplesBlock ds])) by (rewrite app_length; cbn [length]; lia). apply skipn_exact. }
    rewrite Eq. cbn [fst snd]. split; [eauto|]. rewrite shape_bare_node. destruct (block_parts _ Db) as (o & Ho & Oo & Hts). destruct (block_made _ Ho) as (M1 & M2 & M3).
    rewrite Ec in Hts. change (pre ++ Node K_TriplesBlock ds :: post) with (pre ++ [Node K_TriplesBlock ds] ++ post) in Hts. rewrite !shapes_app in Hts. assert (Et : shapes [Node K_TriplesBlock ds] = [shape (bare same (Node K_TriplesBlock ds))]) by reflexivity. rewrite Et, shape_bare_node in Hts.
    assert (Hp : shapes pre = o ++ [gleaf K_Dot] /\ shapes post = [] /\ derives gblock [gnode K_TriplesBlock (shapes ds)]).
    { revert Hts. generalize (shapes pre) as sp. generalize (shapes post) as sq. generalize (shapes ds) as tt. intros tt sq sp Hts.
      destruct Oo as [->|[vs ->]]; (destruct Hts as [Hts|[Hts|(us & Hts & Hu)]]); destruct sp as [|f1 [|f2 [|f3 sp]]]; cbn [app] in Hts; try discriminate Hts; injection Hts; intros; subst; try discriminate; auto; try (destruct sp; discriminate). }
    destruct Hp as (Hp & Hq & Dd). destruct (IH Dd) as ([ls El] & I1 & I2). apply map_eq_nil in Hq. split.
    + rewrite shapes_app, Hp. rewrite El in *. rewrite <- app_assoc. cbn [app]. rewrite (shapes_one (Node K_TriplesBlock ls) _ eq_refl). apply M3, I1.
    + rewrite flat_map_app, Hq, app_nil_r. exact I2.
Qed.

(** ** the group with the filter *)
(** the innermost triple around [v] *)
Definition triple_around (x : tree) (v p : path) : Prop :=
  node_at x p K_TriplesSameSubjectPath /\ (exists s, v = p ++ s) /\ forall p' s, v = p' ++ s -> node_at x p' K_TriplesSameSubjectPath -> length p' <= length p.
Lemma is_triple_at x p : is_triple x p = true <-> node_at x p K_TriplesSameSubjectPath.
Proof.
  unfold is_triple. split.
  - intros H. destruct (at_path x p) as [[k w|k cs]|] eqn:E; try discriminate. apply kind_eqb_eq in H. subst k. exists cs. exact E.
  - intros [cs ->]. reflexivity.
Qed.
Lemma triple_above_iff x v p : triple_above x v = Some p <-> triple_around x v p.
Proof.
  unfold triple_above, triple_around. rewrite find_ancestors, is_triple_at. split; intros (H1 & H2 & H3); (split; [exact H1|]; split; [exact H2|]); intros q s Ev Hq; apply (H3 q s Ev); apply is_triple_at, Hq.
Qed.
Lemma around_app x : forall p y r, at_path x p = Some y -> leaves_before x (p ++ r) = leaves_before x p ++ leaves_before y r /\ leaves_behind x (p ++ r) = leaves_behind y r ++ leaves_behind x p.
Proof.
  intros p. revert x. induction p as [|i p IH]; intros x y r E; [cbn [at_path] in E; injection E as ->; cbn [app leaves_before leaves_behind]; rewrite app_nil_r; auto|].
  destruct x as [k w|k cs]; [discriminate|]. cbn [at_path app leaves_before leaves_behind] in *. destruct (nth_error cs i) as [c|]; [|discriminate]. destruct (IH _ _ r E) as [-> ->]. rewrite <- !app_assoc. auto.
Qed.
Lemma at_app x : forall p y r, at_path x p = Some y -> at_path x (p ++ r) = at_path y r.
Proof.
  intros p. revert x. induction p as [|i p IH]; intros x y r E; [cbn [at_path] in E; injection E as ->; reflexivity|]. destruct x as [k w|k cs]; [discriminate|]. cbn [at_path app] in *. destruct (nth_error cs i) as [c|]; [|discriminate]. exact (IH _ _ r E).
Qed.
Section added.
Context (err : text -> nat) (t : text) (x : tree) (errs : list parse_error) (q : path) (A : list tree) (y : tree) (B : list tree) (r : path).
Context (P : doc_parse err t x errs) (G : grammatical err t) (E : at_path x q = Some (Node K_GroupGraphPatternSub (A ++ y :: B))) (Hr : in_block y r).
Context (w : text) (ftree : tree).
Context (Df : derives gnot [shape ftree]) (Lf : forall v, apart v -> tokens err (w ++ v) = leaves ftree ++ tokens err v) (Ow : forall v, opens_solid (w ++ v)).
Let D : doc_tree err t x := doc_parse_tree _ _ _ _ P.
Let qy : path := q ++ [length A].
Let l : tree := fst (cut_behind y r).
Let rest : list tree := snd (cut_behind y r).
Context (Va : apart (flat_map snd (flat_map leaves rest ++ leaves_behind x qy))) (NF : not_fused (leaves_before x qy ++ leaves l)).
Lemma block_at : at_path x qy = Some y.
Proof. unfold qy. rewrite (AstFacts.at_child _ _ _ _ _ E), nth_error_app2, Nat.sub_diag by lia. reflexivity. Qed.
Lemma group_derived : derives (GrammarSpec.GNode K_GroupGraphPatternSub) [gnode K_GroupGraphPatternSub (shapes A ++ shape (bare same y) :: shapes B)].
Proof.
  destruct (grammatical_parsed _ _ G) as (x0 & P0 & Q & D0). destruct (doc_parse_fun _ _ _ _ _ _ P P0) as [<- _].
  assert (Ix : is_inner x) by (destruct Q as [l0 Q]; destruct x; [discriminate|eexists; eexists; reflexivity]).
  destruct (bare_at q x _ E Ix ltac:(eexists; eexists; reflexivity)) as (q0 & A0 & _ & _). pose proof (derives_node _ _ _ _ _ D0 A0) as H. assert (Ey : piece same y = [bare same y]) by (destruct Hr; reflexivity).
  change (derives (GrammarSpec.GNode K_GroupGraphPatternSub) [gnode K_GroupGraphPatternSub (shapes (A ++ y :: B))]) in H. change (y :: B) with ([y] ++ B) in H. rewrite !shapes_app, (shapes_one _ _ Ey) in H. exact H.
Qed.
Lemma added_derived : (exists ls, l = Node K_TriplesBlock ls) /\ derives (GrammarSpec.GNode K_GroupGraphPatternSub) [shape (Node K_GroupGraphPatternSub (pieces A ++ bare same l :: ftree :: pieces rest ++ pieces B))].
Proof.
  pose proof group_derived as H. assert (exists cs, y = Node K_TriplesBlock cs) as [cs Ey] by (destruct Hr; eauto). assert (Es : shape (bare same y) = gnode K_TriplesBlock (shapes cs)) by (rewrite Ey; reflexivity). rewrite Es in H.
  destruct (group_cut _ _ _ H) as (DB & Db & Hc). rewrite <- Es in Db. destruct (cut_derives _ _ Hr Db) as (Il & Dl & Hz). fold l rest in Il, Dl, Hz. split; [exact Il|].
  cbn [shape]. rewrite map_app. cbn [map]. rewrite map_app. apply Hc; [exact Dl|]. change (shape ftree :: map shape (pieces rest) ++ map shape (pieces B)) with ([shape ftree] ++ map shape (pieces rest) ++ map shape (pieces B)). rewrite app_assoc. apply GrammarSpec.d_rep_cons; [|exact DB].
  apply GrammarSpec.d_seq; [exact Df|]. apply (GrammarSpec.d_seq _ _ _ [] (map shape (pieces rest))); [constructor|]. destruct Hz as [->|(z & -> & Dz)]; [constructor|]. apply GrammarSpec.d_opt_some, Dz.
Qed.
Lemma cut_leaves : leaves y = leaves l ++ flat_map leaves rest.
Proof.
  destruct (cut_place _ _ Hr) as (r0 & i & cs & T & F & c & _ & A0 & _ & _ & Ec & _ & L1 & L2). fold l rest in L1, L2. rewrite L1, L2, (proj1 (leaves_around _ _ _ A0)). cbn [leaves]. rewrite Ec at 1. rewrite flat_map_app, <- !app_assoc. reflexivity.
Qed.
Let U : text := flat_map snd (leaves_before x qy ++ leaves l).
Let V : text := flat_map snd (flat_map leaves rest ++ leaves_behind x qy).
Lemma cut_text : t = U ++ V /\ lex err t = (leaves_before x qy ++ leaves l) ++ flat_map leaves rest ++ leaves_behind x qy.
Proof.
  pose proof (node_split _ _ _ _ _ D block_at) as Sp. pose proof (node_text _ _ _ _ _ D block_at) as Et. rewrite leaves_text in Et. rewrite cut_leaves in *. split; [|rewrite Sp, <- !app_assoc; reflexivity].
  unfold U, V. rewrite !flat_map_app in *. rewrite <- !app_assoc in *. exact Et.
Qed.
Lemma cut_end v : triple_around x v (qy ++ r) -> behind_triple x t v (32%N :: w) = Some (mkedit (mkrange (position_after U) (position_after U)) (32%N :: w)) /\ exists L k u, leaves_before x qy ++ leaves l = L ++ [(k, u)] /\ trivial (k, u) = false.
Proof.
  intros Hv. destruct (cut_place _ _ Hr) as (r0 & i & cs & T & F & c & Er & A0 & Ni & Kt & Ec & Hc & L1 & L2). fold l rest in L1, L2.
  assert (Eb : at_path x (qy ++ r0) = Some (Node K_TriplesBlock cs)) by (rewrite (at_app _ _ _ r0 block_at); exact A0). destruct (around_app x qy y r0 block_at) as [Lb _].
  pose proof (later_is x (qy ++ r0) _ cs T i Eb Ni F c Ec Hc) as La.
  assert (Ef : at_path x ((qy ++ r0) ++ [length F]) = Some c) by (rewrite (AstFacts.at_child _ _ _ _ _ Eb), Ec, <- app_assoc, nth_error_app2, Nat.sub_diag by lia; reflexivity).
  destruct (child_leaves x (qy ++ r0) _ F c (snd (dot_of cs i)) ltac:(rewrite Eb; do 2 f_equal; rewrite Ec at 1; rewrite <- app_assoc; reflexivity)) as [Lc _].
  assert (Lu : leaves_before x qy ++ leaves l = leaves_before x ((qy ++ r0) ++ [length F]) ++ leaves c) by (rewrite L1, Lc, Lb, flat_map_app; cbn [flat_map]; rewrite app_nil_r, <- !app_assoc; reflexivity).
  assert (En : end_at x ((qy ++ r0) ++ [length F]) = byte_len U).
  { unfold end_at. rewrite (before_bytes _ _ _ Ef). unfold text_at. rewrite Ef. unfold U. rewrite Lu, flat_map_app, byte_len_app. rewrite leaves_text. reflexivity. }
  split.
  - unfold behind_triple. rewrite (proj2 (triple_above_iff _ _ _) Hv), Er, app_assoc.
    assert (Eo : match later_sibling x ((qy ++ r0) ++ [i]) K_Dot with Some d => end_at x d | None => end_at x ((qy ++ r0) ++ [i]) end = byte_len U) by (destruct (later_sibling _ _ _); [rewrite La; exact En|rewrite <- La; exact En]).
    rewrite Eo. assert (from_byte_index (byte_len U) t = Some (position_after U)) as -> by (rewrite (proj1 cut_text); apply from_byte_index_boundary). reflexivity.
  - rewrite Lu. destruct c as [k u|k ds].
    + exists (leaves_before x ((qy ++ r0) ++ [length F])), k, u. split; [reflexivity|]. destruct Hc as [(<- & _)|(Kc & _)]; [cbn [tkind] in Kt; subst k; reflexivity|cbn [tkind] in Kc; subst k; reflexivity].
    + destruct (trails_leaf _ _ _ D _ ((qy ++ r0) ++ [length F]) ltac:(intros N; apply app_eq_nil in N as [_ N]; discriminate) Ef ltac:(eexists; eexists; reflexivity)) as (L & [k1 u1] & EL & Tr). rewrite EL. exists (leaves_before x ((qy ++ r0) ++ [length F]) ++ L), k1, u1. split; [apply app_assoc|exact Tr].
Qed.
Theorem filter_added : forall v, triple_around x v (qy ++ r) -> exists e t' x' q', behind_triple x t v (32%N :: w) = Some e /\ edited t e t' /\ doc_parse err t' x' [] /\
  at_path (bare same x) q' = Some (bare same (Node K_GroupGraphPatternSub (A ++ y :: B))) /\
  bare same x' = put_at (bare same x) q' (Node K_GroupGraphPatternSub (pieces A ++ bare same l :: ftree :: pieces rest ++ pieces B)).
Proof.
  intros v Hv. destruct (cut_end v Hv) as (He & L & k & u & EL & Tr). destruct cut_text as [Et Sp]. destruct added_derived as [[ls El] Dn]. pose proof (grammatical_tokens _ _ G) as Fq.
  destruct (edited_insert U V (32%N :: w)) as (pp & I1 & I2). assert (pp = position_after U) as -> by (rewrite from_byte_index_boundary in I1; injection I1 as <-; reflexivity). rewrite <- Et in I2.
  assert (Tk : tokens err (U ++ (32%N :: w) ++ V) = sigs (leaves_before x q) ++ leaves (Node K_GroupGraphPatternSub (pieces A ++ bare same l :: ftree :: pieces rest ++ pieces B)) ++ sigs (leaves_behind x q)).
  { rewrite EL in Sp. rewrite <- app_assoc in Sp. cbn [app] in Sp.
    assert (Fu : Forall query_token (L ++ [(k, u)])) by (rewrite Sp in Fq; change ((k, u) :: flat_map leaves rest ++ leaves_behind x qy) with ([(k, u)] ++ flat_map leaves rest ++ leaves_behind x qy) in Fq; rewrite app_assoc in Fq; apply Forall_app in Fq as [F1 _]; exact F1).
    assert (NF2 : not_fused (L ++ [(k, u)])) by (rewrite <- EL; exact NF).
    pose proof (left_spaced err t L k u _ [32%N] (w ++ V) Sp Fu NF2 Tr ltac:(discriminate) eq_refl (Ow V)) as Ls.
    assert (Tx : U ++ (32%N :: w) ++ V = flat_map snd (L ++ [(k, u)]) ++ [32%N] ++ w ++ V) by (unfold U; rewrite EL; reflexivity).
    rewrite tokens_sigs. rewrite (eq_trans (f_equal (lex err) Tx) Ls). rewrite PrologueSwap.sigs_app. change (sigs ((K_WHITESPACE, [32%N]) :: lex err (w ++ V))) with (tokens err (w ++ V)). rewrite (Lf V Va), (tokens_sigs err).
    assert (lex err V = flat_map leaves rest ++ leaves_behind x qy) as -> by (unfold V; apply (LexInsert.lex_suffix err t (L ++ [(k, u)])); rewrite <- app_assoc; exact Sp).
    destruct (child_leaves x q _ A y B E) as [Lb Lh]. fold qy in Lb, Lh. rewrite <- EL, Lb, Lh. cbn [leaves]. rewrite flat_map_app. cbn [flat_map]. rewrite !flat_map_app, !piece_leaves. rewrite bare_leaves by (rewrite El; eexists; eexists; reflexivity).
    rewrite !PrologueSwap.sigs_app, <- !app_assoc. reflexivity. }
  destruct (replanted _ _ _ _ _ _ _ _ _ P G E Dn Tk) as (x' & q' & P' & _ & A' & B'). exists (mkedit (mkrange (position_after U) (position_after U)) (32%N :: w)), (U ++ (32%N :: w) ++ V), x', q'. auto 6.
Qed.
End added.

(** ** every triple of a query is in a block of a group *)
Fixpoint kinds_in (e : GrammarSpec.gexp) : list kind :=
  match e with
  | GrammarSpec.GEps => []
  | GrammarSpec.GTok k | GrammarSpec.GNode k => [k]
  | GrammarSpec.GSeq a b | GrammarSpec.GAlt a b => kinds_in a ++ kinds_in b
  | GrammarSpec.GOpt a | GrammarSpec.GRep a => kinds_in a
  end.
Lemma derives_kinds e ts : derives e ts -> forall c, In c ts -> In (gkind c) (kinds_in e).
Proof.
  induction 1 as [|k|r0 e ts G D IH Ne|r0 e G D IH|a b u v D1 IH1 D2 IH2|a b ts D IH|a b ts D IH|a|a ts D IH|a|a u v D1 IH1 D2 IH2]; intros c Hc; cbn [kinds_in].
  - destruct Hc.
  - destruct Hc as [<-|[]]. left. reflexivity.
  - destruct Hc as [<-|[]]. left. reflexivity.
  - destruct Hc.
  - apply in_app_iff in Hc as [Hc|Hc]; apply in_app_iff; auto.
  - apply in_app_iff. auto.
  - apply in_app_iff. auto.
  - destruct Hc.
  - auto.
  - destruct Hc.
  - apply in_app_iff in Hc as [Hc|Hc]; [auto|]. apply (IH2 c Hc).
Qed.
Lemma child_kind err t x errs p k cs k' ds : doc_parse err t x errs -> grammatical err t -> at_path x p = Some (Node k cs) -> In (Node k' ds) cs -> exists e, sparql_grammar k = Some e /\ In k' (kinds_in e).
Proof.
  intros P G E Hin. destruct (grammatical_parsed _ _ G) as (x0 & P0 & Q & D0). destruct (doc_parse_fun _ _ _ _ _ _ P P0) as [<- _].
  assert (Ix : is_inner x) by (destruct Q as [l0 Q]; destruct x; [discriminate|eexists; eexists; reflexivity]).
  destruct (bare_at p x _ E Ix ltac:(eexists; eexists; reflexivity)) as (q0 & A0 & _ & _). pose proof (derives_node _ _ _ _ _ D0 A0) as H. change (derives (GrammarSpec.GNode k) [gnode k (shapes cs)]) in H.
  inversion H as [| |r0 e ts G0 D1 N| | | | | | | |]; subst. exists e. split; [exact G0|]. apply (derives_kinds _ _ D1 (shape (bare same (Node k' ds)))). apply in_map. apply in_flat_map. exists (Node k' ds). split; [exact Hin|left; reflexivity].
Qed.
Definition mem_kind (k : kind) (l : list kind) : bool := existsb (kind_eqb k) l.
Lemma block_parents k e : sparql_grammar k = Some e -> (In K_TriplesSameSubjectPath (kinds_in e) -> k = K_TriplesBlock) /\ (In K_TriplesBlock (kinds_in e) -> k = K_TriplesBlock \/ k = K_GroupGraphPatternSub).
Proof.
  assert (M : forall a l, In a l -> mem_kind a l = true) by (intros a l Ha; apply existsb_exists; exists a; split; [exact Ha|apply kind_eqb_eq; reflexivity]).
  intros H. assert (C : match sparql_grammar k with Some e => (negb (mem_kind K_TriplesSameSubjectPath (kinds_in e)) || kind_eqb k K_TriplesBlock) && (negb (mem_kind K_TriplesBlock (kinds_in e)) || kind_eqb k K_TriplesBlock || kind_eqb k K_GroupGraphPatternSub) = true | None => True end) by (destruct k; vm_compute; (reflexivity || exact I)).
  rewrite H in C. apply andb_prop in C as [C1 C2]. split; intros Hi; apply M in Hi; rewrite Hi in *; cbn [negb orb] in *; [apply kind_eqb_eq, C1|]. apply orb_prop in C2 as [C2|C2]; apply kind_eqb_eq in C2; auto.
Qed.
Lemma parent_node x p i y : at_path x (p ++ [i]) = Some y -> exists k cs, at_path x p = Some (Node k cs) /\ nth_error cs i = Some y.
Proof.
  intros H. rewrite at_path_app in H. destruct (at_path x p) as [[k w|k cs]|]; try discriminate. exists k, cs. split; [reflexivity|]. cbn [at_path] in H. destruct (nth_error cs i); [exact H|discriminate].
Qed.
Theorem triple_in_group err t x errs p : doc_parse err t x errs -> grammatical err t -> node_at x p K_TriplesSameSubjectPath ->
  exists q A y B r, at_path x q = Some (Node K_GroupGraphPatternSub (A ++ y :: B)) /\ in_block y r /\ p = (q ++ [length A]) ++ r.
Proof.
  intros P G Hp. destruct (grammatical_parsed _ _ G) as (x0 & P0 & Q & _). destruct (doc_parse_fun _ _ _ _ _ _ P P0) as [<- _]. destruct Q as [l0 Q].
  assert (Up : forall p cs r, at_path x p = Some (Node K_TriplesBlock cs) -> in_block (Node K_TriplesBlock cs) r -> exists q A y B r', at_path x q = Some (Node K_GroupGraphPatternSub (A ++ y :: B)) /\ in_block y r' /\ p ++ r = (q ++ [length A]) ++ r').
  { intros p0. induction p0 as [|i p0 IH] using rev_ind; intros cs r E Hr; [rewrite Q in E; discriminate|]. destruct (parent_node _ _ _ _ E) as (k & ds & Ep & En).
    destruct (child_kind _ _ _ _ _ _ _ _ _ P G Ep (nth_error_In _ _ En)) as (e & Ge & Hk). destruct (proj2 (block_parents _ _ Ge) Hk) as [-> | ->].
    - destruct (IH ds (i :: r) Ep (block_rest _ _ _ _ En Hr)) as (q & A & y & B & r' & H1 & H2 & H3). exists q, A, y, B, r'. split; [exact H1|]. split; [exact H2|]. rewrite <- H3, <- app_assoc. reflexivity.
    - destruct (nth_error_split _ _ En) as (A & B & -> & <-). exists p0, A, (Node K_TriplesBlock cs), B, r. auto. }
  destruct Hp as [ts Ep]. destruct p as [|i p] using rev_ind; [rewrite Q in Ep; discriminate|]. clear IHp. destruct (parent_node _ _ _ _ Ep) as (k & ds & E1 & En).
  destruct (child_kind _ _ _ _ _ _ _ _ _ P G E1 (nth_error_In _ _ En)) as (e & Ge & Hk). rewrite (proj1 (block_parents _ _ Ge) Hk) in E1. exact (Up _ _ _ E1 (block_triple _ _ _ En)).
Qed.

(** ** the two filters *)
Definition filter_on (condition : tree) : tree :=
  Node K_GraphPatternNotTriples [Node K_Filter [Tok K_FILTER (chars "FILTER"); Node K_Constraint [Node K_BrackettedExpression [Tok K_LParen (chars "("); condition; Tok K_RParen (chars ")")]]]].
Definition operand (y : tree) : tree := nest [K_NumericExpression; K_AdditiveExpression; K_MultiplicativeExpression; K_UnaryExpression; K_PrimaryExpression] y.
(** LANG(v) = "en" *)
Definition is_english (v : tree) : tree :=
  nest [K_Expression; K_ConditionalOrExpression; K_ConditionalAndExpression; K_ValueLogical]
    (Node K_RelationalExpression [operand (Node K_BuiltInCall [Tok K_LANG (chars "LANG"); Tok K_LParen (chars "("); expression v; Tok K_RParen (chars ")")]); Tok K_Equals (chars "=");
      operand (Node K_RDFLiteral [Node K_String [Tok K_STRING_LITERAL2 (chars """en""")]])]).
Definition filter_piece (w : text) (f : tree) : Prop :=
  derives gnot [shape f] /\ (forall err v, apart v -> tokens err (w ++ v) = leaves f ++ tokens err v) /\ forall v, opens_solid (w ++ v).
Lemma gnot_check f : existsb (fun l : list gtree => match l with [] => true | _ => false end) (rests 200 gnot [shape f]) = true -> derives gnot [shape f].
Proof. intros H. apply existsb_exists in H as ([|] & X & Y); [|discriminate Y]. apply rests_sound in X as (u & Eu & H). rewrite app_nil_r in Eu. rewrite Eu. exact H. Qed.
Lemma filter_lex k w u l s ls : (exists err t, In (k, w) (lex err t)) -> var_kind k -> known_lex 50 (u ++ [sigil_of k]) = (l, [sigil_of k]) -> known_lex 50 (s ++ [41%N]) = (ls, [41%N]) -> no_name (s ++ [41%N]) ->
  forall err v, apart v -> tokens err ((u ++ w ++ s ++ [41%N]) ++ v) = sigs l ++ (k, w) :: sigs ls ++ (K_RParen, [41%N]) :: tokens err v.
Proof.
  intros (err0 & t0 & Hin) Hk Hu Hs Hn err v Ap. destruct (lex_var_text _ _ _ _ Hin Hk) as (a & -> & Ha).
  assert (L : lex err ((u ++ (sigil_of k :: a) ++ s ++ [41%N]) ++ v) = l ++ (k, sigil_of k :: a) :: ls ++ (K_RParen, [41%N]) :: lex err v).
  { assert (Et : (u ++ (sigil_of k :: a) ++ s ++ [41%N]) ++ v = (u ++ [sigil_of k]) ++ a ++ (s ++ [41%N]) ++ v) by (rewrite <- !app_assoc; reflexivity). rewrite Et, (known_lex_sound err _ _ _ _ _ Hu). f_equal.
    refine (eq_trans (lex_one err k (sigil_of k :: a) ((s ++ [41%N]) ++ v) (var_longest _ _ _ Hk Ha _) ltac:(discriminate)) _).
    - destruct s; exact Hn.
    - f_equal. rewrite (known_lex_sound err _ _ _ _ _ Hs). f_equal. exact (lex_rparen err v Ap). }
  unfold tokens. rewrite L. change (filter (fun l => negb (trivial l))) with sigs. rewrite PrologueSwap.sigs_app. f_equal. destruct Hk as [-> | ->]; cbn [sigs filter trivial negb]; change (filter (fun l => negb (trivial l))) with sigs; f_equal; fold sigs; rewrite PrologueSwap.sigs_app; reflexivity.
Qed.
Lemma plain_piece err t k w : In (k, w) (lex err t) -> var_kind k -> filter_piece (filter_text w) (filter_on (expression (Node K_Var [Tok k w]))).
Proof.
  intros Hin Hk. split; [|split].
  - apply gnot_check. destruct Hk as [-> | ->]; vm_compute; reflexivity.
  - intros err' v Ap. unfold filter_text. refine (eq_trans (filter_lex k w (chars "FILTER (") [(K_FILTER, chars "FILTER"); (K_WHITESPACE, [32%N]); (K_LParen, chars "(")] [] [] ltac:(eauto) Hk _ _ eq_refl err' v Ap) _); [destruct Hk as [-> | ->]; vm_compute; reflexivity|vm_compute; reflexivity|reflexivity].
  - intros v. apply opens_solid_char; (reflexivity || discriminate).
Qed.
Lemma lang_piece err t k w : In (k, w) (lex err t) -> var_kind k -> filter_piece (lang_text w) (filter_on (is_english (Node K_Var [Tok k w]))).
Proof.
  intros Hin Hk. split; [|split].
  - apply gnot_check. destruct Hk as [-> | ->]; vm_compute; reflexivity.
  - intros err' v Ap. unfold lang_text. refine (eq_trans (filter_lex k w (chars "FILTER (LANG(") [(K_FILTER, chars "FILTER"); (K_WHITESPACE, [32%N]); (K_LParen, chars "("); (K_LANG, chars "LANG"); (K_LParen, chars "(")]
      (chars ") = ""en""") [(K_RParen, chars ")"); (K_WHITESPACE, [32%N]); (K_Equals, chars "="); (K_WHITESPACE, [32%N]); (K_STRING_LITERAL2, chars """en""")] ltac:(eauto) Hk _ _ eq_refl err' v Ap) _); [destruct Hk as [-> | ->]; vm_compute; reflexivity|vm_compute; reflexivity|reflexivity].
  - intros v. apply opens_solid_char; (reflexivity || discriminate).
Qed.

(** ** C68 *)
Theorem C68_offered : forall err t x errs v kw w r a b,
  doc_parse err t x errs -> at_path x v = Some (Node K_Var [Tok kw w]) -> byte_index (rstart r) t = Some a -> byte_index (rend r) t = Some b -> smallest x (v ++ [0]) a b ->
  ((exists e, offer_filter x t r = Reply (Some e)) <-> exists p, triple_around x v p) /\ ((exists e, offer_lang_filter x t r = Reply (Some e)) <-> exists p, triple_around x v p).
Proof.
  intros err t x errs v kw w r a b P Ev Ia Ib Sm. pose proof (doc_parse_tree _ _ _ _ P) as D. unfold offer_filter, offer_lang_filter. rewrite !(at_variable_is _ _ _ _ _ _ _ _ _ _ _ _ P Ev Ia Ib Sm).
  assert (H : forall u, (exists e, Reply (behind_triple x t v u) = Reply (Some e)) <-> exists p, triple_around x v p).
  { intros u. unfold behind_triple. destruct (triple_above x v) as [p|] eqn:Ep.
    - split; [intros _; exists p; apply triple_above_iff, Ep|intros _].
      assert (Hb : forall d y, at_path x d = Some y -> exists e, from_byte_index (end_at x d) t = Some e).
      { intros d y Ed. exists (position_after (flat_map snd (leaves_before x d) ++ tree_text y)). unfold end_at. rewrite (before_bytes _ _ _ Ed). unfold text_at. rewrite Ed, <- byte_len_app. rewrite (node_text _ _ _ _ _ D Ed), app_assoc. apply from_byte_index_boundary. }
      assert (exists d y, at_path x d = Some y /\ match later_sibling x p K_Dot with Some d => end_at x d | None => end_at x p end = end_at x d) as (d & y & Ed & ->).
      { apply triple_above_iff in Ep as ([cs Ep] & _). destruct (later_sibling x p K_Dot) as [d|] eqn:El; [|eauto]. unfold later_sibling in El. apply find_some in El as [_ El]. unfold DiagModel.kind_is, kind_at in El. exists d. destruct (at_path x d) as [y|] eqn:Ed; [eauto|discriminate]. }
      destruct (Hb d y Ed) as [e ->]. eauto.
    - split; [intros [e He]; discriminate|]. intros [p Hp]. apply triple_above_iff in Hp. congruence. }
  split; apply H.
Qed.
(** a filter on the variable at [v], in the group at [q] and behind the triple at [r] in its block [y] and the dot of this triple *)
Definition filter_behind (err : text -> nat) (t : text) (x : tree) (q : path) (A : list tree) (y : tree) (B : list tree) (r : path) (f : tree) (answer : reply (option text_edit)) : Prop :=
  exists e t' x' q', answer = Reply (Some e) /\ edited t e t' /\ doc_parse err t' x' [] /\ at_path (bare same x) q' = Some (bare same (Node K_GroupGraphPatternSub (A ++ y :: B))) /\
    bare same x' = put_at (bare same x) q' (Node K_GroupGraphPatternSub (pieces A ++ bare same (fst (cut_behind y r)) :: f :: pieces (snd (cut_behind y r)) ++ pieces B)).
Theorem C68_filter_partial : forall err t x errs v kw w q A y B r rg a b,
  doc_parse err t x errs -> grammatical err t -> at_path x v = Some (Node K_Var [Tok kw w]) -> byte_index (rstart rg) t = Some a -> byte_index (rend rg) t = Some b -> smallest x (v ++ [0]) a b ->
  at_path x q = Some (Node K_GroupGraphPatternSub (A ++ y :: B)) -> in_block y r -> triple_around x v ((q ++ [length A]) ++ r) ->
  apart (flat_map snd (flat_map leaves (snd (cut_behind y r)) ++ leaves_behind x (q ++ [length A]))) -> not_fused (leaves_before x (q ++ [length A]) ++ leaves (fst (cut_behind y r))) ->
  filter_behind err t x q A y B r (filter_on (expression (Node K_Var [Tok kw w]))) (offer_filter x t rg) /\
  filter_behind err t x q A y B r (filter_on (is_english (Node K_Var [Tok kw w]))) (offer_lang_filter x t rg).
Proof.
  intros err t x errs v kw w q A y B r rg a b P G Ev Ia Ib Sm E Hr Hv Va NF. pose proof (doc_parse_tree _ _ _ _ P) as D.
  assert (Tv : text_at x v = w) by (unfold text_at; rewrite Ev; cbn [tree_text map concat flat_map]; apply app_nil_r).
  assert (Kw : var_kind kw). { destruct (doc_var_node _ _ _ _ D ltac:(eexists; exact Ev)) as [(k1 & w1 & E1 & Hk)|(k1 & w1 & E1)]; rewrite Ev in E1; [injection E1 as -> ->; exact Hk|discriminate]. }
  assert (Hin : In (kw, w) (lex err t)) by (rewrite (node_split _ _ _ _ _ D Ev); apply in_app_iff; right; apply in_app_iff; left; left; reflexivity).
  unfold filter_behind, offer_filter, offer_lang_filter. rewrite !(at_variable_is _ _ _ _ _ _ _ _ _ _ _ _ P Ev Ia Ib Sm), Tv. split.
  - destruct (plain_piece _ _ _ _ Hin Kw) as (D1 & D2 & D3). destruct (filter_added err t x errs q A y B r P G E Hr _ _ D1 (D2 err) D3 Va NF v Hv) as (e & t' & x' & q' & He & H). exists e, t', x', q'. rewrite He. auto.
  - destruct (lang_piece _ _ _ _ Hin Kw) as (D1 & D2 & D3). destruct (filter_added err t x errs q A y B r P G E Hr _ _ D1 (D2 err) D3 Va NF v Hv) as (e & t' & x' & q' & He & H). exists e, t', x', q'. rewrite He. auto.
Qed.

(** any range is answered: one that ends before it starts crashes, a position outside the document is refused *)
Theorem C68_answers : forall err t x errs r, doc_parse err t x errs ->
  (forall a b, byte_index (rstart r) t = Some a -> byte_index (rend r) t = Some b -> if a <=? b then (exists o, offer_filter x t r = Reply o) /\ (exists o, offer_lang_filter x t r = Reply o) else offer_filter x t r = Crash /\ offer_lang_filter x t r = Crash) /\
  (byte_index (rstart r) t = None \/ byte_index (rend r) t = None -> offer_filter x t r = Refused InvalidParams /\ offer_lang_filter x t r = Refused InvalidParams).
Proof.
  intros err t x errs r P. unfold offer_filter, offer_lang_filter, at_variable, byte_range. split.
  - intros a b -> ->. destruct (a <=? b) eqn:L; split; eauto.
  - intros [-> | ->]; [auto|]. destruct (byte_index (rstart r) t); auto.
Qed.

(** ** a case *)
Local Open Scope string_scope.
Local Open Scope list_scope.
(** the document behind one of the actions at a cursor *)
Definition filtered (offer : tree -> text -> range -> reply (option text_edit)) (t : text) (l c : nat) : option text :=
  match offer (tree_of t) t (mkrange (mkpos l c) (mkpos l c)) with
  | Reply (Some e) => match apply_text_edits t [e] with Done u => Some u | _ => None end
  | _ => None
  end.
Definition C68_query : text := chars "SELECT * { ?x ?p ?y . ?y ?q $z # z" ++ [NL] ++ chars " . ?z ?r ?x . OPTIONAL { ?x ?p 1 } }" ++ [NL].
Definition C68_plain : text := chars "SELECT * { ?x ?p ?y . ?y ?q $z # z" ++ [NL] ++ chars " . FILTER ($z) ?z ?r ?x . OPTIONAL { ?x ?p 1 } }" ++ [NL].
Definition C68_lang : text := chars "SELECT * { ?x ?p ?y . ?y ?q $z # z" ++ [NL] ++ chars " . FILTER (LANG($z) = ""en"") ?z ?r ?x . OPTIONAL { ?x ?p 1 } }" ++ [NL].
Definition C68_at : range := mkrange (mkpos 0 29) (mkpos 0 29).
Definition C68_variable : path := [0; 0; 2; 0; 2; 0; 4; 0; 2; 2; 0; 0; 0; 0].
Example C68_witness : exists y B, let x := tree_of C68_query in (doc_parse (fun _ => 0) C68_query x (errors_of C68_query) /\ grammatical (fun _ => 0) C68_query) /\ at_path x C68_variable = Some (Node K_Var [Tok K_VAR2 (chars "$z")]) /\
  byte_index (rstart C68_at) C68_query = Some 29 /\ byte_index (rend C68_at) C68_query = Some 29 /\ smallest x (C68_variable ++ [0]) 29 29 /\
  at_path x [0; 0; 2; 0; 2] = Some (Node K_GroupGraphPatternSub ([] ++ y :: B)) /\ in_block y [4; 0] /\ triple_around x C68_variable (([0; 0; 2; 0; 2] ++ [0]) ++ [4; 0]) /\
  apart (flat_map snd (flat_map leaves (snd (cut_behind y [4; 0])) ++ leaves_behind x ([0; 0; 2; 0; 2] ++ [0]))) /\ not_fused (leaves_before x ([0; 0; 2; 0; 2] ++ [0]) ++ leaves (fst (cut_behind y [4; 0]))) /\
  B <> [] /\ pieces (snd (cut_behind y [4; 0])) <> [] /\
  filtered offer_filter C68_query 0 29 = Some C68_plain /\ filtered offer_lang_filter C68_query 0 29 = Some C68_lang.
Proof.
  eexists. eexists. assert (P : doc_parse (fun _ => 0) C68_query (tree_of C68_query) (errors_of C68_query)) by (apply parses_doc; vm_compute; reflexivity). pose proof (doc_parse_tree _ _ _ _ P) as D. cbv zeta.
  split; [split; [exact P|apply (derivation_checked 200 _ _ _ D); vm_compute; reflexivity]|]. split; [vm_compute; reflexivity|]. split; [vm_compute; reflexivity|]. split; [vm_compute; reflexivity|]. split.
  { split; [|split; [left; apply Nat.ltb_lt; vm_compute; reflexivity|]].
    - split; [apply Nat.leb_le; vm_compute; reflexivity|]. split; [apply Nat.leb_le; reflexivity|apply Nat.leb_le; vm_compute; reflexivity].
    - intros i c H. exfalso. vm_compute in H. discriminate. }
  split; [vm_compute; reflexivity|]. split; [eapply block_rest; [reflexivity|eapply block_triple; reflexivity]|]. split; [apply triple_above_iff; vm_compute; reflexivity|].
  split; [intros v H; vm_compute in H; discriminate|]. split; [vm_compute; repeat (split; [intros ? Hq0; discriminate Hq0|]); exact I|]. split; [discriminate|]. split; [vm_compute; discriminate|]. split; vm_compute; reflexivity.
Qed.
