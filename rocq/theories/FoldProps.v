(** Folding ranges: C57.  [x] is the tree that the parser gives for the text [t]. *)
From Coq Require Import String List Arith NArith Bool Lia Sorted.
Import ListNotations.
From Verif Require Import ServerModel Kinds KindFacts ParserModel GrammarData ParserOutcome
  TextModel TextSpec TextProofs TextProps LexerRegex LexerModel LexerSpec LexerProps FormatData FormatModel FormatTree FormatText FormatWeave
  TreeModel TreePlace TreeShape TreeKids VarModel VarSpec VarDoc LexRename VarRegions VarProps DiagModel DiagSpec AstFacts DiagFacts OnTypeModel.

(** ** what is to be folded *)
(** the line on which the element [p] of the tree starts *)
Definition line_of (x : tree) (t : text) (p : path) : nat := line (position_after (firstn (chars_before x p) t)).
Definition line_behind (x : tree) (t : text) (p : path) : nat := line (position_after (firstn (chars_before x p + length (text_at x p)) t)).
(** [g] is a group pattern that starts with [{] on line [l1] and ends with [}] on line [l2] *)
Definition braces (x : tree) (t : text) (g : path) (l1 l2 : nat) : Prop :=
  node_at x g K_GroupGraphPattern /\ exists n w w', at_path x (g ++ [0]) = Some (Tok K_LCurly w) /\ at_path x (g ++ [n]) = Some (Tok K_RCurly w') /\ at_path x (g ++ [S n]) = None /\
  l1 = line_of x t (g ++ [0]) /\ l2 = line_of x t (g ++ [n]).
(** the prologue that opens the document *)
Definition opening (x : tree) (p : path) : Prop :=
  node_at x p K_Prologue /\ exists i j, p = [i; j] /\ (forall i' k, node_at x [i'] k -> i <= i') /\ (forall j' k, node_at x [i; j'] k -> j <= j').

Lemma braces_fun x t g l1 l2 m1 m2 : braces x t g l1 l2 -> braces x t g m1 m2 -> l1 = m1 /\ l2 = m2.
Proof.
  intros ([cs E] & n & w & w' & A & B & C & -> & ->) (_ & n' & v & v' & A' & B' & C' & -> & ->). split; [reflexivity|]. pose proof (fun i => AstFacts.at_child x g _ _ i E) as H. rewrite H in B, B', C, C'.
  assert (n < length cs) by (apply nth_error_Some; congruence). assert (n' < length cs) by (apply nth_error_Some; congruence). apply nth_error_None in C, C'. replace n' with n by lia. reflexivity.
Qed.
Lemma curly_token err t x p k : doc_tree err t x -> k = K_LCurly \/ k = K_RCurly -> kind_is x p k = true -> exists w, at_path x p = Some (Tok k w).
Proof.
  intros D Hk K. unfold kind_is, kind_at in K. destruct (at_path x p) as [y|] eqn:E; [|discriminate]. cbn [option_map] in K. apply kind_eqb_eq in K. destruct y as [k' w|k' cs]; cbn [tkind] in K; subst k'; [eauto|]. exfalso.
  assert (node_at x p k) as N by (exists cs; exact E). destruct (path_split p) as [->|(q & i & ->)].
  - destruct (doc_root _ _ _ D) as (r & R & Hr). pose proof (node_at_fun _ _ _ _ N R). destruct Hk as [-> | ->], Hr as [-> | ->]; discriminate.
  - destruct (doc_parent_in _ _ _ _ _ _ [] D N) as (k' & _ & []); [destruct Hk as [-> | ->]; discriminate|destruct Hk as [-> | ->]; vm_compute; reflexivity].
Qed.
Lemma start_line err t x p y : doc_tree err t x -> at_path x p = Some y -> exists q, from_byte_index (start_at x p) t = Some q /\ line q = line_of x t p.
Proof.
  intros D E. destruct (node_slice _ _ _ E) as (a & b & T & L & L'). rewrite (doc_text _ _ _ D) in T. exists (position_after a). rewrite <- L, T, from_byte_index_boundary. split; [reflexivity|].
  unfold line_of. rewrite <- L', firstn_exact. reflexivity.
Qed.
Lemma group_fold_spec err t x g f : doc_tree err t x -> node_at x g K_GroupGraphPattern ->
  group_fold x t g = Some f <-> exists l1 l2, braces x t g l1 l2 /\ S l1 < l2 /\ f = mkfold l1 (l2 - 1) None.
Proof.
  intros D N. destruct N as [cs E]. assert (N : node_at x g K_GroupGraphPattern) by (exists cs; exact E). split.
  - unfold group_fold, child_or_token, last_index_of. destruct (at_path x (g ++ [0])) as [y|] eqn:E0; [|discriminate]. rewrite E. destruct cs as [|c cs]; [discriminate|]. set (n := length cs).
    destruct (kind_is x (g ++ [0]) K_LCurly) eqn:K1; [|discriminate]. destruct (kind_is x (g ++ [n]) K_RCurly) eqn:K2; [|discriminate]. cbn [andb].
    destruct (curly_token _ _ _ _ _ D (or_introl eq_refl) K1) as [w W]. destruct (curly_token _ _ _ _ _ D (or_intror eq_refl) K2) as [w' W'].
    destruct (start_line _ _ _ _ _ D W) as (pa & -> & Lp). destruct (start_line _ _ _ _ _ D W') as (pb & -> & Lq). destruct (line pb) as [|l] eqn:Lb; [discriminate|]. destruct (Nat.leb_spec l (line pa)) as [H|H]; [discriminate|].
    intros K. injection K as <-. exists (line pa), (S l). split; [|split; [lia|rewrite Nat.sub_succ, Nat.sub_0_r; reflexivity]]. split; [exact N|]. exists n, w, w'. split; [exact W|]. split; [exact W'|]. split; [|split; [exact Lp|rewrite <- Lq; reflexivity]].
    rewrite (AstFacts.at_child _ _ _ _ _ E). apply nth_error_None. cbn [length]. unfold n. lia.
  - intros (l1 & l2 & (_ & n & w & w' & A & B & C & -> & ->) & H & ->). unfold group_fold, child_or_token, last_index_of. rewrite A, E. rewrite (AstFacts.at_child _ _ _ _ _ E) in C.
    assert (n < length cs) as Hn by (apply nth_error_Some; rewrite <- (AstFacts.at_child _ _ _ _ _ E), B; discriminate). apply nth_error_None in C. destruct cs as [|c cs]; [cbn in Hn; lia|]. replace (length cs) with n by (cbn [length] in *; lia).
    unfold kind_is, kind_at. rewrite A, B. cbn [option_map tkind]. rewrite !kind_eqb_refl. cbn [andb]. destruct (start_line _ _ _ _ _ D A) as (pa & -> & Lp). destruct (start_line _ _ _ _ _ D B) as (pb & -> & Lq). rewrite Lp, Lq.
    destruct (line_of x t (g ++ [n])) as [|l] eqn:El; [lia|]. destruct (Nat.leb_spec l (line_of x t (g ++ [0]))); [lia|]. rewrite Nat.sub_succ, Nat.sub_0_r. reflexivity.
Qed.
Lemma in_flatten {A} (l : list (option A)) a : In a (flatten l) <-> In (Some a) l.
Proof.
  unfold flatten. rewrite in_flat_map. split.
  - intros ([b|] & H & K); [destruct K as [<-|[]]; exact H|destruct K].
  - intros H. exists (Some a). split; [exact H|left; reflexivity].
Qed.
Lemma folds_spec x t gs (f : path -> option fold) : (forall g, In g gs -> forall a, f g = Some a <-> exists l1 l2, braces x t g l1 l2 /\ S l1 < l2 /\ a = mkfold l1 (l2 - 1) None) ->
  flatten (map f gs) = flatten (map f (filter (fun g => match f g with Some _ => true | None => false end) gs)) /\
  Forall2 (fun g a => f_imports a = None /\ braces x t g (f_start a) (S (f_end a))) (filter (fun g => match f g with Some _ => true | None => false end) gs) (flatten (map f gs)).
Proof.
  induction gs as [|g gs IH]; intros H; [split; [reflexivity|constructor]|]. destruct IH as [I1 I2]; [intros g' Hg; apply H; right; exact Hg|]. cbn [filter map]. specialize (H g (or_introl eq_refl)). destruct (f g) as [a|] eqn:E; [|split; assumption]. split.
  - cbn [map]. rewrite E. unfold flatten in *. cbn [flat_map app]. f_equal. exact I1.
  - unfold flatten in *. cbn [flat_map app]. constructor; [|exact I2]. destruct (proj1 (H a) eq_refl) as (l1 & l2 & B & L & ->). cbn [f_imports f_start f_end]. split; [reflexivity|]. replace (S (l2 - 1)) with l2 by lia. exact B.
Qed.

(** ** C57 *)
(** the request is answered: the imports, then in document order one range for each group pattern whose braces have a line
    between them: from the line of [{] to the line before that of [}] *)
Theorem C57_folds err t x : doc_tree err t x -> exists imports groups gs, folding_ranges x t = VDone (imports ++ groups) /\
  (forall g, In g gs <-> exists l1 l2, braces x t g l1 l2 /\ S l1 < l2) /\ StronglySorted doc_before gs /\
  Forall2 (fun g a => f_imports a = None /\ braces x t g (f_start a) (S (f_end a))) gs groups /\
  (forall a, In a imports <-> exists p, opening x p /\ a = mkfold (line_of x t p) (line_behind x t p) (Some (text_at x p))) /\ length imports <= 1.
Proof.
  intros D. set (cand := nodes_of_kind x [] K_GroupGraphPattern). set (gs := filter (fun g => match group_fold x t g with Some _ => true | None => false end) cand).
  assert (C : forall g, In g cand <-> node_at x g K_GroupGraphPattern). { intros g. unfold cand. rewrite in_nodes_of_kind. split; [intros (r & _ & H); exact H|]. intros H. exists g. auto. }
  assert (exists imports, (match first_child x [] with
    | Some c => match first_child x c with
                | Some p => if kind_is x p K_Prologue then match range_at x t p with Some r => VDone [mkfold (line (rstart r)) (line (rend r)) (Some (text_at x p))] | None => VPanic end else VDone []
                | None => VDone [] end
    | None => VDone [] end = VDone imports) /\ (forall a, In a imports <-> exists p, opening x p /\ a = mkfold (line_of x t p) (line_behind x t p) (Some (text_at x p))) /\ length imports <= 1) as (imports & Ei & Hi & Li).
  { assert (None' : (forall p, ~ opening x p) -> exists imports, VDone [] = VDone imports /\ (forall a, In a imports <-> exists p, opening x p /\ a = mkfold (line_of x t p) (line_behind x t p) (Some (text_at x p))) /\ length imports <= 1).
    { intros H. exists []. split; [reflexivity|]. split; [|auto]. intros a. split; [intros []|]. intros (p & Hp & _). destruct (H p Hp). }
    assert (Kid : forall i j k, node_at x [i; j] k -> exists k', node_at x [i] k') by (intros i j k [cs E]; change [i; j] with ([i] ++ [j]) in E; apply child_inv in E as (k' & cs' & E & _); exists k', cs'; exact E).
    destruct (first_child x []) as [c|] eqn:Ec.
    2: { apply None'. intros p ([cs E] & i & j & -> & _). destruct (Kid i j K_Prologue) as [k' N]; [exists cs; exact E|]. exact (first_child_none _ _ i k' Ec N). }
    apply first_child_spec in Ec as (i & k & -> & Nk & Mi). cbn [app] in *.
    destruct (first_child x [i]) as [p|] eqn:Ep.
    2: { apply None'. intros p (N & i' & j & -> & Hi & Hj). destruct (Kid _ _ _ N) as [k' N']. assert (i' = i) as -> by (pose proof (Hi _ _ Nk); pose proof (Mi _ _ N'); lia). exact (first_child_none _ _ j _ Ep N). }
    apply first_child_spec in Ep as (j & k2 & -> & N2 & Mj). cbn [app] in *.
    assert (U : forall p, opening x p -> p = [i; j]).
    { intros p (N & i' & j' & -> & Hi & Hj). destruct (Kid _ _ _ N) as [k' N']. assert (i' = i) as -> by (pose proof (Hi _ _ Nk); pose proof (Mi _ _ N'); lia). f_equal. f_equal. pose proof (Hj _ _ N2). pose proof (Mj _ _ N). lia. }
    rewrite (kind_is_node _ _ _ _ N2). destruct (kind_eqb_spec k2 K_Prologue) as [Ek|Nek].
    - subst k2. destruct N2 as [cs E]. destruct (range_located _ _ _ _ _ D E) as (r & -> & _ & _ & Rs & Re). eexists. split; [reflexivity|]. split; [|auto]. intros a. assert (opening x [i; j]) as O.
      { split; [exists cs; exact E|]. exists i, j. split; [reflexivity|]. split; intros ? ?; [apply Mi|apply Mj]. }
      split.
      + intros [<-|[]]. exists [i; j]. split; [exact O|]. unfold line_of, line_behind. rewrite Rs, Re. reflexivity.
      + intros (p & Hp & ->). left. apply U in Hp. subst p. unfold line_of, line_behind. rewrite Rs, Re. reflexivity.
    - apply None'. intros p Hp. pose proof (U _ Hp) as ->. destruct Hp as [N _]. exact (Nek (node_at_fun _ _ _ _ N2 N)). }
  exists imports, (flatten (map (group_fold x t) cand)), gs. split; [|split; [|split; [|split; [|split]]]].
  - unfold folding_ranges. fold cand. rewrite Ei. reflexivity.
  - intros g. unfold gs. rewrite filter_In, C. split.
    + intros [N F]. destruct (group_fold x t g) as [f|] eqn:E; [|discriminate]. apply (group_fold_spec _ _ _ _ _ D N) in E as (l1 & l2 & B & L & _). eauto.
    + intros (l1 & l2 & B & L). split; [apply B|]. rewrite (proj2 (group_fold_spec _ _ _ _ (mkfold l1 (l2 - 1) None) D (proj1 B))); [reflexivity|]. exists l1, l2. auto.
  - apply StronglySorted_filter, nodes_of_kind_sorted.
  - apply folds_spec. intros g Hg a. apply group_fold_spec with (err := err); [exact D|apply C, Hg].
  - exact Hi.
  - exact Li.
Qed.

(** ranges of groups are nested or apart: they never share a line otherwise *)
Lemma line_mono a b : line (position_after a) <= line (position_after (a ++ b)).
Proof.
  induction b as [|c b IH] using rev_ind; [rewrite app_nil_r; apply Nat.le_refl|]. rewrite app_assoc, position_after_snoc. unfold pstep. destruct (is_nl c); cbn [line]; lia.
Qed.
Lemma line_of_mono x t p q : chars_before x p <= chars_before x q -> line_of x t p <= line_of x t q.
Proof.
  intros H. unfold line_of. rewrite <- (firstn_skipn (chars_before x p) (firstn (chars_before x q) t)). rewrite firstn_firstn, Nat.min_l by exact H. apply line_mono.
Qed.
Lemma apart_app p : forall q a b, doc_before p q -> (forall r, q <> p ++ r) -> doc_before (p ++ a) (q ++ b) /\ forall r, q ++ b <> (p ++ a) ++ r.
Proof.
  induction p as [|i p IH]; intros q a b B N; [destruct (N q); reflexivity|]. inversion B as [i' j p' q' H|i' p' q' H|]; subst; cbn [app].
  - split; [apply before_here, H|]. intros r E. injection E as E _. lia.
  - destruct (IH q' a b H) as [H1 H2]; [intros r ->; exact (N r eq_refl)|]. split; [apply before_below, H1|]. intros r E. injection E as E. exact (H2 r E).
Qed.
Theorem C57_nested err t x a b l : doc_tree err t x -> folding_ranges x t = VDone l -> In a l -> In b l -> f_imports a = None -> f_imports b = None ->
  a = b \/ (f_start a <= f_start b /\ f_end b <= f_end a) \/ (f_start b <= f_start a /\ f_end a <= f_end b) \/ f_end a < f_start b \/ f_end b < f_start a.
Proof.
  intros D E Ha Hb Na Nb. destruct (C57_folds _ _ _ D) as (im & gr & gs & E' & _ & S & F & Hi & _). rewrite E in E'. injection E' as ->.
  assert (forall f, In f (im ++ gr) -> f_imports f = None -> exists g, In g gs /\ braces x t g (f_start f) (Datatypes.S (f_end f))) as K.
  { intros f Hf Nf. apply in_app_iff in Hf as [Hf|Hf]; [apply Hi in Hf as (p & _ & ->); discriminate|]. destruct (forall2_in _ _ _ _ F Hf) as (g & Hg & _ & B). eauto. }
  destruct (K a Ha Na) as (g & Hg & Bg). destruct (K b Hb Nb) as (g' & Hg' & Bg').
  assert (M : forall g g' l1 l2 m1 m2, doc_before g g' -> braces x t g l1 l2 -> braces x t g' m1 m2 -> (l1 <= m1 /\ m2 <= l2) \/ l2 <= m1).
  { clear -D. intros g g' l1 l2 m1 m2 B (N & n & w & w' & A1 & A2 & A3 & -> & ->) (N' & n' & v & v' & A1' & A2' & A3' & -> & ->).
    assert (Dec : (exists i r, g' = g ++ i :: r) \/ forall r, g' <> g ++ r).
    { destruct (in_dec (list_eq_dec Nat.eq_dec) g (ancestors g')) as [H|H].
      - apply in_ancestors in H as [r ->]. destruct r as [|i r]; [rewrite app_nil_r in B; destruct (doc_before_irrefl _ B)|]. left. eauto.
      - right. intros r ->. apply H, in_ancestors. eauto. }
    destruct Dec as [(i & r & ->)|Out].
    - left. assert (i <> 0 /\ i < n) as [Hi0 Hin].
      { destruct N' as [cs' N']. assert (Hi : forall kw u, at_path x (g ++ [i]) <> Some (Tok kw u)).
        { intros kw u Hk. change (i :: r) with ([i] ++ r) in N'. rewrite app_assoc, at_path_app, Hk in N'. destruct r; discriminate. }
        split; [intros ->; exact (Hi _ _ A1)|]. assert (i <> n) by (intros ->; exact (Hi _ _ A2)). destruct N as [cs N]. rewrite (AstFacts.at_child _ _ _ _ _ N) in A3. apply nth_error_None in A3.
        change (i :: r) with ([i] ++ r) in N'. rewrite app_assoc, at_path_app, (AstFacts.at_child _ _ _ _ _ N) in N'. assert (i < length cs) by (apply nth_error_Some; destruct (nth_error cs i); [discriminate|discriminate N']). lia. }
      assert (P : forall y z, doc_before (g ++ [0]) (g ++ (i :: r) ++ [y]) /\ doc_before (g ++ (i :: r) ++ [z]) (g ++ [n])) by (intros y z; split; apply before_app; cbn [app]; apply before_here; lia).
      destruct (P 0 n') as [P1 P2]. rewrite app_assoc in P1, P2. split; apply line_of_mono.
      + pose proof (nodes_apart x _ _ _ _ P1 ltac:(intros s Hs; rewrite <- !app_assoc in Hs; apply app_inv_head in Hs; cbn in Hs; injection Hs as Hs _; lia) A1 A1'). lia.
      + pose proof (nodes_apart x _ _ _ _ P2 ltac:(intros s Hs; rewrite <- !app_assoc in Hs; apply app_inv_head in Hs; cbn in Hs; injection Hs as Hs _; lia) A2' A2). lia.
    - right. destruct (apart_app _ _ [n] [0] B Out) as [P1 P2]. pose proof (nodes_apart x _ _ _ _ P1 P2 A2 A1'). apply line_of_mono. lia. }
  assert (g = g' \/ doc_before g g' \/ doc_before g' g) as [<-|[B|B]].
  { clear -S Hg Hg'. induction S as [|h gs S IH Hh]; [destruct Hg|]. rewrite Forall_forall in Hh. destruct Hg as [<-|Hg], Hg' as [<-|Hg']; auto. }
  - left. destruct (braces_fun _ _ _ _ _ _ _ Bg Bg') as [E1 E2]. destruct a, b. cbn in *. congruence.
  - destruct (M _ _ _ _ _ _ B Bg Bg') as [H|H]; [right; left; lia|right; right; right; left; lia].
  - destruct (M _ _ _ _ _ _ B Bg' Bg) as [H|H]; [right; right; left; lia|right; right; right; right; lia].
Qed.

(** ** a case that meets the hypotheses: three lines of prologue, a group in a group, and one on a single line *)
Local Open Scope string_scope.
Definition NLs : string := String (Ascii.ascii_of_nat 10) EmptyString.
Definition folded_query : text := chars ("PREFIX e: <u>" ++ NLs ++ "PREFIX f: <v>" ++ NLs ++ "SELECT * {" ++ NLs ++ "  ?s ?p ?o ." ++ NLs ++ "  OPTIONAL {" ++ NLs ++ "    ?a ?b ?c" ++ NLs ++ "  } { ?x ?y ?z }" ++ NLs ++ "}").
Example C57_witness : doc_tree (fun _ => 0) folded_query (tree_of folded_query) /\ option_map (map (fun f => (f_start f, f_end f))) (match folding_ranges (tree_of folded_query) folded_query with VDone l => Some l | _ => None end) = Some [(0, 1); (2, 6); (4, 5)].
Proof. split; [apply parses_tree; vm_compute; reflexivity|]. vm_compute. reflexivity. Qed.
(** two lines of braces with nothing between them are not folded; nor are the braces of CONSTRUCT templates, of data and of VALUES *)
Example C57_witness_none : match folding_ranges (tree_of (chars ("ASK {" ++ NLs ++ "}"))) (chars ("ASK {" ++ NLs ++ "}")) with VDone l => Some l | _ => None end = Some [].
Proof. vm_compute. reflexivity. Qed.
