(** C66, C67: the code actions that add a column to a query. *)
From Coq Require Import String List Arith NArith Bool Lia Sorted Permutation.
Import ListNotations.
From Verif Require Import ServerModel Kinds KindFacts ParserSyntax ParserModel GrammarData ParserTree ParserTerm ParserBuild ParserSpec ParserChecks ParserOutcome ParserProps
  TextModel TextSpec TextProofs Utf8Model LexerRegex LexerData LexerModel LexerProofs LexerSpec LexerProps FormatData FormatModel FormatTree FormatText FormatParse FormatWeave
  TreeModel TreePlace TreeItems TreeShape TreeRename VarModel VarSpec VarRegions VarDoc LexRename VarProps DiagModel DiagSpec AstFacts DiagFacts DiagGroup DiagRest ParseTreeProps LexLayout DiagProps OnTypeProofs OnTypeProps LayoutProps LexInsert PrologueRun PrologueSwap QuickFixModel QuickFixFacts CoverFacts RemoveFacts UngramData Replant LexMiddle QuickFixProps RemoveProps ShortenFacts GrammarCheck DiagScope ShortenProps SelectModel SelectFacts SelectProps ResultModel ResultFacts.
From Verif Require GrammarSpec GrammarFacts.

(** ** places in a select clause *)
Lemma child_leaves x : forall q k A c B, at_path x q = Some (Node k (A ++ c :: B)) ->
  leaves_before x (q ++ [length A]) = leaves_before x q ++ flat_map leaves A /\ leaves_behind x (q ++ [length A]) = flat_map leaves B ++ leaves_behind x q.
Proof.
  intros q k A c B. revert x. induction q as [|i q IH]; intros x E.
  - cbn [at_path] in E. injection E as ->. cbn [app leaves_before leaves_behind]. rewrite firstn_exact, nth_error_app2, Nat.sub_diag by lia. cbn [nth_error]. rewrite !app_nil_r.
    assert (skipn (S (length A)) (A ++ c :: B) = B) as -> by (change (c :: B) with ([c] ++ B); rewrite app_assoc; replace (S (length A)) with (length (A ++ [c])) by (rewrite app_length; cbn; lia); apply skipn_exact). auto.
  - destruct x as [k0 w|k0 ds]; [discriminate|]. cbn [at_path app leaves_before leaves_behind] in *. destruct (nth_error ds i) as [d|]; [|discriminate]. destruct (IH _ E) as [-> ->]. rewrite <- !app_assoc. auto.
Qed.
Lemma piece_leaves A : flat_map leaves (flat_map (piece same) A) = sigs (flat_map leaves A).
Proof. exact (bare_leaves (Node K_SelectClause A) ltac:(eexists; eexists; reflexivity)). Qed.
Lemma paren_pieces cps : existsb opens_paren (flat_map (piece same) cps) = existsb opens_paren cps.
Proof.
  induction cps as [|c cps IH]; [reflexivity|]. cbn [flat_map existsb]. rewrite existsb_app, IH. f_equal. destruct c as [k w|k ds]; unfold piece; [|cbn [existsb]; apply orb_false_r]. destruct (trivial (k, w)) eqn:T; [|cbn [existsb]; apply orb_false_r].
  unfold opens_paren. cbn [tkind existsb]. symmetry. destruct (kind_eqb_spec k K_LParen) as [->|]; [discriminate T|reflexivity].
Qed.
Lemma shapes_paren l : existsb gparen (map shape l) = existsb opens_paren l.
Proof. induction l as [|a l IH]; [reflexivity|]. cbn [map existsb]. rewrite gparen_shape, IH. reflexivity. Qed.
Lemma find_first {A} (f : A -> bool) l a : find f l = Some a -> exists u v, l = u ++ a :: v /\ f a = true /\ existsb f u = false.
Proof.
  induction l as [|b l IH]; [discriminate|]. cbn [find]. destruct (f b) eqn:F; [intros [= <-]; exists [], l; auto|]. intros H. destruct (IH H) as (u & v & -> & Fa & Fu). exists (b :: u), v. split; [reflexivity|]. split; [exact Fa|]. cbn [existsb]. rewrite F, Fu. reflexivity.
Qed.
Lemma find_nothing {A} (f : A -> bool) l : existsb f l = false -> find f l = None.
Proof. induction l as [|b l IH]; [reflexivity|]. cbn [existsb find]. intros H. apply orb_false_iff in H as [-> H]. auto. Qed.
(** the first parenthesis *)
Lemma find_paren x sc k cps : at_path x sc = Some (Node k cps) ->
  match find (fun c => DiagModel.kind_is x c K_LParen) (elements x sc) with
  | Some c => exists A p B, cps = A ++ p :: B /\ c = sc ++ [length A] /\ opens_paren p = true /\ existsb opens_paren A = false
  | None => existsb opens_paren cps = false
  end.
Proof.
  intros E. unfold elements. rewrite E.
  assert (G : forall m l, cps = l ++ m -> existsb opens_paren l = false -> match find (fun c => DiagModel.kind_is x c K_LParen) (map (fun i => sc ++ [i]) (List.seq (length l) (length m))) with
    | Some c => exists A p B, cps = A ++ p :: B /\ c = sc ++ [length A] /\ opens_paren p = true /\ existsb opens_paren A = false
    | None => existsb opens_paren cps = false end).
  { induction m as [|c m IH]; intros l El Fl; [cbn; rewrite El, app_nil_r; exact Fl|]. cbn [length List.seq map find].
    assert (Ec : at_path x (sc ++ [length l]) = Some c) by (rewrite (AstFacts.at_child _ _ _ _ _ E), El, nth_error_app2, Nat.sub_diag by lia; reflexivity).
    assert (Kc : DiagModel.kind_is x (sc ++ [length l]) K_LParen = opens_paren c) by (unfold DiagModel.kind_is, kind_at, opens_paren; rewrite Ec; reflexivity). rewrite Kc. destruct (opens_paren c) eqn:O; [exists l, c, m; auto|].
    specialize (IH (l ++ [c])). rewrite app_length in IH. cbn [length] in IH. rewrite Nat.add_1_r in IH. apply IH; [rewrite <- app_assoc; exact El|]. rewrite existsb_app, Fl. cbn [existsb]. rewrite O. reflexivity. }
  exact (G cps [] eq_refl eq_refl).
Qed.
Lemma edited_insert a b w : exists p, from_byte_index (byte_len a) (a ++ b) = Some p /\ edited (a ++ b) (mkedit (mkrange p p) w) (a ++ w ++ b).
Proof.
  exists (position_after a). split; [apply from_byte_index_boundary|]. exists (mkcedit (length a) (length a) w). split.
  - unfold edit_denotes. cbn [ci cj cnew erange rstart rend new_text]. rewrite firstn_exact, app_length. split; [lia|auto].
  - cbn [splice ci cj cnew]. rewrite !Nat.sub_0_r, firstn_exact, skipn_exact. reflexivity.
Qed.
Lemma edited_star a b w : exists p, from_byte_index (byte_len (a ++ [42%N])) (a ++ [42%N] ++ b) = Some p /\ edited (a ++ [42%N] ++ b) (instead_of_star p w) (a ++ w ++ b).
Proof.
  exists (position_after (a ++ [42%N])). split; [rewrite app_assoc; apply from_byte_index_boundary|]. exists (mkcedit (length a) (length (a ++ [42%N])) w). split.
  - unfold edit_denotes, instead_of_star. cbn [ci cj cnew erange rstart rend new_text]. rewrite firstn_exact. rewrite (app_assoc a [42%N] b), firstn_exact, !app_length. cbn [length]. split; [lia|]. split; [|auto].
    rewrite position_after_snoc. destruct (position_after a) as [l c]. cbn. rewrite Nat.add_1_r. reflexivity.
  - cbn [splice ci cj cnew]. rewrite !Nat.sub_0_r, firstn_exact, (app_assoc a [42%N] b), skipn_exact. reflexivity.
Qed.

(** ** the text with the column *)
(** what the actions have in common *)
Definition column_edit (first : bool) (x : tree) (t : text) (sc : path) (w : text) : option text_edit :=
  let '(offset, at_end) := match (if first then find (fun c => DiagModel.kind_is x c K_LParen) (elements x sc) else None) with Some c => (start_at x c, false) | None => (end_at x sc, true) end in
  match from_byte_index offset t, last_kind x sc with
  | Some p, Some K_Star => Some (instead_of_star p w)
  | Some p, Some _ => Some (mkedit (mkrange p p) (if at_end : bool then 32%N :: w else w ++ [32%N]))
  | _, _ => None
  end.
(** the element [i] of [sc] is a star, or (if [first]) the first parenthesis *)
Definition column_mark (first : bool) (x : tree) (sc : path) (i : nat) : Prop :=
  exists k cs c, at_path x sc = Some (Node k cs) /\ nth_error cs i = Some c /\ (tkind c = K_Star \/ first = true /\ tkind c = K_LParen /\ forall j d, j < i -> nth_error cs j = Some d -> tkind d <> K_LParen).
Definition marks_spaced (first : bool) (x : tree) (sc : path) : Prop := forall i, column_mark first x sc i -> blank_before x (sc ++ [i]).
(** no character of a name follows the star of [sc] *)
Definition star_apart (x : tree) (sc : path) : Prop := forall i w, at_path x (sc ++ [i]) = Some (Tok K_Star w) -> no_name (flat_map snd (leaves_behind x (sc ++ [i]))).

(** what follows does not make the closing parenthesis another token, )>> *)
Definition apart (v : text) : Prop := forall r, v <> chars ">>" ++ r.
Section column.
Context (err : text -> nat) (t : text) (x : tree) (errs : list parse_error) (sc : path) (cps : list tree).
Context (P : doc_parse err t x errs) (G : grammatical err t) (E : at_path x sc = Some (Node K_SelectClause cps)).
Let D : doc_tree err t x := doc_parse_tree _ _ _ _ P.
Let ps : list tree := flat_map (piece same) cps.
Lemma clause_derived : is_inner x /\ sc <> [] /\ derives (GrammarSpec.GNode K_SelectClause) [gnode K_SelectClause (map shape ps)].
Proof.
  destruct (grammatical_parsed _ _ G) as (x0 & P0 & Q & D0). destruct (doc_parse_fun _ _ _ _ _ _ P P0) as [<- _].
  assert (Ix : is_inner x) by (destruct Q as [l Q]; destruct x; [discriminate|eexists; eexists; reflexivity]). split; [exact Ix|]. split.
  - eapply doc_inner; [exact D|exists cps; exact E|discriminate|discriminate].
  - destruct (bare_at sc x _ E Ix ltac:(eexists; eexists; reflexivity)) as (q0 & A0 & _ & _). exact (derives_node _ _ _ _ _ D0 A0).
Qed.
(** the last element: a star; or a variable; or a closing parenthesis *)
Lemma clause_ends : exists C z, cps = C ++ [z] /\ ((exists w, z = Tok K_Star w /\ existsb opens_paren cps = false) \/ tkind z = K_Var /\ (exists kv wv, leaves z = [(kv, wv)] /\ var_kind kv) \/ tkind z = K_RParen /\ existsb opens_paren cps = true).
Proof.
  destruct clause_derived as (Ix & Ns & Dc). destruct (clause_parts _ Dc) as (o & r & Er & Ho & Hr).
  pose proof (node_ends _ _ _ D _ _ _ Ns E) as W. unfold ends_well in W. assert (Ep : existsb gparen (map shape ps) = existsb opens_paren cps) by (rewrite shapes_paren; apply paren_pieces).
  assert (Ec : cps = [] \/ exists C z, cps = C ++ [z]) by (destruct cps as [|c1 c2] using rev_ind; eauto). destruct Ec as [Ec|(C & z & Ec)]; [exfalso; unfold ps in Er; rewrite Ec in Er; discriminate Er|]. exists C, z. split; [exact Ec|]. rewrite Ec, last_of_app in W.
  assert (Ez0 : at_path x (sc ++ [length C]) = Some z) by (rewrite (AstFacts.at_child _ _ _ _ _ E), Ec, nth_error_app2, Nat.sub_diag by lia; reflexivity). pose proof Er as Er0.
  assert (Lp : exists z', ps = flat_map (piece same) C ++ [z'] /\ tkind z' = tkind z /\ leaves z' = sigs (leaves z) /\ (z' = z \/ is_inner z)).
  { unfold ps. rewrite Ec, flat_map_app. cbn [flat_map]. rewrite app_nil_r. destruct z as [k w|k ds]; unfold piece at 2.
    - assert (Tz : trivial (k, w) = false) by (rewrite trivial_is; exact W). rewrite Tz. exists (Tok k w). split; [reflexivity|]. split; [reflexivity|]. split; [|left; reflexivity]. unfold sigs. cbn [leaves filter]. rewrite Tz. reflexivity.
    - exists (bare same (Node k ds)). split; [reflexivity|]. split; [reflexivity|]. split; [apply bare_leaves; eexists; eexists; reflexivity|right; eexists; eexists; reflexivity]. }
  destruct Lp as (z' & Eps & Kz & Lz & Iz). rewrite Eps, map_app in Er. cbn [map] in Er.
  destruct Hr as [->|[Nr Hr]].
  - left. change (gleaf K_SELECT :: o ++ [gleaf K_Star]) with ((gleaf K_SELECT :: o) ++ [gleaf K_Star]) in Er. apply app_inj_tail in Er as [Eo Ez]. destruct z' as [k w|k ds]; [|discriminate]. cbn [shape] in Ez. injection Ez as ->. cbn [tkind] in Kz.
    exists w. split.
    + destruct Iz as [Iz|Iz]; [symmetry; exact Iz|]. destruct Iz as (k & ds & ->). exfalso. unfold ps in Eps. rewrite Ec, flat_map_app in Eps. cbn [flat_map] in Eps. rewrite app_nil_r in Eps. apply app_inj_tail in Eps as [_ Eps]. discriminate.
    + rewrite <- Ep, Eps, map_app, existsb_app, Eo, (gmod_paren _ Ho). reflexivity.
  - right. destruct (columns_last _ Hr Nr) as (pre & g & Eg & Hg). rewrite Eg, app_comm_cons, app_assoc in Er. apply app_inj_tail in Er as [_ Ez]. subst g. destruct Hg as [(k & Ez & Hk)|[Ez Hp]].
    + left. destruct z' as [k' w'|k' ds]; [discriminate|]. cbn [shape] in Ez. injection Ez as -> Ed. cbn [tkind] in Kz. split; [symmetry; exact Kz|]. destruct z as [k1 w1|k1 ds1].
      { destruct Iz as [Iz|(? & ? & Iz)]; discriminate. }
      cbn [tkind] in Kz. subst k1. destruct (doc_var_node err t x (sc ++ [length C]) D) as [(kw & w & E1 & Hkw)|(kw & w & E1)].
      * exists ds1. exact Ez0.
      * rewrite Ez0 in E1. injection E1 as ->. exists kw, w. auto.
      * exfalso. rewrite Ez0 in E1. injection E1 as ->. unfold ps in Eps. rewrite Ec, flat_map_app in Eps. cbn [flat_map piece] in Eps. rewrite app_nil_r in Eps. apply app_inj_tail in Eps as [_ Eps]. cbn in Eps. destruct (trivial (kw, w)); injection Eps as <-; discriminate.
    + right. destruct z' as [k' w'|k' ds]; [|discriminate]. cbn [shape] in Ez. injection Ez as ->. cbn [tkind] in Kz. split; [symmetry; exact Kz|]. rewrite <- Ep, Er0. change (gleaf K_SELECT :: o ++ r) with ((gleaf K_SELECT :: o) ++ r). rewrite existsb_app, Hp. apply orb_true_r.
Qed.
Context (first : bool) (col : list tree) (w : text).
Context (Dcol : derives column (map shape col)) (Lcol : forall v, (if first then no_name v else apart v) -> tokens err (w ++ v) = flat_map leaves col ++ tokens err v) (Ow : forall v, opens_solid (w ++ v)).
Context (Ms : marks_spaced first x sc) (Sa : star_apart x sc) (Va : first = false -> apart (flat_map snd (leaves_behind x sc))) (NF : not_fused (leaves_before x sc ++ leaves (Node K_SelectClause cps))).
Let y : tree := Node K_SelectClause cps.
Let U : text := flat_map snd (leaves_before x sc).
Let V : text := flat_map snd (leaves_behind x sc).
Lemma column_end_at : end_at x sc = byte_len (U ++ tree_text y).
Proof. unfold end_at. rewrite (before_bytes _ _ _ E), byte_len_app. unfold text_at. rewrite E. reflexivity. Qed.
Lemma column_kind C z : cps = C ++ [z] -> last_kind x sc = Some (tkind z).
Proof. intros Ec. unfold last_kind. rewrite E, Ec, last_of_app. reflexivity. Qed.
Lemma column_with C z : cps = C ++ [z] -> tkind z = K_Var \/ tkind z = K_RParen -> with_column first col ps = if first then put_before opens_paren col ps else ps ++ col.
Proof.
  intros Ec Hz. assert (exists z', piece same z = [z'] /\ tkind z' = tkind z) as (z' & Ez & Kz).
  { destruct z as [k u|k ds]; [|exists (bare same (Node k ds)); split; reflexivity]. cbn [tkind] in Hz. exists (Tok k u). destruct Hz as [-> | ->]; split; reflexivity. }
  unfold with_column. assert (El : last_of ps = Some z') by (unfold ps; rewrite Ec, flat_map_app; cbn [flat_map]; rewrite Ez, app_nil_r; apply last_of_app). rewrite El. destruct z' as [k u|k ds]; [|reflexivity]. cbn [tkind] in Kz. destruct k; try reflexivity. destruct Hz; congruence.
Qed.
Lemma column_done e t' : column_edit first x t sc w = Some e -> edited t e t' -> tokens err t' = sigs (leaves_before x sc) ++ flat_map leaves (with_column first col ps) ++ sigs (leaves_behind x sc) ->
  exists e t' x' q', column_edit first x t sc w = Some e /\ edited t e t' /\ doc_parse err t' x' [] /\
    at_path (bare same x) q' = Some (bare same y) /\ bare same x' = put_at (bare same x) q' (Node K_SelectClause (with_column first col (kids (bare same y)))).
Proof.
  intros He Hd Tk. destruct clause_derived as (_ & _ & Dc). pose proof (clause_with first _ _ Dc Dcol) as Dw. rewrite <- with_shape in Dw.
  destruct (replanted _ _ _ _ _ _ _ _ _ P G E Dw Tk) as (x' & q' & P' & _ & A' & B'). exists e, t', x', q'. auto 6.
Qed.
Lemma behind_suffix A B : lex err t = A ++ B -> lex err (flat_map snd B) = B.
Proof. apply LexInsert.lex_suffix. Qed.
Lemma column_parenthesis A p B : cps = A ++ p :: B -> opens_paren p = true -> existsb opens_paren A = false -> p = Tok K_LParen [40%N].
Proof.
  intros Ec Op _. destruct clause_derived as (_ & _ & Dc). destruct p as [k u|k ds].
  - unfold opens_paren in Op. cbn [tkind] in Op. destruct (kind_eqb_spec k K_LParen) as [->|]; [|discriminate]. f_equal. apply (mark_char err t K_LParen u 40); [|left; reflexivity].
    rewrite (node_split _ _ _ _ _ D E). apply in_app_iff. right. apply in_app_iff. left. cbn [leaves]. rewrite Ec, flat_map_app. apply in_app_iff. right. left. reflexivity.
  - exfalso. assert (Hin : In (bare same (Node k ds)) ps) by (unfold ps; rewrite Ec, flat_map_app; apply in_app_iff; right; left; reflexivity).
    apply (in_map shape) in Hin. pose proof (clause_elements _ Dc _ Hin ltac:(rewrite gparen_shape; exact Op)) as H. discriminate H.
Qed.
Theorem column_added : exists e t' x' q', column_edit first x t sc w = Some e /\ edited t e t' /\ doc_parse err t' x' [] /\
    at_path (bare same x) q' = Some (bare same y) /\ bare same x' = put_at (bare same x) q' (Node K_SelectClause (with_column first col (kids (bare same y)))).
Proof.
  pose proof (grammatical_tokens _ _ G) as Fq. pose proof (node_split _ _ _ _ _ D E) as Sp. fold y in Sp. pose proof (node_text _ _ _ _ _ D E) as Et. fold y U V in Et.
  destruct clause_ends as (C & z & Ec & Hz). pose proof (column_kind C z Ec) as Lk.
  destruct (if first then existsb opens_paren cps else false) eqn:Par.
  - (* before the first expression *)
    assert (Ef : first = true) by (destruct first; [reflexivity|discriminate]). assert (Pc : existsb opens_paren cps = true) by (rewrite Ef in Par; exact Par). pose proof (find_paren _ _ _ _ E) as Fp. destruct (find _ _) as [c|] eqn:Fc; [|congruence]. destruct Fp as (A & p & B & Ecp & -> & Op & Oa).
    pose proof (column_parenthesis A p B Ecp Op Oa) as ->. assert (Ep : at_path x (sc ++ [length A]) = Some (Tok K_LParen [40%N])) by (rewrite (AstFacts.at_child _ _ _ _ _ E), Ecp, nth_error_app2, Nat.sub_diag by lia; reflexivity).
    destruct (child_leaves x sc _ A _ B ltac:(rewrite <- Ecp; exact E)) as [Lb Lh]. pose proof (node_split _ _ _ _ _ D Ep) as Sp2. pose proof (node_text _ _ _ _ _ D Ep : t = flat_map snd (leaves_before x (sc ++ [length A])) ++ [40%N] ++ flat_map snd (leaves_behind x (sc ++ [length A]))) as Et2. cbn [leaves] in Sp2.
    set (U2 := flat_map snd (leaves_before x (sc ++ [length A]))) in *. set (V2 := flat_map snd (leaves_behind x (sc ++ [length A]))) in *.
    destruct (edited_insert U2 ([40%N] ++ V2) (w ++ [32%N])) as (pp & I1 & I2). replace (U2 ++ [40%N] ++ V2) with t in I1, I2 by exact Et2.
    apply (column_done (mkedit (mkrange pp pp) (w ++ [32%N])) (U2 ++ (w ++ [32%N]) ++ [40%N] ++ V2)); [|exact I2|].
    + unfold column_edit. rewrite Ef, Fc, (before_bytes _ _ _ Ep). fold U2. rewrite I1, Lk. destruct Hz as [(u & -> & Hz)|[(-> & _)|(-> & _)]]; [congruence|reflexivity|reflexivity].
    + rewrite <- app_assoc. rewrite tokens_sigs. rewrite (node_relex err t x _ _ D Ep K_LParen [40%N] [] _ eq_refl) ; [|repeat split; (discriminate || lia)|exact Fq| | |apply Ow].
      2: { rewrite Lb. apply (not_fused_left _ (flat_map leaves ((Tok K_LParen [40%N]) :: B))). rewrite <- app_assoc, <- flat_map_app, <- Ecp. exact NF. }
      2: { apply Ms. exists K_SelectClause, cps, (Tok K_LParen [40%N]). split; [exact E|]. split; [rewrite Ecp, nth_error_app2, Nat.sub_diag by lia; reflexivity|]. right. split; [exact Ef|]. split; [reflexivity|]. intros j d Lj Hj. rewrite Ecp, nth_error_app1 in Hj by exact Lj.
           intros Kd. apply nth_error_In in Hj. assert (existsb opens_paren A = true) by (apply existsb_exists; exists d; split; [exact Hj|unfold opens_paren; rewrite Kd; reflexivity]). congruence. }
      rewrite PrologueSwap.sigs_app, <- (tokens_sigs err), Lcol by (rewrite Ef; reflexivity). rewrite (tokens_sigs err). change ([32%N] ++ [40%N] ++ V2) with ([32%N] ++ (40%N :: V2)). rewrite (lex_ws err [32%N]); [|discriminate|reflexivity|reflexivity].
      assert (lex err (40%N :: V2) = (K_LParen, [40%N]) :: leaves_behind x (sc ++ [length A])) as -> by (apply (behind_suffix (leaves_before x (sc ++ [length A])) ((K_LParen, [40%N]) :: leaves_behind x (sc ++ [length A]))); exact Sp2).
      rewrite Lb, Lh. change (sigs ((K_WHITESPACE, [32%N]) :: (K_LParen, [40%N]) :: flat_map leaves B ++ leaves_behind x sc)) with ((K_LParen, [40%N]) :: sigs (flat_map leaves B ++ leaves_behind x sc)). rewrite !PrologueSwap.sigs_app. assert (Ew : with_column true col ps = flat_map (piece same) A ++ col ++ Tok K_LParen [40%N] :: flat_map (piece same) B).
      { assert (Eps : ps = flat_map (piece same) A ++ Tok K_LParen [40%N] :: flat_map (piece same) B) by (unfold ps; rewrite Ecp, flat_map_app; reflexivity).
        rewrite <- Ef at 1. rewrite (column_with C z Ec) by (destruct Hz as [(u & -> & Hz)|[(-> & _)|(-> & _)]]; [congruence|auto|auto]). rewrite Ef, Eps, put_before_app by (rewrite paren_pieces; exact Oa). rewrite put_before_here by reflexivity. reflexivity. }
      rewrite Ef, Ew, !flat_map_app. cbn [flat_map leaves app]. rewrite !piece_leaves. rewrite <- !app_assoc. reflexivity.
  - assert (Fc : (if first then find (fun c => DiagModel.kind_is x c K_LParen) (elements x sc) else None) = None).
    { destruct first; [|reflexivity]. pose proof (find_paren _ _ _ _ E) as Fp. destruct (find _ _) as [c|] eqn:Fc; [|reflexivity]. destruct Fp as (A & p & B & Ecp & _ & Op & _). exfalso. rewrite Ecp, existsb_app in Par. cbn [existsb] in Par. rewrite Op, orb_true_r in Par. discriminate. }
    destruct Hz as [(u & -> & Np)|Hz].
    + (* instead of the star *)
      assert (Ez : at_path x (sc ++ [length C]) = Some (Tok K_Star u)) by (rewrite (AstFacts.at_child _ _ _ _ _ E), Ec, nth_error_app2, Nat.sub_diag by lia; reflexivity).
      assert (u = [42%N]) as -> by (apply (mark_char err t K_Star u 42); [rewrite Sp; apply in_app_iff; right; apply in_app_iff; left; unfold y; cbn [leaves]; rewrite Ec, flat_map_app; apply in_app_iff; right; left; reflexivity|right; reflexivity]).
      destruct (child_leaves x sc _ C _ [] ltac:(rewrite <- Ec; exact E)) as [Lb Lh]. cbn [flat_map app] in Lh.
      pose proof (node_text _ _ _ _ _ D Ez : t = flat_map snd (leaves_before x (sc ++ [length C])) ++ [42%N] ++ flat_map snd (leaves_behind x (sc ++ [length C]))) as Et2. set (U2 := flat_map snd (leaves_before x (sc ++ [length C]))) in *. rewrite Lh in Et2. fold V in Et2.
      destruct (edited_star U2 V w) as (pp & I1 & I2). apply (fun H => eq_ind_r (fun s => from_byte_index (byte_len (U2 ++ [42%N])) s = Some pp) H Et2) in I1. apply (fun H => eq_ind_r (fun s => edited s (instead_of_star pp w) (U2 ++ w ++ V)) H Et2) in I2.
      assert (Eb : byte_len (U ++ tree_text y) = byte_len (U2 ++ [42%N])).
      { f_equal. apply (app_inv_tail V). rewrite <- !app_assoc. etransitivity; [symmetry; exact Et|exact Et2]. }
      apply (column_done (instead_of_star pp w) (U2 ++ w ++ V)); [|exact I2|].
      * unfold column_edit. rewrite Fc, column_end_at, Eb, I1, Lk. reflexivity.
      * rewrite tokens_sigs. rewrite (node_relex err t x _ _ D Ez K_Star [42%N] [] _ eq_refl) ; [|repeat split; (discriminate || lia)|exact Fq| | |apply Ow].
        2: { rewrite Lb. apply (not_fused_left _ (flat_map leaves [Tok K_Star [42%N]])). rewrite <- app_assoc, <- flat_map_app, <- Ec. exact NF. }
        2: { apply Ms. exists K_SelectClause, cps, (Tok K_Star [42%N]). split; [exact E|]. split; [rewrite Ec, nth_error_app2, Nat.sub_diag by lia; reflexivity|left; reflexivity]. }
        rewrite PrologueSwap.sigs_app, <- (tokens_sigs err), Lcol by (destruct first; [pose proof (Sa _ _ Ez) as S1; rewrite Lh in S1; exact S1|exact (Va eq_refl)]). rewrite (tokens_sigs err).
        assert (lex err V = leaves_behind x sc) as -> by (apply (behind_suffix (leaves_before x sc ++ leaves y)); rewrite <- app_assoc; exact Sp).
        rewrite Lb, !PrologueSwap.sigs_app. assert (Ew : with_column first col ps = flat_map (piece same) C ++ col).
        { assert (Eps : ps = flat_map (piece same) C ++ [Tok K_Star [42%N]]) by (unfold ps; rewrite Ec, flat_map_app; reflexivity). unfold with_column. rewrite Eps, last_of_app, removelast_last. reflexivity. }
        rewrite Ew, !flat_map_app, piece_leaves, <- !app_assoc. reflexivity.
    + (* at the end *)
      assert (Hk : tkind z = K_Var \/ tkind z = K_RParen) by (destruct Hz as [(-> & _)|(-> & _)]; auto).
      assert (Hl : exists L k u, leaves y = L ++ [(k, u)] /\ trivial (k, u) = false /\ (if first then no_name V else apart V)).
      { destruct clause_derived as (_ & Ns & _). destruct (trails_leaf _ _ _ D _ _ Ns E ltac:(eexists; eexists; reflexivity)) as (L & [k u] & EL & T). exists L, k, u. split; [exact EL|]. split; [exact T|].
        destruct first; [|exact (Va eq_refl)]. destruct Hz as [(_ & kv & wv & Ev & Kv)|(_ & Pc)]; [|congruence].
        assert (EL2 : leaves y = flat_map leaves C ++ [(kv, wv)]) by (unfold y; cbn [leaves]; rewrite Ec, flat_map_app; cbn [flat_map]; rewrite Ev, app_nil_r; reflexivity). apply (behind_var err t (leaves_before x sc ++ flat_map leaves C) kv wv (leaves_behind x sc)); [|exact Kv]. rewrite Sp, EL2, <- !app_assoc. reflexivity. }
      destruct Hl as (L & k & u & EL & T & Hv).
      destruct (edited_insert (U ++ tree_text y) V (32%N :: w)) as (pp & I1 & I2). assert (Et3 : t = (U ++ tree_text y) ++ V) by (rewrite <- app_assoc; exact Et). apply (fun H => eq_ind_r (fun s => from_byte_index (byte_len (U ++ tree_text y)) s = Some pp) H Et3) in I1. apply (fun H => eq_ind_r (fun s => edited s (mkedit (mkrange pp pp) (32%N :: w)) ((U ++ tree_text y) ++ (32%N :: w) ++ V)) H Et3) in I2.
      apply (column_done (mkedit (mkrange pp pp) (32%N :: w)) ((U ++ tree_text y) ++ (32%N :: w) ++ V)); [|exact I2|].
      * unfold column_edit. rewrite Fc, column_end_at, I1, Lk. destruct Hk as [-> | ->]; reflexivity.
      * assert (Fu : Forall query_token ((leaves_before x sc ++ L) ++ [(k, u)])) by (rewrite Sp, EL in Fq; rewrite <- app_assoc; apply Forall_app in Fq as [F1 F2]; apply Forall_app in F2 as [F2 _]; apply Forall_app; auto).
        assert (Sp2 : lex err t = (leaves_before x sc ++ L) ++ (k, u) :: leaves_behind x sc) by (rewrite Sp, EL, <- !app_assoc; reflexivity).
        assert (NF2 : not_fused ((leaves_before x sc ++ L) ++ [(k, u)])) by (refine (eq_ind _ not_fused NF _ _); fold y; rewrite EL; apply app_assoc).
        pose proof (left_spaced err t _ k u _ [32%N] (w ++ V) Sp2 Fu NF2 T ltac:(discriminate) eq_refl (Ow V)) as Ls.
        assert (Tx : (U ++ tree_text y) ++ (32%N :: w) ++ V = flat_map snd ((leaves_before x sc ++ L) ++ [(k, u)]) ++ [32%N] ++ w ++ V).
        { rewrite leaves_text, EL, !flat_map_app. unfold U. rewrite <- !app_assoc. reflexivity. }
        rewrite tokens_sigs. rewrite (eq_trans (f_equal (lex err) Tx) Ls). rewrite PrologueSwap.sigs_app. change (sigs ((K_WHITESPACE, [32%N]) :: lex err (w ++ V))) with (tokens err (w ++ V)). rewrite (Lcol _ Hv), (tokens_sigs err).
        assert (lex err V = leaves_behind x sc) as -> by (apply (behind_suffix (leaves_before x sc ++ leaves y)); rewrite <- app_assoc; exact Sp).
        rewrite (column_with C z Ec Hk). assert (Ew : flat_map leaves (if first then put_before opens_paren col ps else ps ++ col) = sigs (leaves y) ++ flat_map leaves col).
        { assert (Lp : flat_map leaves ps = sigs (leaves y)) by apply piece_leaves. rewrite <- Lp. destruct first; [rewrite put_before_none by (unfold ps; rewrite paren_pieces; exact Par)|]; apply flat_map_app. }
        rewrite Ew, EL, !PrologueSwap.sigs_app, <- !app_assoc. reflexivity.
Qed.
End column.

(** ** the query the column is for *)
Definition query_at (x : tree) (q : path) : Prop := exists k, node_at x q k /\ In k [K_SelectQuery; K_SubSelect].
(** the innermost query around [p] *)
Definition innermost_above (x : tree) (p q : path) : Prop := query_at x q /\ (exists r, r <> [] /\ p = q ++ r) /\ forall q' r, r <> [] -> p = q' ++ r -> query_at x q' -> length q' <= length q.
(** the query around the variable [v]; for a variable of the select clause of a sub-select, the query around the sub-select *)
Inductive query_of (x : tree) (v q : path) : Prop :=
| of_clause s i j : v = s ++ [i; j] -> node_at x s K_SubSelect -> innermost_above x s q -> query_of x v q
| of_body : (forall s i j, v = s ++ [i; j] -> ~ node_at x s K_SubSelect) -> innermost_above x v q -> query_of x v q.
Lemma is_query_at x q : is_query x q = true <-> query_at x q.
Proof.
  unfold is_query, query_at. split.
  - destruct (at_path x q) as [[k w|k cs]|] eqn:A; try discriminate. intros H. exists k. split; [exists cs; exact A|]. destruct k; try discriminate H; cbn; auto.
  - intros (k & (cs & ->) & Hk). destruct Hk as [<-|[<-|[]]]; reflexivity.
Qed.
Lemma find_ancestors f p q : find f (ancestors p) = Some q <-> f q = true /\ (exists r, p = q ++ r) /\ forall q' r, p = q' ++ r -> f q' = true -> length q' <= length q.
Proof.
  induction p as [|i p IH] using rev_ind.
  - rewrite ancestors_nil. cbn [find]. split.
    + destruct (f []) eqn:F; [|discriminate]. intros [= <-]. split; [exact F|]. split; [exists []; reflexivity|]. intros q' r H _. destruct q'; [lia|discriminate].
    + intros (F & (r & H) & _). destruct q; [|discriminate]. rewrite F. reflexivity.
  - rewrite ancestors_snoc. cbn [find]. destruct (f (p ++ [i])) eqn:F.
    + split.
      * intros [= <-]. split; [exact F|]. split; [exists []; rewrite app_nil_r; reflexivity|]. intros q' r H _. rewrite H, app_length. lia.
      * intros (Fq & (r & H) & M). specialize (M (p ++ [i]) [] ltac:(rewrite app_nil_r; reflexivity) F). rewrite H, app_length in M. destruct r; [rewrite app_nil_r in H; congruence|cbn in M; lia].
    + rewrite IH. split.
      * intros (Fq & (r & ->) & M). split; [exact Fq|]. split; [exists (r ++ [i]); rewrite app_assoc; reflexivity|]. intros q' r' H Fq'. destruct r' as [|j r' _] using rev_ind; [rewrite app_nil_r in H; congruence|]. rewrite app_assoc in H. apply app_inj_tail in H as [H _]. apply (M q' r' H Fq').
      * intros (Fq & (r & H) & M). split; [exact Fq|]. destruct r as [|j r _] using rev_ind; [rewrite app_nil_r in H; congruence|]. rewrite app_assoc in H. apply app_inj_tail in H as [H <-]. split; [exists r; exact H|]. intros q' r' H' Fq'. apply (M q' (r' ++ [i])); [rewrite H', app_assoc; reflexivity|exact Fq'].
Qed.
Lemma innermost_find x p i q : innermost_above x (p ++ [i]) q <-> find (is_query x) (ancestors p) = Some q.
Proof.
  rewrite find_ancestors, is_query_at. unfold innermost_above. split.
  - intros (Q & (r & Nr & H) & M). split; [exact Q|]. destruct r as [|j r _] using rev_ind; [congruence|]. rewrite app_assoc in H. apply app_inj_tail in H as [H <-]. split; [eauto|]. intros q' r' H' Q'. apply is_query_at in Q'. apply (M q' (r' ++ [i])); [destruct r'; discriminate|rewrite H', app_assoc; reflexivity|exact Q'].
  - intros (Q & (r & ->) & M). split; [exact Q|]. split; [exists (r ++ [i]); split; [destruct r; discriminate|rewrite app_assoc; reflexivity]|]. intros q' r' Nr H Q'. destruct r' as [|j r' _] using rev_ind; [congruence|]. rewrite app_assoc in H. apply app_inj_tail in H as [H _]. apply (M q' r' H). apply is_query_at, Q'.
Qed.
Lemma query_above err t x q : doc_tree err t x -> query_at x q -> q <> [].
Proof. intros D (k & H & Hk). eapply doc_inner; [exact D|exact H| |]; destruct Hk as [<-|[<-|[]]]; discriminate. Qed.
Lemma target_query_iff err t x v q : doc_tree err t x -> node_at x v K_Var -> target_query x v = Some q <-> query_of x v q.
Proof.
  intros D Hv. destruct v as [|j v _] using rev_ind; [exfalso; eapply doc_inner; [exact D|exact Hv|discriminate|discriminate|reflexivity]|]. destruct v as [|i v _] using rev_ind.
  - split; [discriminate|]. intros [s i j' Es _ _|_ H]; [apply (f_equal (@length nat)) in Es; rewrite !app_length in Es; cbn [length] in Es; lia|]. destruct H as (Q & (r & Nr & H) & _). pose proof (query_above _ _ _ _ D Q). destruct q as [|a q]; [congruence|]. destruct q, r; try discriminate; congruence.
  - assert (Nv : is_query x ((v ++ [i]) ++ [j]) = false) by (destruct Hv as [cs Hv]; unfold is_query; rewrite Hv; reflexivity).
    assert (exists y, at_path x v = Some y /\ is_inner y) as (y & Ey & Iy).
    { destruct Hv as [cs Hv]. rewrite <- app_assoc, at_path_app in Hv. destruct (at_path x v) as [[k w|k ds]|]; try discriminate. eexists. split; [reflexivity|eexists; eexists; reflexivity]. }
    assert (Eg : nth_error (ancestors ((v ++ [i]) ++ [j])) 2 = Some v) by (rewrite !ancestors_snoc; destruct v as [|l v _] using rev_ind; [rewrite ancestors_nil|rewrite ancestors_snoc]; reflexivity).
    unfold target_query. rewrite Eg. destruct (DiagModel.kind_is x v K_SubSelect) eqn:K.
    + assert (Hs : node_at x v K_SubSelect) by (destruct Iy as (k & ds & ->); exists ds; unfold DiagModel.kind_is, kind_at in K; rewrite Ey in K; cbn [option_map tkind] in K; destruct (kind_eqb_spec k K_SubSelect) as [->|]; [exact Ey|discriminate K]).
      assert (Nn : v <> []) by (eapply doc_inner; [exact D|exact Hs|discriminate|discriminate]). assert (exists v' l, v = v' ++ [l]) as (v' & l & Ev) by (destruct v as [|l v' _] using rev_ind; [congruence|eauto]).
      assert (Sk : skipn 3 (ancestors ((v ++ [i]) ++ [j])) = ancestors v') by (rewrite !ancestors_snoc, Ev, ancestors_snoc; reflexivity). rewrite Sk, <- (innermost_find x v' l), <- Ev. split.
      * intros H. apply (of_clause x _ q v i j); [rewrite <- app_assoc; reflexivity|exact Hs|exact H].
      * intros [s i' j' Es _ H|N _]; [|exfalso; apply (N v i j); [rewrite <- app_assoc; reflexivity|exact Hs]]. change [i'; j'] with ([i'] ++ [j']) in Es. rewrite app_assoc in Es. apply app_inj_tail in Es as [Es _]. apply app_inj_tail in Es as [-> _]. exact H.
    + assert (Ns : forall s i' j', (v ++ [i]) ++ [j] = s ++ [i'; j'] -> ~ node_at x s K_SubSelect).
      { intros s i' j' Es [ds Hs]. change [i'; j'] with ([i'] ++ [j']) in Es. rewrite app_assoc in Es. apply app_inj_tail in Es as [Es _]. apply app_inj_tail in Es as [-> _]. unfold DiagModel.kind_is, kind_at in K. rewrite Hs in K. discriminate K. }
      rewrite (ancestors_snoc (v ++ [i]) j). cbn [find]. rewrite Nv, <- (innermost_find x (v ++ [i]) j). split; [intros H; apply of_body; assumption|]. intros [s i' j' Es Hs _|_ H]; [exfalso; exact (Ns _ _ _ Es Hs)|exact H].
Qed.

(** ** C66: the variable becomes a column *)
(** [w] is not yet a column of the query [q] with the select clause [sc], and may be one: if the query is grouped, it is grouped by [w] *)
Definition may_add (x : tree) (q sc : path) (w : text) : Prop :=
  (forall u, selected x sc u -> text_at x u <> w) /\ (forall gc, grouped x q gc -> ~ hidden x q -> exists g, groups_by x gc g /\ text_at x g = w).
Lemma column_edit_some err t x sc cps first w : doc_tree err t x -> sc <> [] -> at_path x sc = Some (Node K_SelectClause cps) -> exists e, column_edit first x t sc w = Some e.
Proof.
  intros D Ns E. unfold column_edit. assert (exists o b, (match (if first then find (fun c => DiagModel.kind_is x c K_LParen) (elements x sc) else None) with Some c => (start_at x c, false) | None => (end_at x sc, true) end) = (o, b) /\ exists p, from_byte_index o t = Some p) as (o & b & -> & p & ->).
  { destruct (if first then _ else _) as [c|] eqn:Fc; eexists; eexists; (split; [reflexivity|]).
    - destruct first; [|discriminate]. pose proof (find_paren _ _ _ _ E) as Fp. rewrite Fc in Fp. destruct Fp as (A & y & B & Ecp & -> & _ & _).
      assert (Ep : at_path x (sc ++ [length A]) = Some y) by (rewrite (AstFacts.at_child _ _ _ _ _ E), Ecp, nth_error_app2, Nat.sub_diag by lia; reflexivity). rewrite (before_bytes _ _ _ Ep). rewrite (node_text _ _ _ _ _ D Ep). eexists. apply from_byte_index_boundary.
    - unfold end_at, text_at. rewrite E, (before_bytes _ _ _ E), <- byte_len_app. rewrite (node_text _ _ _ _ _ D E), app_assoc. eexists. apply from_byte_index_boundary. }
  assert (exists k, last_kind x sc = Some k) as [k ->].
  { unfold last_kind. rewrite E. destruct cps as [|c cps _] using rev_ind; [destruct (leads_leaf _ _ _ _ _ _ D Ns E) as (l & ls & H & _); discriminate|]. rewrite last_of_app. eexists. reflexivity. }
  destruct k; eexists; reflexivity.
Qed.
Lemma query_place err t x v q : doc_tree err t x -> query_of x v q -> query_at x q.
Proof. intros _ [s i j _ _ (H & _)|_ (H & _)]; exact H. Qed.
Lemma add_to_result_is err t x v q sc cps : doc_tree err t x -> node_at x v K_Var -> query_of x v q -> part x q K_SelectClause sc -> at_path x sc = Some (Node K_SelectClause cps) ->
  (may_add x q sc (text_at x v) -> add_to_result x t v = column_edit true x t sc (text_at x v)) /\ (forall e, add_to_result x t v = Some e -> may_add x q sc (text_at x v)).
Proof.
  intros D Hv Hq Hs E. destruct (query_place _ _ _ _ _ D Hq) as (k & Hk & Sk). assert (Sl : select_like k = true) by (destruct Sk as [<-|[<-|[]]]; reflexivity).
  unfold add_to_result. rewrite (proj2 (target_query_iff _ _ _ _ _ D Hv) Hq), (proj2 (select_clause_iff _ _ _ _ _ _ D Hk Sl) Hs).
  assert (M1 : mem (text_at x v) (texts x (selected_variables x sc)) = false <-> forall u, selected x sc u -> text_at x u <> text_at x v).
  { rewrite mem_false. unfold texts. rewrite in_map_iff. split.
    - intros N u Hu Eu. apply N. exists u. split; [exact Eu|]. apply in_selected, Hu.
    - intros N (u & Eu & Hu). apply in_selected in Hu. exact (N u Hu Eu). }
  assert (M2 : match group_texts x q with None => true | Some vs => mem (text_at x v) vs end = true <-> forall gc, grouped x q gc -> ~ hidden x q -> exists g, groups_by x gc g /\ text_at x g = text_at x v).
  { unfold group_texts. destruct (group_clause x q) as [gc|] eqn:Eg; cbn [option_map].
    - pose proof (proj1 (group_clause_iff _ _ _ _ _ gc D Hk Sl) Eg) as [Hg Hh]. assert (Ng : node_at x gc K_GroupClause) by (destruct Hg as (sm & _ & _ & H); exact H). rewrite mem_iff. unfold texts. rewrite in_map_iff. split.
      + intros (u & Eu & Hu) gc' Hg' Hh'. pose proof (proj2 (group_clause_iff _ _ _ _ _ gc' D Hk Sl) (conj Hg' Hh')) as Eg'. assert (gc' = gc) as -> by congruence. exists u. split; [apply (in_group_variables _ _ _ _ _ D Ng), Hu|exact Eu].
      + intros H. destruct (H gc Hg Hh) as (u & Hu & Eu). exists u. split; [exact Eu|apply (in_group_variables _ _ _ _ _ D Ng), Hu].
    - split; [|reflexivity]. intros _ gc Hg Hh. pose proof (proj2 (group_clause_iff _ _ _ _ _ gc D Hk Sl) (conj Hg Hh)). congruence. }
  split.
  - intros [H1 H2]. rewrite (proj2 M1 H1), (proj2 M2 H2). reflexivity.
  - intros e. destruct (mem (text_at x v) (texts x (selected_variables x sc))); [discriminate|]. destruct (match group_texts x q with None => true | Some vs => mem (text_at x v) vs end); [|discriminate]. intros _. split; [apply M1; reflexivity|apply M2; reflexivity].
Qed.
Lemma at_variable_is {A} err t x errs v kw w r a b (none : A) act : doc_parse err t x errs -> at_path x v = Some (Node K_Var [Tok kw w]) -> byte_index (rstart r) t = Some a -> byte_index (rend r) t = Some b -> smallest x (v ++ [0]) a b ->
  at_variable x t none act r = Reply (act v).
Proof.
  intros P Ev Ia Ib Sm. pose proof (doc_parse_tree _ _ _ _ P) as D. unfold at_variable, byte_range. rewrite Ia, Ib. rewrite (proj2 (Nat.leb_le _ _)) by (destruct Sm as ((_ & H & _) & _); exact H).
  assert (Et : at_path x (v ++ [0]) = Some (Tok kw w)) by (rewrite (AstFacts.at_child _ _ _ _ _ Ev); reflexivity). rewrite (smallest_covering _ _ _ _ _ _ _ D Et Sm).
  assert (Pk : forall k, parent_is x (v ++ [0]) k = kind_eqb K_Var k). { intros k. unfold parent_is. rewrite removelast_last. unfold DiagModel.kind_is, kind_at. rewrite Ev. destruct v; reflexivity. }
  rewrite !Pk. cbn [kind_eqb andb]. rewrite removelast_last. reflexivity.
Qed.
Theorem C66_offered : forall err t x errs v kw w q sc r a b,
  doc_parse err t x errs -> at_path x v = Some (Node K_Var [Tok kw w]) -> byte_index (rstart r) t = Some a -> byte_index (rend r) t = Some b -> smallest x (v ++ [0]) a b ->
  query_of x v q -> part x q K_SelectClause sc -> (exists e, offer_add_to_result x t r = Reply (Some e)) <-> may_add x q sc w.
Proof.
  intros err t x errs v kw w q sc r a b P Ev Ia Ib Sm Hq Hs. pose proof (doc_parse_tree _ _ _ _ P) as D. unfold offer_add_to_result. rewrite (at_variable_is _ _ _ _ _ _ _ _ _ _ _ _ P Ev Ia Ib Sm).
  assert (Hv : node_at x v K_Var) by (eexists; exact Ev). destruct Hs as [Hi [cps E]]. destruct (add_to_result_is _ _ _ _ _ _ _ D Hv Hq (conj Hi (ex_intro _ cps E)) E) as [H1 H2].
  assert (Tv : text_at x v = w) by (unfold text_at; rewrite Ev; cbn [tree_text map concat flat_map]; apply app_nil_r). rewrite Tv in *. split.
  - intros (e & [= He]). exact (H2 e He).
  - intros H. rewrite (H1 H). destruct (column_edit_some err t x sc cps true w D ltac:(destruct Hi as [i ->]; destruct q; discriminate) E) as [e ->]. exists e. reflexivity.
Qed.
Theorem C66_add_to_result_partial : forall err t x errs v kw w q sc cps r a b,
  doc_parse err t x errs -> grammatical err t -> at_path x v = Some (Node K_Var [Tok kw w]) -> byte_index (rstart r) t = Some a -> byte_index (rend r) t = Some b -> smallest x (v ++ [0]) a b ->
  query_of x v q -> part x q K_SelectClause sc -> at_path x sc = Some (Node K_SelectClause cps) -> may_add x q sc w ->
  marks_spaced true x sc -> star_apart x sc -> not_fused (leaves_before x sc ++ leaves (Node K_SelectClause cps)) ->
  exists e t' x' q', offer_add_to_result x t r = Reply (Some e) /\ edited t e t' /\ doc_parse err t' x' [] /\
    at_path (bare same x) q' = Some (bare same (Node K_SelectClause cps)) /\
    bare same x' = put_at (bare same x) q' (Node K_SelectClause (with_column true [Node K_Var [Tok kw w]] (kids (bare same (Node K_SelectClause cps))))).
Proof.
  intros err t x errs v kw w q sc cps r a b P G Ev Ia Ib Sm Hq Hs E Ma Ms Sa NF. pose proof (doc_parse_tree _ _ _ _ P) as D.
  assert (Hv : node_at x v K_Var) by (eexists; exact Ev). destruct (add_to_result_is _ _ _ _ _ _ _ D Hv Hq Hs E) as [H1 _]. assert (Tv : text_at x v = w) by (unfold text_at; rewrite Ev; cbn [tree_text map concat flat_map]; apply app_nil_r). rewrite Tv in H1.
  assert (Kw : var_kind kw). { destruct (doc_var_node _ _ _ _ D Hv) as [(k1 & w1 & E1 & Hk)|(k1 & w1 & E1)]; rewrite Ev in E1; [injection E1 as -> ->; exact Hk|discriminate]. }
  assert (Hin : exists t0, In (kw, w) (lex err t0)). { exists t. rewrite (node_split _ _ _ _ _ D Ev). apply in_app_iff. right. apply in_app_iff. left. left. reflexivity. }
  destruct (column_added err t x errs sc cps P G E true [Node K_Var [Tok kw w]] w) as (e & t' & x' & q' & He & Hd & P' & A' & B').
  - cbn [map shape]. apply GrammarSpec.d_alt_l. eapply GrammarSpec.d_node; [reflexivity| |discriminate]. destruct Kw as [-> | ->]; [apply GrammarSpec.d_alt_l|apply GrammarSpec.d_alt_r]; constructor.
  - intros u Hu. unfold tokens. rewrite (var_then err kw w u Hin Kw Hu). destruct Kw as [-> | ->]; reflexivity.
  - intros u. destruct Hin as [t0 Hin]. exact (sigil_solid _ _ _ _ _ Hin Kw).
  - exact Ms.
  - exact Sa.
  - discriminate.
  - exact NF.
  - exists e, t', x', q'. split; [|auto]. unfold offer_add_to_result. rewrite (at_variable_is _ _ _ _ _ _ _ _ _ _ _ _ P Ev Ia Ib Sm), (H1 Ma), He. reflexivity.
Qed.

(** any range is answered: one that ends before it starts crashes, a position outside the document is refused *)
Theorem C66_answers : forall err t x errs r, doc_parse err t x errs ->
  (forall a b, byte_index (rstart r) t = Some a -> byte_index (rend r) t = Some b -> if a <=? b then (exists o, offer_add_to_result x t r = Reply o) else offer_add_to_result x t r = Crash) /\
  (byte_index (rstart r) t = None \/ byte_index (rend r) t = None -> offer_add_to_result x t r = Refused InvalidParams).
Proof.
  intros err t x errs r P. unfold offer_add_to_result, at_variable, byte_range. split.
  - intros a b -> ->. destruct (a <=? b) eqn:L; [eauto|reflexivity].
  - intros [-> | ->]; [reflexivity|]. destruct (byte_index (rstart r) t); reflexivity.
Qed.

(** ** a case, and what is not claimed *)
Local Open Scope string_scope.
Local Open Scope list_scope.
(** the document behind the action at a cursor *)
Definition column_at (t : text) (l c : nat) : option text :=
  match offer_add_to_result (tree_of t) t (mkrange (mkpos l c) (mkpos l c)) with
  | Reply (Some e) => match apply_text_edits t [e] with Done u => Some u | _ => None end
  | _ => None
  end.
Definition C66_query : text := chars "PREFIX e: <e>" ++ [NL] ++ chars "SELECT ?x (COUNT(?z) AS ?n) {" ++ [NL] ++ chars "  ?x e:p ?z , ?y ." ++ [NL] ++ chars "} GROUP BY ?x ?y" ++ [NL].
Definition C66_after : text := chars "PREFIX e: <e>" ++ [NL] ++ chars "SELECT ?x ?y (COUNT(?z) AS ?n) {" ++ [NL] ++ chars "  ?x e:p ?z , ?y ." ++ [NL] ++ chars "} GROUP BY ?x ?y" ++ [NL].
Definition C66_star : text := chars "SELECT *WHERE { ?x ?p ?y }" ++ [NL].
Definition C66_alias : text := chars "SELECT (1 AS ?y) { ?x ?p ?y }" ++ [NL].
Definition C66_hidden : text := chars "SELECT * { { SELECT ?x { ?x ?p ?y } GROUP BY ?x VALUES ?x { 1 } } }" ++ [NL].
Definition C66_at : range := mkrange (mkpos 2 15) (mkpos 2 15).
Definition C66_variable : path := [0; 2; 2; 0; 2; 0; 0; 2; 2; 4; 0; 0; 0].
Example C66_witness : exists cps, (doc_parse (fun _ => 0) C66_query (tree_of C66_query) (errors_of C66_query) /\ grammatical (fun _ => 0) C66_query) /\ at_path (tree_of C66_query) C66_variable = Some (Node K_Var [Tok K_VAR1 (chars "?y")]) /\
  byte_index (rstart C66_at) C66_query = Some 59 /\ byte_index (rend C66_at) C66_query = Some 59 /\ smallest (tree_of C66_query) (C66_variable ++ [0]) 59 59 /\
  query_of (tree_of C66_query) C66_variable [0; 2] /\ part (tree_of C66_query) [0; 2] K_SelectClause [0; 2; 0] /\ at_path (tree_of C66_query) [0; 2; 0] = Some (Node K_SelectClause cps) /\
  may_add (tree_of C66_query) [0; 2] [0; 2; 0] (chars "?y") /\ marks_spaced true (tree_of C66_query) [0; 2; 0] /\ star_apart (tree_of C66_query) [0; 2; 0] /\
  not_fused (leaves_before (tree_of C66_query) [0; 2; 0] ++ leaves (Node K_SelectClause cps)) /\ column_at C66_query 2 15 = Some C66_after.
Proof.
  eexists. assert (P : doc_parse (fun _ => 0) C66_query (tree_of C66_query) (errors_of C66_query)) by (apply parses_doc; vm_compute; reflexivity). pose proof (doc_parse_tree _ _ _ _ P) as D.
  assert (Ev : at_path (tree_of C66_query) C66_variable = Some (Node K_Var [Tok K_VAR1 (chars "?y")])) by (vm_compute; reflexivity).
  assert (Ia : byte_index (rstart C66_at) C66_query = Some 59) by (vm_compute; reflexivity).
  assert (Sm : smallest (tree_of C66_query) (C66_variable ++ [0]) 59 59).
  { split; [|split; [left; apply Nat.ltb_lt; vm_compute; reflexivity|]].
    - split; [apply Nat.leb_le; vm_compute; reflexivity|]. split; [apply Nat.leb_le; reflexivity|apply Nat.leb_le; vm_compute; reflexivity].
    - intros i c H. exfalso. vm_compute in H. discriminate. }
  assert (Hq : query_of (tree_of C66_query) C66_variable [0; 2]) by (apply (target_query_iff _ _ _ _ _ D ltac:(eexists; exact Ev)); vm_compute; reflexivity).
  assert (Hs : part (tree_of C66_query) [0; 2] K_SelectClause [0; 2; 0]) by (split; [exists 0; reflexivity|eexists; vm_compute; reflexivity]).
  split; [split; [exact P|apply (derivation_checked 200 _ _ _ D); vm_compute; reflexivity]|]. split; [exact Ev|]. split; [exact Ia|]. split; [exact Ia|]. split; [exact Sm|]. split; [exact Hq|]. split; [exact Hs|]. split; [vm_compute; reflexivity|].
  split. { apply (C66_offered _ _ _ _ _ _ _ _ _ _ _ _ P Ev Ia Ia Sm Hq Hs). eexists. vm_compute. reflexivity. }
  split. { intros i (k & ds & c0 & E1 & E2 & M). assert (i = 4) as ->. { vm_compute in E1. injection E1 as <- <-. do 11 (destruct i as [|i]; [cbn [nth_error] in E2; injection E2 as <-; cbn [tkind] in M; first [reflexivity|exfalso; intuition discriminate]|]). destruct i; discriminate E2. }
    intros a c H1. match type of H1 with ?u = _ => assert (u = chars "PREFIX e: <e>" ++ [NL] ++ chars "SELECT ?x" ++ [32%N]) as K by (vm_compute; reflexivity) end. rewrite K in H1. rewrite !app_assoc in H1. apply app_inj_tail in H1 as [_ <-]. reflexivity. }
  split. { intros i w H. exfalso. do 12 (destruct i as [|i]; [vm_compute in H; discriminate|]). vm_compute in H. destruct i; discriminate. }
  split; [vm_compute; repeat (split; [intros ? Hq0; discriminate Hq0|]); exact I|vm_compute; reflexivity].
Qed.
(** a keyword right behind the star becomes a part of the variable's name; a variable that is assigned a value in the clause is added again; VALUES hides the GROUP BY of a sub-query *)
Theorem C66_star_refuted : (doc_parse (fun _ => 0) C66_star (tree_of C66_star) (errors_of C66_star) /\ grammatical (fun _ => 0) C66_star) /\
  exists t', column_at C66_star 0 17 = Some t' /\ In (K_VAR1, chars "?xWHERE") (tokens (fun _ => 0) t').
Proof. split; [apply grammatical_text; vm_compute; reflexivity|]. eexists; split; [vm_compute; reflexivity|vm_compute; tauto]. Qed.
Theorem C66_alias_refuted : (doc_parse (fun _ => 0) C66_alias (tree_of C66_alias) (errors_of C66_alias) /\ grammatical (fun _ => 0) C66_alias) /\
  column_at C66_alias 0 27 = Some (chars "SELECT ?y (1 AS ?y) { ?x ?p ?y }" ++ [NL]).
Proof. split; [apply grammatical_text; vm_compute; reflexivity|vm_compute; reflexivity]. Qed.
Theorem C66_hidden_refuted : (doc_parse (fun _ => 0) C66_hidden (tree_of C66_hidden) (errors_of C66_hidden) /\ grammatical (fun _ => 0) C66_hidden) /\
  column_at C66_hidden 0 32 = Some (chars "SELECT * { { SELECT ?x ?y { ?x ?p ?y } GROUP BY ?x VALUES ?x { 1 } } }" ++ [NL]).
Proof. split; [apply grammatical_text; vm_compute; reflexivity|vm_compute; reflexivity]. Qed.
