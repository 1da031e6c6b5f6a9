(** From the edits to the text they produce. *)
From Coq Require Import String List Arith NArith Bool Lia Sorting.Permutation Sorting.Sorted.
Import ListNotations.
From Verif Require Import Kinds KindFacts ParserModel TextModel TextSpec TextProofs TextEditProofs LexerModel LexerSpec FormatData FormatModel FormatChain FormatSpec FormatTree FormatPieces.

(** ** merge_empty_lines keeps the ranges and adds line breaks only *)
Definition padded (e f : sedit) : Prop := s_from f = s_from e /\ s_to f = s_to e /\ (s_new f = s_new e \/ s_new f = NL :: s_new e).
Lemma padded_refl e : padded e e.
Proof. repeat split. now left. Qed.
Lemma padded_same l : Forall2 padded l l.
Proof. induction l; constructor; auto using padded_refl. Qed.
Lemma merge_empty_padded es : forall marks, Forall2 padded es (merge_empty es marks).
Proof.
  induction es as [|e es IH]; intros marks; [constructor|]. cbn [merge_empty]. destruct marks as [|m marks]; [apply padded_same|].
  destruct (m <=? s_from e); [|constructor; [apply padded_refl|apply IH]]. constructor; [|apply IH]. destruct (_ || _); [|apply padded_refl].
  repeat split. cbn. now right.
Qed.
Lemma padded_pw es fs : Forall2 padded es fs -> pw scompat es -> pw scompat fs.
Proof.
  induction 1 as [|e f es fs H F IH]; [auto|]. intros [P1 P2]. split; [|auto]. clear IH P2. destruct H as (H1 & H2 & _).
  induction F as [|x y es fs (G1 & G2 & _) F IH]; [constructor|]. inversion P1; subst. constructor; [|auto]. unfold scompat in *. rewrite H1, H2, G1, G2. assumption.
Qed.
Lemma padded_typed s P e f : padded e f -> typed s P e -> typed s P f.
Proof.
  intros (H1 & H2 & H3) (p1 & run & p2 & E & F & T & G). exists p1, run, p2. rewrite H1, H2. repeat split; auto. destruct H3 as [-> | ->]; [exact G|].
  destruct G as [[G1 G2]|(c & p & b & q & Er & Hc & Hb & En & R)].
  - left. split; [exact G1|]. constructor; [cbn; tauto|exact G2].
  - right. exists c, p, (NL :: b), q. repeat split; auto; [constructor; [cbn; tauto|exact Hb]|now rewrite En].
Qed.
Definition laid (s : nat) (P : list piece) (es : list sedit) : Prop := pw scompat es /\ Forall (typed s P) es.
Lemma merge_empty_lines_laid s P es marks : laid s P es -> laid s P (merge_empty_lines es marks) /\ (es <> [] -> merge_empty_lines es marks <> []).
Proof.
  intros [H1 H2]. unfold merge_empty_lines. set (A := sort_by _ es). assert (PA : Permutation es A) by apply sort_by_perm.
  pose proof (merge_empty_padded A (sort_by Nat.compare marks)) as F. split; [split|].
  - eapply padded_pw; [exact F|]. eapply pw_perm; [exact scompat_sym|exact PA|exact H1].
  - rewrite PA in H2. clear -F H2. induction F; [constructor|]. inversion H2; subst. constructor; [eapply padded_typed; eauto|auto].
  - intros Hn E. rewrite E in F. inversion F as [EA|]. rewrite <- EA in PA. apply Permutation_sym, Permutation_nil in PA. contradiction.
Qed.

(** ** weaving *)
Inductive woven : list piece -> text -> Prop :=
| woven_end : forall b, blanks b -> woven [] b
| woven_gap : forall w b P out, blanks b -> woven P out -> woven ((Gap, w) :: P) (b ++ out)
| woven_piece : forall c p b q P out, c <> Gap -> blanks b -> rep c p q -> woven P out -> woven ((c, p) :: P) (b ++ q ++ out).
Lemma woven_blanks P out b : blanks b -> woven P out -> woven P (b ++ out).
Proof.
  intros Hb H. destruct H as [b0 H0|w b0 P out H0 H|c p b0 q P out Hc H0 R H].
  - constructor. now apply blanks_app.
  - rewrite app_assoc. constructor; [now apply blanks_app|exact H].
  - rewrite app_assoc. constructor; auto. now apply blanks_app.
Qed.
Lemma woven_gaps run P out : Forall is_gap run -> woven P out -> woven (run ++ P) out.
Proof. induction 1 as [|[c w] run H F IH]; intros HW; [exact HW|]. cbn in H. unfold is_gap in H. cbn in H. subst c. cbn [app]. apply (woven_gap w []); [constructor|auto]. Qed.
Definition kept (p : piece) : Prop := match fst p with Gap => blanks (snd p) | c => rep c (snd p) (snd p) end.
Lemma woven_kept z P out : Forall kept z -> woven P out -> woven (z ++ P) (texts z ++ out).
Proof.
  induction 1 as [|[c w] z H F IH]; intros HW; [exact HW|]. unfold kept in H. cbn [fst snd] in H. unfold texts. cbn [flat_map app snd]. fold (texts z). rewrite <- app_assoc. destruct c.
  - apply woven_gap; auto.
  - apply (woven_piece Case w []); auto; [discriminate|constructor].
  - apply (woven_piece Mid w []); auto; [discriminate|constructor].
  - apply (woven_piece Anon w []); auto; [discriminate|constructor].
  - apply (woven_piece CommaP w []); auto; [discriminate|constructor].
  - apply (woven_piece Fix w []); auto; [discriminate|constructor].
Qed.
Lemma woven_good run P new out : good run new -> woven P out -> woven (run ++ P) (new ++ out).
Proof.
  intros [[G B]|(c & p & b & q & -> & Hc & Hb & -> & R)] HW.
  - apply woven_blanks; [exact B|]. now apply woven_gaps.
  - cbn [app]. rewrite <- app_assoc. now apply woven_piece.
Qed.
Lemma texts_prefix P : forall a x b y, Forall (fun p => snd p <> []) P -> P = a ++ x -> P = b ++ y -> length (texts a) <= length (texts b) -> exists z, b = a ++ z /\ x = z ++ y.
Proof.
  induction P as [|p P IH]; intros a x b y N Ea Eb H.
  - symmetry in Ea, Eb. apply app_eq_nil in Ea as [-> ->], Eb as [-> ->]. exists []. auto.
  - destruct a as [|p1 a]; [exists b; cbn in *; split; congruence|]. injection Ea as <- Ea. inversion N as [|? ? Np N']. destruct b as [|p2 b].
    + exfalso. cbn in H. unfold texts in H. cbn in H. rewrite app_length in H. destruct (snd p); [congruence|cbn in H; lia].
    + injection Eb as <- Eb. destruct (IH a x b y N' Ea Eb) as (z & -> & ->); [|exists z; auto]. unfold texts in *. cbn in H. rewrite !app_length in H. lia.
Qed.
(** an indexed edit in terms of pieces *)
Definition ctyped (P : list piece) (c : cedit) : Prop :=
  exists p1 run p2, P = p1 ++ run ++ p2 /\ ci c = length (texts p1) /\ cj c = length (texts (p1 ++ run)) /\ good run (cnew c).
Lemma weave P cs : forall at_ P0 P1, Forall (fun p => snd p <> []) P -> Forall kept P -> P = P0 ++ P1 -> at_ = length (texts P0) ->
  Forall (ctyped P) cs -> StronglySorted (fun x y => cj x <= ci y) cs -> match cs with c :: _ => at_ <= ci c | [] => True end -> woven P1 (splice at_ (texts P1) cs).
Proof.
  induction cs as [|c cs IH]; intros at_ P0 P1 N K E Ea T S H.
  - cbn [splice]. subst P. rewrite Forall_app in K. rewrite <- (app_nil_r P1), <- (app_nil_r (texts P1)) at 1. rewrite !app_nil_r.
    rewrite <- (app_nil_r P1) at 1. rewrite <- (app_nil_r (texts P1)). apply woven_kept; [apply K|]. constructor. constructor.
  - inversion T as [|? ? (p1 & run & p2 & Ep & Ei & Ej & G) T']; subst. apply StronglySorted_inv in S as [S SF].
    destruct (texts_prefix (P0 ++ P1) P0 P1 p1 (run ++ p2)) as (z & -> & ->); auto; [lia|].
    cbn [splice]. rewrite Ei, Ej. rewrite !texts_app, !app_length.
    replace (length (texts P0) + length (texts z) - length (texts P0)) with (length (texts z)) by lia.
    replace (length (texts P0) + length (texts z) + length (texts run) - length (texts P0)) with (length (texts z ++ texts run)) by (rewrite app_length; lia).
    rewrite firstn_app, firstn_all, Nat.sub_diag, firstn_O, app_nil_r.
    replace (skipn (length (texts z ++ texts run)) (texts z ++ texts run ++ texts p2)) with (texts p2) by (rewrite app_assoc, skipn_app, skipn_all, Nat.sub_diag; reflexivity).
    assert (Kz : Forall kept z). { rewrite !Forall_app in K. tauto. }
    apply woven_kept; [exact Kz|]. apply woven_good; [exact G|].
    apply (IH _ ((P0 ++ z) ++ run)); auto; try (rewrite <- ?app_assoc; auto; fail).
    + rewrite !texts_app, !app_length. lia.
    + destruct cs as [|d cs]; [exact I|]. inversion SF; subst. rewrite Ej, !texts_app, !app_length in *. lia.
Qed.

(** ** woven pieces are laid out tokens *)
Fixpoint leaves (t : tree) : list lexeme := match t with Tok k w => [(k, w)] | Node _ cs => flat_map leaves cs end.
Lemma pieces_leaves t : pieces t = flat_map (fun l => leaf_pieces (fst l) (snd l)) (leaves t).
Proof.
  induction t as [k w|k cs IH] using tree_ind'; [cbn; now rewrite app_nil_r|]. cbn [pieces leaves]. induction IH as [|c r H IH IHr]; [reflexivity|]. cbn [flat_map]. now rewrite flat_map_app, H, IHr.
Qed.
Lemma shapes_leaves t : shapes t <-> Forall (fun l => shape (fst l) (snd l)) (leaves t).
Proof.
  induction t as [k w|k cs IH] using tree_ind'; [split; [intros H; constructor; [exact H|constructor]|intros H; now inversion H]|].
  rewrite shapes_node. cbn [leaves]. induction IH as [|c r H IH IHr]; [split; constructor|]. cbn [flat_map]. rewrite Forall_app, <- H, <- IHr. split; [intros X; inversion X; auto|intros []; constructor; auto].
Qed.
Lemma relaid_blanks ls out b : blanks b -> relaid ls out -> relaid ls (b ++ out).
Proof.
  intros Hb H. induction H.
  - constructor. now apply blanks_app.
  - constructor. exact IHrelaid.
  - rewrite app_assoc. constructor; auto. now apply blanks_app.
Qed.
Lemma blank_white c : blank c -> white c.
Proof. intros [<-|[<-|[<-|[<-|[<-|[]]]]]]; unfold white; lia. Qed.
Lemma blanks_white b : blanks b -> Forall white b.
Proof. apply Forall_impl. exact blank_white. Qed.
Lemma any_case_In k : existsb (kind_eqb k) any_case = true -> In k any_case.
Proof. intros H. apply existsb_exists in H as (x & Hx & E). replace k with x; [exact Hx|]. destruct (kind_eqb k x) eqn:E'; [|discriminate]. symmetry. now apply kind_eqb_eq. Qed.
Lemma woven_inv c p P out : woven ((c, p) :: P) out -> c <> Gap -> exists b q out', out = b ++ q ++ out' /\ blanks b /\ rep c p q /\ woven P out'.
Proof. intros H Hc. inversion H; subst; [congruence|]. eauto 8. Qed.
Lemma two_words_relaid k n w P out ls : In k two_words -> two_word_shape n w -> k <> K_WHITESPACE -> (forall out, woven P out -> relaid ls out) ->
  woven (split_words n w ++ P) out -> relaid ((k, w) :: ls) out.
Proof.
  intros Hk Hn Hw IH H. destruct (two_word_split _ _ Hn) as (m & E & Hm & Wm & Ew & _). rewrite E in H. cbn [app] in H.
  apply woven_inv in H as (b1 & x & o1 & -> & B1 & R1 & H); [|discriminate].
  apply woven_inv in H as (b2 & m' & o2 & -> & B2 & [R2 R2'] & H); [|discriminate].
  apply woven_inv in H as (b3 & y & o3 & -> & B3 & R3 & H); [|discriminate].
  replace (b1 ++ x ++ b2 ++ m' ++ b3 ++ y ++ o3) with (b1 ++ (x ++ (b2 ++ m' ++ b3) ++ y) ++ o3) by (rewrite <- !app_assoc; reflexivity).
  constructor; [exact Hw|exact B1| |auto]. rewrite Ew. apply words; auto.
  - intros Q. apply app_eq_nil in Q as [_ Q]. apply app_eq_nil in Q as [Q _]. contradiction.
  - apply Forall_app. split; [now apply blanks_white|]. apply Forall_app. split; [exact R2'|now apply blanks_white].
Qed.
Lemma leaf_cases k : signed_kind k = false -> (forall w, leaf_pieces k w = [(if existsb (kind_eqb k) any_case then Case else Fix, w)]) \/
  In k [K_WHITESPACE; K_Comment; K_DELETE_WHERE; K_DELETE_DATA; K_INSERT_DATA; K_ANON; K_Comma].
Proof. destruct k; intros H; first [discriminate H | left; intros w; reflexivity | right; cbn; tauto]. Qed.
Lemma woven_relaid ls : Forall (fun l => shape (fst l) (snd l)) ls -> Forall (fun l => fst l <> K_Comment) ls -> forall out, woven (flat_map (fun l => leaf_pieces (fst l) (snd l)) ls) out -> relaid ls out.
Proof.
  induction ls as [|[k w] ls IH]; intros F Q out H; [inversion H; subst; now constructor|]. inversion F as [|? ? Sh F']; subst. inversion Q as [|? ? Hcm Q']; subst. specialize (IH F' Q'). cbn [fst snd] in Sh, Hcm. cbn [flat_map fst snd] in H.
  destruct Sh as (_ & _ & _ & Hs & Hk). destruct (signed_kind k) eqn:S.
  - unfold leaf_pieces in H. rewrite S in H. destruct (Hs eq_refl) as (c & r & -> & Hr & _). cbn [firstn skipn app] in H.
    apply woven_inv in H as (b1 & x & o1 & -> & B1 & R1 & H); [|discriminate]. apply woven_inv in H as (b2 & y & o2 & -> & B2 & R2 & H); [|discriminate].
    cbn in R1, R2. subst x y. replace (b1 ++ [c] ++ b2 ++ r ++ o2) with (b1 ++ (c :: b2 ++ r) ++ o2) by (cbn; rewrite <- !app_assoc; reflexivity).
    constructor; [intros ->; discriminate|exact B1| |auto]. apply after_sign; [|exact B2]. destruct k; try discriminate; cbn; tauto.
  - assert (One : forall c, c <> Gap -> (forall q, rep c w q -> exists w' b', q = w' ++ b' /\ respelled k w w' /\ blanks b') -> k <> K_WHITESPACE -> woven ([(c, w)] ++ flat_map (fun l => leaf_pieces (fst l) (snd l)) ls) out -> relaid ((k, w) :: ls) out).
    { intros c Hc Hq Hw HW. apply woven_inv in HW as (b & q & o & -> & B & R & HW); [|exact Hc]. destruct (Hq q R) as (w' & b' & -> & R' & B'). rewrite <- (app_assoc w').
      constructor; auto. apply relaid_blanks; auto. }
    assert (Two : forall n, In k two_words -> two_word_shape n w -> k <> K_WHITESPACE -> woven (split_words n w ++ flat_map (fun l => leaf_pieces (fst l) (snd l)) ls) out -> relaid ((k, w) :: ls) out).
    { intros n H1 H2 H3. apply (two_words_relaid _ _ _ _ _ _ H1 H2 H3 IH). }
    assert (Other : k <> K_WHITESPACE -> woven ([(if existsb (kind_eqb k) any_case then Case else Fix, w)] ++ flat_map (fun l => leaf_pieces (fst l) (snd l)) ls) out -> relaid ((k, w) :: ls) out).
    { intros Hw. apply One; [destruct (existsb _ _); discriminate| |exact Hw]. intros q R. exists q, []. rewrite app_nil_r. split; [reflexivity|]. split; [|constructor].
      destruct (existsb (kind_eqb k) any_case) eqn:A; cbn in R; [apply other_case; [now apply any_case_In|exact R]|subst q; constructor]. }
    destruct (kind_eqb k K_WHITESPACE) eqn:KW.
    { apply kind_eqb_eq in KW. subst k. cbn [app] in H. inversion H; subst; [|congruence]. constructor. apply relaid_blanks; auto. }
    assert (Hw : k <> K_WHITESPACE) by (intros ->; discriminate).
    destruct (leaf_cases k S) as [E|E]; [rewrite E in H; exact (Other Hw H)|]. clear Other.
    destruct E as [<-|[<-|[<-|[<-|[<-|[<-|[<-|[]]]]]]]]; try congruence; try (apply proj1 in Hk; eapply Two; try eassumption; cbn; tauto).
    + eapply One; try exact H; try discriminate. intros q R. cbn in R. exists q, []. rewrite app_nil_r. split; [reflexivity|]. split; [|constructor]. destruct R as [-> | ->]; [constructor|].
      destruct Hk as (m & -> & Hm). now apply brackets.
    + eapply One; try exact H; try discriminate. intros q R. cbn in R. exists w. destruct R as [-> | ->]; [exists []; rewrite app_nil_r|exists sp]; (split; [reflexivity|split; [constructor|]]); [constructor|apply blanks_sp].
Qed.

(** ** no comments *)
Definition quiet (t : tree) : Prop := Forall (fun l => fst l <> K_Comment) (leaves t).
Lemma quiet_node k cs : quiet (Node k cs) <-> Forall quiet cs.
Proof. unfold quiet. cbn [leaves]. induction cs as [|c cs IH]; cbn [flat_map]; [split; constructor|]. rewrite Forall_app, IH. split; [intros []; constructor; auto|intros H; inversion H; auto]. Qed.
Lemma no_comment_child c : wf false c -> quiet c -> tkind c <> K_Comment.
Proof.
  destruct c as [k w|k cs]; cbn [tkind].
  - intros _ H. inversion H. assumption.
  - intros H _ ->. apply wf_node in H as (H & _). discriminate.
Qed.
Lemma no_comments_at settings k cs s up ind : Forall (wf false) cs -> Forall quiet cs -> comments_of settings (mkloc (Node k cs) s up) ind = [].
Proof.
  intros W S. unfold comments_of. destruct (kind_eqb _ _); [reflexivity|]. cbn [children el l_start l_up].
  assert (E : filter (fun c => kind_eqb (l_kind c) K_Comment) (child_locs k s up [] cs s) = []); [|now rewrite E].
  generalize (@nil tree) as left. set (a := s) at 2. clearbody a. revert a. induction cs as [|c r IH]; intros a left; [reflexivity|]. inversion W; subst. inversion S; subst. cbn [child_locs filter].
  unfold l_kind at 1. cbn [el]. destruct (kind_eqb (tkind c) K_Comment) eqn:E; [apply kind_eqb_eq in E; now destruct (no_comment_child c)|]. auto.
Qed.
Lemma no_comments settings t : forall top s up ind, wf top t -> quiet t -> flat_map (fun x => comments_of settings (fst x) (snd x)) (walk_tree t s up ind) = [].
Proof.
  induction t as [k w|k cs IH] using tree_ind'; intros top s up ind W S.
  - cbn. unfold comments_of. cbn. destruct (kind_eqb _ _); reflexivity.
  - apply wf_node in W as (_ & _ & W). apply quiet_node in S. cbn [walk_tree flat_map fst snd]. rewrite no_comments_at by assumption. cbn [app].
    generalize (u8 (ind + inc_indent (Node k cs))) as i. intros i. generalize (@nil tree) as left. set (a := s) at 2. clearbody a. revert a.
    induction cs as [|c r IHr]; intros a left; [reflexivity|]. inversion W; subst. inversion S; subst. inversion IH; subst. rewrite flat_map_app, IHr by assumption. cbn [app]. eauto.
Qed.

(** ** a tree without comments *)
Lemma typed_denotes t P e : texts P = t -> typed 0 P e -> exists c, sdenotes t e c /\ ctyped P c.
Proof.
  intros <- (p1 & run & p2 & -> & F & T & G). exists (mkcedit (length (texts p1)) (length (texts (p1 ++ run))) (s_new e)). split.
  - exists (texts p1), (texts run), (texts p2). rewrite !texts_app in *. rewrite F, T. repeat split.
  - exists p1, run, p2. auto.
Qed.
Lemma sdenotes_unique t e c d : sdenotes t e c -> sdenotes t e d -> c = d.
Proof.
  intros (a & b & r & E & F & T & ->) (a' & b' & r' & E' & F' & T' & ->).
  assert (Ha : a = a') by (eapply byte_len_app_inj with (y := b ++ r) (y' := b' ++ r'); congruence).
  assert (Hb : a ++ b = a' ++ b') by (eapply byte_len_app_inj with (y := r) (y' := r'); rewrite <- ?app_assoc; congruence).
  rewrite Hb, Ha. reflexivity.
Qed.
Lemma kept_pieces t : shapes t -> quiet t -> Forall kept (pieces t).
Proof.
  intros H Q. rewrite pieces_leaves. apply shapes_leaves in H. unfold quiet in Q. induction H as [|[k w] ls H F IH]; [constructor|]. inversion Q as [|? ? Hcm Q']; subst. cbn [flat_map fst snd]. apply Forall_app. split; [|exact (IH Q')].
  destruct H as (_ & _ & _ & Hs & Hk). cbn [fst snd] in *. destruct (signed_kind k) eqn:S.
  - unfold leaf_pieces. rewrite S. repeat constructor.
  - destruct (leaf_cases k S) as [E|E]; [rewrite E; constructor; [|constructor]; unfold kept; cbn [fst snd]; destruct (existsb _ _); reflexivity|].
    assert (Two : forall n, two_word_shape n w -> Forall kept (split_words n w)).
    { intros n Hn. destruct (two_word_split _ _ Hn) as (m & -> & Hm & Wm & _). apply Forall_cons; [reflexivity|]. apply Forall_cons; [split; assumption|]. apply Forall_cons; [reflexivity|constructor]. }
    destruct E as [<-|[<-|[<-|[<-|[<-|[<-|[<-|[]]]]]]]]; try congruence; try (apply proj1 in Hk; now apply Two); (constructor; [|constructor]); unfold kept; cbn; auto.
Qed.
Lemma indent_blank s o : blanks (indent_string s o).
Proof. unfold indent_string. destruct (match insert_spaces s with Some b => b | None => o_insert_spaces o end); [apply blanks_repeat, blanks_sp|repeat constructor; cbn; tauto]. Qed.
Lemma root_edit width s ib k cs up ind : unit_kind k = true -> edits width s ib (Node k cs) 0 up ind <> [].
Proof.
  intros U E. unfold edits in E. cbn [walk_tree flat_map fst snd] in E. apply app_eq_nil in E as [E _]. unfold visit_edits, node_augmentation in E. rewrite in_node_unit in E by exact U.
  unfold unit_edits in E. destruct (formatted_children _); discriminate.
Qed.
Theorem format_tree width s o k cs : let root := Node k cs in unit_kind k = true -> wf true root -> shapes root -> quiet root ->
  exists out ds, format_document width s o (tree_text root) root = FDone out /\ Forall2 (edit_denotes (tree_text root)) (rev out) ds /\ StronglySorted cgap ds /\
    relaid (leaves root) (splice 0 (tree_text root) ds).
Proof.
  intros root U W S Q. set (t := tree_text root). set (ib := indent_string s o). assert (Hib := indent_blank s o : blanks ib).
  set (es := all_edits width s ib root). change es with (edits width s ib root 0 [] 0) in *.
  assert (Lay : laid 0 (pieces root) es).
  { split; [apply (tree_fine width s ib Hib root true 0 [] 0 W)|apply (tree_typed width s ib Hib root true 0 [] 0 W)]; auto. }
  assert (Hne : es <> []) by now apply root_edit.
  set (es' := if keep_empty_lines s then merge_empty_lines es (all_empty_lines root) else es).
  assert (Lay' : laid 0 (pieces root) es' /\ es' <> []).
  { unfold es'. destruct (keep_empty_lines s); [|auto]. destruct (merge_empty_lines_laid 0 (pieces root) es (all_empty_lines root) Lay) as [H1 H2]. auto. }
  destruct Lay' as [[P T] Hne'].
  assert (Et : texts (pieces root) = t) by now apply pieces_text.
  assert (D : Forall (fun e => exists c, sdenotes t e c) es').
  { eapply Forall_impl; [|exact T]. intros e He. destruct (typed_denotes t _ e Et He) as (c & H & _). eauto. }
  destruct (plain_edits_ok es' t ib Hne' P D) as (ts & out & A & cds & ds & H1 & H2 & H3 & H4 & H5 & H6 & H7 & H8).
  exists out, ds. split.
  { unfold format_document. fold ib. change (all_edits width s ib root) with es. fold es'. unfold all_comments, walk. rewrite (no_comments s root true 0 [] 0 W Q).
    replace (transform_comments [] t) with (@FDone (list comment) []) by (unfold transform_comments; destruct t; reflexivity). cbn [fbind]. rewrite H1. cbn [fbind]. exact H2. }
  split; [exact H6|]. split; [exact H7|]. rewrite H8. apply woven_relaid; [now apply shapes_leaves|exact Q|]. rewrite <- pieces_leaves. rewrite <- Et.
  apply (weave (pieces root) cds 0 [] (pieces root)); auto.
  - now apply pieces_nonempty.
  - now apply kept_pieces.
  - rewrite H3 in T. clear -H4 T Et. induction H4 as [|e c A cds He F IH]; [constructor|]. inversion T as [|? ? Te T']; subst. constructor; [|auto].
    destruct (typed_denotes t _ e Et Te) as (c' & Hd & Hc). now rewrite (sdenotes_unique _ _ _ _ He Hd).
  - destruct cds; [exact Logic.I|lia].
Qed.
