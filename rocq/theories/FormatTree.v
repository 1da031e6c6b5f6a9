(** The edits of one document never overlap: by induction on the tree. *)
From Coq Require Import List Arith NArith Bool Lia Sorting.Permutation Sorting.Sorted.
Import ListNotations.
From Verif Require Import Kinds ParserModel TextModel TextProofs FormatData FormatModel FormatChain FormatSpec.

Fixpoint tree_ind' (P : tree -> Prop) (HT : forall k w, P (Tok k w)) (HN : forall k cs, Forall P cs -> P (Node k cs)) (t : tree) : P t :=
  match t with
  | Tok k w => HT k w
  | Node k cs => HN k cs ((fix go cs : Forall P cs := match cs with [] => Forall_nil _ | c :: r => Forall_cons _ (tree_ind' P HT HN c) (go r) end) cs)
  end.

(** ** well-formed trees *)
Definition unit_kind (k : kind) : bool := match k with K_QueryUnit | K_UpdateUnit => true | _ => false end.
Definition signed_kind (k : kind) : bool :=
  match k with K_INTEGER_POSITIVE | K_DECIMAL_POSITIVE | K_DOUBLE_POSITIVE | K_INTEGER_NEGATIVE | K_DECIMAL_NEGATIVE | K_DOUBLE_NEGATIVE => true | _ => false end.
(** kinds whose elements are rewritten themselves *)
Definition token_kind (k : kind) : bool :=
  signed_kind k || existsb (kind_eqb k) KEYWORDS ||
  match k with K_WHITESPACE | K_Comment | K_ANON | K_DELETE | K_DELETE_WHERE | K_DELETE_DATA | K_INSERT_DATA | K_a | K_Comma => true | _ => false end.
Definition leaf_ok (k : kind) (w : text) : Prop :=
  unit_kind k = false /\ (signed_kind k = true -> 1 <= byte_len w) /\
  match k with K_DELETE => byte_len w = 6 | K_DELETE_WHERE => 11 <= byte_len w | K_DELETE_DATA | K_INSERT_DATA => 10 <= byte_len w | _ => True end.
Fixpoint wf (top : bool) (t : tree) : Prop :=
  match t with
  | Tok k w => leaf_ok k w
  | Node k cs => token_kind k = false /\ (unit_kind k = true -> top = true) /\ (fix go cs := match cs with [] => True | c :: r => wf false c /\ go r end) cs
  end.
Lemma wf_node top k cs : wf top (Node k cs) <-> token_kind k = false /\ (unit_kind k = true -> top = true) /\ Forall (wf false) cs.
Proof.
  cbn [wf]. assert (H : forall cs, (fix go cs := match cs with [] => True | c :: r => wf false c /\ go r end) cs <-> Forall (wf false) cs).
  { induction cs0 as [|c r IH]; [split; [constructor|auto]|]. rewrite IH. split; [intros []; constructor; auto|intros H; inversion H; auto]. }
  now rewrite H.
Qed.

(** ** places no edit crosses *)
Definition gap (parent : kind) (c : tree) : bool :=
  match tkind c with K_WHITESPACE => true | K_Comment => negb (kind_eqb parent K_Error) | _ => false end.
Definition inner_cuts (k : kind) (s n : nat) : list nat :=
  if signed_kind k then [s + 1] else
  match k with K_DELETE_WHERE => [s + 6; s + n - 5] | K_DELETE_DATA | K_INSERT_DATA => [s + 6; s + n - 4] | _ => [] end.
Fixpoint cuts (t : tree) (s : nat) : list nat :=
  match t with
  | Tok k w => s :: (s + byte_len w) :: inner_cuts k s (byte_len w)
  | Node k cs => s :: (s + tlen t) ::
    (fix go (cs : list tree) (at_ : nat) : list nat :=
       match cs with [] => [] | c :: r => (if gap k c then [] else cuts c at_) ++ go r (at_ + tlen c) end) cs s
  end.
Definition lcuts (l : loc) : list nat := cuts (el l) (l_start l).
Definition solid (k : kind) (c : loc) : bool := negb (gap k (el c)).
Lemma cuts_node k cs s up : cuts (Node k cs) s = s :: (s + tlen (Node k cs)) :: flat_map lcuts (filter (solid k) (child_locs k s up [] cs s)).
Proof.
  cbn [cuts]. do 2 f_equal. generalize (@nil tree) as left. set (s0 := s) at 1 3. clearbody s0.
  revert s0. induction cs as [|c r IH]; intros at_ left; [reflexivity|]. cbn [child_locs filter]. unfold solid at 1. cbn [el].
  destruct (gap k c); cbn [negb flat_map app]; [apply IH|]. unfold lcuts at 1. cbn [el l_start]. f_equal. apply IH.
Qed.
Lemma tlen_node k cs : tlen (Node k cs) = list_sum (map tlen cs).
Proof. unfold tlen. cbn [tree_text]. induction cs as [|c cs IH]; cbn; [reflexivity|]. now rewrite byte_len_app, IH. Qed.

(** ** the children of an element lie one after the other *)
Lemma child_locs_bounds k s up cs : forall left at_, Forall (fun c => at_ <= l_start c /\ l_end c <= at_ + list_sum (map tlen cs)) (child_locs k s up left cs at_).
Proof.
  induction cs as [|c r IH]; intros left at_; cbn [child_locs map]; [constructor|]. change (list_sum (tlen c :: map tlen r)) with (tlen c + list_sum (map tlen r)). constructor.
  - unfold l_end. cbn [el l_start]. lia.
  - eapply Forall_impl; [|apply IH]. cbn beta. intros x. lia.
Qed.
Definition follows (a b : loc) : Prop := l_end a <= l_start b.
Lemma child_locs_sorted k s up cs : forall left at_, StronglySorted follows (child_locs k s up left cs at_).
Proof.
  induction cs as [|c r IH]; intros left at_; cbn [child_locs]; constructor; [apply IH|].
  eapply Forall_impl; [|apply child_locs_bounds]. unfold follows, l_end. cbn [el l_start]. intros x. lia.
Qed.
Lemma sorted_filter {A} (R : A -> A -> Prop) f l : StronglySorted R l -> StronglySorted R (filter f l).
Proof.
  induction 1 as [|x l H IH F]; cbn; [constructor|]. destruct (f x); [|exact IH]. constructor; [exact IH|].
  apply Forall_forall. intros y Hy. apply filter_In in Hy as [Hy _]. rewrite Forall_forall in F. auto.
Qed.
Lemma child_locs_el k s up cs : forall left at_, map el (child_locs k s up left cs at_) = cs.
Proof. induction cs as [|c r IH]; intros left at_; cbn; [reflexivity|]. now rewrite IH. Qed.
Lemma child_locs_up k s up cs : forall left at_, Forall (fun c => exists f, l_up c = f :: up /\ f_kind f = k) (child_locs k s up left cs at_).
Proof. induction cs as [|c r IH]; intros left at_; cbn [child_locs]; constructor; [eexists; cbn; eauto|apply IH]. Qed.

(** ** compatible, contained, and off the cuts *)
Definition inside (a b : nat) (e : sedit) : Prop := a <= s_from e /\ s_from e <= s_to e /\ s_to e <= b.
Definition off (C : list nat) (e : sedit) : Prop := Forall (fun x => x <= s_from e \/ s_to e <= x) C.
Definition fine (C : list nat) (a b : nat) (E : list sedit) : Prop := Forall (inside a b) E /\ pw scompat E /\ Forall (off C) E.
Lemma scompat_sym e f : scompat e f -> scompat f e.
Proof. unfold scompat. lia. Qed.
Lemma fine_perm C a b E E' : Permutation E E' -> fine C a b E -> fine C a b E'.
Proof.
  intros P (H1 & H2 & H3). split; [now rewrite <- P|]. split; [|now rewrite <- P]. eapply pw_perm; [|exact P|exact H2]. exact scompat_sym.
Qed.
Definition at_cut (C : list nat) (e : sedit) : Prop := exists x t, e = ins x t /\ In x C /\ blanks t.
Lemma fine_ins C a b E I : Forall (fun x => a <= x <= b) C -> Forall (at_cut C) I -> fine C a b E -> fine C a b (I ++ E).
Proof.
  intros HC HI (H1 & H2 & H3). rewrite Forall_forall in *. split; [|split].
  - apply Forall_app. split; [|now apply Forall_forall]. apply Forall_forall. intros e He. destruct (HI e He) as (x & t & -> & Hx & _). specialize (HC x Hx). unfold inside. cbn. lia.
  - apply pw_app; [exact scompat_sym|]. split; [|split; [exact H2|]].
    + clear -HI. induction I as [|e I IH]; [exact Logic.I|]. split.
      * apply Forall_forall. intros f Hf. destruct (HI e (or_introl eq_refl)) as (x & t & -> & _). destruct (HI f (or_intror Hf)) as (y & u & -> & _). unfold scompat. cbn. lia.
      * apply IH. intros f Hf. apply HI. now right.
    + intros e f He Hf. destruct (HI e He) as (x & t & -> & Hx & _). specialize (H3 f Hf). unfold off in H3. rewrite Forall_forall in H3. specialize (H3 x Hx).
      unfold scompat. cbn. lia.
  - apply Forall_app. split; [|now apply Forall_forall]. apply Forall_forall. intros e He. destruct (HI e He) as (x & t & -> & Hx & _).
    apply Forall_forall. intros y Hy. cbn. lia.
Qed.
Lemma fine_nil C a b : fine C a b [].
Proof. repeat constructor. Qed.
Lemma tlen_tok k w : tlen (Tok k w) = byte_len w.
Proof. reflexivity. Qed.
Lemma cuts_inside t : forall top s, wf top t -> Forall (fun x => s <= x <= s + tlen t) (cuts t s).
Proof.
  induction t as [k w|k cs IH] using tree_ind'; intros top s H.
  - rewrite tlen_tok. cbn [cuts wf] in *. destruct H as (_ & H1 & H2). constructor; [lia|]. constructor; [lia|].
    unfold inner_cuts. destruct (signed_kind k); [specialize (H1 eq_refl); constructor; [lia|constructor]|].
    destruct k; try (constructor; fail); repeat constructor; lia.
  - apply wf_node in H as (_ & _ & H). rewrite (cuts_node k cs s []). constructor; [lia|]. constructor; [lia|]. apply Forall_forall. intros x Hx.
    apply in_flat_map in Hx as (c & Hc & Hx). apply filter_In in Hc as [Hc _].
    assert (He : In (el c) cs) by (rewrite <- (child_locs_el k s [] cs [] s); now apply in_map).
    assert (Hb := child_locs_bounds k s [] cs [] s). rewrite Forall_forall in *. specialize (Hb c Hc). rewrite tlen_node.
    specialize (IH _ He false (l_start c) (H _ He)). rewrite Forall_forall in IH. specialize (IH x Hx). unfold l_end in Hb. lia.
Qed.

(** the children's edits together *)
Definition lfine (F : loc -> list sedit) (c : loc) : Prop := fine (lcuts c) (l_start c) (l_end c) (F c).
Lemma inside_off a b e c : inside a b e -> inside c c (mkse c c []) -> b <= c \/ c <= a -> c <= s_from e \/ s_to e <= c.
Proof. unfold inside. cbn. lia. Qed.
Definition within (a b : nat) (c : loc) : Prop := a <= l_start c /\ l_end c <= b.
Lemma fine_children F a b L : StronglySorted follows L -> Forall (within a b) L -> Forall (lfine F) L ->
  Forall (fun c => Forall (fun x => l_start c <= x <= l_end c) (lcuts c)) L ->
  fine (a :: b :: flat_map lcuts L) a b (flat_map F L).
Proof.
  intros S W HF HC. split; [|split].
  - apply Forall_forall. intros e He. apply in_flat_map in He as (c & Hc & He). rewrite Forall_forall in *. destruct (HF c Hc) as (H1 & _ & _).
    rewrite Forall_forall in H1. specialize (H1 e He). specialize (W c Hc). unfold within, inside in *. lia.
  - induction S as [|c L S IH SF]; [exact Logic.I|]. inversion W; subst. inversion HF as [|? ? (F1 & F2 & F3) HF']; subst. inversion HC; subst. cbn [flat_map].
    apply pw_app; [exact scompat_sym|]. split; [exact F2|]. split; [auto|]. intros e f He Hf. apply in_flat_map in Hf as (d & Hd & Hf).
    rewrite Forall_forall in *. destruct (HF' d Hd) as (G1 & _ & _). rewrite Forall_forall in G1. specialize (F1 e He). specialize (G1 f Hf). specialize (SF d Hd).
    unfold follows, inside, scompat in *. lia.
  - apply Forall_forall. intros e He. apply in_flat_map in He as (c & Hc & He).
    assert (HF' := HF). rewrite Forall_forall in HF'. destruct (HF' c Hc) as (H1 & _ & H3). rewrite Forall_forall in H1, H3. specialize (H1 e He). specialize (H3 e He).
    assert (Wc : within a b c) by (rewrite Forall_forall in W; auto).
    constructor; [unfold within, inside in *; lia|]. constructor; [unfold within, inside in *; lia|].
    apply Forall_forall. intros x Hx. apply in_flat_map in Hx as (d & Hd & Hx).
    destruct (in_split _ _ Hc) as (L1 & L2 & ->). rewrite Forall_forall in HC. specialize (HC d Hd). rewrite Forall_forall in HC. specialize (HC x Hx).
    assert (K : follows d c \/ d = c \/ follows c d).
    { clear -S Hd. induction L1 as [|y L1 IH]; cbn in *.
      - apply StronglySorted_inv in S as [_ S]. rewrite Forall_forall in S. destruct Hd as [->|Hd]; auto.
      - apply StronglySorted_inv in S as [S SF]. destruct Hd as [<-|Hd]; [|auto]. left. rewrite Forall_forall in SF. apply SF. apply in_or_app. right. now left. }
    unfold follows, within, inside in *. destruct K as [K|[->|K]].
    + lia.
    + unfold off in H3. rewrite Forall_forall in H3. auto.
    + lia.
Qed.
(** edits between children *)
Definition between (L : list loc) (e : sedit) : Prop := s_from e <= s_to e /\ Forall (fun d => l_end d <= s_from e \/ s_to e <= l_start d) L.
Lemma fine_between F a b L G : fine (a :: b :: flat_map lcuts L) a b (flat_map F L) -> Forall (lfine F) L ->
  Forall (fun c => Forall (fun x => l_start c <= x <= l_end c) (lcuts c)) L ->
  Forall (inside a b) G -> pw scompat G -> Forall (between L) G -> fine (a :: b :: flat_map lcuts L) a b (G ++ flat_map F L).
Proof.
  intros (F1 & F2 & F3) HF HC I P B. split; [now apply Forall_app|]. split.
  - apply pw_app; [exact scompat_sym|]. split; [exact P|]. split; [exact F2|]. intros e f He Hf. apply in_flat_map in Hf as (d & Hd & Hf).
    rewrite Forall_forall in B. destruct (B e He) as [B0 B1]. rewrite Forall_forall in *. destruct (HF d Hd) as (G1 & _ & _). rewrite Forall_forall in G1. specialize (G1 f Hf). specialize (B1 d Hd).
    unfold inside, scompat in *. lia.
  - apply Forall_app. split; [|exact F3]. apply Forall_forall. intros e He. rewrite Forall_forall in B, I. destruct (B e He) as [B0 B1]. specialize (I e He). unfold inside in I.
    constructor; [lia|]. constructor; [lia|]. apply Forall_forall. intros x Hx. apply in_flat_map in Hx as (d & Hd & Hx). rewrite Forall_forall in *. specialize (HC d Hd). rewrite Forall_forall in HC.
    specialize (HC x Hx). specialize (B1 d Hd). lia.
Qed.
(** separation edits *)
Definition sep_range (x : option loc * loc) (e : sedit) : Prop := match fst x with Some a => s_from e = l_end a /\ s_to e = l_start (snd x) | None => False end.
Definition sep_like (f : option loc * loc -> list sedit) : Prop := forall x, length (f x) <= 1 /\ Forall (sep_range x) (f x).
Lemma sep_between f L : sep_like f -> StronglySorted follows L -> Forall (fun c => l_start c <= l_end c) L ->
  pw scompat (flat_map f (with_prev None L)) /\ Forall (between L) (flat_map f (with_prev None L)).
Proof.
  intros Hf S O.
  (* [done] lies before the rest *)
  assert (K : forall L done p, StronglySorted follows L -> Forall (fun c => l_start c <= l_end c) L ->
     match p with Some a => Forall (follows a) L /\ Forall (fun d => l_end d <= l_end a) done | None => done = [] end ->
     Forall (fun d => Forall (follows d) L) done ->
     pw scompat (flat_map f (with_prev p L)) /\ Forall (between (done ++ L)) (flat_map f (with_prev p L)) /\
     Forall (fun e => match p with Some a => l_end a <= s_from e | None => True end) (flat_map f (with_prev p L))).
  { clear L S O. induction L as [|c L IH]; intros done p S O Hp Hd; [repeat constructor|].
    apply StronglySorted_inv in S as [S SF]. inversion O as [|? ? Oc O']; subst. cbn [with_prev flat_map].
    destruct (IH (done ++ [c]) (Some c) S O') as (I1 & I2 & I3).
    - split; [exact SF|]. apply Forall_app. split; [|constructor; [lia|constructor]]. destruct p as [a|]; [|now subst].
      destruct Hp as [Hp1 Hp2]. inversion Hp1; subst. eapply Forall_impl; [|exact Hp2]. cbn beta. unfold follows in *. lia.
    - apply Forall_app. split; [|constructor; [exact SF|constructor]]. eapply Forall_impl; [|exact Hd]. intros d Hx. now inversion Hx.
    - rewrite <- app_assoc in I2. cbn [app] in I2. destruct (Hf (p, c)) as [Hlen HR]. split; [|split].
      + apply pw_app; [exact scompat_sym|]. split; [|split; [exact I1|]].
        * destruct (f (p, c)) as [|e [|e' r]]; cbn; auto. cbn in Hlen. lia.
        * intros e g He Hg. rewrite Forall_forall in HR, I3. specialize (HR e He). specialize (I3 g Hg). unfold sep_range in HR. cbn [fst snd] in HR. destruct p as [a|]; [|contradiction].
          unfold scompat. lia.
      + apply Forall_app. split; [|exact I2]. apply Forall_forall. intros e He. rewrite Forall_forall in HR. specialize (HR e He). unfold sep_range in HR. cbn [fst snd] in HR.
        destruct p as [a|]; [|contradiction]. destruct Hp as [Hp1 Hp2]. inversion Hp1 as [|? ? Hac Hp1']; subst. unfold follows in Hac. split; [lia|]. apply Forall_app. split.
        * eapply Forall_impl; [|exact Hp2]. cbn beta. intros d. lia.
        * constructor; [lia|]. eapply Forall_impl; [|exact SF]. unfold follows. intros d. lia.
      + apply Forall_app. split.
        * eapply Forall_impl; [|exact HR]. unfold sep_range. cbn [fst snd]. intros e. destruct p; [lia|auto].
        * destruct p as [a|]; [|apply Forall_forall; auto]. destruct Hp as [Hp1 _]. inversion Hp1; subst. eapply Forall_impl; [|exact I3]. unfold follows in *. cbn beta. intros e. lia. }
  destruct (K L [] None S O eq_refl (Forall_nil _)) as (K1 & K2 & _). split; [exact K1|exact K2].
Qed.

(** inserted texts are blank *)
Lemma blanks_app a b : blanks a -> blanks b -> blanks (a ++ b).
Proof. intros. now apply Forall_app. Qed.
Lemma blanks_sp : blanks sp.
Proof. repeat constructor; cbn; tauto. Qed.
Lemma blanks_nl : blanks nl.
Proof. repeat constructor; cbn; tauto. Qed.
Lemma blanks_repeat n t : blanks t -> blanks (repeat_text n t).
Proof. intros H. unfold repeat_text. induction n; cbn; [constructor|]. now apply blanks_app. Qed.
Lemma blanks_linebreak ib n : blanks ib -> blanks (get_linebreak ib n).
Proof. intros H. apply blanks_app; [apply blanks_nl|now apply blanks_repeat]. Qed.
Ltac blank := repeat first [assumption | apply Forall_nil | apply blanks_sp | apply blanks_nl | apply blanks_linebreak | apply blanks_repeat | apply blanks_app].

Section own.
Variables (width : text -> nat) (settings : fsettings) (ib : text).
Hypothesis blank_base : blanks ib.
Notation in_node := (in_node_augmentation width settings ib).
Notation pre_node := (pre_node_augmentation width settings ib).
Notation post_node := (post_node_augmentation width settings ib).
Notation kw_edit := (keyword_edit settings).

Lemma pre_ins l ind : Forall (fun e => exists t, e = ins (l_start l) t /\ blanks t) (pre_node l ind).
Proof.
  unfold pre_node_augmentation. destruct (l_kind l); try (constructor; fail); try (constructor; [eexists; split; [reflexivity|blank]|constructor]);
    repeat match goal with |- context [if ?b then _ else _] => destruct b | |- context [match parent_prev_sibling l with _ => _ end] => destruct (parent_prev_sibling l) end;
    try (constructor; fail); (constructor; [eexists; split; [reflexivity|blank]|constructor]).
Qed.
Lemma post_ins l ind : Forall (fun e => exists t, e = ins (l_end l) t /\ blanks t) (post_node l ind).
Proof.
  unfold post_node_augmentation. destruct (before_error l); [constructor|].
  destruct (l_kind l); try (constructor; fail); try (constructor; [eexists; split; [reflexivity|blank]|constructor]);
    repeat match goal with |- context [if ?b then _ else _] => destruct b | |- context [match parent_kind l with _ => _ end] => destruct (parent_kind l) end;
    try (constructor; fail); (constructor; [eexists; split; [reflexivity|blank]|constructor]).
Qed.
(** ** leaves *)
Definition rewritten_leaf (k : kind) : bool :=
  signed_kind k || match k with K_ANON | K_DELETE | K_DELETE_WHERE | K_DELETE_DATA | K_INSERT_DATA | K_a => true | _ => false end.
Lemma in_leaf_plain k w s up ind : unit_kind k = false -> rewritten_leaf k = false -> in_node (mkloc (Tok k w) s up) [] ind = [].
Proof. destruct k; try discriminate; try reflexivity. intros _ _. cbn. now destruct (align_prefixes settings). Qed.
Lemma kw_plain k w s up : rewritten_leaf k = true -> kw_edit (mkloc (Tok k w) s up) = [].
Proof. destruct k; try discriminate; reflexivity. Qed.
Lemma kw_one k w s up : exists n, kw_edit (mkloc (Tok k w) s up) = [] \/ kw_edit (mkloc (Tok k w) s up) = [mkse s (s + byte_len w) n].
Proof.
  unfold keyword_edit. destruct (kind_eqb _ K_IN); [eexists; right; reflexivity|]. destruct (_ && _); [eexists; right; reflexivity|exists []; now left].
Qed.
Lemma inner_cuts_plain k s n : rewritten_leaf k = false -> inner_cuts k s n = [].
Proof. destruct k; try discriminate; reflexivity. Qed.
Ltac fine_leaf := unfold fine, off, inside, scompat; cbn;
  repeat match goal with |- _ /\ _ => split | |- Forall _ [] => apply Forall_nil | |- Forall _ (_ :: _) => apply Forall_cons | |- True => exact Logic.I end; cbn; try lia.
Lemma leaf_proper k w s up ind : leaf_ok k w ->
  fine (cuts (Tok k w) s) s (s + byte_len w) (in_node (mkloc (Tok k w) s up) [] ind ++ kw_edit (mkloc (Tok k w) s up)).
Proof.
  intros (Hu & Hs & Hl). destruct (rewritten_leaf k) eqn:R.
  - rewrite kw_plain, app_nil_r by exact R. destruct k; try discriminate R; cbn [in_node_augmentation l_kind tkind el].
    all: try match goal with |- context [if some ?x then _ else _] => destruct (some x) end.
    all: try match goal with |- context [capitalize_keywords settings] => destruct (capitalize_keywords settings) end.
    all: try (destruct (Nat.ltb_spec 6 (tlen (Tok K_DELETE w))) as [X|X]; [rewrite tlen_tok in X; lia|]).
    all: try (specialize (Hs eq_refl)).
    all: unfold l_end; cbn [l_start el]; rewrite ?tlen_tok; fine_leaf.
  - rewrite in_leaf_plain by assumption. cbn [app cuts]. rewrite inner_cuts_plain by exact R.
    destruct (kw_one k w s up) as (n & [->| ->]); [apply fine_nil|]. fine_leaf.
Qed.
Lemma leaf_fine k w s up ind : leaf_ok k w -> fine (cuts (Tok k w) s) s (s + byte_len w) (visit_edits width settings ib (mkloc (Tok k w) s up) ind).
Proof.
  intros H. unfold visit_edits. change (formatted_children (mkloc (Tok k w) s up)) with (@nil loc). unfold node_augmentation.
  change (separation ib (mkloc (Tok k w) s up) [] ind) with (@nil sedit). rewrite app_nil_r.
  assert (P : forall a b c d : list sedit, Permutation ((b ++ c) ++ (a ++ d)) (a ++ b ++ c ++ d)).
  { intros a b c d. rewrite <- app_assoc. rewrite (app_assoc c a d), (app_assoc b (c ++ a) d), (app_assoc b c a).
    rewrite (Permutation_app_comm (b ++ c) a), <- !app_assoc. reflexivity. }
  eapply fine_perm; [apply P|]. apply fine_ins; [|apply Forall_app; split|apply leaf_proper, H].
  - apply (cuts_inside (Tok k w) false s). exact H.
  - eapply Forall_impl; [|apply pre_ins]. intros e (t & -> & Hb). exists s, t. split; [reflexivity|]. split; [now left|exact Hb].
  - eapply Forall_impl; [|apply post_ins]. intros e (t & -> & Hb). exists (s + byte_len w), t. split; [reflexivity|]. split; [right; now left|exact Hb].
Qed.
(** ** nodes *)
Lemma formatted_solid k cs s up : formatted_children (mkloc (Node k cs) s up) = filter (solid k) (child_locs k s up [] cs s).
Proof.
  unfold formatted_children, children. cbn [el l_start l_up]. apply filter_ext. intros c. unfold solid, gap, l_kind. cbn [el tkind].
  destruct (tkind (el c)); try reflexivity. now rewrite negb_involutive.
Qed.
Lemma start_cut c : In (l_start c) (lcuts c).
Proof. unfold lcuts. destruct (el c); now left. Qed.
Lemma end_cut c : In (l_end c) (lcuts c).
Proof. unfold lcuts, l_end. destruct (el c); right; now left. Qed.
Lemma significant_cut c g : In g (significant_children c) -> In (l_start g) (lcuts c) /\ In (l_end g) (lcuts c).
Proof.
  unfold significant_children, children, lcuts. destruct c as [[k w|k cs] s up]; cbn [el l_start l_up]; intros H; [destruct H|].
  apply filter_In in H as [H1 H2]. rewrite (cuts_node k cs s up).
  assert (K : In g (filter (solid k) (child_locs k s up [] cs s))).
  { apply filter_In. split; [exact H1|]. unfold solid, gap, l_kind in *. destruct (tkind (el g)); try reflexivity; discriminate H2. }
  split; right; right; apply in_flat_map; exists g; (split; [exact K|]); [apply start_cut|apply end_cut].
Qed.
Lemma nth_error_In' {A} (l : list A) n x : nth_error l n = Some x -> In x l.
Proof. apply nth_error_In. Qed.
Lemma step_by_3_In {A} (l : list A) x : In x (step_by_3 l) -> In x l.
Proof.
  assert (K : forall n l, length l <= n -> In x (step_by_3 l) -> In x l).
  { induction n as [|n IH]; intros m Hm H; [destruct m; [exact H|cbn in Hm; lia]|].
    destruct m as [|a [|b [|c m]]]; cbn in H, Hm; [tauto|cbn; tauto|cbn; tauto|].
    destruct H as [->|H]; [now left|]. right. right. right. apply IH; [lia|exact H]. }
  apply (K (length l)). lia.
Qed.
Lemma skipn_In {A} n (l : list A) x : In x (skipn n l) -> In x l.
Proof. revert l. induction n as [|n IH]; intros l H; [exact H|]. destruct l; [exact H|]. right. now apply IH. Qed.
Lemma last_In {A} (l : list A) d : l <> [] -> In (last l d) l.
Proof. induction l as [|x [|y l] IH]; [congruence|now left|]. intros _. right. apply IH. discriminate. Qed.
Lemma with_prev_In {A} (L : list A) : forall p a c, In (Some a, c) (with_prev p L) -> (p = Some a \/ In a L) /\ In c L.
Proof.
  induction L as [|x L IH]; intros p a c H; [destruct H|]. destruct H as [H|H].
  - injection H as -> ->. split; [now left|now left].
  - apply IH in H as [[E|H] H']; [injection E as ->|]; split; try (right; now left); try now right. right. now right.
Qed.
Lemma break_predicates_cut C p t : blanks t -> Forall (fun x => In x C) (lcuts p) -> Forall (at_cut C) (break_predicates p t).
Proof.
  intros Hb H. apply Forall_forall. intros e He. apply in_map_iff in He as (c & <- & Hc). apply skipn_In, step_by_3_In in Hc.
  exists (l_start c), t. split; [reflexivity|]. split; [|exact Hb]. rewrite Forall_forall in H. apply H. now apply significant_cut.
Qed.
Definition list_kind (k : kind) : bool := match k with K_ExpressionList | K_ObjectList | K_ObjectListPath => true | _ => false end.
Definition comma_edit (c : loc) : list sedit := match l_kind c with K_Comma => [mkse (l_start c) (l_end c) [44; 32]%N] | _ => [] end.
Lemma each_cut C (f : loc -> list sedit) L : (forall c, In c L -> Forall (at_cut C) (f c)) -> Forall (at_cut C) (flat_map f L).
Proof. intros H. apply Forall_forall. intros e He. apply in_flat_map in He as (c & Hc & He). specialize (H c Hc). rewrite Forall_forall in H. auto. Qed.
Lemma rparen_case {A} k (x y : A) : match k with K_RParen => x | _ => y end = if kind_eqb k K_RParen then x else y.
Proof. destruct k; reflexivity. Qed.
Ltac same_subject L HC :=
  destruct L as [|subject L']; [apply Forall_nil|];
  match goal with |- context [last ?a ?b] => set (pl := last a b) end; destruct (_ && _); [|apply Forall_nil]; apply break_predicates_cut; [try destruct (align_predicates settings); blank|]; apply HC; apply last_In; discriminate.
Ltac property_list L HC :=
  let G := fresh in destruct (nth_error L 1) as [p|] eqn:G; [|apply Forall_nil]; destruct (is_node (el p)); [|apply Forall_nil]; apply break_predicates_cut; [try destruct (align_predicates settings); blank|]; apply HC; eapply nth_error_In, G.
Lemma in_node_cut k cs s up ind L C : token_kind k = false -> unit_kind k = false -> list_kind k = false ->
  (forall c, In c L -> Forall (fun x => In x C) (lcuts c)) ->
  Forall (at_cut C) (in_node (mkloc (Node k cs) s up) L ind).
Proof.
  intros Ht Hu Hl HC.
  assert (S : forall c, In c L -> In (l_start c) C). { intros c Hc. specialize (HC c Hc). rewrite Forall_forall in HC. apply HC, start_cut. }
  assert (E : forall c, In c L -> In (l_end c) C). { intros c Hc. specialize (HC c Hc). rewrite Forall_forall in HC. apply HC, end_cut. }
  assert (Sc : forall c t, In c L -> blanks t -> at_cut C (ins (l_start c) t)) by (intros c t Hc; exists (l_start c), t; auto).
  assert (Ec : forall c t, In c L -> blanks t -> at_cut C (ins (l_end c) t)) by (intros c t Hc; exists (l_end c), t; auto).
  destruct k; try discriminate; try (apply Forall_nil); cbn [in_node_augmentation l_kind tkind el].
  all: try (apply each_cut; intros c Hc; destruct (l_kind c); try (apply Forall_nil); repeat (apply Forall_cons; [(apply Sc || apply Ec); [exact Hc|blank]|]); apply Forall_nil).
  - (* Prologue *)
    destruct (align_prefixes settings); [|apply Forall_nil]. set (longest := list_max _). clearbody longest.
    apply Forall_forall. intros e He. apply in_map_iff in He as (x & <- & Hx). apply in_flat_map in Hx as (c & Hc & Hx).
    destruct (_ && _); [|destruct Hx]. destruct (nth_error _ 1) as [g|] eqn:G; [|destruct Hx]. destruct (kind_eqb _ _); [|destruct Hx]. destruct Hx as [<-|[]].
    eexists _, _. split; [reflexivity|]. split; [|blank]. cbn [fst]. specialize (HC c Hc). rewrite Forall_forall in HC. apply HC. apply significant_cut. eapply nth_error_In, G.
  - (* SelectClause *)
    set (tl := line_length settings <? _). clearbody tl. apply Forall_forall. intros e He. apply in_flat_map in He as ([p [i c]] & Hx & He).
    apply skipn_In in Hx. apply in_combine_r, in_combine_r in Hx. destruct p as [prev|]; [|destruct He].
    rewrite rparen_case in He.
    assert (K : e = ins (l_start c) (s_new e) /\ blanks (s_new e)).
    { destruct (kind_eqb (l_kind c) K_RParen); [destruct He|]. destruct (_ && _) in He; [destruct He|]. destruct (_ || _) in He; [destruct He as [<-|[]]; (split; [reflexivity|cbn [s_new ins]; blank])|].
      destruct (_ && _) in He; destruct He as [<-|[]]; (split; [reflexivity|cbn [s_new ins]; blank]). }
    destruct K as [-> Hb]. auto.
  - (* GroupCondition *)
    apply Forall_forall. intros e He. apply in_flat_map in He as ([p c] & Hx & He). destruct p as [prev|]; [|destruct He]. apply with_prev_In in Hx as [_ Hx].
    destruct (_ || _) in He; [destruct He|]. destruct He as [<-|[]]. apply Sc; [exact Hx|blank].
  - (* Modify *)
    apply each_cut. intros c Hc. destruct (l_kind c); try (apply Forall_nil); try (repeat (apply Forall_cons; [(apply Sc || apply Ec); [exact Hc|blank]|]); apply Forall_nil).
    all: destruct (l_up c) as [|f ?]; try apply Forall_nil; destruct (f_left f); try apply Forall_nil; (apply Forall_cons; [apply Sc; [exact Hc|blank]|apply Forall_nil]).
  - same_subject L HC.
  - same_subject L HC.
  - property_list L HC.
  - property_list L HC.
Qed.
(** ** the whole tree *)
Definition edits (t : tree) (s : nat) (up : list frame) (ind : nat) : list sedit :=
  flat_map (fun x => visit_edits width settings ib (fst x) (snd x)) (walk_tree t s up ind).
Definition child_edits (ind : nat) (c : loc) : list sedit := edits (el c) (l_start c) (l_up c) ind.
Lemma edits_tok k w s up ind : edits (Tok k w) s up ind = visit_edits width settings ib (mkloc (Tok k w) s up) ind.
Proof. unfold edits. cbn. now rewrite app_nil_r. Qed.
Lemma edits_node k cs s up ind : Permutation (edits (Node k cs) s up ind)
  (visit_edits width settings ib (mkloc (Node k cs) s up) ind ++ flat_map (child_edits (u8 (ind + inc_indent (Node k cs)))) (child_locs k s up [] cs s)).
Proof.
  unfold edits at 1. cbn [walk_tree flat_map fst snd]. apply Permutation_app_head. generalize (u8 (ind + inc_indent (Node k cs))) as i. intros i.
  generalize (@nil tree) as left. set (s0 := s) at 2 4. clearbody s0. revert s0. induction cs as [|c r IH]; intros at_ left; [reflexivity|].
  cbn [child_locs flat_map]. rewrite flat_map_app. rewrite Permutation_app_comm. apply Permutation_app; [reflexivity|]. apply IH.
Qed.
Lemma gap_edits k c i : wf false (el c) -> gap k (el c) = true -> child_edits i c = [].
Proof.
  unfold child_edits, gap. destruct c as [[k' w|k' cs] s up]; cbn [el tkind l_start l_up].
  - intros _ H. rewrite edits_tok. destruct k'; try discriminate H; reflexivity.
  - intros H. apply wf_node in H as (H & _). destruct k'; discriminate.
Qed.
Lemma flat_map_filter {A B} (f : A -> list B) p l : (forall x, In x l -> p x = false -> f x = []) -> flat_map f l = flat_map f (filter p l).
Proof.
  induction l as [|x l IH]; intros H; [reflexivity|]. cbn. rewrite IH by (intros; apply H; [now right|assumption]). destruct (p x) eqn:E; [reflexivity|].
  now rewrite (H x (or_introl eq_refl) E).
Qed.
Lemma flat_map_perm2 {A B} (f g : A -> list B) l : Permutation (flat_map f l ++ flat_map g l) (flat_map (fun x => f x ++ g x) l).
Proof.
  induction l as [|x l IH]; [reflexivity|]. cbn [flat_map]. rewrite <- IH, <- !app_assoc. apply Permutation_app_head.
  rewrite !app_assoc. apply Permutation_app_tail. apply Permutation_app_comm.
Qed.
Lemma separation_like l ind : sep_like (fun x : option loc * loc =>
    match x with
    | (Some a, b) =>
      match get_separator (l_kind l) with
      | LineBreak => [mkse (l_end a) (l_start b) (get_linebreak ib ind)]
      | Space => [mkse (l_end a) (l_start b) sp]
      | Empty => [mkse (l_end a) (l_start b) (if kind_eqb (l_kind b) K_Error then sp else [])]
      | Unknown => []
      end
    | (None, _) => []
    end).
Proof.
  intros [[a|] b]; destruct (get_separator (l_kind l)); cbn; (split; [lia|]); repeat constructor.
Qed.
Definition unit_edits (l : loc) (L : list loc) : list sedit :=
  match L with [] => [mkse 0 (l_end l) []] | first :: _ => [mkse 0 (l_start first) []; mkse (l_end (last L first)) (l_end l) []] end.
Lemma in_node_unit k cs s up L ind : unit_kind k = true -> in_node (mkloc (Node k cs) s up) L ind = unit_edits (mkloc (Node k cs) s up) L.
Proof. destruct k; try discriminate; reflexivity. Qed.
Lemma in_node_list k cs s up L ind : list_kind k = true -> in_node (mkloc (Node k cs) s up) L ind = flat_map comma_edit L.
Proof. destruct k; try discriminate; reflexivity. Qed.
Lemma kw_node k cs s up : token_kind k = false -> kw_edit (mkloc (Node k cs) s up) = [].
Proof.
  intros H. unfold keyword_edit, l_kind. cbn [el tkind]. unfold token_kind in H. apply orb_false_elim in H as [H _]. apply orb_false_elim in H as [_ H]. rewrite H.
  assert (E : kind_eqb k K_IN = false). { destruct (kind_eqb k K_IN) eqn:E; [|reflexivity]. destruct k; discriminate. }
  now rewrite E.
Qed.
Lemma sorted_last L : forall d, StronglySorted follows L -> Forall (fun c => l_start c <= l_end c) L -> Forall (fun c => l_end c <= l_end (last L d)) L.
Proof.
  intros d. induction L as [|c [|e L] IH]; intros S O; [constructor|repeat constructor|]. apply StronglySorted_inv in S as [S F].
  inversion O as [|? ? Oc O']; subst. specialize (IH S O'). change (last (c :: e :: L) d) with (last (e :: L) d). constructor; [|exact IH].
  inversion F; inversion O'; inversion IH; subst. unfold follows in *. lia.
Qed.
Lemma sorted_first c L : StronglySorted follows (c :: L) -> Forall (fun c => l_start c <= l_end c) (c :: L) -> Forall (fun d => l_start c <= l_start d) (c :: L).
Proof.
  intros S O. apply StronglySorted_inv in S as [S F]. inversion O as [|? ? Oc O']; subst. constructor; [lia|]. eapply Forall_impl; [|exact F]. unfold follows. cbn beta. intros d. lia.
Qed.
Lemma unit_between k cs up L G : let l := mkloc (Node k cs) 0 up in
  StronglySorted follows L -> Forall (fun c => l_start c <= l_end c) L -> Forall (within 0 (l_end l)) L ->
  pw scompat G -> Forall (inside 0 (l_end l)) G -> Forall (between L) G -> (L = [] -> G = []) ->
  Forall (fun e => exists a b, In a L /\ In b L /\ s_from e = l_end a /\ s_to e = l_start b) G ->
  pw scompat (unit_edits l L ++ G) /\ Forall (between L) (unit_edits l L ++ G) /\ Forall (inside 0 (l_end l)) (unit_edits l L ++ G).
Proof.
  intros l S O W P I B HN HG. destruct L as [|first L].
  - rewrite (HN eq_refl). cbn. repeat split; repeat constructor; cbn; lia.
  - assert (SF := sorted_first _ _ S O). assert (SL := sorted_last _ first S O). unfold unit_edits. set (la := last (first :: L) first) in *.
    assert (Hla : In la (first :: L)) by (apply last_In; discriminate).
    rewrite Forall_forall in SF, SL, O, W, HG.
    pose proof (SF la Hla) as X1. pose proof (O la Hla) as X2. pose proof (W la Hla) as X3. pose proof (W first (or_introl eq_refl)) as X4. pose proof (O first (or_introl eq_refl)) as X5.
    unfold within in *. split; [|split].
    + cbn [app pw]. split; [|split; [|exact P]].
      * constructor; [left; cbn [s_from s_to]; lia|]. apply Forall_forall. intros e He. destruct (HG e He) as (a & b & Ha & Hb & E1 & E2). left. cbn [s_from s_to]. rewrite E1.
        specialize (SF a Ha). specialize (O a Ha). lia.
      * apply Forall_forall. intros e He. destruct (HG e He) as (a & b & Ha & Hb & E1 & E2). right. cbn [s_from s_to]. rewrite E2. specialize (SL b Hb). specialize (O b Hb). lia.
    + cbn [app]. constructor; [|constructor; [|exact B]]; (split; [cbn [s_from s_to]; lia|]); apply Forall_forall; intros d Hd; cbn [s_from s_to].
      * right. now apply SF.
      * left. now apply SL.
    + cbn [app]. constructor; [|constructor; [|exact I]]; unfold inside; cbn [s_from s_to]; lia.
Qed.
Lemma with_prev_sep f L : sep_like f -> Forall (fun e => exists a b, In a L /\ In b L /\ s_from e = l_end a /\ s_to e = l_start b) (flat_map f (with_prev None L)).
Proof.
  intros Hf. apply Forall_forall. intros e He. apply in_flat_map in He as ([p c] & Hx & He). destruct (Hf (p, c)) as [_ HR]. rewrite Forall_forall in HR. specialize (HR e He).
  unfold sep_range in HR. cbn [fst snd] in HR. destruct p as [a|]; [|contradiction]. apply with_prev_In in Hx as [[E|Ha] Hc]; [discriminate|]. exists a, c. tauto.
Qed.
Lemma comma_fine c i : wf false (el c) -> fine (lcuts c) (l_start c) (l_end c) (child_edits i c) -> lfine (fun c => comma_edit c ++ child_edits i c) c.
Proof.
  intros H F. unfold lfine, comma_edit. destruct (kind_eqb (l_kind c) K_Comma) eqn:E.
  - assert (K : l_kind c = K_Comma) by (destruct (l_kind c); discriminate || reflexivity). rewrite K. unfold l_kind in K.
    destruct c as [[k w|k cs] s up]; cbn [el tkind] in *; subst k.
    + change (child_edits i {| el := Tok K_Comma w; l_start := s; l_up := up |}) with (@nil sedit). unfold l_end, lcuts. cbn [el l_start app]. rewrite tlen_tok. fine_leaf.
    + apply wf_node in H as (H & _). discriminate.
  - destruct (l_kind c); try exact F. discriminate.
Qed.
Theorem tree_fine t : forall top s up ind, wf top t -> (top = true -> s = 0) -> fine (cuts t s) s (s + tlen t) (edits t s up ind).
Proof.
  induction t as [k w|k cs IH] using tree_ind'; intros top s up ind H Hs; [rewrite edits_tok; now apply leaf_fine|].
  pose proof H as Hwf. apply wf_node in H as (Ht & Hu & Hc). eapply fine_perm; [apply Permutation_sym, edits_node|].
  set (i := u8 (ind + inc_indent (Node k cs))). set (l := mkloc (Node k cs) s up).
  set (L := filter (solid k) (child_locs k s up [] cs s)).
  assert (Hel : forall c, In c (child_locs k s up [] cs s) -> In (el c) cs). { intros c Hin. rewrite <- (child_locs_el k s up cs [] s). now apply in_map. }
  rewrite Forall_forall in IH, Hc.
  assert (SL : StronglySorted follows L) by (apply sorted_filter, child_locs_sorted).
  assert (IL : forall c, In c L -> In (el c) cs) by (intros c Hin; apply filter_In in Hin as [Hin _]; auto).
  assert (WL : Forall (within s (s + tlen (Node k cs))) L).
  { apply Forall_forall. intros c Hin. apply filter_In in Hin as [Hin _]. pose proof (child_locs_bounds k s up cs [] s) as B. rewrite Forall_forall in B. specialize (B c Hin).
    rewrite tlen_node. unfold within. exact B. }
  assert (CL : Forall (fun c => Forall (fun x => l_start c <= x <= l_end c) (lcuts c)) L).
  { apply Forall_forall. intros c Hin. eapply cuts_inside. apply Hc, IL, Hin. }
  assert (OL : Forall (fun c => l_start c <= l_end c) L) by (apply Forall_forall; intros; unfold l_end; lia).
  set (F := fun c => (if list_kind k then comma_edit c else []) ++ child_edits i c).
  assert (FL : Forall (lfine F) L).
  { apply Forall_forall. intros c Hin. assert (Fc : fine (lcuts c) (l_start c) (l_end c) (child_edits i c)).
    { apply (IH (el c) (IL c Hin) false); [apply Hc, IL, Hin|discriminate]. }
    unfold F. destruct (list_kind k); [|exact Fc]. apply comma_fine; [apply Hc, IL, Hin|exact Fc]. }
  rewrite (flat_map_filter (child_edits i) (solid k)).
  2:{ intros c Hin Hg. apply (gap_edits k); [apply Hc, Hel, Hin|]. unfold solid in Hg. now apply negb_false_iff. }
  fold L. rewrite (cuts_node k cs s up). fold L. set (b := s + tlen (Node k cs)).
  unfold visit_edits, node_augmentation. replace (formatted_children l) with L by (symmetry; apply formatted_solid). subst l. rewrite kw_node, app_nil_r by exact Ht.
  set (l := mkloc (Node k cs) s up). set (SEP := separation ib l L ind).
  assert (PS : pw scompat SEP /\ Forall (between L) SEP) by (apply sep_between; [apply separation_like|exact SL|exact OL]).
  assert (RS : Forall (fun e => exists a b, In a L /\ In b L /\ s_from e = l_end a /\ s_to e = l_start b) SEP) by (apply with_prev_sep, separation_like).
  assert (IS : Forall (inside s b) SEP).
  { destruct PS as [_ B]. rewrite Forall_forall in *. intros e He. destruct (RS e He) as (x & y & Hx & Hy & E1 & E2). destruct (B e He) as [B1 _].
    pose proof (WL x Hx). pose proof (WL y Hy). unfold within, inside, l_end in *. lia. }
  assert (PRE : Forall (at_cut (s :: b :: flat_map lcuts L)) (pre_node l ind ++ post_node l ind)).
  { apply Forall_app. split; (eapply Forall_impl; [|apply pre_ins || apply post_ins]); intros e (t & -> & Hb); eexists _, t; (split; [reflexivity|]); (split; [|exact Hb]); [now left|right; now left]. }
  assert (INC : Forall (fun x => s <= x <= b) (s :: b :: flat_map lcuts L)).
  { pose proof (cuts_inside (Node k cs) top s Hwf) as X. rewrite (cuts_node k cs s up) in X. exact X. }
  assert (INL : forall c, In c L -> Forall (fun x => In x (s :: b :: flat_map lcuts L)) (lcuts c)).
  { intros c Hin. apply Forall_forall. intros x Hx. right. right. apply in_flat_map. eauto. }
  assert (P : forall a b c d e : list sedit, Permutation ((b ++ c) ++ ((a ++ d) ++ e)) (((a ++ b ++ c) ++ d) ++ e)).
  { intros u v w x y. rewrite !app_assoc. apply Permutation_app_tail, Permutation_app_tail. rewrite <- (app_assoc u v w). apply Permutation_app_comm. }
  eapply fine_perm; [apply P|]. apply fine_ins; [exact INC|exact PRE|].
  pose proof (fine_children F s b L SL WL FL CL) as FC.
  destruct (unit_kind k) eqn:U; [|destruct (list_kind k) eqn:LK].
  - assert (s = 0) by auto. assert (LK : list_kind k = false) by (destruct k; discriminate || reflexivity).
    unfold l. rewrite in_node_unit by exact U. fold l. unfold F in FC, FL. rewrite LK in FC, FL. cbn [app] in FC, FL.
    assert (K : pw scompat (unit_edits l L ++ SEP) /\ Forall (between L) (unit_edits l L ++ SEP) /\ Forall (inside 0 (l_end l)) (unit_edits l L ++ SEP)).
    { unfold l in *. clearbody i. subst s. apply unit_between; try tauto; try assumption. intros E. unfold SEP. rewrite E. reflexivity. }
    destruct K as (K1 & K2 & K3). apply fine_between; try assumption. subst s. exact K3.
  - unfold l. rewrite in_node_list by exact LK. fold l. unfold F in FC, FL. rewrite ?LK in FC, FL.
    assert (Q : Permutation (SEP ++ flat_map (fun c => comma_edit c ++ child_edits i c) L) ((flat_map comma_edit L ++ SEP) ++ flat_map (child_edits i) L)).
    { rewrite <- flat_map_perm2. rewrite app_assoc. apply Permutation_app_tail, Permutation_app_comm. }
    eapply fine_perm; [exact Q|]. destruct PS. now apply fine_between.
  - rewrite <- app_assoc. apply fine_ins; [exact INC|now apply in_node_cut|]. unfold F in FC, FL. rewrite ?LK in FC, FL. cbn [app] in FC, FL. destruct PS. now apply fine_between.
Qed.
End own.
