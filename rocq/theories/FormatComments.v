(** Formatting of documents with comments: where the comments go. *)
From Coq Require Import String List Arith NArith Bool Lia Sorting.Permutation Sorting.Sorted.
Import ListNotations.
From Verif Require Import Kinds KindFacts ParserSyntax ParserModel TextModel TextSpec TextProofs TextEditProofs LexerModel LexerSpec FormatData FormatModel FormatChain FormatSpec FormatTree FormatPieces FormatWeave FormatParse.

(** the comments of a tree outside error nodes, from the first to the last; [k] is the kind of the parent *)
Fixpoint free_under (k : kind) (x : tree) : list text :=
  match x with
  | Tok k' w => if kind_eqb k' K_Comment && negb (kind_eqb k K_Error) then [w] else []
  | Node k' cs => flat_map (free_under k') cs
  end.
Definition free_comments (x : tree) : list text := free_under K_Error x.

(** ** the comments that are taken out *)
Lemma marker_text s c ind : sc_text (comment_marker s c ind) = tree_text (el c).
Proof. unfold comment_marker. destruct (l_up c) as [|f r]; [reflexivity|]. destruct (attach_to s _ _ _ _) as [[[p b]|] e]; reflexivity. Qed.
Lemma taken s t : forall top st up ind k, wf top t -> is_node t = true ->
  Permutation (map sc_text (flat_map (fun x => comments_of s (fst x) (snd x)) (walk_tree t st up ind))) (free_under k t).
Proof.
  induction t as [k w|k cs IH] using tree_ind'; intros top st up ind k0 W Nt; [discriminate|]. apply wf_node in W as (_ & _ & W).
  cbn [walk_tree flat_map fst snd]. rewrite map_app. cbn [free_under].
  set (i := u8 (ind + inc_indent (Node k cs))).
  assert (O : map sc_text (comments_of s (mkloc (Node k cs) st up) ind) = if kind_eqb k K_Error then [] else map (fun c => tree_text (el c)) (filter (fun c => kind_eqb (l_kind c) K_Comment) (child_locs k st up [] cs st))).
  { unfold comments_of. change (l_kind (mkloc (Node k cs) st up)) with k. destruct (kind_eqb k K_Error); [reflexivity|]. rewrite map_map. cbn [children el l_start l_up]. apply map_ext. intros c. apply marker_text. }
  rewrite O. clear O. generalize (@nil tree) as left. set (a := st) at 2 4. clearbody a. clearbody i. revert a. induction cs as [|c r IHr]; intros a left; [destruct (kind_eqb k K_Error); constructor|].
  inversion W as [|? ? W1 W2]; subst. inversion IH as [|? ? I1 I2]; subst. specialize (IHr I2 W2 eq_refl). cbn [child_locs filter flat_map].
  specialize (IHr (a + tlen c) (c :: left)). rewrite flat_map_app, map_app.
  destruct c as [k' w|k' ds].
  - assert (Z : map sc_text (flat_map (fun x => comments_of s (fst x) (snd x)) (walk_tree (Tok k' w) a (mkframe k st left r :: up) i)) = []).
    { unfold walk_tree. unfold flat_map. unfold comments_of. cbn [fst snd el children]. destruct (kind_eqb (l_kind _) _); reflexivity. }
    rewrite Z, app_nil_r. cbn [free_under]. unfold l_kind at 1. cbn [el tkind]. destruct (kind_eqb k' K_Comment), (kind_eqb k K_Error); cbn [andb negb app map tree_text]; try exact IHr. constructor. exact IHr.
  - assert (Nk : kind_eqb k' K_Comment = false). { apply wf_node in W1 as (H & _). destruct (kind_eqb_spec k' K_Comment) as [->|]; [discriminate|reflexivity]. }
    unfold l_kind at 1. cbn [el tkind]. rewrite Nk. specialize (I1 false a (mkframe k st left r :: up) i k W1 eq_refl). rewrite app_assoc, IHr, I1. apply Permutation_app_comm.
Qed.

(** ** where they are attached: between two tokens *)
Definition ltext (ls : list lexeme) : text := flat_map snd ls.
Lemma ltext_app a b : ltext (a ++ b) = ltext a ++ ltext b.
Proof. exact (flat_map_app snd a b). Qed.
Definition edge (ls : list lexeme) (n : nat) : Prop := exists l1 l2, ls = l1 ++ l2 /\ n = byte_len (ltext l1).
Lemma tree_leaves t : ltext (leaves t) = tree_text t.
Proof. symmetry. apply leaves_text. Qed.
Lemma tlens_leaves cs : byte_len (ltext (flat_map leaves cs)) = list_sum (map tlen cs).
Proof. induction cs as [|c cs IH]; [reflexivity|]. cbn [flat_map map]. change (list_sum (tlen c :: map tlen cs)) with (tlen c + list_sum (map tlen cs)). rewrite ltext_app, byte_len_app, IH, tree_leaves. reflexivity. Qed.
Lemma attached s left : forall start between empty p b e, attach_to s left start between empty = (Some (p, b), e) -> exists l1 l2, left = l1 ++ l2 /\ p = start - list_sum (map tlen l1).
Proof.
  induction left as [|x r IH]; intros start between empty p b e H; cbn [attach_to] in H; [discriminate|]. destruct (trivial (tkind x)).
  - apply IH in H as (l1 & l2 & -> & ->). exists (x :: l1), l2. split; [reflexivity|]. change (list_sum (map tlen (x :: l1))) with (tlen x + list_sum (map tlen l1)). lia.
  - injection H as <- <- <-. exists [], (x :: r). split; [reflexivity|]. cbn. lia.
Qed.
Lemma sum_cons a l : list_sum (a :: l) = a + list_sum l.
Proof. reflexivity. Qed.
Lemma sums_rev l : list_sum (map tlen (rev l)) = list_sum (map tlen l).
Proof. induction l as [|x l IH]; [reflexivity|]. cbn [rev]. rewrite map_app, list_sum_app, IH. cbn [map]. rewrite !sum_cons. change (list_sum []) with 0. lia. Qed.
Lemma node_edges s k cs l1 l2 st up ind : forall a lf, Forall (fun m => edge (l1 ++ flat_map leaves (rev lf ++ cs) ++ l2) (sc_pos m)) (map (fun c => comment_marker s c ind) (filter (fun c => kind_eqb (l_kind c) K_Comment) (child_locs k st up lf cs a))) \/ st <> byte_len (ltext l1) \/ a <> st + list_sum (map tlen lf).
Proof.
  induction cs as [|c r IH]; intros a lf; [left; constructor|]. destruct (Nat.eq_dec st (byte_len (ltext l1))) as [Es|]; [|auto]. destruct (Nat.eq_dec a (st + list_sum (map tlen lf))) as [Ea|]; [|auto]. left.
  cbn [child_locs filter]. specialize (IH (a + tlen c) (c :: lf)). destruct IH as [IH|[N|N]]; [|contradiction|cbn [map] in N; rewrite sum_cons in N; lia].
  cbn [rev] in IH. rewrite <- app_assoc in IH. cbn [app] in IH. destruct (kind_eqb _ K_Comment); [|exact IH]. cbn [map]. constructor; [|exact IH]. clear IH.
  unfold comment_marker. cbn [l_up f_left f_start f_right el l_start f_kind]. destruct (attach_to s lf a [] false) as [[[p b]|] e] eqn:A; cbn [sc_pos].
  - apply attached in A as (x1 & x2 & -> & ->). exists (l1 ++ flat_map leaves (rev x2)), (flat_map leaves (rev x1 ++ c :: r) ++ l2). split.
    + rewrite rev_app_distr, !flat_map_app, <- !app_assoc. reflexivity.
    + rewrite ltext_app, byte_len_app, tlens_leaves, sums_rev, <- Es. rewrite Ea, map_app, list_sum_app. lia.
  - assert (edge (l1 ++ flat_map leaves (rev lf ++ c :: r) ++ l2) 0) as E0 by (exists [], (l1 ++ flat_map leaves (rev lf ++ c :: r) ++ l2); split; reflexivity).
    assert (edge (l1 ++ flat_map leaves (rev lf ++ c :: r) ++ l2) (st + list_sum (map tlen lf) + tlen c + list_sum (map tlen r))) as E1.
    { exists (l1 ++ flat_map leaves (rev lf ++ c :: r)), l2. split; [rewrite app_assoc; reflexivity|]. rewrite ltext_app, byte_len_app, tlens_leaves, map_app, list_sum_app, sums_rev, <- Es. cbn [map]. rewrite sum_cons. lia. }
    destruct k; first [exact E0|exact E1].
Qed.
Lemma edges s t : forall l1 l2 st up ind, st = byte_len (ltext l1) -> Forall (fun m => edge (l1 ++ leaves t ++ l2) (sc_pos m)) (flat_map (fun x => comments_of s (fst x) (snd x)) (walk_tree t st up ind)).
Proof.
  induction t as [k w|k cs IH] using tree_ind'; intros l1 l2 st up ind Es; cbn [walk_tree flat_map fst snd]; apply Forall_app; split.
  - unfold comments_of. destruct (kind_eqb _ _); constructor.
  - constructor.
  - unfold comments_of. destruct (kind_eqb _ _); [constructor|]. cbn [children el l_start l_up leaves]. destruct (node_edges s k cs l1 l2 st up (u8 (ind + inc_indent (Node k cs))) st []) as [H|[H|H]]; [exact H|contradiction|cbn in H; lia].
  - cbn [leaves]. generalize (u8 (ind + inc_indent (Node k cs))) as i. intros i.
    assert (G : forall ds left a, rev left ++ ds = cs -> a = st + list_sum (map tlen left) -> Forall (fun m => edge (l1 ++ flat_map leaves cs ++ l2) (sc_pos m))
      (flat_map (fun x => comments_of s (fst x) (snd x)) ((fix go (left cs : list tree) (at_ : nat) : list (loc * nat) := match cs with [] => [] | c :: r => go (c :: left) r (at_ + tlen c) ++ walk_tree c at_ (mkframe k st left r :: up) i end) left ds a))).
    { induction ds as [|d ds IHd]; intros left a Ec Ea; [constructor|]. rewrite flat_map_app. apply Forall_app. split.
      - apply IHd; [cbn [rev]; rewrite <- app_assoc; exact Ec|cbn [map]; rewrite sum_cons; lia].
      - assert (Hd : In d cs) by (rewrite <- Ec; apply in_app_iff; right; left; reflexivity). rewrite Forall_forall in IH. specialize (IH d Hd (l1 ++ flat_map leaves (rev left)) (flat_map leaves ds ++ l2) a (mkframe k st left ds :: up) i).
        replace (l1 ++ flat_map leaves cs ++ l2) with ((l1 ++ flat_map leaves (rev left)) ++ leaves d ++ flat_map leaves ds ++ l2).
        + apply IH. rewrite ltext_app, byte_len_app, tlens_leaves, sums_rev, <- Es. exact Ea.
        + rewrite <- Ec, flat_map_app. cbn [flat_map]. rewrite <- !app_assoc. reflexivity. }
    apply G; [reflexivity|cbn; lia].
Qed.

(** ** their positions *)
Definition comes (t : text) (m : scomment) (c : comment) (n : nat) : Prop :=
  c_text c = sc_text m /\ n <= length t /\ byte_len (firstn n t) = sc_pos m /\ c_pos c = position_after (firstn n t).
Lemma tc_here_ok pre suf ms : forall done rest, tc_here (byte_len pre) (position_after pre) ms = (done, rest) -> exists ms1, ms = ms1 ++ rest /\ Forall2 (fun m c => comes (pre ++ suf) m c (length pre)) ms1 done.
Proof.
  induction ms as [|m ms IH]; intros done rest H; cbn [tc_here] in H; [injection H as <- <-; exists []; split; [reflexivity|constructor]|]. destruct (Nat.eqb_spec (byte_len pre) (sc_pos m)) as [E|N].
  - destruct (tc_here _ _ ms) as [d r]. injection H as <- <-. destruct (IH _ _ eq_refl) as (ms1 & -> & F). exists (m :: ms1). split; [reflexivity|]. constructor; [|exact F]. unfold comes. cbn [c_text c_pos]. rewrite firstn_app, firstn_all, Nat.sub_diag, firstn_O, app_nil_r, app_length. repeat split; [lia|exact E].
  - injection H as <- <-. exists []. split; [reflexivity|constructor].
Qed.
Lemma tc_scan_ok suf : forall pre ms l, tc_scan suf (byte_len pre) (position_after pre) ms = FDone l -> exists ns, Forall2 (fun m x => comes (pre ++ suf) m (fst x) (snd x)) ms (combine l ns) /\ length ns = length l.
Proof.
  induction suf as [|c suf IH]; intros pre ms l H; cbn [tc_scan] in H; destruct (tc_here _ _ ms) as [done rest] eqn:T.
  - destruct (tc_here_ok pre [] _ _ _ T) as (ms1 & -> & F). destruct rest; [|discriminate]. injection H as <-. exists (map (fun _ => length pre) done). rewrite app_nil_r in F. rewrite !app_nil_r, map_length. split; [|reflexivity]. clear T. induction F; cbn [map combine]; constructor; auto.
  - destruct (tc_here_ok pre (c :: suf) _ _ _ T) as (ms1 & -> & F). destruct rest as [|r0 rest].
    + injection H as <-. exists (map (fun _ => length pre) done). rewrite app_nil_r, map_length. split; [|reflexivity]. clear T. induction F; cbn [map combine]; constructor; auto.
    + destruct (tc_scan suf _ _ _) as [l'| |] eqn:Sc; try discriminate. cbn [fbind] in H. injection H as <-. replace (byte_len pre + len_utf8 c) with (byte_len (pre ++ [c])) in Sc by (rewrite byte_len_app; cbn; lia). rewrite advance_pos_pstep, <- position_after_snoc in Sc. apply IH in Sc as (ns & F' & L).
      rewrite <- app_assoc in F'. cbn [app] in F'. exists (map (fun _ => length pre) done ++ ns). rewrite !app_length, map_length, L. split; [|reflexivity].
      assert (Ec : combine (done ++ l') (map (fun _ => length pre) done ++ ns) = combine done (map (fun _ => length pre) done) ++ combine l' ns) by (clear; induction done as [|d done IHd]; [reflexivity|cbn [app map combine]; rewrite IHd; reflexivity]).
      rewrite Ec. apply Forall2_app; [|exact F']. clear -F. induction F; cbn [map combine]; constructor; auto.
Qed.
Lemma positions t ms l : transform_comments ms t = FDone l -> exists ms' ns, Permutation ms ms' /\ length ns = length l /\ Forall2 (fun m x => comes t m (fst x) (snd x)) ms' (combine l ns).
Proof.
  unfold transform_comments. intros H. apply (tc_scan_ok t []) in H as (ns & F & L). eexists. exists ns. split; [apply sort_by_perm|]. split; [exact L|exact F].
Qed.
