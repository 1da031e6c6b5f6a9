(** Elements of a tree by byte range, and the tokens behind a node. *)
From Coq Require Import String List Arith NArith Bool Lia Sorted.
Import ListNotations.
From Verif Require Import ServerModel Kinds KindFacts ParserModel TextModel TextSpec TextProofs LexerRegex LexerModel LexerSpec LexerProps FormatData FormatModel FormatTree FormatText FormatParse FormatWeave
  TreeModel TreePlace TreeShape TreeRename VarModel VarSpec VarRegions VarDoc LexRename VarProps DiagModel DiagSpec DiagRest JumpProps QuickFixModel.

(** ** covering_element *)
Lemma covering_go from to f : forall cs i off j c, nth_error cs j = Some c -> from < to ->
  off + byte_len (flat_map tree_text (firstn j cs)) <= from -> to <= off + byte_len (flat_map tree_text (firstn j cs)) + byte_len (tree_text c) ->
  (fix go (i off : nat) (cs : list tree) : path :=
      match cs with
      | [] => []
      | c :: cs => let stop := off + byte_len (tree_text c) in
                   if (off <=? from) && (to <=? stop) then i :: f off c else go (S i) stop cs
      end) i off cs = (i + j) :: f (off + byte_len (flat_map tree_text (firstn j cs))) c.
Proof.
  induction cs as [|d cs IH]; intros i off j c E L H1 H2; [destruct j; discriminate|]. destruct j as [|j].
  - injection E as ->. cbn [firstn flat_map byte_len] in *. rewrite ?Nat.add_0_r in *. rewrite (proj2 (Nat.leb_le _ _) H1), (proj2 (Nat.leb_le _ _) H2). cbn [andb]. rewrite ?Nat.add_0_r. reflexivity.
  - cbn [nth_error] in E. cbn [firstn flat_map] in *. rewrite byte_len_app in *. cbv zeta. rewrite (proj2 (Nat.leb_gt to _)) by lia. rewrite andb_false_r.
    rewrite (IH (S i) (off + byte_len (tree_text d)) j c E L) by lia. f_equal; [lia|]. f_equal. lia.
Qed.
Lemma covering_none from to f : forall cs i off, (forall j c, nth_error cs j = Some c -> off + byte_len (flat_map tree_text (firstn j cs)) <= from -> to <= off + byte_len (flat_map tree_text (firstn j cs)) + byte_len (tree_text c) -> False) ->
  (fix go (i off : nat) (cs : list tree) : path :=
      match cs with
      | [] => []
      | c :: cs => let stop := off + byte_len (tree_text c) in
                   if (off <=? from) && (to <=? stop) then i :: f off c else go (S i) stop cs
      end) i off cs = [].
Proof.
  induction cs as [|d cs IH]; intros i off H; [reflexivity|]. cbv zeta. destruct ((off <=? from) && (to <=? off + byte_len (tree_text d))) eqn:B.
  - exfalso. apply andb_true_iff in B as [B1 B2]. apply Nat.leb_le in B1, B2. apply (H 0 d eq_refl); cbn [firstn flat_map byte_len]; lia.
  - apply IH. intros j c E H1 H2. apply (H (S j) c E); cbn [firstn flat_map]; rewrite byte_len_app; lia.
Qed.
(** the smallest element that has the text of a node with two parts is the node *)
Lemma covering_node x : forall off p k cs, at_path x p = Some (Node k cs) -> cs <> [] -> (forall j c, nth_error cs j = Some c -> byte_len (tree_text c) < byte_len (flat_map tree_text cs)) ->
  covering off (off + start_at x p) (off + start_at x p + byte_len (flat_map tree_text cs)) x = p.
Proof.
  induction x as [k0 w|k0 ds IH] using tree_ind'; intros off [|i p] k cs E Ne H; cbn [at_path] in E; try discriminate.
  - injection E as <- <-. cbn [covering start_at]. rewrite Nat.add_0_r. apply (covering_none off (off + byte_len (flat_map tree_text ds)) (fun o c => covering o off (off + byte_len (flat_map tree_text ds)) c)).
    intros j c Ej H1 H2. specialize (H j c Ej). lia.
  - destruct (nth_error ds i) as [c|] eqn:C; [|discriminate]. cbn [covering start_at]. rewrite C. set (b := byte_len (flat_map tree_text (firstn i ds))).
    assert (Pos : 0 < byte_len (flat_map tree_text cs)). { destruct cs as [|c0 cs]; [congruence|]. specialize (H 0 c0 eq_refl). lia. }
    pose proof (nth_error_Forall _ _ _ _ IH C (off + b) p k cs E Ne H) as R.
    assert (Le : start_at c p + byte_len (flat_map tree_text cs) <= byte_len (tree_text c)). { destruct (node_slice _ _ _ E) as (u & v & T & B & _). rewrite T. rewrite !byte_len_app, B. cbn [tree_text]. lia. }
    set (from := off + (b + start_at c p)). set (to := from + byte_len (flat_map tree_text cs)).
    refine (eq_trans (covering_go from to (fun o c => covering o from to c) ds 0 off i c C _ _ _) _); [unfold from, to; fold b; lia..|]. cbn [Nat.add]. f_equal. fold b. refine (eq_trans _ R). f_equal; unfold to, from; lia.
Qed.

(** ** the leaves and their paths *)
Lemma forall2_len {A B} (R : A -> B -> Prop) l m : Forall2 R l m -> length l = length m.
Proof. induction 1; cbn; congruence. Qed.
Fixpoint placed_at (o : nat) (ls : list lexeme) : list (nat * lexeme) := match ls with [] => [] | l :: ls => (o, l) :: placed_at (o + byte_len (snd l)) ls end.
Lemma placed_at_app a : forall o b, placed_at o (a ++ b) = placed_at o a ++ placed_at (o + byte_len (flat_map snd a)) b.
Proof. induction a as [|l a IH]; intros o b; [cbn; rewrite Nat.add_0_r; reflexivity|]. cbn [app placed_at flat_map]. rewrite byte_len_app, IH, Nat.add_assoc. reflexivity. Qed.
Lemma placed_at_len o ls : length (placed_at o ls) = length ls.
Proof. revert o; induction ls as [|l ls IH]; intros o; [reflexivity|]. cbn. f_equal. apply IH. Qed.
Definition stands (x : tree) (o : nat) (p : path) (e : nat * lexeme) : Prop := at_path x p = Some (Tok (fst (snd e)) (snd (snd e))) /\ o + start_at x p = fst e.
Lemma leaves_placed x : forall o, Forall2 (stands x o) (leaf_paths x) (placed_at o (leaves x)).
Proof.
  induction x as [k w|k cs IH] using tree_ind'; intros o.
  - cbn. constructor; [split; [reflexivity|cbn; lia]|constructor].
  - cbn [leaf_paths leaves]. assert (G : forall l m i, cs = l ++ m -> length l = i -> Forall2 (stands (Node k cs) o) (concat (imap (fun i c => map (cons i) (leaf_paths c)) i m)) (placed_at (o + byte_len (flat_map tree_text l)) (flat_map leaves m))).
    { intros l m. revert l. induction m as [|c m IHm]; intros l i E L; [constructor|]. cbn [imap concat flat_map]. rewrite placed_at_app. apply Forall2_app.
      - assert (nth_error cs i = Some c) as Ei by (rewrite E, nth_error_app2, L, Nat.sub_diag by lia; reflexivity). pose proof (nth_error_Forall _ _ _ _ IH Ei (o + byte_len (flat_map tree_text l))) as F.
        clear IHm. induction F as [|p e ps es [H1 H2] _ IHF]; [constructor|]. cbn [map]. constructor; [|exact IHF]. split; [cbn [at_path]; rewrite Ei; exact H1|]. cbn [start_at]. rewrite Ei. rewrite E, <- L, firstn_exact. lia.
      - replace (o + byte_len (flat_map tree_text l) + byte_len (flat_map snd (leaves c))) with (o + byte_len (flat_map tree_text (l ++ [c]))).
        + apply IHm; [rewrite <- app_assoc; exact E|rewrite app_length, L; cbn; lia].
        + rewrite flat_map_app, byte_len_app. cbn [flat_map]. rewrite app_nil_r, leaves_text. lia. }
    specialize (G [] cs 0 eq_refl eq_refl). cbn [flat_map byte_len] in G. rewrite Nat.add_0_r in G. exact G.
Qed.
(** the tokens before, in and behind a node *)
Fixpoint leaves_before (x : tree) (p : path) : list lexeme :=
  match p with
  | [] => []
  | i :: p => match x with Node _ cs => flat_map leaves (firstn i cs) ++ match nth_error cs i with Some c => leaves_before c p | None => [] end | Tok _ _ => [] end
  end.
Fixpoint leaves_behind (x : tree) (p : path) : list lexeme :=
  match p with
  | [] => []
  | i :: p => match x with Node _ cs => match nth_error cs i with Some c => leaves_behind c p | None => [] end ++ flat_map leaves (skipn (S i) cs) | Tok _ _ => [] end
  end.
Lemma imap_app {A B} (f : nat -> A -> B) l m : forall i, imap f i (l ++ m) = imap f i l ++ imap f (i + length l) m.
Proof. induction l as [|x l IH]; intros i; cbn [app imap length]; [rewrite Nat.add_0_r; reflexivity|]. rewrite IH. do 3 f_equal. lia. Qed.
Lemma leaf_count x : length (leaf_paths x) = length (leaves x).
Proof. rewrite <- (placed_at_len 0 (leaves x)). apply (forall2_len _ _ _ (leaves_placed x 0)). Qed.
Lemma leaves_around x : forall p y, at_path x p = Some y ->
  leaves x = leaves_before x p ++ leaves y ++ leaves_behind x p /\
  exists ps qs, leaf_paths x = ps ++ map (app p) (leaf_paths y) ++ qs /\ length ps = length (leaves_before x p) /\ length qs = length (leaves_behind x p).
Proof.
  induction x as [k w|k cs IH] using tree_ind'; intros [|i p] y E; cbn [at_path] in E; try discriminate.
  1,2: injection E as <-; cbn [leaves_before leaves_behind app]; rewrite app_nil_r; (split; [reflexivity|]); exists [], []; cbn [app]; rewrite app_nil_r; (split; [symmetry; apply map_id|auto]).
  destruct (nth_error cs i) as [c|] eqn:C; [|discriminate]. destruct (nth_error_Forall _ _ _ _ IH C _ _ E) as (E1 & ps & qs & E2 & L1 & L2). cbn [leaves_before leaves_behind]. rewrite C.
  apply nth_error_split in C as (pre & post & -> & Li). subst i. rewrite firstn_exact. assert (skipn (S (length pre)) (pre ++ c :: post) = post) as Sk by (change (c :: post) with ([c] ++ post); rewrite app_assoc; replace (S (length pre)) with (length (pre ++ [c])) by (rewrite app_length; cbn; lia); apply skipn_exact). rewrite Sk.
  split; [cbn [leaves]; rewrite flat_map_app; cbn [flat_map]; rewrite E1, <- !app_assoc; reflexivity|].
  assert (Cnt : forall l i, length (concat (imap (fun i c => map (cons i) (leaf_paths c)) i l)) = length (flat_map leaves l)).
  { induction l as [|d l IHl]; intros i; [reflexivity|]. cbn [imap concat flat_map]. rewrite !app_length, map_length, leaf_count, IHl. reflexivity. }
  cbn [leaf_paths]. rewrite imap_app, concat_app. cbn [imap concat Nat.add]. rewrite E2, !map_app, map_map.
  exists (concat (imap (fun i c => map (cons i) (leaf_paths c)) 0 pre) ++ map (cons (length pre)) ps), (map (cons (length pre)) qs ++ concat (imap (fun i c => map (cons i) (leaf_paths c)) (S (length pre)) post)).
  split; [rewrite <- !app_assoc; reflexivity|]. split; rewrite !app_length, map_length, Cnt; [rewrite L1|rewrite L2]; reflexivity.
Qed.
Lemma leaf_nodup y : NoDup (leaf_paths y).
Proof. induction (leaf_paths_sorted y) as [|p l _ IH F]; constructor; [|exact IH]. intros H. rewrite Forall_forall in F. specialize (F _ H). clear -F. induction p as [|i p IHp]; inversion F; subst; [lia|auto]. Qed.
Lemma behind_split p : forall a b, ~ In p a -> behind p (a ++ p :: b) = b.
Proof.
  induction a as [|q a IH]; intros b H; cbn [app behind].
  - rewrite (proj2 (path_eqb_eq p p) eq_refl). reflexivity.
  - destruct (path_eqb p q) eqn:E; [apply path_eqb_eq in E; exfalso; apply H; left; congruence|]. apply IH. intros K. apply H. right. exact K.
Qed.
Lemma tokens_after_placed x p y : at_path x p = Some y -> leaves y <> [] ->
  Forall2 (stands x 0) (tokens_after x p) (placed_at (byte_len (flat_map snd (leaves_before x p ++ leaves y))) (leaves_behind x p)).
Proof.
  intros E N. destruct (leaves_around _ _ _ E) as (E1 & ps & qs & E2 & L1 & L2). unfold tokens_after, last_token. rewrite E. unfold last_of.
  assert (exists ms m, leaf_paths y = ms ++ [m]) as (ms & m & Em). { destruct (leaf_paths y) as [|a l] eqn:El using rev_ind; [exfalso; apply N; pose proof (leaf_count y) as C; rewrite El in C; destruct (leaves y); [reflexivity|discriminate]|eauto]. }
  rewrite Em, rev_app_distr. cbn [rev app hd_error option_map].
  assert (leaf_paths x = (ps ++ map (app p) ms) ++ (p ++ m) :: qs) as E3 by (rewrite E2, Em, map_app, <- !app_assoc; reflexivity).
  assert (~ In (p ++ m) (ps ++ map (app p) ms)) as Nin. { pose proof (leaf_nodup x) as ND. rewrite E3 in ND. apply NoDup_remove_2 in ND. intros K. apply ND. apply in_app_iff. left. exact K. }
  rewrite E3, (behind_split _ _ _ Nin). pose proof (leaves_placed x 0) as F. rewrite E1, app_assoc, placed_at_app in F. rewrite E2, app_assoc in F.
  apply Forall2_app_inv_l in F as (a & b & Fa & Fb & Eab). pose proof (forall2_len _ _ _ Fa) as La. apply app_eq_app in Eab as (l & [[Ea Eb]|[Ea Eb]]).
  - assert (l = []) as ->. { apply (f_equal (@length _)) in Ea. rewrite !app_length in *. rewrite placed_at_len, map_length, leaf_count in *. rewrite app_length in *. destruct l; [reflexivity|cbn in *; lia]. } cbn [app] in Eb. first [rewrite Eb; exact Fb|rewrite <- Eb; exact Fb|subst b; exact Fb].
  - assert (l = []) as ->. { apply (f_equal (@length _)) in Ea. rewrite !app_length in *. rewrite placed_at_len, map_length, leaf_count in *. rewrite app_length in *. destruct l; [reflexivity|cbn in *; lia]. } cbn [app] in Eb. first [rewrite Eb; exact Fb|rewrite <- Eb; exact Fb|subst b; exact Fb].
Qed.
