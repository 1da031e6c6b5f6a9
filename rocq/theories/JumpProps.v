(** Jump to the next or previous place of interest: C60.  [t] is the text of the document, [x] its tree, [f] the formatted text and [y] the tree of that. *)
From Coq Require Import String List Arith NArith ZArith Bool Lia Sorted Permutation.
Import ListNotations.
From Verif Require Import ServerModel Kinds KindFacts ParserModel GrammarData ParserOutcome
  TextModel TextSpec TextProofs TextEditProofs TextProps LexerRegex LexerModel LexerSpec LexerProps FormatData FormatModel FormatChain FormatSpec FormatTree FormatText FormatWeave FormatParse FormatProps
  TreeModel TreePlace TreeShape TreeKids VarModel VarSpec VarDoc LexRename LexLayout VarRegions VarProps DiagModel DiagSpec AstFacts DiagFacts DiagRest OnTypeModel OnTypeProofs FoldProps JumpModel.

(** ** what a jump is to do *)
(** the places of interest: behind the SELECT clause (going back: before the WHERE clause), at the end of every group
    pattern, behind the last token; with what is inserted on the left and on the right of the cursor *)
Inductive stop (x : tree) (prev : bool) : place -> Prop :=
| stop_select q c : prev = false -> node_at x q K_SelectQuery -> part x q K_SelectClause c -> stop x prev (mkplace (end_at x c) [SPACE] [])
| stop_where q c : prev = true -> node_at x q K_SelectQuery -> part x q K_WhereClause c -> stop x prev (mkplace (start_at x c) [] [SPACE])
| stop_group g n y i k : node_at x g K_GroupGraphPattern -> at_path x (g ++ [n]) = Some y -> at_path x (g ++ [S n]) = None -> node_at x (g ++ [i]) k ->
    stop x prev (mkplace (start_at x (g ++ [n])) [SPACE; SPACE] [NL])
| stop_empty_group g n y : node_at x g K_GroupGraphPattern -> at_path x (g ++ [n]) = Some y -> at_path x (g ++ [S n]) = None -> (forall i k, ~ node_at x (g ++ [i]) k) ->
    stop x prev (mkplace (start_at x (g ++ [n])) [NL; SPACE; SPACE] [NL])
| stop_end p k w : at_path x p = Some (Tok k w) -> k <> K_WHITESPACE -> (forall q k' w', doc_before p q -> at_path x q = Some (Tok k' w') -> k' = K_WHITESPACE) ->
    stop x prev (mkplace (end_at x p) [NL] []).
(** the place to go to from [offset]: the nearest one beyond it, and if there is none the first one (going back: the last one) *)
Definition beyond (prev : bool) (offset n : nat) : Prop := if prev then n < offset else offset < n.
Definition nearer (prev : bool) (m n : nat) : Prop := if prev then n <= m else m <= n.
Definition nearest (stops : place -> Prop) (prev : bool) (offset : nat) (p : place) : Prop :=
  stops p /\
  ((beyond prev offset (p_offset p) /\ forall q, stops q -> beyond prev offset (p_offset q) -> nearer prev (p_offset p) (p_offset q)) \/
   ((forall q, stops q -> ~ beyond prev offset (p_offset q)) /\ forall q, stops q -> nearer prev (p_offset p) (p_offset q))).
(** where a place [i] characters into [t] is after the edits [ds]: behind [a] in [a ++ b].  A place inside an edited range goes behind the new text. *)
Definition moved (t : text) (ds : list cedit) (i : nat) (a b : text) : Prop :=
  (exists d1 d2, ds = d1 ++ d2 /\ Forall (fun d => cj d <= i) d1 /\ Forall (fun d => i <= ci d /\ i < cj d) d2 /\ a = splice 0 (firstn i t) d1 /\ b = splice i (skipn i t) d2) \/
  (exists d1 d d2, ds = d1 ++ d :: d2 /\ ci d < i /\ i < cj d /\ a = splice 0 (firstn (ci d) t) d1 ++ cnew d /\ b = splice (cj d) (skipn (cj d) t) d2).

(** ** the cursor and the edits *)
Section sort.
Context {A : Type} (key : A -> nat).
Let cmp (x y : A) : comparison := Nat.compare (key x) (key y).
Lemma insert_last e l : Forall (fun a => key a < key e) l -> sorted_insert cmp e l = l ++ [e].
Proof.
  induction 1 as [|a l H _ IH]; [reflexivity|]. cbn [sorted_insert app]. unfold cmp at 1. destruct (Nat.compare_spec (key e) (key a)); [lia|lia|]. rewrite IH. reflexivity.
Qed.
Lemma sort_rev l : StronglySorted (fun a b => key a < key b) l -> sort_by cmp (rev l) = l.
Proof.
  induction l as [|e l IH] using rev_ind; intros H; [reflexivity|]. rewrite rev_app_distr. unfold sort_by. cbn [rev app fold_right].
  assert (StronglySorted (fun a b => key a < key b) l /\ Forall (fun a => key a < key e) l) as [H1 H2].
  { clear -H. induction l as [|a l IH]; [split; constructor|]. cbn [app] in H. inversion H as [|? ? H1 H2]; subst. destruct (IH H1) as [I1 I2]. apply Forall_app in H2 as [H2 H3]. inversion H3; subst. split; constructor; assumption. }
  change (sorted_insert cmp e (sort_by cmp (rev l)) = l ++ [e]). rewrite (IH H1). apply insert_last, H2.
Qed.
End sort.
Definition bl (i : nat) (t : text) : nat := byte_len (firstn i t).
Lemma bl_lt t i j : i < j -> j <= length t -> bl i t < bl j t.
Proof.
  intros H L. unfold bl. rewrite <- (firstn_skipn i (firstn j t)), firstn_firstn, Nat.min_l, byte_len_app by lia. destruct (skipn i (firstn j t)) as [|c r] eqn:E.
  - apply (f_equal (@length _)) in E. rewrite skipn_length, firstn_length in E. cbn in E. lia.
  - rewrite byte_len_cons. pose proof (len_utf8_pos c). lia.
Qed.
Lemma bl_le t i j : i <= length t -> j <= length t -> (bl i t <= bl j t <-> i <= j).
Proof.
  intros Hi Hj. destruct (Nat.lt_trichotomy i j) as [H|[->|H]]; [pose proof (bl_lt _ _ _ H Hj)|..]; [lia|lia|]. pose proof (bl_lt _ _ _ H Hi). lia.
Qed.
Lemma bl_step t i j : i <= j -> bl j t = bl i t + byte_len (firstn (j - i) (skipn i t)).
Proof.
  intros H. unfold bl. rewrite <- (firstn_skipn i (firstn j t)) at 1. rewrite firstn_firstn, Nat.min_l, byte_len_app by lia. f_equal. f_equal. rewrite skipn_firstn_comm. reflexivity.
Qed.
Lemma byte_index_at t i : no_cr t -> i <= length t -> byte_index (position_after (firstn i t)) t = Some (bl i t).
Proof.
  intros N L. unfold bl. rewrite <- (firstn_skipn i t) at 2. apply byte_index_of_position; rewrite ?firstn_skipn; [apply no_cr_crlf, N|]. intros (a & b & E & _). apply N. rewrite <- (firstn_skipn i t), E. apply in_app_iff. left. apply in_app_iff. right. left. reflexivity.
Qed.
Definition bedit (t : text) (d : cedit) : nat * nat * nat := (bl (ci d) t, bl (cj d) t, byte_len (cnew d)).
Lemma byte_edits_ok t es ds : no_cr t -> Forall2 (edit_denotes t) es ds -> byte_edits es t = VDone (map (bedit t) ds).
Proof.
  intros N F. unfold byte_edits. set (g := fun e => _). assert (vmap g es = VDone (map (fun d => Some (bedit t d)) ds)) as ->.
  { induction F as [|e d es ds ((H1 & H2) & H3 & H4 & H5) F IH]; [reflexivity|]. cbn [vmap map]. rewrite IH. unfold g at 1, to_byte_index_range. rewrite <- H3, <- H4, (byte_index_at t (ci d) N), (byte_index_at t (cj d) N) by lia.
    destruct (Nat.ltb_spec (bl (cj d) t) (bl (ci d) t)) as [K|K]; [apply (bl_le t (ci d) (cj d)) in H1; lia|]. cbn [vbind option_map]. rewrite H5. reflexivity. }
  cbn [vbind]. f_equal. unfold flatten. clear. induction ds as [|d ds IH]; [reflexivity|]. cbn [map flat_map app]. rewrite IH. reflexivity.
Qed.
Lemma splice_cut t at_ d ds i : at_ <= i -> i <= ci d -> ci d <= cj d -> splice at_ (skipn at_ t) (d :: ds) = firstn (i - at_) (skipn at_ t) ++ splice i (skipn i t) (d :: ds).
Proof.
  intros H1 H2 H3. cbn [splice]. assert (firstn (ci d - at_) (skipn at_ t) = firstn (i - at_) (skipn at_ t) ++ firstn (ci d - i) (skipn i t)) as ->.
  { rewrite <- (firstn_skipn (i - at_) (firstn (ci d - at_) (skipn at_ t))), firstn_firstn, Nat.min_l by lia. f_equal. rewrite skipn_firstn_comm, FormatChain.skipn_skipn. replace (ci d - at_ - (i - at_)) with (ci d - i) by lia. replace (i - at_ + at_) with i by lia. reflexivity. }
  rewrite <- app_assoc. rewrite !FormatChain.skipn_skipn. replace (cj d - at_ + at_) with (cj d - i + i) by lia. reflexivity.
Qed.
Lemma shift_moved t i : i <= length t -> forall ds at_ P, at_ <= i -> Forall (fun d => at_ <= ci d /\ ci d <= cj d /\ cj d <= length t) ds -> StronglySorted cgap ds ->
  exists a b, splice at_ (skipn at_ t) ds = a ++ b /\ shift_offset (bl i t) (map (bedit t) ds) (Z.of_nat P - Z.of_nat (bl at_ t)) = P + byte_len a /\
    ((exists d1 d2, ds = d1 ++ d2 /\ Forall (fun d => cj d <= i) d1 /\ Forall (fun d => i <= ci d /\ i < cj d) d2 /\ a = splice at_ (firstn (i - at_) (skipn at_ t)) d1 /\ b = splice i (skipn i t) d2) \/
     (exists d1 d d2, ds = d1 ++ d :: d2 /\ ci d < i /\ i < cj d /\ a = splice at_ (firstn (ci d - at_) (skipn at_ t)) d1 ++ cnew d /\ b = splice (cj d) (skipn (cj d) t) d2)).
Proof.
  intros Li. induction ds as [|d ds IH]; intros at_ P Ha F S.
  - exists (firstn (i - at_) (skipn at_ t)), (skipn i t). split; [|split].
    + cbn [splice]. rewrite <- (firstn_skipn (i - at_) (skipn at_ t)) at 1. rewrite FormatChain.skipn_skipn. do 2 f_equal. lia.
    + cbn [map shift_offset]. rewrite (bl_step t at_ i Ha). lia.
    + left. exists [], []. split; [reflexivity|]. split; [constructor|]. split; [constructor|]. auto.
  - inversion F as [|? ? (F1 & F2 & F3) F']; subst. inversion S as [|? ? S' G]; subst. cbn [map shift_offset bedit].
    assert (Hs : splice at_ (skipn at_ t) (d :: ds) = firstn (ci d - at_) (skipn at_ t) ++ cnew d ++ splice (cj d) (skipn (cj d) t) ds).
    { cbn [splice]. rewrite FormatChain.skipn_skipn. do 4 f_equal. lia. }
    destruct (Nat.leb_spec (bl (cj d) t) (bl i t)) as [H|H].
    + apply bl_le in H; [|assumption|assumption].
      destruct (IH (cj d) (P + byte_len (firstn (ci d - at_) (skipn at_ t)) + byte_len (cnew d)) H) as (a & b & E & Es & M).
      { rewrite Forall_forall in *. intros e He. specialize (F' e He). specialize (G e He). unfold cgap in G. lia. }
      { exact S'. }
      exists (firstn (ci d - at_) (skipn at_ t) ++ cnew d ++ a), b. split; [rewrite Hs, E, <- !app_assoc; reflexivity|]. split.
      * rewrite !byte_len_app. pose proof (bl_step t at_ (ci d) F1) as B1. pose proof (proj2 (bl_le t (ci d) (cj d) ltac:(lia) F3) F2) as B2.
        match type of Es with shift_offset _ _ ?z = _ => match goal with |- shift_offset _ _ ?z' = _ => replace z' with z by lia end end. rewrite Es. lia.
      * assert (Hf : forall n, cj d <= n -> forall d1, splice at_ (firstn (n - at_) (skipn at_ t)) (d :: d1) = firstn (ci d - at_) (skipn at_ t) ++ cnew d ++ splice (cj d) (firstn (n - cj d) (skipn (cj d) t)) d1).
        { intros n Hn d1. cbn [splice]. rewrite firstn_firstn, Nat.min_l by lia. do 3 f_equal. rewrite skipn_firstn_comm, FormatChain.skipn_skipn. replace (n - at_ - (cj d - at_)) with (n - cj d) by lia. replace (cj d - at_ + at_) with (cj d) by lia. reflexivity. }
        destruct M as [(d1 & d2 & -> & M1 & M2 & -> & ->)|(d1 & e & d2 & -> & M1 & M2 & -> & ->)].
        -- left. exists (d :: d1), d2. split; [reflexivity|]. split; [constructor; assumption|]. split; [exact M2|]. split; [|reflexivity]. rewrite (Hf i H). reflexivity.
        -- right. exists (d :: d1), e, d2. split; [reflexivity|]. split; [exact M1|]. split; [exact M2|]. split; [|reflexivity].
           assert (cj d <= ci e) by (rewrite Forall_forall in G; specialize (G e ltac:(apply in_app_iff; right; left; reflexivity)); unfold cgap in G; lia). rewrite (Hf (ci e)) by assumption. rewrite <- !app_assoc. reflexivity.
    + assert (i < cj d) as Hi by (destruct (Nat.lt_ge_cases i (cj d)) as [K|K]; [exact K|apply (bl_le t) in K; lia]).
      destruct (Nat.ltb_spec (bl (ci d) t) (bl i t)) as [K|K].
      * assert (ci d < i) as Hc by (destruct (Nat.lt_ge_cases (ci d) i) as [Q|Q]; [exact Q|apply (bl_le t) in Q; lia]).
        exists (firstn (ci d - at_) (skipn at_ t) ++ cnew d), (splice (cj d) (skipn (cj d) t) ds). split; [rewrite Hs, <- app_assoc; reflexivity|]. split.
        -- rewrite byte_len_app. pose proof (bl_step t at_ (ci d) F1). lia.
        -- right. exists [], d, ds. split; [reflexivity|]. auto.
      * apply bl_le in K; [|lia|lia]. exists (firstn (i - at_) (skipn at_ t)), (splice i (skipn i t) (d :: ds)). split; [apply splice_cut; assumption|]. split.
        -- rewrite (bl_step t at_ i Ha). lia.
        -- left. exists [], (d :: ds). split; [reflexivity|]. split; [constructor|]. split; [|auto]. constructor; [auto|]. rewrite Forall_forall in *. intros e He. specialize (G e He). unfold cgap in G. lia.
Qed.
Lemma map_offset_moved t es ds i : no_cr t -> i <= length t -> Forall2 (edit_denotes t) (rev es) ds -> StronglySorted cgap ds ->
  exists a b, splice 0 t ds = a ++ b /\ map_offset_through_edits (bl i t) es t = VDone (byte_len a) /\ moved t ds i a b.
Proof.
  intros N Li F S. assert (Fd : Forall (fun d => 0 <= ci d /\ ci d <= cj d /\ cj d <= length t) ds) by (clear -F; induction F as [|e d l ds ((H1 & H2) & _) _ IH]; constructor; [lia|exact IH]).
  destruct (shift_moved t i Li ds 0 0 (Nat.le_0_l i) Fd S) as (a & b & E & Es & M). exists a, b. split; [exact E|]. rewrite Nat.sub_0_r in *. split.
  - unfold map_offset_through_edits. assert (F' : Forall2 (edit_denotes t) es (rev ds)) by (rewrite <- (rev_involutive es); apply Forall2_rev', F). rewrite (byte_edits_ok _ _ _ N F'). cbn [vbind]. f_equal.
    rewrite map_rev, (sort_rev (fun x => fst (fst x))).
    + exact Es.
    + clear -S Fd. induction S as [|d ds S IH G]; [constructor|]. inversion Fd as [|? ? Hd Fd']; subst. cbn [map]. constructor; [apply IH, Fd'|]. apply Forall_forall. intros z Hz. apply in_map_iff in Hz as (e & <- & He).
      rewrite Forall_forall in G, Fd'. specialize (G e He). specialize (Fd' e He). unfold cgap in G. cbn [bedit fst]. apply bl_lt; lia.
  - destruct M as [(d1 & d2 & M)|(d1 & d & d2 & M)]; [left; exists d1, d2|right; exists d1, d, d2; rewrite Nat.sub_0_r in M]; exact M.
Qed.

(** ** the places of interest *)
Lemma places_sorted y prev : StronglySorted (fun a b => p_offset a <= p_offset b) (relevant_positions y prev).
Proof.
  unfold relevant_positions. destruct (kind_is y [] K_QueryUnit); [|constructor]. apply sort_by_sorted.
  - intros a b H. destruct (Nat.compare_spec (p_offset a) (p_offset b)); [lia|lia|congruence].
  - intros a b H. destruct (Nat.compare_spec (p_offset a) (p_offset b)); [discriminate|discriminate|lia].
  - intros a b c H1 H2. lia.
Qed.
Lemma in_group_place y g p : node_at y g K_GroupGraphPattern -> In p (group_place y g) <->
  exists n z, at_path y (g ++ [n]) = Some z /\ at_path y (g ++ [S n]) = None /\
    (((exists i k, node_at y (g ++ [i]) k) /\ p = mkplace (start_at y (g ++ [n])) [SPACE; SPACE] [NL]) \/ ((forall i k, ~ node_at y (g ++ [i]) k) /\ p = mkplace (start_at y (g ++ [n])) [NL; SPACE; SPACE] [NL])).
Proof.
  intros [cs E]. unfold group_place, last_index_of. rewrite E. pose proof (fun i => AstFacts.at_child y g _ _ i E) as C.
  assert (U : forall n z, at_path y (g ++ [n]) = Some z -> at_path y (g ++ [S n]) = None -> cs <> [] /\ n = length cs - 1).
  { intros n z H1 H2. rewrite C in H1, H2. assert (n < length cs) by (apply nth_error_Some; congruence). apply nth_error_None in H2. split; [intros ->; cbn in *; lia|lia]. }
  destruct cs as [|c cs].
  - split; [intros []|]. intros (n & z & H1 & H2 & _). destruct (U _ _ H1 H2) as [H _]. congruence.
  - assert (L : exists z, at_path y (g ++ [length cs]) = Some z /\ at_path y (g ++ [S (length cs)]) = None).
    { destruct (nth_error (c :: cs) (length cs)) as [z|] eqn:Ez; [|apply nth_error_None in Ez; cbn in Ez; lia]. exists z. rewrite !C. split; [exact Ez|]. apply nth_error_None. cbn. lia. }
    destruct L as (z & L1 & L2). assert (K : match first_child y g with Some _ => exists i k, node_at y (g ++ [i]) k | None => forall i k, ~ node_at y (g ++ [i]) k end).
    { destruct (first_child y g) as [q|] eqn:Eq; [apply first_child_spec in Eq as (i & k & -> & H & _); eauto|]. intros i k. exact (first_child_none _ _ i k Eq). }
    split.
    + intros [<-|[]]. exists (length cs), z. split; [exact L1|]. split; [exact L2|]. destruct (first_child y g); [left; split; [exact K|reflexivity]|right; split; [exact K|reflexivity]].
    + intros (n & z' & H1 & H2 & H3). destruct (U _ _ H1 H2) as [_ ->]. cbn [length] in *. rewrite Nat.sub_succ, Nat.sub_0_r in H3. left. destruct (first_child y g).
      * destruct H3 as [[_ ->]|[H3 _]]; [reflexivity|]. destruct K as (i & k & K). destruct (H3 i k K).
      * destruct H3 as [[(i & k & H3) _]|[_ ->]]; [destruct (K i k H3)|reflexivity].
Qed.
Lemma kind_is_tok y p k w k' : at_path y p = Some (Tok k w) -> kind_is y p k' = kind_eqb k k'.
Proof. intros E. unfold kind_is, kind_at. rewrite E. reflexivity. Qed.
Lemma leaf_order y p q : (exists k w, at_path y p = Some (Tok k w)) -> (exists k w, at_path y q = Some (Tok k w)) -> doc_before p q \/ p = q \/ doc_before q p.
Proof.
  rewrite <- !in_leaf_paths. pose proof (leaf_paths_sorted y) as S. induction S as [|a l S IH H]; [intros []|]. rewrite Forall_forall in H. intros [<-|Hp] [<-|Hq]; auto.
Qed.
Lemma in_end_place y p : In p (end_place y) <->
  exists q k w, at_path y q = Some (Tok k w) /\ k <> K_WHITESPACE /\ (forall r k' w', doc_before q r -> at_path y r = Some (Tok k' w') -> k' = K_WHITESPACE) /\ p = mkplace (end_at y q) [NL] [].
Proof.
  unfold end_place. set (f := fun p => negb (kind_is y p K_WHITESPACE)). pose proof (leaf_paths_sorted y) as S. pose proof (in_leaf_paths y) as I.
  assert (G : forall l, StronglySorted doc_before l -> match find f (rev l) with
    | Some q => In q l /\ f q = true /\ forall r, In r l -> doc_before q r -> f r = false
    | None => forall r, In r l -> f r = false end).
  { clear. induction l as [|q l IH] using rev_ind; intros S; [intros r []|]. rewrite rev_app_distr. cbn [rev app find].
    assert (StronglySorted doc_before l /\ Forall (fun a => doc_before a q) l) as [S1 S2].
    { clear -S. induction l as [|a l IH]; [split; constructor|]. cbn [app] in S. inversion S as [|? ? H1 H2]; subst. destruct (IH H1) as [I1 I2]. apply Forall_app in H2 as [H2 H3]. inversion H3; subst. split; constructor; assumption. }
    destruct (f q) eqn:Fq.
    - split; [apply in_app_iff; right; left; reflexivity|]. split; [exact Fq|]. intros r Hr B. apply in_app_iff in Hr as [Hr|[<-|[]]]; [|destruct (doc_before_irrefl _ B)].
      rewrite Forall_forall in S2. specialize (S2 r Hr). destruct (doc_before_irrefl q). eapply doc_before_trans; eassumption.
    - specialize (IH S1). destruct (find f (rev l)) as [q'|].
      + destruct IH as (H1 & H2 & H3). split; [apply in_app_iff; left; exact H1|]. split; [exact H2|]. intros r Hr B. apply in_app_iff in Hr as [Hr|[<-|[]]]; [apply H3; assumption|exact Fq].
      + intros r Hr. apply in_app_iff in Hr as [Hr|[<-|[]]]; [apply IH, Hr|exact Fq]. }
  specialize (G _ S). assert (Fk : forall r k w, at_path y r = Some (Tok k w) -> f r = true <-> k <> K_WHITESPACE).
  { intros r k w E. unfold f. rewrite (kind_is_tok _ _ _ _ _ E). destruct (kind_eqb_spec k K_WHITESPACE); cbn; intuition congruence. }
  destruct (find f (rev (leaf_paths y))) as [q|].
  - destruct G as (H1 & H2 & H3). apply I in H1 as (k & w & E). split.
    + intros [<-|[]]. exists q, k, w. split; [exact E|]. split; [apply (Fk _ _ _ E), H2|]. split; [|reflexivity]. intros r k' w' B E'. assert (f r = false) as Fr by (apply H3; [apply I; eauto|exact B]).
      destruct (kind_eqb_spec k' K_WHITESPACE) as [Ek|Nk]; [exact Ek|]. apply (Fk _ _ _ E') in Nk. congruence.
    + intros (q' & k' & w' & E' & N' & L' & ->). left. f_equal. f_equal. destruct (leaf_order y q q') as [B|[->|B]]; [eauto|eauto|..]; [..|reflexivity|].
      * assert (f q' = false) by (apply H3; [apply I; eauto|exact B]). apply (Fk _ _ _ E') in N'. congruence.
      * specialize (L' _ _ _ B E). apply (Fk _ _ _ E) in H2. congruence.
  - split; [intros []|]. intros (q & k & w & E & N & _). assert (f q = false) by (apply G, I; eauto). apply (Fk _ _ _ E) in N. congruence.
Qed.
Lemma in_select_place err f y prev p : doc_tree err f y -> query_doc y -> In p (select_place y prev) <->
  exists q c, node_at y q K_SelectQuery /\ ((prev = false /\ part y q K_SelectClause c /\ p = mkplace (end_at y c) [SPACE] []) \/ (prev = true /\ part y q K_WhereClause c /\ p = mkplace (start_at y c) [] [SPACE])).
Proof.
  intros D Q. unfold select_place.
  destruct (select_query y) as [sq|] eqn:E.
  - apply (select_query_iff _ _ _ _ D Q) in E as N. assert (U : forall q, node_at y q K_SelectQuery -> q = sq) by (intros q Hq; apply (select_query_iff _ _ _ _ D Q) in Hq; congruence). destruct prev.
    + pose proof (fun c => where_clause_iff err f y sq K_SelectQuery c D N eq_refl) as W. destruct (where_clause y sq) as [wc|].
      * split; [intros [<-|[]]; exists sq, wc; split; [exact N|]; right; split; [reflexivity|]; split; [apply W; reflexivity|reflexivity]|]. intros (q & c & Hq & [[H _]|(_ & H & ->)]); [discriminate|]. apply U in Hq. subst q. apply W in H. injection H as ->. left. reflexivity.
      * split; [intros []|]. intros (q & c & Hq & [[H _]|(_ & H & ->)]); [discriminate|]. apply U in Hq. subst q. apply W in H. discriminate.
    + pose proof (fun c => select_clause_iff err f y sq K_SelectQuery c D N eq_refl) as W. destruct (select_clause y sq) as [wc|].
      * split; [intros [<-|[]]; exists sq, wc; split; [exact N|]; left; split; [reflexivity|]; split; [apply W; reflexivity|reflexivity]|]. intros (q & c & Hq & [(_ & H & ->)|[H _]]); [|discriminate]. apply U in Hq. subst q. apply W in H. injection H as ->. left. reflexivity.
      * split; [intros []|]. intros (q & c & Hq & [(_ & H & ->)|[H _]]); [|discriminate]. apply U in Hq. subst q. apply W in H. discriminate.
  - split; [intros []|]. intros (q & c & Hq & _). apply (select_query_iff _ _ _ _ D Q) in Hq. congruence.
Qed.
Lemma places_iff err f y prev p : doc_tree err f y -> In p (relevant_positions y prev) <-> query_doc y /\ stop y prev p.
Proof.
  intros D. unfold relevant_positions. destruct (doc_root _ _ _ D) as (k & R & _). rewrite (kind_is_node _ _ _ _ R). destruct (kind_eqb_spec k K_QueryUnit) as [->|N].
  2: { split; [intros []|]. intros [Q _]. destruct (N (node_at_fun _ _ _ _ R Q)). }
  assert (Q : query_doc y) by exact R. match goal with |- In p (sort_by ?c ?l) <-> _ => assert (In p (sort_by c l) <-> In p l) as -> by (split; apply Permutation_in; [symmetry|]; apply sort_by_perm) end. rewrite !in_app_iff, (in_select_place _ _ _ _ _ D Q), in_flat_map, in_end_place. split.
  - intros H. split; [exact Q|]. destruct H as [(q & c & Hq & [(-> & H & ->)|(-> & H & ->)])|[(g & Hg & Hp)|(q & k & w & H1 & H2 & H3 & ->)]].
    + eapply stop_select; eauto.
    + eapply stop_where; eauto.
    + apply in_nodes_of_kind in Hg as (r & _ & Hg). apply (in_group_place _ _ _ Hg) in Hp as (n & z & H1 & H2 & [[(i & k & H3) ->]|[H3 ->]]); [eapply stop_group|eapply stop_empty_group]; eauto.
    + eapply stop_end; eauto.
  - intros [_ [q c E H1 H2|q c E H1 H2|g n z i k H1 H2 H3 H4|g n z H1 H2 H3 H4|q k w H1 H2 H3]].
    + left. exists q, c. split; [exact H1|]. left. auto.
    + left. exists q, c. split; [exact H1|]. right. auto.
    + right. left. exists g. split; [apply in_nodes_of_kind; exists g; auto|]. apply (in_group_place _ _ _ H1). exists n, z. split; [exact H2|]. split; [exact H3|]. left. split; [eauto|reflexivity].
    + right. left. exists g. split; [apply in_nodes_of_kind; exists g; auto|]. apply (in_group_place _ _ _ H1). exists n, z. split; [exact H2|]. split; [exact H3|]. right. split; [exact H4|reflexivity].
    + right. right. exists q, k, w. auto.
Qed.

(** ** the nearest of them *)
Lemma target_nearest l prev offset : StronglySorted (fun a b => p_offset a <= p_offset b) l ->
  match jump_target l prev offset with Some p => nearest (fun q => In q l) prev offset p | None => l = [] end.
Proof.
  intros S. assert (G : forall f l (R : place -> place -> Prop), StronglySorted R l -> (forall a, R a a) -> match or_else (find f l) (hd_error l) with
    | Some p => In p l /\ ((f p = true /\ forall q, In q l -> f q = true -> R p q) \/ ((forall q, In q l -> f q = false) /\ forall q, In q l -> R p q))
    | None => l = [] end).
  { clear. intros f l R S Rr. destruct (find f l) as [p|] eqn:E; cbn [or_else].
    - assert (In p l /\ f p = true /\ forall q, In q l -> f q = true -> R p q) as (H1 & H2 & H3); [|auto].
      induction S as [|a l S IH H]; [discriminate|]. cbn [find] in E. rewrite Forall_forall in H. destruct (f a) eqn:Fa.
      + injection E as <-. split; [left; reflexivity|]. split; [exact Fa|]. intros q [<-|Hq] _; [apply Rr|apply H, Hq].
      + destruct (IH E) as (H1 & H2 & H3). split; [right; exact H1|]. split; [exact H2|]. intros q [<-|Hq] Fq; [congruence|auto].
    - destruct l as [|a l]; [reflexivity|]. cbn [hd_error]. split; [left; reflexivity|]. right. split; [intros q Hq; apply (find_none _ _ E), Hq|]. inversion S as [|? ? _ H]; subst. rewrite Forall_forall in H. intros q [<-|Hq]; auto. }
  unfold jump_target, last_of. destruct prev.
  - specialize (G (fun p => p_offset p <? offset) (rev l) (fun a b => p_offset b <= p_offset a)). cbn beta in G. destruct (or_else _ _) as [p|].
    + destruct G as [G1 G2]; [apply (sorted_rev (fun a b => p_offset a <= p_offset b)), S|intros a; apply Nat.le_refl|]. rewrite <- in_rev in G1. split; [exact G1|]. unfold beyond, nearer. destruct G2 as [[H1 H2]|[H1 H2]].
      * left. apply Nat.ltb_lt in H1. split; [exact H1|]. intros q Hq L. apply H2; [apply -> in_rev; exact Hq|apply Nat.ltb_lt, L].
      * right. split; [intros q Hq L; apply Nat.ltb_lt in L; rewrite H1 in L; [discriminate|apply -> in_rev; exact Hq]|]. intros q Hq. apply H2. apply -> in_rev. exact Hq.
    + rewrite <- (rev_involutive l), G; [reflexivity|apply (sorted_rev (fun a b => p_offset a <= p_offset b)), S|intros a; apply Nat.le_refl].
  - specialize (G (fun p => offset <? p_offset p) l (fun a b => p_offset a <= p_offset b) S (fun a => Nat.le_refl _)). destruct (or_else _ _) as [p|]; [|exact G]. destruct G as [G1 G2]. split; [exact G1|]. unfold beyond, nearer. destruct G2 as [[H1 H2]|[H1 H2]].
    + left. apply Nat.ltb_lt in H1. split; [exact H1|]. intros q Hq L. apply H2; [exact Hq|apply Nat.ltb_lt, L].
    + right. split; [intros q Hq L; apply Nat.ltb_lt in L; rewrite (H1 q Hq) in L; discriminate|exact H2].
Qed.
(** ** places are between tokens *)
Lemma node_leaves x : forall p y, at_path x p = Some y -> exists l1 l2, leaves x = l1 ++ leaves y ++ l2 /\ byte_len (flat_map snd l1) = start_at x p.
Proof.
  induction x as [k w|k cs IH] using tree_ind'; intros [|i p] y E; cbn [at_path] in E; try discriminate.
  - injection E as <-. exists [], []. rewrite app_nil_r. auto.
  - injection E as <-. exists [], []. rewrite app_nil_r. auto.
  - destruct (nth_error cs i) as [c|] eqn:C; [|discriminate]. destruct (nth_error_Forall _ _ _ _ IH C _ _ E) as (l1 & l2 & E1 & E2). apply nth_error_split in C as C'. destruct C' as (pre & post & -> & Li).
    exists (flat_map leaves pre ++ l1), (l2 ++ flat_map leaves post). cbn [leaves]. rewrite flat_map_app. cbn [flat_map]. rewrite E1. split; [rewrite <- !app_assoc; reflexivity|].
    cbn [start_at]. rewrite C, flat_map_app, byte_len_app. f_equal; [|exact E2]. subst i. rewrite firstn_exact. f_equal. clear. induction pre as [|d pre IH]; [reflexivity|]. cbn [flat_map]. rewrite flat_map_app, IH, <- leaves_text. reflexivity.
Qed.
Lemma boundary_split err f y p z : doc_tree err f y -> at_path y p = Some z ->
  (exists l1 l2, lex err f = l1 ++ l2 /\ start_at y p = byte_len (flat_map snd l1)) /\ (exists l1 l2, lex err f = l1 ++ l2 /\ end_at y p = byte_len (flat_map snd l1)).
Proof.
  intros D E. destruct (node_leaves _ _ _ E) as (l1 & l2 & H1 & H2). rewrite (doc_leaves _ _ _ D) in H1. split; [exists l1, (leaves z ++ l2); auto|]. exists (l1 ++ leaves z), l2. split; [rewrite <- app_assoc; exact H1|].
  unfold end_at, text_at. rewrite E, flat_map_app, byte_len_app. f_equal; [symmetry; exact H2|]. rewrite leaves_text. reflexivity.
Qed.
Lemma stop_split err f y prev p : doc_tree err f y -> stop y prev p -> exists l1 l2, lex err f = l1 ++ l2 /\ p_offset p = byte_len (flat_map snd l1).
Proof.
  intros D [q c E H1 [_ [cs H2]]|q c E H1 [_ [cs H2]]|g n z i k H1 H2 H3 H4|g n z H1 H2 H3 H4|q k w H1 H2 H3]; cbn [p_offset]; eapply boundary_split; eassumption.
Qed.

(** ** C60 *)
Section Jumps.
Context (width : text -> nat) (s : fsettings) (reparse : text -> option tree) (err : text -> nat).
(** [reparse] is the parser *)
Context (reparse_tree : forall u y, reparse u = Some y -> doc_tree err u y).
Lemma doc_formats o t x : doc_tree err t x -> formats width s o err t (format_document width s o t x).
Proof. intros (gas & g & errs & P & ->). exists gas. unfold format_lexed. rewrite P. reflexivity. Qed.
Lemma insert_ok f y prev offset : doc_tree err f y -> exists r, jump_insert f (jump_target (relevant_positions y prev) prev offset) = VDone r /\
  ((exists p l1 l2, nearest (fun q => query_doc y /\ stop y prev q) prev offset p /\ lex err f = l1 ++ l2 /\ p_offset p = byte_len (flat_map snd l1) /\
      j_text r = flat_map snd l1 ++ (p_before p ++ p_after p) ++ flat_map snd l2 /\ j_position r = Some (position_after (flat_map snd l1 ++ p_before p))) \/
   ((forall q, query_doc y -> ~ stop y prev q) /\ j_text r = f /\ j_position r = None)).
Proof.
  intros D. pose proof (target_nearest (relevant_positions y prev) prev offset (places_sorted y prev)) as T. pose proof (fun p => places_iff err f y prev p D) as I. unfold jump_insert. destruct (jump_target _ _ _) as [p|].
  - assert (N : nearest (fun q => query_doc y /\ stop y prev q) prev offset p).
    { destruct T as [T1 T2]. split; [apply I, T1|]. destruct T2 as [[H1 H2]|[H1 H2]]; [left; split; [exact H1|]|right; split]; intros q Hq; [apply H2|apply H1|apply H2]; apply I, Hq. }
    destruct (stop_split err f y prev p D (proj2 (proj1 N))) as (l1 & l2 & L & O). assert (f = flat_map snd l1 ++ flat_map snd l2) as Ef by (pose proof (lex_text err f) as T'; rewrite L, flat_map_app in T'; symmetry; exact T').
    rewrite O. replace (split_byte f (byte_len (flat_map snd l1))) with (Some (flat_map snd l1, flat_map snd l2)) by (rewrite Ef; symmetry; apply split_byte_app). eexists. split; [reflexivity|]. left. exists p, l1, l2. split; [exact N|]. split; [exact L|]. split; [exact O|]. cbn [j_text j_position]. split; [reflexivity|].
    rewrite <- byte_len_app. rewrite <- !app_assoc. rewrite app_assoc. apply from_byte_index_boundary.
  - eexists. split; [reflexivity|]. right. split; [|auto]. intros q Q S. assert (In q (relevant_positions y prev)) as H by (apply I; auto). rewrite T in H. destruct H.
Qed.
(** the document is formatted; the cursor goes to the nearest place of interest, seen from where it is in the formatted
    document; the text of that place is inserted between two tokens around it *)
Theorem C60_jump_partial options t x at_ i prev r : doc_tree err t x -> no_comment err t -> plain_insert err t -> no_cr t -> denotes t at_ i ->
  jump width s reparse options x t at_ prev = Reply r ->
  let back := match prev with Some b => b | None => false end in
  exists es ds f a b y,
    format_document width s (match options with Some o => o | None => mkfo 2 true end) t x = FDone es /\ Forall2 (edit_denotes t) (rev es) ds /\ StronglySorted before ds /\
    apply_text_edits t es = Done f /\ moved t ds i a b /\ (f = a ++ b \/ f = a ++ b ++ [NL]) /\ doc_tree err f y /\
    ((exists p l1 l2, nearest (fun q => query_doc y /\ stop y back q) back (byte_len a) p /\ lex err f = l1 ++ l2 /\ p_offset p = byte_len (flat_map snd l1) /\
        j_text r = flat_map snd l1 ++ (p_before p ++ p_after p) ++ flat_map snd l2 /\ j_position r = Some (position_after (flat_map snd l1 ++ p_before p))) \/
     ((forall q, query_doc y -> ~ stop y back q) /\ j_text r = f /\ j_position r = None)).
Proof.
  intros D Hc Hp N (Li & Hi & _) H back. set (o := match options with Some o => o | None => mkfo 2 true end) in *. unfold jump in H. fold back o in H. rewrite <- Hi, (byte_index_at t i N Li) in H.
  destruct (formatted_gap _ _ _ _ _ _ Hc Hp (doc_formats o t x D)) as (es & ds & E & F & S & _). rewrite E in H.
  destruct (map_offset_moved t es ds i N Li F S) as (a & b & Es & Em & M). rewrite Em in H.
  assert (Sb : StronglySorted before ds) by (apply cgap_before; [clear -F; induction F as [|e d l ds Dn _ IH]; constructor; [apply Dn|exact IH]|exact S]).
  destruct (C05_simultaneous_edits t es (rev es) ds (Permutation_rev es) F Sb) as (f & A & Ff). rewrite A in H. destruct (reparse f) as [y|] eqn:Ry; [|discriminate]. pose proof (reparse_tree _ _ Ry) as Dy.
  destruct (insert_ok f y back (byte_len a) Dy) as (r' & J & K). rewrite J in H. cbn [of_vout] in H. injection H as ->.
  exists es, ds, f, a, b, y. split; [exact E|]. split; [exact F|]. split; [exact Sb|]. split; [exact A|]. split; [exact M|]. split; [|split; [exact Dy|exact K]].
  rewrite Es in Ff. destruct Ff as [[_ ->]|[_ ->]]; [left; reflexivity|right; rewrite app_assoc; reflexivity].
Qed.
(** nothing is lost: the new document has the characters of the old one, but for white space and the case of keywords *)
Theorem C60_same_characters options t x at_ prev r : doc_tree err t x -> no_comment err t -> plain_insert err t -> jump width s reparse options x t at_ prev = Reply r -> letters (j_text r) = letters t.
Proof.
  intros D Hc Hp H. unfold jump in H. destruct (byte_index at_ t) as [off|]; [|discriminate]. pose proof (doc_formats (match options with Some o => o | None => mkfo 2 true end) t x D) as F.
  destruct (format_document _ _ _ _ _) as [es| |]; try discriminate. destruct (map_offset_through_edits off es t) as [offset| |]; [|destruct (apply_text_edits t es); discriminate|discriminate].
  destruct (apply_text_edits t es) as [f| |] eqn:A; try discriminate. destruct (reparse f) as [y|] eqn:Ry; [|discriminate].
  destruct (insert_ok f y (match prev with Some b => b | None => false end) offset (reparse_tree _ _ Ry)) as (r' & J & K). rewrite J in H. cbn [of_vout] in H. injection H as ->.
  rewrite <- (C38_same_characters _ _ _ _ _ _ _ Hc Hp F A). destruct K as [(p & l1 & l2 & ([_ P] & _) & L & _ & -> & _)|(_ & -> & _)]; [|reflexivity].
  transitivity (letters (flat_map snd l1 ++ flat_map snd l2)); [|f_equal; pose proof (lex_text err f) as T'; rewrite L, flat_map_app in T'; exact T'].
  rewrite !letters_app. replace (letters (p_before p) ++ letters (p_after p)) with (@nil char); [reflexivity|]. destruct P; reflexivity.
Qed.
(** the request is answered unless the position is not in the document (or the parser panics on the formatted text) *)
Theorem C60_answered options t x at_ prev : doc_tree err t x -> no_comment err t -> plain_insert err t -> no_cr t ->
  (forall es f, format_document width s (match options with Some o => o | None => mkfo 2 true end) t x = FDone es -> apply_text_edits t es = Done f -> exists y, reparse f = Some y) ->
  (byte_index at_ t = None /\ jump width s reparse options x t at_ prev = Refused InvalidRequest) \/ exists r, jump width s reparse options x t at_ prev = Reply r.
Proof.
  intros D Hc Hp N R. unfold jump. destruct (byte_index at_ t) as [off|] eqn:B; [|left; auto]. right.
  set (o := match options with Some o => o | None => mkfo 2 true end) in *. destruct (formatted_gap _ _ _ _ _ _ Hc Hp (doc_formats o t x D)) as (es & ds & E & F & S & _). rewrite E.
  apply (byte_index_sound _ _ _ (no_cr_crlf _ N)) in B as (u & v & Et & -> & _). assert (length u <= length t) as Lu by (rewrite Et, app_length; lia). replace (byte_len u) with (bl (length u) t) by (unfold bl; rewrite Et, firstn_exact; reflexivity).
  destruct (map_offset_moved t es ds (length u) N Lu F S) as (a & b & Es & Em & M). rewrite Em. destruct (C37_applies _ _ _ _ _ _ Hc Hp ltac:(rewrite <- E; apply doc_formats, D)) as (f & A). rewrite A.
  destruct (R _ _ E A) as (y & Ry). rewrite Ry. destruct (insert_ok f y (match prev with Some b => b | None => false end) (byte_len a) (reparse_tree _ _ Ry)) as (r & J & _). rewrite J. cbn. eauto.
Qed.
End Jumps.
(** a query that is not blank has a place of interest: its end *)
Theorem C60_place err f y prev k w : doc_tree err f y -> query_doc y -> In (k, w) (lex err f) -> k <> K_WHITESPACE -> exists p, stop y prev p.
Proof.
  intros D Q Hin N. assert (exists p, In p (end_place y)) as (p & Hp).
  { unfold end_place. destruct (find _ _) as [q|] eqn:E; [eexists; left; reflexivity|]. exfalso. rewrite <- (doc_leaves _ _ _ D) in Hin.
    assert (exists q, at_path y q = Some (Tok k w)) as (q & Eq).
    { clear -Hin. revert Hin. induction y as [k' w'|k' cs IH] using tree_ind'; cbn [leaves]; intros H.
      - destruct H as [H|[]]. injection H as -> ->. exists []. reflexivity.
      - apply in_flat_map in H as (c & Hc & H). rewrite Forall_forall in IH. destruct (IH c Hc H) as (q & Hq). apply In_nth_error in Hc as (i & Hi). exists (i :: q). cbn [at_path]. rewrite Hi. exact Hq. }
    assert (In q (rev (leaf_paths y))) as Hq by (apply -> in_rev; apply in_leaf_paths; eauto). pose proof (find_none _ _ E q Hq) as K. cbn beta in K. rewrite (kind_is_tok _ _ _ _ _ Eq) in K. destruct (kind_eqb_spec k K_WHITESPACE); [congruence|discriminate]. }
  exists p. apply (places_iff err f y prev p D). unfold relevant_positions. unfold query_doc in Q. rewrite (kind_is_node _ _ _ _ Q), kind_eqb_refl. eapply Permutation_in; [apply sort_by_perm|]. apply in_app_iff. right. apply in_app_iff. right. exact Hp.
Qed.

(** ** examples *)
Local Open Scope string_scope.
Local Open Scope list_scope.
Definition reparse0 (u : text) : option tree := if parses u then Some (tree_of u) else None.
Lemma reparse0_tree u y : reparse0 u = Some y -> doc_tree (fun _ => 0) u y.
Proof. unfold reparse0. destruct (parses u) eqn:P; [|discriminate]. intros H. injection H as <-. apply parses_tree, P. Qed.
Definition jump0 (t : text) (at_ : pos) (prev : bool) : option (text * option pos) :=
  match jump no_width default_fsettings reparse0 None (tree_of t) t at_ (Some prev) with Reply r => Some (j_text r, j_position r) | _ => None end.
Definition jumped_query : text := chars "SELECT ?s { ?s ?p ?o { } }".
(** from the start behind SELECT ?s, from behind SELECT into the first group; from the start backwards to the end of the document *)
Example C60_witness : doc_tree (fun _ => 0) jumped_query (tree_of jumped_query) /\ no_comment (fun _ => 0) jumped_query /\ plain_insert (fun _ => 0) jumped_query /\ no_cr jumped_query /\ denotes jumped_query (mkpos 0 8) 8 /\
  jump0 jumped_query (mkpos 0 8) false = Some (lines ["SELECT ?s  {"; "  ?s ?p ?o"; "  {}"; "}"], Some (mkpos 0 10)) /\
  jump0 jumped_query (mkpos 0 12) false = Some (lines ["SELECT ?s {"; "  ?s ?p ?o"; "  {"; "  "; "}"; "}"], Some (mkpos 3 2)) /\
  jump0 jumped_query (mkpos 0 0) true = Some (lines ["SELECT ?s {"; "  ?s ?p ?o"; "  {}"; "}"; ""], Some (mkpos 4 0)).
Proof.
  split; [apply parses_tree; vm_compute; reflexivity|]. split; [apply no_commentb_ok; vm_compute; reflexivity|]. split; [apply plain_insertb_ok; vm_compute; reflexivity|].
  assert (N : no_cr jumped_query) by (intros H; vm_compute in H; intuition discriminate). split; [exact N|]. split.
  { split; [vm_compute; lia|]. split; [vm_compute; reflexivity|]. intros (a & b & E & _). apply N. rewrite E. apply in_app_iff. right. left. reflexivity. }
  split; [vm_compute; reflexivity|]. split; vm_compute; reflexivity.
Qed.
