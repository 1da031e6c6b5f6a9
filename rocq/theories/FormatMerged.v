(** Formatting of documents with comments: the comments are put into the edits. *)
From Coq Require Import String List Arith NArith Bool Lia Sorting.Permutation Sorting.Sorted.
Import ListNotations.
From Verif Require Import Kinds KindFacts ParserSyntax ParserModel TextModel TextSpec TextProofs TextEditProofs LexerModel LexerSpec FormatData FormatModel FormatChain FormatSpec FormatTree FormatPieces FormatWeave FormatParse FormatComments FormatArrange FormatWoven.

(** ** order of places *)
Lemma places_lt t i j : i <= length t -> j <= length t -> pos_ltb (position_after (firstn i t)) (position_after (firstn j t)) = (i <? j).
Proof.
  intros Hi Hj. destruct (Nat.ltb_spec i j) as [H|H].
  - apply pos_ltb_lt, position_after_lt; lia.
  - destruct (pos_ltb _ _) eqn:E; [|reflexivity]. apply pos_ltb_lt, position_after_lt_inv in E; lia.
Qed.
Lemma places_le t i j : i <= length t -> j <= length t -> pos_leb (position_after (firstn i t)) (position_after (firstn j t)) = (i <=? j).
Proof.
  intros Hi Hj. destruct (Nat.leb_spec i j) as [H|H].
  - apply pos_leb_le. destruct (Nat.eq_dec i j) as [->|N]; [apply pos_le_refl|]. left. apply position_after_lt; lia.
  - destruct (pos_leb _ _) eqn:E; [|reflexivity]. apply pos_leb_le in E. exfalso. eapply pos_le_lt_absurd; [exact E|]. apply position_after_lt; lia.
Qed.

(** ** edits in terms of pieces *)
Definition at_run (F : list fpiece) (c : cedit) (F1 run F2 : list fpiece) : Prop :=
  F = F1 ++ run ++ F2 /\ ci c = length (ftexts F1) /\ cj c = length (ftexts (F1 ++ run)).
Definition eok (F : list fpiece) (c : cedit) (cs : list text) : Prop := exists F1 run F2, at_run F c F1 run F2 /\ wovenc false run F2 cs (cnew c).
Definition firm (F : list fpiece) (c : cedit) (cs : list text) : Prop :=
  exists F1 run F2, at_run F c F1 run F2 /\ wovenc false run F2 cs (cnew c) /\ (good (unmark run) (cnew c) \/ fresh (run ++ F2)).
Lemma firm_eok F c cs : firm F c cs -> eok F c cs.
Proof. intros (a & b & d & H & W & _). exists a, b, d. auto. Qed.
Definition full (F : list fpiece) : Prop := Forall (fun p => snd (snd p) <> []) F.
Lemma longer (p : fpiece) F : snd (snd p) <> [] -> 0 < length (ftexts (p :: F)).
Proof. intros H. destruct p as [f [c w]]. cbn [snd] in H. unfold ftexts, unmark, texts. cbn [map flat_map snd]. rewrite app_length. destruct w; [congruence|]. cbn. lia. Qed.
Lemma full_prefix F a x b y : full F -> F = a ++ x -> F = b ++ y -> length (ftexts a) <= length (ftexts b) -> exists z, b = a ++ z /\ x = z ++ y.
Proof.
  revert a x b y. induction F as [|p P IH]; intros a x b y N Ea Eb H.
  - symmetry in Ea, Eb. apply app_eq_nil in Ea as [-> ->], Eb as [-> ->]. exists []. auto.
  - destruct a as [|p1 a]; [exists b; cbn in *; split; congruence|]. injection Ea as <- Ea. inversion N as [|? ? Np N']. subst. destruct b as [|p2 b].
    + exfalso. pose proof (longer p a Np). cbn [ftexts unmark map texts flat_map length] in H. unfold ftexts, unmark, texts in *. cbn [map flat_map length] in *. lia.
    + injection Eb as <- Eb. destruct (IH a x b y N' eq_refl Eb) as (z & -> & ->); [|exists z; auto]. unfold ftexts, unmark, texts in *. cbn in H. rewrite !app_length in H. lia.
Qed.
Lemma full_same F a x b y : full F -> F = a ++ x -> F = b ++ y -> length (ftexts a) = length (ftexts b) -> a = b /\ x = y.
Proof.
  intros N Ea Eb H. destruct (full_prefix F a x b y N Ea Eb) as (z & Ez & Ex); [lia|]. destruct z as [|p z].
  - rewrite app_nil_r in Ez. subst. auto.
  - exfalso. subst b. rewrite ftexts_app, app_length in H. unfold full in N. rewrite Ea, Ex, !Forall_app in N. destruct N as (_ & N & _). inversion N as [|? ? Np _]. subst. pose proof (longer p z Np). lia.
Qed.
Lemma fuse_run F : full F -> tidy F -> forall gc css c F1 run F2 cs, at_run F c F1 run F2 -> wovenc false run F2 cs (cnew c) -> Forall2 (eok F) gc css -> linked (c :: gc) ->
  exists run' F2', at_run F (fusec (c :: gc)) F1 (run ++ run') F2' /\ F2 = run' ++ F2' /\ wovenc false (run ++ run') F2' (cs ++ concat css) (flat_map cnew (c :: gc)).
Proof.
  intros N T gc css c F1 run F2 cs R W H. revert c F1 run F2 cs R W. induction H as [|d ds gc css (G1 & rn & G2 & Rd & Wd) H IH]; intros c F1 run F2 cs R W L.
  - exists [], F2. rewrite !app_nil_r. split; [|split; [reflexivity|]].
    + destruct R as (R1 & R2 & R3). unfold at_run, fusec. cbn. auto.
    + cbn. now rewrite app_nil_r.
  - destruct L as [L L']. destruct (IH d G1 rn G2 ds Rd Wd L') as (run' & F2' & R' & E' & W'). destruct R as (R1 & R2 & R3). destruct Rd as (S1 & S2 & S3).
    assert (Eq : F1 ++ run = G1 /\ F2 = rn ++ G2). { apply (full_same F); [exact N|rewrite <- app_assoc; exact R1|exact S1|lia]. }
    destruct Eq as [<- ->]. subst G2. exists (rn ++ run'), F2'. split; [|split].
    + destruct R' as (Q1 & Q2 & Q3). split; [rewrite R1, <- !app_assoc; reflexivity|]. split; [exact R2|]. replace (F1 ++ run ++ rn ++ run') with ((F1 ++ run) ++ rn ++ run') by (rewrite <- !app_assoc; reflexivity). rewrite <- Q3.
      unfold fusec. cbn [cj]. change (clast (c :: d :: gc)) with (cj (last (d :: gc) c)). rewrite (last_cons d c d). reflexivity.
    + rewrite <- app_assoc. reflexivity.
    + change (flat_map cnew (c :: d :: gc)) with (cnew c ++ flat_map cnew (d :: gc)). cbn [concat]. apply wovenc_app with (R := F2') (Q := rn ++ run').
      * rewrite <- app_assoc. exact W.
      * exact W'.
      * subst F. apply (tidy_suffix F1). rewrite <- !app_assoc in *. exact T.
Qed.
Lemma fuse_eok F gc css : full F -> tidy F -> gc <> [] -> linked gc -> Forall2 (eok F) gc css -> eok F (fusec gc) (concat css).
Proof.
  intros N T Hne L H. destruct H as [|c cs gc css (F1 & run & F2 & R & W) H]; [congruence|]. destruct (fuse_run F N T gc css c F1 run F2 cs R W H L) as (run' & F2' & R' & _ & W'). exists F1, (run ++ run'), F2'. auto.
Qed.

(** ** the place of a comment *)
Definition place (F : list fpiece) (n : nat) : Prop := exists A B, F = A ++ B /\ n = length (ftexts A) /\ fresh B.
Lemma fresh_at F c cs n : full F -> tidy F -> firm F c cs -> place F n -> ci c <= n -> ~ (ci c < n /\ cj c <= n) ->
  exists F1 run F2, at_run F c F1 run F2 /\ wovenc false run F2 cs (cnew c) /\ fresh (run ++ F2).
Proof.
  intros N T (F1 & run & F2 & (R1 & R2 & R3) & W & H) (A & B & EA & En & FB) Hc Hn. exists F1, run, F2. split; [repeat split; assumption|]. split; [exact W|]. destruct H as [G|Fr]; [|exact Fr].
  destruct (Nat.eq_dec (ci c) n) as [E|Ne].
  - destruct (full_same F F1 (run ++ F2) A B N R1 EA) as [_ ->]; [lia|exact FB].
  - destruct (full_prefix F F1 (run ++ F2) A B N R1 EA) as (z & -> & Ez); [lia|].
    destruct (full_prefix F (F1 ++ z) B (F1 ++ run) F2 N EA) as (z' & E2 & Eb); [rewrite <- app_assoc; exact R1|lia|].
    rewrite <- app_assoc in E2. apply app_inv_head in E2. subst run.
    assert (z <> []) as Hz by (intros ->; rewrite app_nil_r in En; lia).
    assert (z' <> []) as Hz' by (intros ->; rewrite app_nil_r in R3; lia).
    destruct G as [[G _]|(k & p & b & q & E & _)].
    + destruct z as [|[f [k w]] z]; [congruence|]. apply Forall_inv in G. unfold is_gap in G. cbn in G. subst k. destruct (T F1 f w (z ++ z' ++ F2)) as [-> _]; [rewrite R1, <- !app_assoc; reflexivity|]. reflexivity.
    + exfalso. destruct z as [|x z]; [congruence|]. destruct z' as [|y z']; [congruence|]. cbn in E. destruct z; discriminate.
Qed.

(** ** split_at *)
Lemma split_linked t n : n <= length t -> forall g gc, Forall2 (edit_denotes t) g gc -> linked gc ->
  exists g1 g2 c1 c2, split_at g (position_after (firstn n t)) = (g1, g2) /\ gc = c1 ++ c2 /\ Forall2 (edit_denotes t) g1 c1 /\ Forall2 (edit_denotes t) g2 c2 /\
    Forall (fun c => ci c < n /\ cj c <= n) c1 /\ match c2 with c :: _ => ~ (ci c < n /\ cj c <= n) | [] => True end.
Proof.
  intros Hn g gc F. unfold split_at. induction F as [|e c g gc D F IH]; intros L; [exists [], [], [], []; cbn; auto 10|].
  assert (L' : linked gc) by (destruct gc; [exact Logic.I|apply L]). specialize (IH L').
  assert (B : forall e c, edit_denotes t e c -> pos_ltb (rstart (erange e)) (position_after (firstn n t)) && pos_leb (rend (erange e)) (position_after (firstn n t)) = (ci c <? n) && (cj c <=? n)).
  { intros e0 c0 ((C1 & C2) & C3 & C4 & _). rewrite <- C3, <- C4, places_lt, places_le by lia. reflexivity. }
  cbn [filter]. rewrite (B e c D). destruct ((ci c <? n) && (cj c <=? n)) eqn:E; cbn [negb].
  - destruct IH as (g1 & g2 & c1 & c2 & E1 & -> & H1 & H2 & H3 & H4). injection E1 as -> ->. exists (e :: g1), g2, (c :: c1), c2. split; [reflexivity|]. split; [reflexivity|]. split; [constructor; assumption|]. split; [assumption|]. split; [|assumption]. constructor; [|assumption]. apply andb_prop in E as [X Y]. apply Nat.ltb_lt in X. apply Nat.leb_le in Y. auto.
  - assert (Nb : ~ (ci c < n /\ cj c <= n)) by (intros [X Y]; apply Nat.ltb_lt in X; apply Nat.leb_le in Y; rewrite X, Y in E; discriminate).
    assert (All : forall g gc c, Forall2 (edit_denotes t) g gc -> linked (c :: gc) -> ordered c -> ~ (ci c < n /\ cj c <= n) -> filter (fun e => pos_ltb (rstart (erange e)) (position_after (firstn n t)) && pos_leb (rend (erange e)) (position_after (firstn n t))) g = [] /\
       filter (fun e => negb (pos_ltb (rstart (erange e)) (position_after (firstn n t)) && pos_leb (rend (erange e)) (position_after (firstn n t)))) g = g).
    { clear -B. intros g gc c F. revert c. induction F as [|f d g gc D F IH]; intros c L O Nb; [auto|]. destruct L as [L1 L2]. cbn [filter]. rewrite (B f d D). unfold ordered in O. pose proof (proj1 D) as Dd.
      assert (Nd : ~ (ci d < n /\ cj d <= n)) by lia. destruct (IH d L2) as [I1 I2]; [unfold ordered; lia|exact Nd|]. rewrite I1, I2.
      destruct ((ci d <? n) && (cj d <=? n)) eqn:E; [|auto]. exfalso. apply Nd. apply andb_prop in E as [X Y]. apply Nat.ltb_lt in X. apply Nat.leb_le in Y. auto. }
    destruct (All g gc c F L) as [A1 A2]; [unfold ordered; pose proof (proj1 D); lia|exact Nb|]. rewrite A1, A2. exists [], (e :: g), [], (c :: gc). split; [reflexivity|]. split; [reflexivity|]. split; [constructor|]. split; [constructor; assumption|]. split; [constructor|exact Nb].
Qed.
Lemma linked_app a b : linked (a ++ b) -> linked a /\ linked b /\ (a <> [] -> forall d r, b = d :: r -> clast a = ci d).
Proof.
  induction a as [|x a IH]; intros H; [cbn; auto; split; [exact Logic.I|split; [exact H|congruence]]|]. destruct a as [|y a].
  - split; [exact Logic.I|]. destruct b as [|d b]; [split; [exact Logic.I|discriminate]|]. destruct H as [H1 H2]. split; [exact H2|]. intros _ d' r E. injection E as <- <-. exact H1.
  - destruct H as [H1 H2]. destruct (IH H2) as (I1 & I2 & I3). split; [split; assumption|]. split; [exact I2|]. intros _ d r E. change (clast (x :: y :: a)) with (cj (last (y :: a) x)). rewrite (last_cons y x y). exact (I3 ltac:(discriminate) d r E).
Qed.
Lemma linked_snoc a d : linked a -> (a <> [] -> clast a = ci d) -> linked (a ++ [d]).
Proof.
  induction a as [|x a IH]; intros H E; [exact Logic.I|]. destruct a as [|y a].
  - split; [exact (E ltac:(discriminate))|exact Logic.I].
  - destruct H as [H1 H2]. split; [exact H1|]. apply IH; [exact H2|]. intros _. specialize (E ltac:(discriminate)). change (clast (x :: y :: a)) with (cj (last (y :: a) x)) in E. rewrite (last_cons y x y) in E. exact E.
Qed.
Lemma clast_snoc a d : clast (a ++ [d]) = cj d.
Proof. destruct a as [|x a]; [reflexivity|]. unfold clast. cbn [app]. change (x :: a ++ [d]) with ((x :: a) ++ [d]). rewrite last_last. reflexivity. Qed.
Lemma clast_app a b : b <> [] -> clast (a ++ b) = clast b.
Proof.
  intros H. destruct b as [|d b]; [congruence|]. induction a as [|x a IH]; [reflexivity|]. cbn [app]. destruct (a ++ d :: b) as [|y r] eqn:E; [destruct a; discriminate|]. change (clast (x :: y :: r)) with (cj (last (y :: r) x)). rewrite (last_cons y x y). exact IH.
Qed.
Lemma cfirst_app a b c : a <> [] -> cfirst (a ++ b) = cfirst (a ++ c).
Proof. destruct a; [congruence|reflexivity]. Qed.

(** ** merge_group *)
Section merge.
Context (t ib : text) (F : list fpiece) (Hib : blanks ib) (N : full F) (T : tidy F) (St : sturdy F).
Definition waits (c : comment) : Prop := is_comment (c_text c) /\ exists n, n <= length t /\ c_pos c = position_after (firstn n t) /\ place F n.
Lemma Forall2_app_left {A B} (R : A -> B -> Prop) a b m : Forall2 R (a ++ b) m -> exists m1 m2, m = m1 ++ m2 /\ Forall2 R a m1 /\ Forall2 R b m2.
Proof. intros H. apply Forall2_app_inv_l in H as (m1 & m2 & H1 & H2 & ->). eauto. Qed.
Lemma merge_group_ok cs : Forall waits cs -> forall g gc css g' cs' start, Forall2 (edit_denotes t) g gc -> linked gc -> gc <> [] -> Forall2 (firm F) gc css ->
  start = position_after (firstn (cfirst gc) t) -> merge_group t ib g start cs = FDone (g', cs') ->
  exists gc' css' used, cs = used ++ cs' /\ Forall2 (edit_denotes t) g' gc' /\ linked gc' /\ gc' <> [] /\ Forall2 (firm F) gc' css' /\ cfirst gc' = cfirst gc /\ clast gc' = clast gc /\
    Permutation (concat css') (map c_text used ++ concat css).
Proof.
  induction cs as [|c cs IH]; intros Wt g gc css g' cs' start D L Hne Fm Es H; cbn [merge_group] in H.
  - injection H as <- <-. exists gc, css, []. cbn. repeat (split; [now auto|]). apply Permutation_refl.
  - inversion Wt as [|? ? (Hc & n & Hn & Ep & Pn) Wt']; subst. destruct gc as [|c0 gc0] eqn:Egc; [congruence|]. rewrite <- Egc in *. clear Hne.
    assert (Hf : cfirst gc <= length t). { subst gc. inversion D as [|? ? ? ? D0 _]; subst. pose proof (proj1 D0). cbn. lia. }
    destruct (pos_leb _ _) eqn:Le in H.
    2: { injection H as <- <-. exists gc, css, []. cbn. repeat (split; [now auto|]). split; [subst gc; discriminate|]. repeat (split; [now auto|]). apply Permutation_refl. }
    rewrite Ep, places_le in Le by lia. apply Nat.leb_le in Le. rewrite Ep in H. destruct (split_linked t n Hn g gc D L) as (g1 & g2 & c1 & c2 & E1 & E2 & D1 & D2 & B1 & B2). rewrite E1 in H. clear E1.
    destruct c2 as [|h c2]. { inversion D2; subst. cbn [fuse fbind] in H. discriminate. }
    assert (Lk := L). rewrite E2 in Lk. apply linked_app in Lk as (L1 & L2 & L12).
    assert (Hh : ci h <= n).
    { destruct c1 as [|x c1]; [rewrite E2 in Le; exact Le|]. rewrite <- (L12 ltac:(discriminate) h c2 eq_refl). clear -B1. assert (In (last (x :: c1) x) (x :: c1)) as Hi by (destruct (exists_last (l := x :: c1) ltac:(discriminate)) as (a & b & E); rewrite E, last_last; apply in_app_iff; right; left; reflexivity). unfold clast. rewrite Forall_forall in B1. apply B1 in Hi. lia. }
    rewrite E2 in Fm. apply Forall2_app_left in Fm as (css1 & css2 & -> & Fm1 & Fm2). inversion Fm2 as [|? dsh ? cssr Fh Fm2']; subst css2. subst.
    destruct (fresh_at F h dsh n N T Fh Pn Hh B2) as (F1 & run & F2 & R & W & Fr).
    assert (Ek : Forall2 (eok F) c2 cssr). { clear -Fm2'. induction Fm2'; constructor; auto using firm_eok. }
    destruct (fuse_run F N T c2 cssr h F1 run F2 dsh R W Ek L2) as (run' & F2' & R' & E' & W'). subst F2. rewrite app_assoc in Fr.
    destruct R' as (R1 & R2 & R3).
    assert (Tr : tidy ((run ++ run') ++ F2')) by (apply (tidy_suffix F1); rewrite <- R1; exact T).
    assert (Sr : sturdy ((run ++ run') ++ F2')) by (apply (sturdy_suffix F1); rewrite <- R1; exact St).
    destruct (front _ _ _ _ W' Tr Sr Fr) as (cs0 & b & cs1 & z & Eb & Ecs & Fb & Oz & Put).
    destruct (fuse_ok t g2 (h :: c2) D2 L2) as (next & En & Dn); [intros ->; inversion D2|]. rewrite En in H. cbn [fbind] in H.
    destruct Dn as ((P1 & P2) & P3 & P4 & P5). destruct next as [r new]. cbn [erange new_text] in *. unfold fusec in P5. cbn [cnew] in P5. rewrite P5, Eb in H.
    destruct (put_comment t ib c r b z cs0 Hib Hc Fb Oz) as (b' & Ew & Fb'). rewrite Ew in H.
    set (k := mkcedit (cfirst (h :: c2)) (clast (h :: c2)) (b' ++ z)).
    assert (Dk : edit_denotes t (mkedit r (b' ++ z)) k). { unfold edit_denotes, k. cbn [erange new_text ci cj cnew]. cbn [fusec ci cj] in P1, P2, P3, P4. auto. }
    assert (Fk : firm F k ((c_text c :: cs0) ++ cs1)). { exists F1, (run ++ run'), F2'. split; [|split]. - unfold at_run, k. cbn [ci cj]. cbn [fusec ci cj] in R2, R3. auto. - unfold k. cbn [cnew]. apply Put. exact Fb'. - right. exact Fr. }
    assert (Lk' : linked (c1 ++ [k])). { apply linked_snoc; [exact L1|]. intros H0. rewrite (L12 H0 h c2 eq_refl). reflexivity. }
    destruct (IH Wt' (g1 ++ [mkedit r (b' ++ z)]) (c1 ++ [k]) (css1 ++ [(c_text c :: cs0) ++ cs1]) g' cs' (position_after (firstn (cfirst (c1 ++ h :: c2)) t))) as (gc' & css' & used & Q1 & Q2 & Q3 & Q4 & Q5 & Q6 & Q7 & Q8).
    + apply Forall2_app; [exact D1|]. constructor; [exact Dk|constructor].
    + exact Lk'.
    + destruct c1; discriminate.
    + apply Forall2_app; [exact Fm1|]. constructor; [exact Fk|constructor].
    + f_equal. f_equal. destruct c1; reflexivity.
    + rewrite <- E2. exact H.
    + exists gc', css', (c :: used). split; [cbn; now rewrite Q1|]. repeat (split; [assumption|]). split; [|split].
      * rewrite Q6, E2. destruct c1; reflexivity.
      * rewrite Q7, E2, clast_snoc, clast_app by discriminate. reflexivity.
      * rewrite Q8. cbn [map app]. rewrite !concat_app. cbn [concat]. rewrite app_nil_r, Ecs. apply Permutation_sym. rewrite app_assoc. cbn [app]. rewrite (app_assoc (map c_text used)). apply Permutation_middle.
Qed.
End merge.
