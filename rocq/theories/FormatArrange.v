(** What formatting makes of a document with comments. *)
From Coq Require Import String List Arith NArith Bool Lia Sorting.Permutation Sorting.Sorted.
Import ListNotations.
From Verif Require Import Kinds KindFacts ParserSyntax ParserModel TextModel TextSpec TextProofs TextEditProofs LexerModel LexerSpec FormatData FormatModel FormatChain FormatSpec FormatTree FormatPieces FormatWeave FormatParse FormatComments.

(** ** specification *)
(** a comment: from # to the end of its line *)
Definition is_comment (w : text) : Prop := exists a, w = 35%N :: a /\ ~ In NL a /\ ~ In CR a.
(** [filler cs v]: [v] is made of blanks and the comments [cs], in this order, each at the end of its line *)
Inductive filler : list text -> text -> Prop :=
| nothing : filler [] []
| blank_char : forall c cs v, blank c -> filler cs v -> filler cs (c :: v)
| own_line : forall w cs v, is_comment w -> filler cs (NL :: v) -> filler (w :: cs) (w ++ NL :: v).
(** [arranged ls cs out]: [out] holds the tokens [ls] in order, respelled, with blanks and the comments [cs] between them; a comment of [ls] may be taken out of its place *)
Inductive arranged : list lexeme -> list text -> text -> Prop :=
| arr_end : forall cs b, filler cs b -> arranged [] cs b
| arr_skip : forall w ls cs out, arranged ls cs out -> arranged ((K_WHITESPACE, w) :: ls) cs out
| arr_moved : forall w ls cs out, arranged ls cs out -> arranged ((K_Comment, w) :: ls) cs out
| arr_next : forall k w b w' ls cs0 cs out, k <> K_WHITESPACE -> filler cs0 b -> respelled k w w' -> arranged ls cs out -> arranged ((k, w) :: ls) (cs0 ++ cs) (b ++ w' ++ out).

(** ** fillers *)
Lemma filler_blanks b : forall cs v, blanks b -> filler cs v -> filler cs (b ++ v).
Proof. intros cs v H F. induction H; [exact F|]. cbn [app]. now constructor. Qed.
Lemma filler_app cs u : filler cs u -> forall ds v, filler ds v -> filler (cs ++ ds) (u ++ v).
Proof.
  induction 1 as [|c cs u Hc F IH|w cs u Hw F IH]; intros ds v G; [exact G|cbn [app]; constructor; auto|]. cbn [app]. rewrite <- app_assoc. cbn [app]. constructor; [exact Hw|]. exact (IH ds v G).
Qed.
Lemma blanks_filler b : blanks b -> filler [] b.
Proof. intros H. rewrite <- (app_nil_r b). apply filler_blanks; [exact H|constructor]. Qed.
Lemma whitespace_white c : is_whitespace c = true <-> white c.
Proof.
  unfold is_whitespace, white. rewrite !orb_true_iff, !andb_true_iff, !N.leb_le, !N.eqb_eq. unfold char in *. lia.
Qed.
Lemma hash_not_white : ~ white 35%N.
Proof. unfold white. lia. Qed.
Definition opens_solid (z : text) : Prop := z = [] \/ exists x r, z = x :: r /\ ~ white x.
Lemma solid_not_nl x : ~ white x -> is_nl x = false.
Proof. intros H. unfold is_nl. destruct (N.eqb_spec x NL) as [->|]; [|reflexivity]. exfalso. apply H. unfold white, NL. lia. Qed.
Lemma solid_stop x : ~ white x -> (negb (is_whitespace x) || is_nl x) = true.
Proof. intros H. destruct (is_whitespace x) eqn:E; [apply whitespace_white in E; contradiction|reflexivity]. Qed.
Lemma stop_filler cs b z : filler cs b -> opens_solid z -> forall k,
  match first_stop (b ++ z) k with
  | None => z = [] /\ cs = []
  | Some (i, ch) => exists b1 b2, b = b1 ++ b2 /\ i = k + length b1 /\ filler cs b2 /\ (is_nl ch = true /\ (exists v, b2 = NL :: v) \/ is_nl ch = false)
  end.
Proof.
  intros F Hz. induction F as [|c cs v Hc F IH|w cs v Hw F IH]; intros k.
  - cbn [app]. destruct Hz as [-> |(x & r & -> & Hx)]; [cbn; auto|]. cbn [first_stop]. rewrite solid_stop by exact Hx. exists [], []. split; [reflexivity|]. split; [cbn; lia|]. split; [constructor|]. right. now apply solid_not_nl.
  - cbn [app first_stop]. destruct (is_nl c) eqn:En.
    + rewrite orb_true_r. apply N.eqb_eq in En. subst c. exists [], (NL :: v). split; [reflexivity|]. split; [cbn; lia|]. split; [now constructor|]. left. split; [reflexivity|eauto].
    + assert (is_whitespace c = true) as -> by (apply whitespace_white, blank_white; exact Hc). cbn [negb orb]. specialize (IH (S k)). destruct (first_stop (v ++ z) (S k)) as [[i ch]|]; [|exact IH].
      destruct IH as (b1 & b2 & -> & -> & H1 & H2). exists (c :: b1), b2. split; [reflexivity|]. split; [cbn; lia|]. auto.
  - destruct Hw as (a & -> & Ha). cbn [app first_stop]. rewrite solid_stop by apply hash_not_white. exists [], ((35%N :: a) ++ NL :: v). split; [reflexivity|]. split; [cbn; lia|]. split; [constructor; [exists a; auto|exact F]|]. right. reflexivity.
Qed.
Lemma filler_nl cs c v : filler cs (c :: v) -> blank c -> filler cs v.
Proof.
  intros H Hc. remember (c :: v) as u eqn:Eu. destruct H as [|d cs u' Hd F|w cs u' (a & -> & _) F]; [discriminate|injection Eu as -> ->; exact F|]. exfalso. cbn [app] in Eu. injection Eu as <- _. revert Hc. unfold blank. cbn. intuition discriminate.
Qed.
Lemma comment_text_form ib c : blanks ib -> exists pre, blanks pre /\ comment_text ib c = pre ++ c_text c.
Proof.
  intros Hib. unfold comment_text. destruct (_ && _); [exists []; split; [constructor|reflexivity]|]. destruct (c_trailing c); [exists sp; split; [apply blanks_sp|reflexivity]|]. exists (nl ++ repeat_text (c_indent c) ib). split; [|reflexivity]. apply blanks_app; [apply blanks_nl|now apply blanks_repeat].
Qed.
Lemma put_comment t ib c r b z cs : blanks ib -> is_comment (c_text c) -> filler cs b -> opens_solid z -> exists b', with_comment t ib c (mkedit r (b ++ z)) = b' ++ z /\ filler (c_text c :: cs) b'.
Proof.
  intros Hib Hc F Hz. destruct (comment_text_form ib c Hib) as (pre & Bp & Ec). unfold with_comment. cbn [new_text]. rewrite Ec. clear Ec. pose proof (stop_filler cs b z F Hz 0) as St. destruct (first_stop (b ++ z) 0) as [[i ch]|] eqn:Es.
  - destruct St as (b1 & b2 & -> & -> & F2 & Hch). cbn [Nat.add] in *. rewrite <- app_assoc in *.
    assert (Sk : skipn (length b1) (b1 ++ b2 ++ z) = b2 ++ z) by (rewrite skipn_app, skipn_all, Nat.sub_diag; reflexivity).
    destruct Hch as [[En (v & ->)]|En]; rewrite En.
    + destruct (c_empty c && starts_with_two_breaks (b1 ++ (NL :: v) ++ z)) eqn:Tw.
      * apply andb_prop in Tw as [_ Tw]. destruct b1 as [|x b1].
        -- cbn [app length Nat.add skipn]. destruct v as [|y v].
           ++ exfalso. cbn [app starts_with_two_breaks] in Tw. destruct Hz as [-> |(x & r' & -> & Hx)]; [discriminate|]. rewrite (solid_not_nl x Hx), andb_false_r in Tw. discriminate.
           ++ cbn [app starts_with_two_breaks] in Tw. apply andb_prop in Tw as [_ Tw]. apply N.eqb_eq in Tw. subst y. exists (nl ++ (pre ++ c_text c) ++ NL :: v). split; [rewrite <- !app_assoc; reflexivity|].
              apply filler_blanks; [apply blanks_nl|]. rewrite <- app_assoc. apply filler_blanks; [exact Bp|]. constructor; [exact Hc|]. apply (filler_nl _ NL); [exact F2|cbn; tauto].
        -- exfalso. cbn [app starts_with_two_breaks] in Tw. cbn [app first_stop] in Es. assert (is_nl x = true) as Hx by (destruct (b1 ++ NL :: v ++ z); [discriminate|apply andb_prop in Tw; tauto]). rewrite Hx, orb_true_r in Es. discriminate.
      * rewrite Sk. exists ((pre ++ c_text c) ++ NL :: v). split; [rewrite <- !app_assoc; reflexivity|]. rewrite <- app_assoc. apply filler_blanks; [exact Bp|]. now constructor.
    + rewrite Sk. exists ((pre ++ c_text c) ++ NL :: repeat_text (c_indent c) ib ++ b2). split; [rewrite <- !app_assoc; cbn [nl app]; rewrite <- app_assoc; reflexivity|]. rewrite <- app_assoc. apply filler_blanks; [exact Bp|]. constructor; [exact Hc|]. constructor; [cbn; tauto|]. apply filler_blanks; [now apply blanks_repeat|exact F2].
  - destruct St as [-> ->]. eexists. split; [symmetry; apply app_nil_r|]. apply filler_blanks; [destruct (c_empty c); [apply blanks_nl|constructor]|]. rewrite <- app_assoc. apply filler_blanks; [exact Bp|]. cbn [nl app]. constructor; [exact Hc|]. constructor; [cbn; tauto|]. apply blanks_filler. now apply blanks_repeat.
Qed.
