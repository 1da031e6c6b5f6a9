(** The tokens the lexer returns have the shapes the formatter relies on. *)
From Coq Require Import String List Arith NArith Bool Lia.
Import ListNotations.
From Verif Require Import Kinds KindFacts TextModel TextProofs LexerModel LexerRegex LexerData LexerProofs LexerSpec LexerProps FormatData FormatModel FormatSpec FormatTree FormatPieces.

(** ** the characters that spell a letter *)
Definition letter (c : char) : re := Cls ((c, c) :: (c + 32, c + 32)%N :: (if N.eqb c 83 then [(0x17F, 0x17F)%N] else [])).
Fixpoint word (t : text) : re := match t with [] => Eps | c :: t => Cat (letter c) (word t) end.
Definition white_class : list (N * N) :=
  [(9, 13); (32, 32); (133, 133); (160, 160); (5760, 5760); (8192, 8202); (8232, 8233); (8239, 8239); (8287, 8287); (12288, 12288)]%N.
Definition shape_re (k : kind) : option re :=
  if signed_kind k then Some (Cat (Cls [(43, 43); (45, 45)]%N) (Cat (Cls [(0, 1114111)]%N) (Star (Cls [(0, 1114111)]%N)))) else
  match k with
  | K_WHITESPACE => Some (Star (Cls [(9, 10); (12, 13); (32, 32)]%N))
  | K_IN => Some (word (chars "IN"))
  | K_DELETE => Some (word (chars "DELETE"))
  | K_DELETE_WHERE => Some (Cat (word (chars "DELETE")) (Cat (Cat (Cls white_class) (Star (Cls white_class))) (word (chars "WHERE"))))
  | K_DELETE_DATA => Some (Cat (word (chars "DELETE")) (Cat (Cat (Cls white_class) (Star (Cls white_class))) (word (chars "DATA"))))
  | K_INSERT_DATA => Some (Cat (word (chars "INSERT")) (Cat (Cat (Cls white_class) (Star (Cls white_class))) (word (chars "DATA"))))
  | K_Comma => Some (Chr 44%N)
  | K_a => Some (Chr 97%N)
  | K_ANON => Some (Cat (Chr 91%N) (Cat (Star (Cls white_class)) (Chr 93%N)))
  | _ => None
  end.
Lemma shapes_checked : forallb (fun x => negb (unit_kind (fst (fst x))) && match shape_re (fst (fst x)) with Some s => included (snd (fst x)) s | None => true end) lexer_rules = true.
Proof. vm_cast_no_check (eq_refl true). Qed.

Lemma cls_inv rs w : matches (Cls rs) w -> exists c, w = [c] /\ in_class c rs = true.
Proof. inversion 1; subst. eauto. Qed.
Lemma cat_inv a b w : matches (Cat a b) w -> exists u v, w = (u ++ v)%list /\ matches a u /\ matches b v.
Proof. inversion 1; subst. eauto. Qed.
Lemma chr_inv c w : matches (Chr c) w -> w = [c].
Proof.
  intros H. apply cls_inv in H as (d & -> & H). cbn in H. rewrite orb_false_r in H. apply andb_prop in H as [H1 H2]. apply N.leb_le in H1, H2. f_equal. unfold char in *. lia.
Qed.
(** only the letters of the words in question: A D E H I L N R S T W *)
Definition capital (c : char) : bool := existsb (N.eqb c) (chars "ADEHILNRSTW").
Lemma capital_ind (P : char -> Prop) : Forall P (chars "ADEHILNRSTW") -> forall c, capital c = true -> P c.
Proof. intros F c H. apply existsb_exists in H as (d & Hd & E). apply N.eqb_eq in E. subst d. rewrite Forall_forall in F. now apply F. Qed.
Lemma letter_fold c : capital c = true -> forall d, in_class d ((c, c) :: (c + 32, c + 32)%N :: (if N.eqb c 83 then [(0x17F, 0x17F)%N] else [])) = true ->
  fold_char d = c /\ (d = 0x17F%N \/ len_utf8 d = 1).
Proof.
  revert c. refine (capital_ind (fun c => forall d, in_class d ((c, c) :: (c + 32, c + 32)%N :: (if N.eqb c 83 then [(0x17F, 0x17F)%N] else [])) = true -> fold_char d = c /\ (d = 0x17F%N \/ len_utf8 d = 1)) _).
  change (chars "ADEHILNRSTW") with [65; 68; 69; 72; 73; 76; 78; 82; 83; 84; 87]%N.
  repeat apply Forall_cons; [..|constructor].
  all: intros d H; unfold in_class in H; cbn [existsb fst snd N.eqb Pos.eqb] in H;
    repeat match type of H with (_ || _ = true) => apply orb_prop in H as [H|H] end; try discriminate H;
    apply andb_prop in H as [H1 H2]; apply N.leb_le in H1, H2;
    match type of H1 with (?a <= _)%N => assert (d = a) by (unfold char in *; lia); subst d; vm_compute; auto end.
Qed.
Lemma word_matches t : forallb capital t = true -> forall w, matches (word t) w -> map fold_char w = t /\ length w = length t /\ (~ In 0x17F%N w \/ ~ In 83%N t -> byte_len w = length t).
Proof.
  induction t as [|c t IH]; intros Hc w H; cbn [word] in H.
  - inversion H; subst. auto.
  - apply cat_inv in H as (u & v & -> & Hu & Hv). apply cls_inv in Hu as (d & -> & Hd). cbn [forallb] in Hc. apply andb_prop in Hc as [Hc Ht].
    apply (letter_fold c Hc) in Hd as [E Hd]. destruct (IH Ht v Hv) as (I1 & I2 & I3). split; [cbn; now rewrite E, I1|]. split; [cbn; now rewrite I2|]. intros Hn.
    rewrite byte_len_app. rewrite I3 by (destruct Hn as [Hn|Hn]; [left|right]; intros K; apply Hn; [apply in_or_app; now right|now right]).
    assert (N17 : d <> 0x17F%N) by (intros ->; destruct Hn as [Hn|Hn]; apply Hn; left; [reflexivity|now rewrite <- E]).
    destruct Hd as [Hd|Hd]; [contradiction|]. cbn. rewrite Hd. reflexivity.
Qed.
Lemma white_in c : in_class c white_class = true -> white c.
Proof.
  unfold in_class, white_class. cbn [existsb fst snd]. intros H. unfold white.
  repeat match type of H with (_ || _ = true) => apply orb_prop in H as [H|H] end; try discriminate H;
  apply andb_prop in H as [H1 H2]; apply N.leb_le in H1, H2; unfold char in *; lia.
Qed.
Lemma white_plus w : matches (Cat (Cls white_class) (Star (Cls white_class))) w -> w <> [] /\ Forall white w.
Proof.
  intros H. apply cat_inv in H as (u & v & -> & Hu & Hv). apply cls_inv in Hu as (d & -> & Hd). apply star_class in Hv. split; [discriminate|]. cbn [app]. apply Forall_cons; [now apply white_in|].
  eapply Forall_impl; [|exact Hv]. apply white_in.
Qed.
Lemma two_words_shape x y w : forallb capital x = true -> forallb capital y = true -> length x = 6 -> ~ In 0x17F%N w \/ ~ In 83%N x -> ~ In 83%N y ->
  matches (Cat (word x) (Cat (Cat (Cls white_class) (Star (Cls white_class))) (word y))) w ->
  two_word_shape (length y) w /\ map fold_char (firstn 6 w) = x /\ map fold_char (skipn (length w - length y) w) = y.
Proof.
  intros Hx Hy Lx Hn Hn' H. apply cat_inv in H as (u & v & -> & Hu & Hv). apply cat_inv in Hv as (b & v' & -> & Hb & Hv).
  apply (word_matches _ Hx) in Hu as (U1 & U2 & U3). apply (word_matches _ Hy) in Hv as (V1 & V2 & V3). apply white_plus in Hb as [B1 B2].
  split; [|split].
  - exists u, b, v'. split; [reflexivity|]. split; [congruence|]. split; [rewrite U3; [exact Lx|]|]. { destruct Hn as [Hn|Hn]; [left; intros K; apply Hn; rewrite in_app_iff; now left|now right]. }
    split; [exact V2|]. split; [apply V3; now right|]. split; [exact B1|exact B2].
  - replace 6 with (length u) by congruence. rewrite firstn_app, Nat.sub_diag, firstn_O, app_nil_r, firstn_all. exact U1.
  - rewrite !app_length. replace (length u + (length b + length v') - length y) with (length (u ++ b)) by (rewrite app_length; lia). rewrite app_assoc, skipn_app, Nat.sub_diag, skipn_O, skipn_all. exact V1.
Qed.
Definition rewritten : list kind := [K_WHITESPACE; K_IN; K_DELETE; K_DELETE_WHERE; K_DELETE_DATA; K_INSERT_DATA; K_Comma; K_a; K_ANON].
Lemma rewritten_or_not k : In k rewritten \/ (forall w, match k with
  | K_WHITESPACE => blanks w
  | K_IN => spelled w "IN"
  | K_DELETE => spelled w "DELETE" /\ byte_len w = 6
  | K_DELETE_WHERE => two_word_shape 5 w /\ spelled (firstn 6 w) "DELETE" /\ spelled (skipn (length w - 5) w) "WHERE"
  | K_DELETE_DATA => two_word_shape 4 w /\ spelled (firstn 6 w) "DELETE" /\ spelled (skipn (length w - 4) w) "DATA"
  | K_INSERT_DATA => two_word_shape 4 w /\ spelled (firstn 6 w) "INSERT" /\ spelled (skipn (length w - 4) w) "DATA"
  | K_Comma => w = [44]%N
  | K_a => w = [97]%N
  | K_ANON => exists m, w = 91%N :: m ++ [93%N] /\ Forall white m
  | _ => True
  end = True).
Proof. destruct k; first [right; intros w; reflexivity|left; unfold rewritten; cbn [In]; tauto]. Qed.
Lemma shape_re_sound k w : w <> [] -> unit_kind k = false -> k <> K_Comment -> (In k [K_INSERT_DATA] -> ~ In 0x17F%N w) ->
  match shape_re k with Some s => matches s w | None => True end -> shape k w.
Proof.
  intros Hw Hu Hc Hi H. split; [exact Hw|]. split; [exact Hu|]. split; [contradiction|]. unfold shape_re in H. destruct (signed_kind k) eqn:S.
  - split; [|now (revert S; clear; destruct k; intros S; first [discriminate S|exact Logic.I])]. intros _. apply cat_inv in H as (u & v & -> & H1 & H2). apply cls_inv in H1 as (c & -> & H1).
    apply cat_inv in H2 as (u & v' & -> & H2 & _). apply cls_inv in H2 as (d & -> & _). exists c, ([d] ++ v'). split; [reflexivity|]. split; [discriminate|].
    unfold in_class in H1. cbn [existsb fst snd] in H1. repeat match type of H1 with (_ || _ = true) => apply orb_prop in H1 as [H1|H1] end; try discriminate H1;
    apply andb_prop in H1 as [A B]; apply N.leb_le in A, B; match type of A with (?a <= _)%N => assert (c = a) by (unfold char in *; lia); subst c; reflexivity end.
  - split; [discriminate|]. clear Hw Hu Hc. destruct (rewritten_or_not k) as [E|E]; [|now rewrite E].
    assert (NS : forall t, existsb (N.eqb 83) t = false -> ~ In 83%N t) by (intros t Ht Hin; assert (K : existsb (N.eqb 83) t = true) by (apply existsb_exists; exists 83%N; split; [exact Hin|reflexivity]); congruence).
    destruct E as [<-|[<-|[<-|[<-|[<-|[<-|[<-|[<-|[<-|[]]]]]]]]]]; cbn [shape_re] in H.
    + apply star_class in H. eapply Forall_impl; [|exact H]. intros c Hc. unfold in_class in Hc. cbn [existsb fst snd] in Hc. unfold blank.
      repeat match type of Hc with (_ || _ = true) => apply orb_prop in Hc as [Hc|Hc] end; try discriminate Hc; apply andb_prop in Hc as [H1 H2]; apply N.leb_le in H1, H2; cbn; unfold char in *; lia.
    + exact (proj1 (word_matches (chars "IN") eq_refl w H)).
    + destruct (word_matches (chars "DELETE") eq_refl w H) as (A & _ & B). split; [exact A|apply B]. right. now apply NS.
    + apply (two_words_shape (chars "DELETE") (chars "WHERE")) in H; auto.
    + apply (two_words_shape (chars "DELETE") (chars "DATA")) in H; auto.
    + apply (two_words_shape (chars "INSERT") (chars "DATA")) in H; auto. left. apply Hi. now left.
    + now apply chr_inv in H.
    + now apply chr_inv in H.
    + apply cat_inv in H as (u & v & -> & Hu & Hv). apply chr_inv in Hu as ->. apply cat_inv in Hv as (m & v' & -> & Hm & Hv). apply chr_inv in Hv as ->. exists m. split; [reflexivity|].
      apply star_class in Hm. eapply Forall_impl; [|exact Hm]. apply white_in.
Qed.
Theorem lexed_shape err t k w : In (k, w) (lex err t) -> k <> K_Comment -> (k = K_INSERT_DATA -> ~ In 0x17F%N w) -> shape k w.
Proof.
  intros Hin Hc Hi. assert (Hw : w <> []). { destruct (C25_tiles err t) as [_ F]. rewrite Forall_forall in F. exact (F _ Hin). }
  assert (K : unit_kind k = false /\ match shape_re k with Some s => matches s w | None => True end).
  { clear Hc Hi Hw. revert k w Hin. pattern t, (lex err t). revert t. apply lex_ind.
    - intros k w [].
    - intros t k n _ (r & wb & Hr & Hl & Hm & _) _ _ IH k0 w [E|Hin]; [|now apply (IH k0)]. injection E as <- <-.
      pose proof shapes_checked as C. rewrite forallb_forall in C. specialize (C _ Hr). cbn [fst snd] in C. apply andb_prop in C as [C1 C2]. apply negb_true_iff in C1. split; [exact C1|].
      destruct (shape_re k) as [s|]; [|exact Logic.I]. now apply (included_sound _ _ C2).
    - intros t _ _ IH k w [E|Hin]; [|now apply (IH k)]. injection E as <- <-. split; reflexivity. }
  destruct K as [K1 K2]. apply shape_re_sound; auto. intros [<-|[]]. now apply Hi.
Qed.
