(** Proofs about the result reader. *)
From Coq Require Import List Arith NArith Bool Lia.
Import ListNotations.
From Verif Require Import Utf8Model ReaderModel ReaderSpec.

(** is the binding with this index requested *)
Definition wanted (limit : option nat) (offset i : nat) : bool :=
  (offset <=? i) && none_or limit (fun l => i - offset <? l).

(** the bindings delivered for the objects [os], the first of which has index [i] *)
Fixpoint requested (limit : option nat) (offset i : nat) (os : list (list byte)) : list (list byte) :=
  match os with
  | [] => []
  | o :: r => if wanted limit offset i then o :: requested limit offset (S i) r else requested limit offset (S i) r
  end.
(** the batches produced when [xs] arrive one by one and [buf] are waiting *)
Fixpoint batches {binding : Type} (n : nat) (buf xs : list binding) : list (list binding) * list binding :=
  match xs with
  | [] => ([], buf)
  | x :: r => if length (buf ++ [x]) =? n
              then let (full, last) := batches n [] r in ((buf ++ [x]) :: full, last)
              else batches n (buf ++ [x]) r
  end.
(** windows *)
Lemma requested_spec limit offset os : forall i, 
  requested limit offset i os = window (option_map (fun l => offset + l - Nat.max i offset) limit) (offset - i) os.
Proof.
  induction os as [|o os IH]; intros i.
  - cbn. unfold window. destruct limit; cbn; rewrite ?skipn_nil, ?firstn_nil; reflexivity.
  - cbn [requested]. rewrite IH. unfold wanted, window.
    destruct (Nat.leb_spec offset i) as [L|L]; cbn [andb].
    + replace (offset - i) with 0 by lia. replace (offset - S i) with 0 by lia. cbn [skipn].
      destruct limit as [l|]; cbn [option_map none_or]; [|reflexivity].
      destruct (Nat.ltb_spec (i - offset) l) as [M|M].
      * replace (offset + l - Nat.max i offset) with (S (offset + l - Nat.max (S i) offset)) by lia. reflexivity.
      * replace (offset + l - Nat.max (S i) offset) with 0 by lia. replace (offset + l - Nat.max i offset) with 0 by lia. reflexivity.
    + replace (offset - i) with (S (offset - S i)) by lia. cbn [skipn].
      destruct limit as [l|]; cbn [option_map]; [|reflexivity].
      replace (Nat.max i offset) with (Nat.max (S i) offset) by lia. reflexivity.
Qed.
Lemma requested_window limit offset os : requested limit offset 0 os = window limit offset os.
Proof.
  rewrite requested_spec. rewrite Nat.sub_0_r. destruct limit as [l|]; cbn [option_map]; [|reflexivity].
  replace (offset + l - Nat.max 0 offset) with l by lia. reflexivity.
Qed.

(** batches *)
Lemma batches_spec {binding : Type} n (xs : list binding) : forall buf full last, batches n buf xs = (full, last) ->
  concat full ++ last = buf ++ xs /\
  (0 < n -> length buf < n -> Forall (fun b => length b = n) full /\ length last < n) /\
  (n = 0 -> full = []).
Proof.
  induction xs as [|x xs IH]; intros buf full last H.
  - injection H as <- <-. cbn. rewrite app_nil_r. repeat split; auto.
  - cbn [batches] in H. destruct (Nat.eqb_spec (length (buf ++ [x])) n) as [Q|Q].
    + destruct (batches n [] xs) as [f l] eqn:B. injection H as <- <-. destruct (IH _ _ _ B) as (C & D & Z).
      split; [cbn; rewrite <- app_assoc, C, <- app_assoc; reflexivity|]. split.
      * intros Hn _. destruct (D Hn Hn) as [D1 D2]. split; [constructor; assumption|assumption].
      * intros ->. rewrite app_length in Q. cbn in Q. lia.
    + destruct (IH _ _ _ H) as (C & D & Z). split; [rewrite C, <- app_assoc; reflexivity|]. split; [|exact Z].
      intros Hn Hl. apply D; [exact Hn|]. rewrite app_length in *. cbn in *. lia.
Qed.


Section R.
Context {header binding meta : Type}.
Variables (header_of : list byte -> option header) (binding_of : list byte -> option binding)
          (meta_of : list byte -> option meta).
Notation reader := (reader binding).
Notation partial := (partial header binding meta).
Notation read_byte := (@read_byte header binding meta header_of binding_of meta_of).
Notation feed := (@feed header binding meta header_of binding_of meta_of).
Notation feed_chunks := (@feed_chunks header binding meta header_of binding_of meta_of).

Lemma feed_app a : forall b r,
  feed (a ++ b) r = match feed a r with
                    | (ps, None) => (ps, None)
                    | (ps, Some r') => let (qs, e) := feed b r' in (ps ++ qs, e)
                    end.
Proof.
  induction a as [|x a IH]; intros b r.
  - cbn. destruct (feed b r); reflexivity.
  - cbn [app ReaderModel.feed]. destruct (read_byte x r) as [[o r']|]; [|reflexivity].
    rewrite IH. destruct (feed a r') as [ps [r''|]]; [|destruct o; reflexivity].
    destruct (feed b r''). destruct o; reflexivity.
Qed.
Lemma feed_chunks_concat cs : forall r, feed_chunks cs r = feed (concat cs) r.
Proof.
  induction cs as [|c cs IH]; intros r; [reflexivity|]. cbn [ReaderModel.feed_chunks concat]. rewrite feed_app.
  destruct (feed c r) as [ps [r'|]]; [|reflexivity]. now rewrite IH.
Qed.

(** scanning [w] in state [st] changes nothing but the stored bytes *)
Definition pass (w : list byte) (st : scan) : Prop := forall r : reader, r_state r = st ->
  exists buf, feed w r = ([], Some (set_input buf r)) /\ (store_char r = true -> buf = r_input r ++ w).

Lemma pass_nil st : pass [] st.
Proof. intros r H. exists (r_input r). rewrite app_nil_r. destruct r; auto. Qed.
Lemma pass_app a b st : pass a st -> pass b st -> pass (a ++ b) st.
Proof.
  intros Ha Hb r H. destruct (Ha r H) as (buf & E & K). destruct (Hb (set_input buf r) H) as (buf' & E' & K').
  exists buf'. rewrite feed_app, E, E'. split; [destruct r; reflexivity|]. intros Hs.
  rewrite K' by (destruct r; exact Hs). cbn. rewrite K by exact Hs. now rewrite app_assoc.
Qed.

(** states in which the contents of an object may be scanned *)
Definition okst (st : scan) (d : nat) : Prop :=
  (st = ReadingHead /\ d = 0) \/ exists k, st = ReadingBinding k /\ 1 <= k /\ k + d <= 255.

Definition quiet (b : byte) : Prop := b <> 34%N /\ b <> 123%N /\ b <> 125%N.
Lemma eqb_ne a b : a <> b -> N.eqb a b = false.
Proof. apply N.eqb_neq. Qed.
Lemma pass_quiet b st d : okst st d -> quiet b -> pass [b] st.
Proof.
  intros Hst (H1 & H2 & H3) r E. exists (if store_char r then r_input r ++ [b] else r_input r).
  destruct Hst as [[-> _]|(k & -> & _ & _)]; cbn [ReaderModel.feed]; unfold ReaderModel.read_byte;
    unfold QUOTE, RBRACE, LBRACE; destruct (store_char r) eqn:Es; cbn [set_input r_state]; rewrite E;
    rewrite ?eqb_ne by assumption; (split; [destruct r; reflexivity|intros; congruence || reflexivity]).
Qed.
Lemma pass_quiets w st d : okst st d -> Forall quiet w -> pass w st.
Proof.
  intros Hst. induction 1 as [|b w Hb _ IH]; [apply pass_nil|].
  change (b :: w) with ([b] ++ w). apply pass_app; [eapply pass_quiet; eassumption|exact IH].
Qed.
Lemma ws_quiet w : ws w -> Forall quiet w.
Proof.
  intros H. eapply Forall_impl; [|exact H]. intros b Hb. unfold ws_byte in Hb. cbn in Hb. unfold quiet.
  repeat split; intros ->; intuition discriminate.
Qed.
Lemma scalar_quiet w : Forall scalar_byte w -> Forall quiet w.
Proof. intros H. eapply Forall_impl; [|exact H]. intros b (H1 & H2 & H3 & _). repeat split; assumption. Qed.

(** inside a string *)
Lemma string_feed s : string_body s -> forall prev (r : reader), r_state r = ReadingString prev ->
  feed s r = ([], Some (set_input (r_input r ++ s) r)).
Proof.
  induction 1 as [|b w H1 H2 _ IH|b w _ IH]; intros prev r E.
  - rewrite app_nil_r. destruct r; reflexivity.
  - cbn [ReaderModel.feed]. unfold ReaderModel.read_byte at 1. unfold store_char. rewrite E.
    cbn [set_input r_state]. rewrite E. unfold QUOTE, BACKSLASH. rewrite !eqb_ne by assumption.
    erewrite IH by exact E. cbn. rewrite <- app_assoc. destruct r; reflexivity.
  - cbn [ReaderModel.feed]. unfold ReaderModel.read_byte at 1. unfold store_char. rewrite E.
    cbn [set_input r_state]. rewrite E. cbn [N.eqb QUOTE BACKSLASH Pos.eqb].
    unfold ReaderModel.read_byte at 1. cbn [store_char set_state set_input r_state].
    erewrite IH by reflexivity. cbn. rewrite <- !app_assoc. destruct r; cbn in *; subst; reflexivity.
Qed.
Lemma pass_string w st d : okst st d -> json_string w -> pass w st.
Proof.
  intros Hst (s & Hs & ->) r E.
  exists ((if store_char r then r_input r ++ [34%N] else r_input r) ++ s ++ [34%N]).
  assert (R : read_byte 34%N r = Some (None, set_state (ReadingString st) (set_input (if store_char r then r_input r ++ [34%N] else r_input r) r))).
  { unfold ReaderModel.read_byte. destruct Hst as [[-> _]|(k & -> & _ & _)];
      destruct (store_char r) eqn:Es; cbn [set_input r_state]; rewrite E; cbn; destruct r; cbn in *; subst; reflexivity. }
  cbn [ReaderModel.feed]. rewrite R. rewrite feed_app. erewrite string_feed by (eassumption || reflexivity).
  cbn [ReaderModel.feed]. unfold ReaderModel.read_byte at 1. cbn [store_char set_state set_input r_state r_input].
  rewrite N.eqb_refl. split.
  - cbn. rewrite <- !app_assoc. destruct r; cbn in *; subst; reflexivity.
  - intros Hk. rewrite Hk. rewrite <- app_assoc. reflexivity.
Qed.
Lemma pass_object m k : 1 <= k -> k < 255 -> pass m (ReadingBinding (S k)) ->
  pass (123%N :: m ++ [125%N]) (ReadingBinding k).
Proof.
  intros Hk Hk' Hm r E.
  assert (R : read_byte 123%N r = Some (None, set_state (ReadingBinding (S k)) (set_input (if store_char r then r_input r ++ [123%N] else r_input r) r))).
  { unfold ReaderModel.read_byte. destruct (store_char r) eqn:Es; cbn [set_input r_state]; rewrite E.
    all: cbn [N.eqb RBRACE LBRACE Pos.eqb]; rewrite Nat.mod_small by lia; rewrite Nat.add_1_r; destruct r; reflexivity. }
  cbn [ReaderModel.feed]. rewrite R. rewrite feed_app.
  match goal with |- context [feed m ?r1] => destruct (Hm r1 eq_refl) as (buf & F & K) end. rewrite F.
  exists (if store_char r then buf ++ [125%N] else buf).
  cbn [ReaderModel.feed].
  match goal with |- context [read_byte 125%N ?r2] =>
    assert (R' : read_byte 125%N r2 = Some (None, set_state (ReadingBinding k) (set_input (if store_char r then buf ++ [125%N] else buf) r2))) end.
  { unfold ReaderModel.read_byte. unfold store_char; cbn [set_state set_input r_state r_input r_offset r_count r_limit].
    rewrite E. destruct (_ && _) eqn:Es; cbn [set_state set_input r_state]; cbn [N.eqb RBRACE Pos.eqb].
    all: replace (S k =? 1) with false by (symmetry; apply Nat.eqb_neq; lia).
    all: replace ((S k + 255) mod 256) with k by (replace (S k + 255) with (k + 1 * 256) by lia; rewrite Nat.mod_add, Nat.mod_small by lia; reflexivity).
    all: destruct r; reflexivity. }
  rewrite R'. split.
  - cbn. destruct r; cbn in *; subst; reflexivity.
  - intros Hs. rewrite Hs. rewrite Hs in K. cbn [set_state set_input r_input] in K. rewrite K.
    + rewrite <- !app_assoc. reflexivity.
    + unfold store_char in *. cbn [set_state set_input r_state r_offset r_count r_limit]. rewrite E in Hs. exact Hs.
Qed.

Scheme jv_ind := Induction for json_value Sort Prop
  with je_ind := Induction for json_elements Sort Prop
  with jm_ind := Induction for json_members Sort Prop.
Combined Scheme json_mut from jv_ind, je_ind, jm_ind.

Ltac q := unfold quiet; repeat split; discriminate.
Lemma pass_json :
  (forall d w, json_value d w -> forall st, okst st d -> pass w st) /\
  (forall d w, json_elements d w -> forall st, okst st d -> pass w st) /\
  (forall d w, json_members d w -> forall st, okst st d -> pass w st).
Proof.
  apply (json_mut (fun d w _ => forall st, okst st d -> pass w st) (fun d w _ => forall st, okst st d -> pass w st)
                  (fun d w _ => forall st, okst st d -> pass w st)).
  - intros d w Hs st H. eapply pass_string; eassumption.
  - intros d w Hs st H. eapply pass_quiets; [exact H|now apply scalar_quiet].
  - intros d w _ IH st H. change (91%N :: w ++ [93%N]) with ([91%N] ++ w ++ [93%N]).
    repeat apply pass_app; [eapply pass_quiet; [exact H|q]|now apply IH|eapply pass_quiet; [exact H|q]].
  - intros d w _ IH st [[_ K]|(k & -> & Hk & Hd)]; [discriminate|].
    apply pass_object; [exact Hk|lia|]. apply IH. right. exists (S k). split; [reflexivity|lia].
  - intros d w Hw st H. eapply pass_quiets; [exact H|now apply ws_quiet].
  - intros d a v b Ha Hb _ IH st H. repeat apply pass_app; try (eapply pass_quiets; [exact H|now apply ws_quiet]). now apply IH.
  - intros d a v b r Ha Hb _ IH _ IHr st H. change (44%N :: r) with ([44%N] ++ r).
    repeat apply pass_app; try (eapply pass_quiets; [exact H|now apply ws_quiet]); try (now apply IH); try (now apply IHr).
    eapply pass_quiet; [exact H|q].
  - intros d w Hw st H. eapply pass_quiets; [exact H|now apply ws_quiet].
  - intros d a k b c v e Ha Hb Hc He Hk _ IH st H. change (58%N :: c ++ v ++ e) with ([58%N] ++ c ++ v ++ e).
    repeat apply pass_app; try (eapply pass_quiets; [exact H|now apply ws_quiet]); try (now apply IH);
      try (eapply pass_string; eassumption). eapply pass_quiet; [exact H|q].
  - intros d a k b c v e r Ha Hb Hc He Hk _ IH _ IHr st H.
    change (58%N :: c ++ v ++ e ++ 44%N :: r) with ([58%N] ++ c ++ v ++ e ++ [44%N] ++ r).
    repeat apply pass_app; try (eapply pass_quiets; [exact H|now apply ws_quiet]); try (now apply IH); try (now apply IHr);
      try (eapply pass_string; eassumption); (eapply pass_quiet; [exact H|q]).
Qed.

(** bytes that mean nothing in a searching state *)
Definition ignored (st : scan) (b : byte) : Prop :=
  match st with
  | SearchingBindings => b <> 91%N
  | SearchingBinding => b <> 123%N /\ b <> 93%N
  | SearchingMeta => b <> 123%N
  | ReaderDone => True
  | _ => False
  end.
Lemma feed_ignored st w : Forall (ignored st) w -> forall r : reader, r_state r = st -> feed w r = ([], Some r).
Proof.
  induction 1 as [|b w Hb _ IH]; intros r E; [reflexivity|]. cbn [ReaderModel.feed].
  assert (R : read_byte b r = Some (None, r)).
  { unfold ReaderModel.read_byte, store_char. destruct st; cbn in Hb; try contradiction; rewrite E;
      cbn [r_state]; rewrite ?E; unfold LBRACKET, RBRACKET, LBRACE; rewrite ?eqb_ne by tauto; reflexivity. }
  rewrite R, IH by exact E. reflexivity.
Qed.
Lemma ws_ignored w : ws w -> Forall (ignored SearchingBinding) w.
Proof.
  intros H. eapply Forall_impl; [|exact H]. intros b Hb. unfold ws_byte in Hb. cbn in Hb. cbn.
  split; intros ->; intuition discriminate.
Qed.

(** one binding object *)
Lemma feed_object o d : json_object d o -> d <= 255 -> forall r : reader, r_state r = SearchingBinding ->
  exists buf,
  feed o r =
   (let r' := set_count (r_count r + 1) r in
    if wanted (r_limit r) (r_offset r) (r_count r) then
      match binding_of o with
      | None => ([], None)
      | Some x => if length (r_buffer r ++ [x]) =? r_batch r
                  then ([Bindings (r_buffer r ++ [x])], Some (set_input buf (set_buffer [] r')))
                  else ([], Some (set_input buf (set_buffer (r_buffer r ++ [x]) r')))
      end
    else ([], Some (set_input buf r'))).
Proof.
  intros (m & e & -> & Hm & ->) Hd r E.
  assert (Hp : pass m (ReadingBinding 1)).
  { apply (proj2 (proj2 pass_json) _ _ Hm). right. exists 1. split; [reflexivity|lia]. }
  assert (R : read_byte 123%N r = Some (None, set_state (ReadingBinding 1) (set_input [123%N] r))).
  { unfold ReaderModel.read_byte, store_char. rewrite E. cbn [r_state]. rewrite E. reflexivity. }
  cbn [ReaderModel.feed]. rewrite R. rewrite feed_app.
  match goal with |- context [feed m ?r1] => destruct (Hp r1 eq_refl) as (buf & F & K) end. rewrite F.
  cbn [ReaderModel.feed]. unfold ReaderModel.read_byte.
  unfold store_char in K |- *. cbn [set_state set_input r_state r_input r_offset r_count r_limit] in K |- *.
  unfold wanted. destruct (_ && _) eqn:W.
  - cbn [set_state set_input set_count r_state r_input r_offset r_count r_limit]. rewrite N.eqb_refl. cbn [Nat.eqb].
    cbn [set_state set_input set_count set_buffer r_state r_input r_offset r_count r_limit r_buffer r_batch].
    apply andb_prop in W as [W1 W2]. apply Nat.leb_le in W1.
    replace (r_offset r <? r_count r + 1) with true by (symmetry; apply Nat.ltb_lt; lia).
    replace (none_or (r_limit r) (fun limit => r_count r + 1 - r_offset r <=? limit)) with true.
    2:{ symmetry. destruct (r_limit r) as [l|]; [|reflexivity]. cbn in *. apply Nat.ltb_lt in W2. apply Nat.leb_le. lia. }
    cbn [andb]. rewrite K by reflexivity. rewrite <- app_assoc. cbn [app].
    exists (123%N :: m ++ [125%N]).
    destruct (binding_of _) as [x|]; [|reflexivity]. destruct (_ =? _) eqn:B; destruct r; cbn in *; subst; reflexivity.
  - cbn [set_state set_input set_count r_state r_input r_offset r_count r_limit]. rewrite N.eqb_refl. cbn [Nat.eqb].
    cbn [set_state set_input set_count set_buffer r_state r_input r_offset r_count r_limit r_buffer r_batch].
    replace ((r_offset r <? r_count r + 1) && none_or (r_limit r) (fun limit => r_count r + 1 - r_offset r <=? limit)) with false.
    2:{ symmetry. apply andb_false_iff in W as [W|W].
        - apply andb_false_iff. left. apply Nat.leb_gt in W. apply Nat.ltb_ge. lia.
        - apply andb_false_iff. destruct (Nat.leb_spec (r_offset r) (r_count r)).
          + right. destruct (r_limit r) as [l|]; [|discriminate]. cbn in *. apply Nat.ltb_ge in W. apply Nat.leb_gt. lia.
          + left. apply Nat.ltb_ge. lia. }
    exists []. destruct r; cbn in *; subst; reflexivity.
Qed.

Fixpoint parse_all (os : list (list byte)) : option (list binding) :=
  match os with
  | [] => Some []
  | o :: r => match binding_of o, parse_all r with Some x, Some xs => Some (x :: xs) | _, _ => None end
  end.
Lemma feed_objects d os w : object_list d os w -> d <= 255 -> forall (r : reader) xs,
  r_state r = SearchingBinding ->
  parse_all (requested (r_limit r) (r_offset r) (r_count r) os) = Some xs ->
  exists buf,
  feed w r = (map Bindings (fst (batches (r_batch r) (r_buffer r) xs)),
              Some (set_input buf (set_count (r_count r + length os) (set_buffer (snd (batches (r_batch r) (r_buffer r) xs)) r)))).
Proof.
  intros Hl Hd. 
  assert (One : forall o a b (r : reader) xs rest, ws a -> Forall (ignored SearchingBinding) b -> json_object d o -> r_state r = SearchingBinding ->
     parse_all (requested (r_limit r) (r_offset r) (r_count r) (o :: rest)) = Some xs ->
     exists (r' : reader) full xs', feed (a ++ o ++ b) r = (map Bindings full, Some r') /\ r_state r' = SearchingBinding /\
       r_count r' = r_count r + 1 /\ r_limit r' = r_limit r /\ r_offset r' = r_offset r /\ r_batch r' = r_batch r /\
       parse_all (requested (r_limit r) (r_offset r) (r_count r + 1) rest) = Some xs' /\
       batches (r_batch r) (r_buffer r) xs = (full ++ fst (batches (r_batch r) (r_buffer r') xs'), snd (batches (r_batch r) (r_buffer r') xs'))).
  { intros o a b r xs rest Ha Hb Ho E P. rewrite feed_app, (feed_ignored SearchingBinding) by (try apply ws_ignored; assumption).
    rewrite feed_app. destruct (feed_object o d Ho Hd r E) as (buf & F). rewrite F. clear F. cbv zeta.
    cbn [requested] in P. rewrite Nat.add_1_r. destruct (wanted _ _ _).
    - cbn [parse_all] in P. destruct (binding_of o) as [x|]; [|discriminate].
      destruct (parse_all (requested (r_limit r) (r_offset r) (S (r_count r)) rest)) as [xs'|] eqn:P'; [|discriminate].
      injection P as <-. cbn [batches]. destruct (_ =? _) eqn:B.
      + eexists _, [_], xs'. rewrite (feed_ignored SearchingBinding) by (try assumption; reflexivity || exact E).
        split; [reflexivity|]. cbn. repeat (split; [first [reflexivity|exact E]|]). destruct (batches _ [] xs'); reflexivity.
      + eexists _, [], xs'. rewrite (feed_ignored SearchingBinding) by (try assumption; reflexivity || exact E).
        split; [reflexivity|]. cbn. repeat (split; [first [reflexivity|exact E]|]). destruct (batches _ _ xs'); reflexivity.
    - eexists _, [], xs. rewrite (feed_ignored SearchingBinding) by (try assumption; reflexivity || exact E).
      split; [reflexivity|]. cbn. repeat (split; [first [reflexivity|exact E|exact P]|]). destruct (batches _ _ xs); reflexivity. }
  induction Hl as [w Hw|a o b Ha Hb Ho|a o b os w Ha Hb Ho Hne Hl IH]; intros r xs E P.
  - cbn in P. injection P as <-. exists (r_input r). rewrite (feed_ignored SearchingBinding) by (try apply ws_ignored; assumption).
    cbn. rewrite Nat.add_0_r. destruct r; reflexivity.
  - destruct (One o a b r xs [] Ha (ws_ignored _ Hb) Ho E P) as (r' & full & xs' & F & E' & H1 & H2 & H3 & H4 & H5 & H6).
    cbn in H5. injection H5 as <-. exists (r_input r'). rewrite F, H6. cbn [batches fst snd]. rewrite app_nil_r.
    f_equal. f_equal. destruct r, r'; cbn in *; subst; reflexivity.
  - replace (a ++ o ++ b ++ 44%N :: w) with ((a ++ o ++ b ++ [44%N]) ++ w) by (rewrite <- !app_assoc; reflexivity).
    assert (Hb' : Forall (ignored SearchingBinding) (b ++ [44%N])).
    { apply Forall_app. split; [now apply ws_ignored|]. constructor; [split; discriminate|constructor]. }
    destruct (One o a (b ++ [44%N]) r xs os Ha Hb' Ho E P) as (r' & full & xs' & F & E' & H1 & H2 & H3 & H4 & H5 & H6).
    rewrite feed_app, F. rewrite <- H1, <- H2, <- H3 in H5. destruct (IH r' xs' E' H5) as (buf & F'). rewrite F'.
    exists buf. rewrite H6, <- H4. cbn [fst snd length]. rewrite map_app. f_equal. f_equal.
    destruct r, r'; cbn in *; subst. unfold set_input, set_count, set_buffer; cbn. f_equal. lia.
Qed.

Lemma head_feed (r : reader) (key head : list byte) h : (exists a k b c, ws a /\ json_string k /\ ws b /\ ws c /\ key = 123%N :: a ++ k ++ b ++ 58%N :: c) ->
  json_object 1 head -> r_state r = ReadingHead -> r_input r = [] -> header_of (key ++ head ++ [125%N]) = Some h ->
  feed (key ++ head) r = ([Header h], Some (set_state SearchingBindings (set_input (key ++ head ++ [125%N]) r))).
Proof.
  intros (a & k & b & c & Ha & Hk & Hb & Hc & ->) (m & e & He & Hm & ->) E Ei Hh.
  injection He as <-.
  assert (O : okst ReadingHead 0) by (left; split; reflexivity).
  (* the braces before the end of the head are stored like any other byte *)
  assert (B : pass [123%N] ReadingHead).
  { intros q Eq. exists (r_input q ++ [123%N]). split; [|auto]. cbn [ReaderModel.feed]. unfold ReaderModel.read_byte, store_char.
    rewrite Eq. cbn [set_input r_state]. rewrite Eq. destruct q; reflexivity. }
  assert (P : pass ((123%N :: a ++ k ++ b ++ 58%N :: c) ++ 123%N :: m) ReadingHead).
  { change (123%N :: m) with ([123%N] ++ m). change (123%N :: a ++ k ++ b ++ 58%N :: c) with ([123%N] ++ a ++ k ++ b ++ [58%N] ++ c).
    repeat apply pass_app; try exact B; try (eapply pass_quiets; [exact O|now apply ws_quiet]).
    - eapply pass_string; eassumption.
    - eapply pass_quiet; [exact O|q].
    - apply (proj2 (proj2 pass_json) _ _ Hm). exact O. }
  destruct (P r E) as (buf & F & K).
  assert (Ks : store_char r = true) by (unfold store_char; now rewrite E). specialize (K Ks). rewrite Ei in K. cbn [app] in K.
  replace ((123%N :: a ++ k ++ b ++ 58%N :: c) ++ 123%N :: m ++ [125%N])
     with (((123%N :: a ++ k ++ b ++ 58%N :: c) ++ 123%N :: m) ++ [125%N]) by (rewrite <- !app_assoc; reflexivity).
  rewrite feed_app, F. cbn [ReaderModel.feed]. unfold ReaderModel.read_byte, store_char. cbn [set_input r_state]. rewrite E.
  cbn [set_input r_state r_input]. rewrite E. rewrite N.eqb_refl.
  subst buf.
  match goal with |- context [header_of ?x] => replace (header_of x) with (Some h) end.
  2:{ rewrite <- Hh. f_equal. cbn [set_input r_input app]. repeat (rewrite <- !app_assoc; cbn [app]). reflexivity. }
  destruct r; cbn in *; subst. repeat (rewrite <- !app_assoc; cbn [app]). reflexivity.
Qed.
End R.
