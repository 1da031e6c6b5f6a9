(** Proofs about message framing. *)
From Coq Require Import DecimalN DecimalNat Decimal DecimalPos String List Arith NArith ZArith Lia Bool ZifyBool ZifyNat ZifyN.
Import ListNotations.
From Verif Require Import TextModel Utf8Model FrameModel.
Local Open Scope N_scope.

(** ** numbers *)
Fixpoint value (acc : N) (cs : list byte) : N :=
  match cs with [] => acc | c :: r => value (acc * 10 + (c - 48)) r end.
Definition is_digit (c : byte) : bool := (48 <=? c) && (c <=? 57).
Lemma uint_bytes_digits d : forallb is_digit (uint_bytes d) = true.
Proof. induction d; cbn [uint_bytes forallb]; auto. Qed.
Lemma value_mono cs acc : acc <= value acc cs.
Proof. revert acc; induction cs as [|c r IH]; intros acc; cbn [value]; [lia|]. specialize (IH (acc * 10 + (c - 48))). lia. Qed.
Lemma parse_digits_ok cs : forall acc, forallb is_digit cs = true -> value acc cs <= u32_max ->
  parse_digits acc cs = Some (value acc cs).
Proof.
  induction cs as [|c r IH]; intros acc H Hv; cbn [value parse_digits] in *; [reflexivity|].
  cbn [forallb] in H. apply andb_prop in H. destruct H as [Hc Hr].
  unfold is_digit in Hc. rewrite Hc. pose proof (value_mono r (acc * 10 + (c - 48))) as M.
  replace (acc * 10 + (c - 48) <=? u32_max) with true by lia. now apply IH.
Qed.
Lemma value_uint_pos d : forall p, value (N.pos p) (uint_bytes d) = N.pos (Pos.of_uint_acc d p).
Proof.
  induction d as [|d IH|d IH|d IH|d IH|d IH|d IH|d IH|d IH|d IH|d IH]; intros p; cbn [uint_bytes value Pos.of_uint_acc]; [reflexivity|..];
    rewrite <- IH; f_equal; lia.
Qed.
Lemma value_uint d : value 0 (uint_bytes d) = N.of_uint d.
Proof.
  unfold N.of_uint. induction d as [|d IH|d IH|d IH|d IH|d IH|d IH|d IH|d IH|d IH|d IH]; cbn [uint_bytes value Pos.of_uint]; [reflexivity| |..];
    [exact IH|..]; rewrite <- value_uint_pos; reflexivity.
Qed.
Lemma decimal_value n : value 0 (decimal n) = n.
Proof. unfold decimal. rewrite value_uint. apply DecimalN.Unsigned.of_to. Qed.
Lemma decimal_digits n : forallb is_digit (decimal n) = true.
Proof. apply uint_bytes_digits. Qed.
Lemma decimal_not_nil n : decimal n <> [].
Proof.
  intros H. unfold decimal in H. destruct n as [|p]; [discriminate|].
  assert (E : N.of_uint (N.to_uint (N.pos p)) = N.pos p) by apply DecimalN.Unsigned.of_to.
  destruct (N.to_uint (N.pos p)); try discriminate.
Qed.
Lemma parse_u32_decimal n : n <= u32_max -> parse_u32 (decimal n) = Some n.
Proof.
  intros Hn. pose proof (decimal_digits n) as Hd. pose proof (decimal_not_nil n) as Hz.
  pose proof (decimal_value n) as Hv. destruct (decimal n) as [|c r] eqn:E; [congruence|].
  unfold parse_u32. cbn [forallb] in Hd. apply andb_prop in Hd. destruct Hd as [Hc Hr].
  replace (c =? 43) with false by (unfold is_digit in Hc; lia).
  rewrite (parse_digits_ok (c :: r)); [now f_equal|cbn [forallb]; now rewrite Hc, Hr|lia].
Qed.
(** ASCII is its own UTF-8 encoding *)
Lemma from_utf8_ascii bs : forallb (fun b => b <? 128) bs = true -> from_utf8 bs = Some bs.
Proof.
  induction bs as [|b r IH]; [reflexivity|]. cbn [forallb]. intros H%andb_prop. destruct H as [Hb Hr].
  cbn [from_utf8]. rewrite Hb, IH by assumption. reflexivity.
Qed.

(** ** the header *)
(** a byte string without '\r' *)
Definition no_cr_bytes (bs : list byte) : bool := forallb (fun b => negb (b =? 13)) bs.
Lemma ends_header_app x a b c d : ends_header (x ++ [a; b; c; d]) = (d =? 10) && (c =? 13) && (b =? 10) && (a =? 13).
Proof. unfold ends_header. rewrite rev_app_distr. reflexivity. Qed.
Lemma ends_header_cr bs : ends_header bs = true -> exists x, bs = x ++ [13; 10; 13; 10].
Proof.
  unfold ends_header. intros H. rewrite <- (rev_involutive bs). destruct (rev bs) as [|d [|c [|b [|a r]]]]; try discriminate.
  exists (rev r). cbn [rev]. rewrite <- !app_assoc. cbn [app].
  repeat f_equal; lia.
Qed.
Lemma no_cr_app x y : no_cr_bytes (x ++ y) = no_cr_bytes x && no_cr_bytes y.
Proof. apply forallb_app. Qed.
Lemma ends_header_no_cr x y : no_cr_bytes x = true -> (length y < 4)%nat -> ends_header (x ++ y) = false.
Proof.
  intros Hx Hy. destruct (ends_header (x ++ y)) eqn:E; [|reflexivity]. exfalso.
  apply ends_header_cr in E. destruct E as [z E].
  assert (L : (length z < length x)%nat). { apply (f_equal (@length _)) in E. rewrite !app_length in E. cbn in E. lia. }
  assert (K : nth_error x (length z) = Some 13).
  { rewrite <- (nth_error_app1 x y) by assumption. rewrite E, nth_error_app2 by lia. now rewrite Nat.sub_diag. }
  unfold no_cr_bytes in Hx. rewrite forallb_forall in Hx. apply nth_error_In in K. specialize (Hx 13 K). discriminate.
Qed.
(** reading over bytes that contain no '\r' only extends the buffer *)
Lemma read_header_skip x : forall buf s, no_cr_bytes (buf ++ x) = true ->
  read_header buf (map Byte x ++ s) = read_header (buf ++ x) s.
Proof.
  induction x as [|b x IH]; intros buf s H; cbn [map app]; [now rewrite app_nil_r|].
  cbn [read_header].
  assert (H' : no_cr_bytes ((buf ++ [b]) ++ x) = true) by now rewrite <- app_assoc.
  rewrite <- (app_nil_r (buf ++ [b])) at 1. rewrite ends_header_no_cr; [|rewrite no_cr_app in H'; now apply andb_prop in H'|cbn; lia].
  rewrite IH by assumption. now rewrite <- app_assoc.
Qed.
Lemma read_header_end x s : no_cr_bytes x = true ->
  read_header x (map Byte (crlf ++ crlf) ++ s) =
  match content_length (x ++ crlf ++ crlf) with None => RPanic | Some n => read_body n [] s end.
Proof.
  intros H. unfold crlf. cbn [map app read_header].
  rewrite <- !app_assoc. cbn [app]. rewrite !ends_header_no_cr by (try assumption; cbn; lia).
  rewrite ends_header_app. reflexivity.
Qed.
Lemma content_length_of x y : length x = 16%nat ->
  content_length (x ++ y ++ crlf ++ crlf) = match from_utf8 y with None => None | Some cs => parse_u32 cs end.
Proof.
  intros Hx. unfold content_length. rewrite !app_length. cbn [length crlf].
  replace (length x + (length y + (2 + 2)) - 4 <? 16)%nat with false by lia.
  replace (length x + (length y + (2 + 2)) - 4 - 16)%nat with (length y) by lia.
  rewrite skipn_app. rewrite skipn_all2 by lia. rewrite Hx. cbn [Nat.sub app skipn].
  rewrite firstn_app, firstn_all, Nat.sub_diag. cbn [firstn]. now rewrite app_nil_r.
Qed.

(** ** the body *)
Lemma read_body_all bs : forall buf s, read_body (N.of_nat (length bs)) buf (map Byte bs ++ s) = finish (buf ++ bs) s.
Proof.
  induction bs as [|b r IH]; intros buf s.
  - rewrite app_nil_r. cbn [length map app N.of_nat]. destruct s; reflexivity.
  - cbn [map app length]. cbn [read_body].
    replace (N.of_nat (S (length r)) =? 0) with false by lia.
    replace (N.of_nat (S (length r)) - 1) with (N.of_nat (length r)) by lia.
    rewrite IH. now rewrite <- app_assoc.
Qed.
Lemma read_body_short n bs : forall buf, (N.of_nat (length bs) < n) -> read_body n buf (map Byte bs) = RNone.
Proof.
  revert n. induction bs as [|b r IH]; intros n buf H; cbn [map read_body].
  - replace (n =? 0) with false by (cbn in H; lia). reflexivity.
  - cbn [length] in H. replace (n =? 0) with false by lia. apply IH. lia.
Qed.

(** ** whole frames *)
Definition head_bytes : list byte := bytes_of "Content-Length: ".
Lemma head_len : length head_bytes = 16%nat. Proof. reflexivity. Qed.
Lemma digits_no_cr ds : forallb is_digit ds = true -> no_cr_bytes ds = true.
Proof.
  induction ds as [|d r IH]; [reflexivity|]. cbn [forallb no_cr_bytes]. intros H%andb_prop. destruct H as [Hd Hr].
  fold (no_cr_bytes r). rewrite IH by assumption. unfold is_digit in Hd. lia.
Qed.
Lemma digits_ascii ds : forallb is_digit ds = true -> forallb (fun b => b <? 128) ds = true.
Proof.
  induction ds as [|d r IH]; [reflexivity|]. cbn [forallb]. intros H%andb_prop. destruct H as [Hd Hr].
  rewrite IH by assumption. unfold is_digit in Hd. lia.
Qed.
(** any 16 bytes before the number will do *)
Lemma read_frame name body s : length name = 16%nat -> no_cr_bytes name = true -> N.of_nat (length body) <= u32_max ->
  read_header [] (map Byte (name ++ decimal (N.of_nat (length body)) ++ crlf ++ crlf ++ body) ++ s) = finish body s.
Proof.
  intros Hl Hn Hb.
  pose proof (decimal_digits (N.of_nat (length body))) as Hd.
  rewrite (app_assoc name), (app_assoc crlf), app_assoc, !map_app, <- !app_assoc.
  rewrite (app_assoc (map Byte name)), <- map_app.
  rewrite read_header_skip by (cbn [app]; rewrite no_cr_app, Hn; now rewrite digits_no_cr).
  cbn [app]. rewrite (app_assoc (map Byte crlf)), <- map_app.
  rewrite read_header_end by (rewrite no_cr_app, Hn; now rewrite digits_no_cr).
  rewrite <- app_assoc. rewrite content_length_of by assumption.
  rewrite from_utf8_ascii by now apply digits_ascii.
  rewrite parse_u32_decimal by assumption. apply read_body_all.
Qed.

Definition deliverable (m : text) : Prop := forallb is_scalar m = true /\ N.of_nat (byte_len m) <= u32_max.
Lemma read_sent m s : deliverable m -> read_header [] (map Byte (send_message m) ++ s) = RMsg m s.
Proof.
  intros [Hs Hl]. unfold send_message. rewrite <- utf8_length. rewrite <- utf8_length in Hl.
  rewrite read_frame by (try reflexivity; assumption). unfold finish. now rewrite from_utf8_utf8.
Qed.
Lemma send_nonempty m : (0 < length (send_message m))%nat.
Proof. unfold send_message. rewrite app_length. cbn. lia. Qed.

(** more gas does not matter *)
Lemma session_sent ms : forall gas s, Forall deliverable ms ->
  session (length ms + gas) (map Byte (flat_map send_message ms) ++ s) =
  (ms ++ fst (session gas s), snd (session gas s)).
Proof.
  induction ms as [|m ms IH]; intros gas s H; cbn [length flat_map map app plus]; [now destruct (session gas s)|].
  inversion H as [|? ? Hm Hms]; subst. cbn [session]. rewrite map_app, <- app_assoc.
  rewrite read_sent by assumption. rewrite IH by assumption. reflexivity.
Qed.
Lemma read_header_shrinks s : forall buf m r, read_header buf s = RMsg m r -> (length r < length s)%nat.
Proof.
  assert (B : forall s n buf m r, read_body n buf s = RMsg m r -> (length r <= length s)%nat).
  { assert (F : forall buf s m r, finish buf s = RMsg m r -> r = s).
    { intros buf s' m r. unfold finish. destruct (from_utf8 buf); congruence. }
    induction s0 as [|[b|] r0 IH]; intros n buf m r; cbn [read_body]; destruct (n =? 0); intros H; try discriminate;
      try (apply F in H; subst; cbn; lia).
    apply IH in H. cbn; lia. }
  induction s as [|[b|] s IH]; intros buf m r; cbn [read_header]; try discriminate.
  destruct (ends_header (buf ++ [b])).
  - destruct (content_length (buf ++ [b])); [|discriminate]. intros H%B. cbn; lia.
  - intros H%IH. cbn; lia.
Qed.
Lemma session_gas : forall n s g, (length s < n)%nat -> (length s < g)%nat -> session n s = session g s.
Proof.
  induction n as [|n IH]; intros s g Hn Hg; [lia|]. destruct g as [|g]; [lia|]. cbn [session].
  destruct (read_header [] s) as [m r| |] eqn:E; try reflexivity.
  apply read_header_shrinks in E. rewrite (IH r g) by lia. reflexivity.
Qed.
Lemma session_never_out_of_gas s : snd (run_session s) <> OutOfGas.
Proof.
  unfold run_session. assert (G : forall n s, (length s < n)%nat -> snd (session n s) <> OutOfGas).
  { induction n as [|n IH]; intros s' H; [lia|]. cbn [session]. destruct (read_header [] s') as [m r| |] eqn:E; try discriminate.
    apply read_header_shrinks in E. specialize (IH r). destruct (session n r). cbn [snd] in *. apply IH. lia. }
  apply G. lia.
Qed.
Lemma run_session_sent ms s : Forall deliverable ms ->
  run_session (map Byte (flat_map send_message ms) ++ s) = (ms ++ fst (run_session s), snd (run_session s)).
Proof.
  intros H. unfold run_session at 1.
  assert (L : (length ms <= length (flat_map send_message ms))%nat).
  { clear. induction ms as [|m ms IH]; [cbn; lia|]. cbn [flat_map length]. rewrite app_length. pose proof (send_nonempty m). lia. }
  rewrite app_length, map_length.
  rewrite (session_gas _ _ (length ms + S (length (flat_map send_message ms) + length s)));
    [|rewrite app_length, map_length; lia..].
  rewrite session_sent by assumption. unfold run_session.
  rewrite (session_gas (S (length (flat_map send_message ms) + length s)) s (S (length s))) by lia. reflexivity.
Qed.

(** a frame cut short anywhere ends the session *)
Lemma read_header_truncated bs : forall buf, (forall k, (0 < k <= length bs)%nat -> ends_header (buf ++ firstn k bs) = false) ->
  read_header buf (map Byte bs) = RNone.
Proof.
  induction bs as [|b r IH]; intros buf H; [reflexivity|]. cbn [map read_header].
  pose proof (H 1%nat) as H1. cbn [firstn length] in H1. rewrite H1 by lia. apply IH. intros k Hk.
  specialize (H (S k)). cbn [firstn length] in H. rewrite <- app_assoc. apply H. lia.
Qed.
Lemma read_cut m k : deliverable m -> (k < length (send_message m))%nat ->
  read_header [] (map Byte (firstn k (send_message m))) = RNone.
Proof.
  intros [Hs Hl] Hk. unfold send_message in *. rewrite <- utf8_length in *. fold head_bytes in *.
  remember (utf8 m) as body eqn:Eb. clear Hs Eb m.
  remember (decimal (N.of_nat (length body))) as ds eqn:Eds.
  pose proof (decimal_digits (N.of_nat (length body))) as Hd. rewrite <- Eds in Hd.
  assert (Hn : no_cr_bytes (head_bytes ++ ds) = true) by (rewrite no_cr_app, (digits_no_cr ds) by assumption; reflexivity).
  destruct (Nat.le_gt_cases (length (head_bytes ++ ds ++ crlf ++ crlf)) k) as [G|G].
  - replace (head_bytes ++ ds ++ crlf ++ crlf ++ body) with ((head_bytes ++ ds ++ crlf ++ crlf) ++ body) by now rewrite <- !app_assoc.
    rewrite firstn_app. rewrite firstn_all2 by lia. rewrite map_app.
    rewrite app_assoc, app_assoc, <- (app_assoc (head_bytes ++ ds) crlf crlf), map_app, <- app_assoc.
    rewrite read_header_skip by assumption. cbn [app].
    rewrite read_header_end by assumption.
    rewrite <- (app_assoc head_bytes ds). rewrite content_length_of by reflexivity.
    rewrite from_utf8_ascii by now apply digits_ascii. rewrite Eds, parse_u32_decimal by assumption. rewrite <- Eds.
    apply read_body_short. rewrite firstn_length. 
    replace (head_bytes ++ ds ++ crlf ++ crlf ++ body) with ((head_bytes ++ ds ++ crlf ++ crlf) ++ body) in Hk by now rewrite <- !app_assoc.
    rewrite app_length in Hk. rewrite !app_length in *. lia.
  - apply read_header_truncated. intros j Hj. cbn [app]. rewrite firstn_length in Hj. rewrite firstn_firstn.
    replace (min j k) with j by lia.
    replace (head_bytes ++ ds ++ crlf ++ crlf ++ body) with ((head_bytes ++ ds) ++ crlf ++ crlf ++ body) by now rewrite <- !app_assoc.
    replace (head_bytes ++ ds ++ crlf ++ crlf) with ((head_bytes ++ ds) ++ crlf ++ crlf) in G by now rewrite <- !app_assoc.
    rewrite firstn_app. rewrite (app_length (head_bytes ++ ds)) in G. cbn [crlf app length] in G.
    destruct (Nat.le_gt_cases j (length (head_bytes ++ ds))) as [J|J].
    + replace (j - length (head_bytes ++ ds))%nat with 0%nat by lia. cbn [firstn]. 
      assert (N' : no_cr_bytes (firstn j (head_bytes ++ ds)) = true).
      { unfold no_cr_bytes in *. rewrite forallb_forall in *. intros x Hx. apply Hn. rewrite <- (firstn_skipn j). apply in_or_app. now left. }
      apply ends_header_no_cr; [exact N'|cbn; lia].
    + rewrite firstn_all2 by lia. apply ends_header_no_cr; [exact Hn|]. rewrite firstn_length. lia.
Qed.

(** ** deviations *)
Lemma from_utf8_in bs t b : from_utf8 bs = Some t -> b < 128 -> In b bs -> In b t.
Proof.
  intros H Hb Hi. apply from_utf8_sound in H. destruct H as [<- _]. unfold utf8 in Hi. apply in_flat_map in Hi.
  destruct Hi as (c & Hc & Hin). unfold utf8_char in Hin.
  destruct (c <? 128) eqn:?; [cbn in Hin; destruct Hin as [->|[]]; exact Hc|].
  exfalso. destruct (c <? 2048), (c <? 65536); cbn [In] in Hin; lia.
Qed.
Lemma parse_digits_all cs : forall acc n, parse_digits acc cs = Some n -> forallb is_digit cs = true.
Proof.
  induction cs as [|c r IH]; intros acc n; cbn [parse_digits forallb]; [reflexivity|].
  unfold is_digit at 1. destruct ((48 <=? c) && (c <=? 57)) eqn:E; [|discriminate].
  destruct (_ <=? u32_max); [|discriminate]. intros H. cbn [andb]. eapply IH; eauto.
Qed.
Lemma parse_u32_in cs b : In b cs -> is_digit b = false -> b <> 43 -> parse_u32 cs = None.
Proof.
  intros Hi Hd Hp.
  assert (Q : forall ds, In b ds -> parse_digits 0 ds = None).
  { intros ds Hin. destruct (parse_digits 0 ds) eqn:P; [|reflexivity]. apply parse_digits_all in P.
    rewrite forallb_forall in P. rewrite (P b Hin) in Hd. discriminate. }
  unfold parse_u32. destruct cs as [|c r]; [reflexivity|]. destruct (c =? 43) eqn:C.
  - destruct Hi as [->|Hi]; [lia|]. destruct r as [|d r']; [reflexivity|]. now apply Q.
  - now apply Q.
Qed.
Lemma read_two_headers name value1 extra s :
  length name = 16%nat -> no_cr_bytes name = true -> no_cr_bytes value1 = true -> no_cr_bytes extra = true -> extra <> [] ->
  read_header [] (map Byte (name ++ value1 ++ crlf ++ extra ++ crlf ++ crlf) ++ s) = RPanic.
Proof.
  intros Hl Hn Hv He Hne.
  assert (K : forall y buf s, (forall k, (0 < k <= length y)%nat -> ends_header (buf ++ firstn k y) = false) ->
    read_header buf (map Byte y ++ s) = read_header (buf ++ y) s).
  { induction y as [|b y IH]; intros buf s' H; [now rewrite app_nil_r|]. cbn [map app read_header].
    pose proof (H 1%nat) as H1. cbn [firstn length] in H1. rewrite H1 by lia. rewrite IH; [now rewrite <- app_assoc|].
    intros k Hk. specialize (H (S k)). cbn [firstn length] in H. rewrite <- app_assoc. apply H. lia. }
  set (pre := name ++ value1).
  assert (Hpre : no_cr_bytes pre = true) by (unfold pre; rewrite no_cr_app, Hn, Hv; reflexivity).
  (* positions of '\r' inside pre ++ crlf ++ extra ++ crlf ++ [13]: no place ends the header *)
  assert (NE : forall k, (0 < k <= length (pre ++ crlf ++ extra ++ [13; 10; 13]%N))%nat ->
     ends_header (firstn k (pre ++ crlf ++ extra ++ [13; 10; 13]%N)) = false).
  { intros k Hk. destruct (ends_header (firstn k _)) eqn:E; [|reflexivity]. exfalso.
    apply ends_header_cr in E. destruct E as [z E].
    assert (Lk : length (firstn k (pre ++ crlf ++ extra ++ [13; 10; 13]%N)) = k) by (rewrite firstn_length; lia).
    assert (Lz : (length z + 4 = k)%nat). { rewrite E, app_length in Lk. cbn in Lk. lia. }
    set (w := pre ++ crlf ++ extra ++ [13; 10; 13]%N) in *.
    assert (W : forall i, (i < 4)%nat -> nth_error w (length z + i) = nth_error [13; 10; 13; 10]%N i).
    { intros i Hi. rewrite <- (firstn_skipn k w). rewrite nth_error_app1 by (rewrite Lk; lia). rewrite E, nth_error_app2 by lia.
      f_equal. lia. }
    pose proof (W 0%nat ltac:(lia)) as W0. pose proof (W 1%nat ltac:(lia)) as W1. pose proof (W 2%nat ltac:(lia)) as W2. pose proof (W 3%nat ltac:(lia)) as W3.
    cbn [nth_error] in W0, W1, W2, W3. rewrite Nat.add_0_r in W0.
    assert (NC : forall bs i, no_cr_bytes bs = true -> nth_error bs i = Some 13 -> False).
    { intros bs i Hb Hi. unfold no_cr_bytes in Hb. rewrite forallb_forall in Hb. apply nth_error_In in Hi. specialize (Hb _ Hi). discriminate. }
    assert (Lw : length w = (length pre + 2 + length extra + 3)%nat) by (unfold w; rewrite !app_length; cbn; lia).
    unfold w in W0, W2, W3.
    (* where can index z be? *)
    destruct (Nat.lt_ge_cases (length z) (length pre)) as [Z1|Z1].
    { rewrite nth_error_app1 in W0 by assumption. eapply NC; [|exact W0]; assumption. }
    rewrite nth_error_app2 in W0, W2, W3 by lia.
    destruct (Nat.eq_dec (length z) (length pre)) as [Z2|Z2].
    { replace (length z + 2 - length pre)%nat with 2%nat in W2 by lia.
      destruct extra as [|e extra']; [congruence|]. cbn in W2. injection W2 as ->. cbn in He. discriminate. }
    destruct (Nat.eq_dec (length z) (S (length pre))) as [Z3|Z3].
    { replace (length z - length pre)%nat with 1%nat in W0 by lia. discriminate. }
    rewrite nth_error_app2 in W0, W3 by (cbn; lia). cbn [length crlf] in W0, W3.
    destruct (Nat.lt_ge_cases (length z - length pre - 2) (length extra)) as [Z4|Z4].
    { rewrite nth_error_app1 in W0 by assumption. eapply NC; [|exact W0]; assumption. }
    assert (nth_error (extra ++ [13; 10; 13]%N) (length z + 3 - length pre - 2) = None).
    { apply nth_error_None. rewrite app_length. cbn. lia. }
    congruence. }
  replace (name ++ value1 ++ crlf ++ extra ++ crlf ++ crlf) with ((pre ++ crlf ++ extra ++ [13; 10; 13]%N) ++ [10])
    by (unfold pre, crlf; rewrite <- !app_assoc; cbn [app]; rewrite <- ?app_assoc; reflexivity).
  rewrite map_app, <- app_assoc. rewrite K by (intros k Hk; apply NE; exact Hk). cbn [app map read_header].
  match goal with |- context [ends_header ?x] => assert (EQ : x = name ++ (value1 ++ crlf ++ extra) ++ crlf ++ crlf) end.
  { unfold pre, crlf; rewrite <- !app_assoc; cbn [app]; rewrite <- ?app_assoc; reflexivity. }
  rewrite EQ.
  rewrite content_length_of by assumption.
  assert (E : ends_header (name ++ (value1 ++ crlf ++ extra) ++ crlf ++ crlf) = true).
  { unfold crlf. cbn [app]. rewrite app_assoc. apply ends_header_app. }
  rewrite E. destruct (from_utf8 (value1 ++ crlf ++ extra)) as [cs|] eqn:U; [|reflexivity].
  rewrite (parse_u32_in cs 13); [reflexivity| |reflexivity|discriminate].
  eapply from_utf8_in; [exact U|lia|]. apply in_or_app. right. now left.
Qed.
