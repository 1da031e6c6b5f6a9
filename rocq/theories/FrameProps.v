(** Property C09: message framing on stdin/stdout. *)
From Coq Require Import String List Arith NArith ZArith Lia Bool ZifyBool ZifyNat ZifyN.
Import ListNotations.
From Verif Require Import TextModel Utf8Model FrameModel FrameSpec FrameProofs.
Local Open Scope N_scope.

Lemma deliverable_iff m : FrameSpec.deliverable m -> FrameProofs.deliverable m.
Proof.
  intros [H1 H2]. split.
  - apply forallb_forall. intros c Hc. specialize (H1 c Hc). unfold is_scalar. lia.
  - rewrite <- utf8_length. unfold u32_max. change (2 ^ 32) with 4294967296 in H2. lia.
Qed.
Lemma deliverables_iff ms : Forall FrameSpec.deliverable ms -> Forall FrameProofs.deliverable ms.
Proof. intros H. eapply Forall_impl; [|exact H]. exact deliverable_iff. Qed.

(** what the server writes is the protocol's frame, with the length in decimal *)
Theorem C09_written_frames : forall m, send_message m = protocol_frame (utf8 m).
Proof. intros m. unfold send_message, protocol_frame. rewrite utf8_length. reflexivity. Qed.
Theorem C09_length_is_decimal : forall n, denotes_number (decimal n) n.
Proof.
  intros n. split; [apply decimal_not_nil|]. split.
  - intros d Hd. pose proof (decimal_digits n) as H. rewrite forallb_forall in H. specialize (H d Hd). unfold is_digit in H. lia.
  - rewrite <- (decimal_value n) at 2. generalize 0 as acc. induction (decimal n) as [|d r IH]; intros acc; [reflexivity|].
    cbn [read_decimal value]. rewrite IH. f_equal. lia.
Qed.

(** every sequence of framed messages is read back as exactly these messages, whatever they
    contain, and then the session ends normally *)
Theorem C09_roundtrip : forall ms, Forall FrameSpec.deliverable ms ->
  run_session (map Byte (flat_map (fun m => protocol_frame (utf8 m)) ms)) = (ms, Closed).
Proof.
  intros ms H. rewrite <- (app_nil_r (map Byte _)).
  rewrite <- (flat_map_ext _ _ C09_written_frames).
  rewrite (run_session_sent ms []) by now apply deliverables_iff. cbn [run_session]. now rewrite app_nil_r.
Qed.
(** messages are delivered before the bytes after them are looked at *)
Theorem C09_prefix_delivered : forall ms s, Forall FrameSpec.deliverable ms ->
  exists later e, run_session (map Byte (flat_map (fun m => protocol_frame (utf8 m)) ms) ++ s) = (ms ++ later, e).
Proof.
  intros ms s H. rewrite <- (flat_map_ext _ _ C09_written_frames). rewrite run_session_sent by now apply deliverables_iff. eauto.
Qed.
(** the stream ends inside a message: the complete ones are delivered, nothing of the last one *)
Theorem C09_truncated : forall ms m k, Forall FrameSpec.deliverable ms -> FrameSpec.deliverable m ->
  (k < length (protocol_frame (utf8 m)))%nat ->
  run_session (map Byte (flat_map (fun m => protocol_frame (utf8 m)) ms ++ firstn k (protocol_frame (utf8 m)))) = (ms, Closed).
Proof.
  intros ms m k H Hm Hk. rewrite map_app. rewrite <- (flat_map_ext _ _ C09_written_frames).
  rewrite run_session_sent by now apply deliverables_iff.
  rewrite <- C09_written_frames in *. unfold run_session at 1 2. cbn [session].
  rewrite read_cut by (try assumption; now apply deliverable_iff). cbn [fst snd]. now rewrite app_nil_r.
Qed.
(** reading always finishes *)
Theorem C09_terminates : forall s, snd (run_session s) = Closed \/ snd (run_session s) = Crashed.
Proof. intros s. pose proof (session_never_out_of_gas s). destruct (snd (run_session s)); auto. congruence. Qed.

Example C09_witness :
  (* two messages, the first one contains a header: "é\r\n\r\nContent-Length: 5\r\n\r\n" and "{}" *)
  let m1 := 233 :: 13 :: 10 :: 13 :: 10 :: bytes_of "Content-Length: 5" ++ [13; 10; 13; 10] in
  let m2 := [123; 125] in
  FrameSpec.deliverable m1 /\ FrameSpec.deliverable m2 /\
  run_session (map Byte (protocol_frame (utf8 m1) ++ protocol_frame (utf8 m2))) = ([m1; m2], Closed).
Proof.
  cbv zeta. split; [|split].
  - split; [|vm_compute; reflexivity]. intros c Hc. left. cbn in Hc.
    repeat (destruct Hc as [<-|Hc]; [lia|]). destruct Hc.
  - split; [|vm_compute; reflexivity]. intros c Hc. left. cbn in Hc. repeat (destruct Hc as [<-|Hc]; [lia|]). destruct Hc.
  - vm_compute. reflexivity.
Qed.

(** ** where the reader departs from the base protocol *)
(** the header's name is never looked at: any 16 bytes without '\r' stand for "Content-Length: " *)
Theorem C09_header_name_ignored : forall name body m,
  length name = 16%nat -> ~ In 13 name -> N.of_nat (length body) < 2 ^ 32 -> from_utf8 body = Some m ->
  run_session (map Byte (name ++ decimal (N.of_nat (length body)) ++ [13; 10; 13; 10] ++ body)) = ([m], Closed).
Proof.
  intros name body m Hl Hn Hb Hu. unfold run_session. cbn [session].
  replace (name ++ decimal (N.of_nat (length body)) ++ [13; 10; 13; 10] ++ body)
    with (name ++ decimal (N.of_nat (length body)) ++ crlf ++ crlf ++ body) by reflexivity.
  rewrite <- (app_nil_r (map Byte (name ++ _))). rewrite read_frame; [|assumption| |change (2 ^ 32) with 4294967296 in Hb; unfold u32_max; lia].
  - unfold finish. rewrite Hu.
    destruct (length (map Byte (name ++ decimal (N.of_nat (length body)) ++ crlf ++ crlf ++ body) ++ [])) eqn:E; [|reflexivity].
    exfalso. rewrite app_length, map_length, app_length in E. cbn in E. lia.
  - unfold no_cr_bytes. apply forallb_forall. intros x Hx. destruct (x =? 13) eqn:E; [|reflexivity]. apply N.eqb_eq in E. congruence.
Qed.
(** a second header line (the protocol's optional Content-Type) crashes the server; the messages
    before it have been delivered *)
Theorem C09_second_header_refuted : forall ms value extra s, Forall FrameSpec.deliverable ms ->
  ~ In 13 value -> ~ In 13 extra -> extra <> [] ->
  run_session (map Byte (flat_map (fun m => protocol_frame (utf8 m)) ms
     ++ bytes_of "Content-Length: " ++ value ++ [13; 10] ++ extra ++ [13; 10; 13; 10]) ++ s) = (ms, Crashed).
Proof.
  intros ms value extra s H Hv He Hne. rewrite map_app, <- app_assoc.
  rewrite <- (flat_map_ext _ _ C09_written_frames). rewrite run_session_sent by now apply deliverables_iff.
  assert (NC : forall bs, ~ In 13 bs -> no_cr_bytes bs = true).
  { intros bs Hb. unfold no_cr_bytes. apply forallb_forall. intros x Hx. destruct (x =? 13) eqn:E; [|reflexivity]. apply N.eqb_eq in E. congruence. }
  unfold run_session. cbn [session].
  change [13; 10; 13; 10] with (crlf ++ crlf). change [13; 10] with crlf.
  rewrite read_two_headers by (auto; reflexivity). cbn [fst snd]. now rewrite app_nil_r.
Qed.
(** a body that is not UTF-8 ends the session: nothing after it is ever handled *)
Theorem C09_invalid_utf8_refuted : forall ms body s, Forall FrameSpec.deliverable ms ->
  from_utf8 body = None -> N.of_nat (length body) < 2 ^ 32 ->
  run_session (map Byte (flat_map (fun m => protocol_frame (utf8 m)) ms ++ protocol_frame body) ++ s) = (ms, Closed).
Proof.
  intros ms body s H Hu Hb. rewrite map_app, <- app_assoc.
  rewrite <- (flat_map_ext _ _ C09_written_frames). rewrite run_session_sent by now apply deliverables_iff.
  unfold run_session, protocol_frame. cbn [session].
  change [13; 10; 13; 10] with (crlf ++ crlf). rewrite <- (app_assoc crlf crlf).
  rewrite read_frame; [|reflexivity|reflexivity|change (2 ^ 32) with 4294967296 in Hb; unfold u32_max; lia].
  unfold finish. rewrite Hu. cbn [fst snd]. now rewrite app_nil_r.
Qed.
(** and so does the reader accept only what UTF-8 allows: the body decodes to [m] iff it is the
    encoding of the Unicode text [m] *)
Theorem C09_utf8_exact : forall body m,
  from_utf8 body = Some m <-> utf8 m = body /\ (forall c, In c m -> c < 0xD800 \/ 0xE000 <= c < 0x110000).
Proof.
  intros body m. split.
  - intros H. apply from_utf8_sound in H. destruct H as [H1 H2]. split; [assumption|]. intros c Hc.
    rewrite forallb_forall in H2. specialize (H2 c Hc). unfold is_scalar in H2. lia.
  - intros [<- H]. apply from_utf8_utf8. apply forallb_forall. intros c Hc. specialize (H c Hc). unfold is_scalar. lia.
Qed.
Example C09_refuted_witness :
  run_session (map Byte (bytes_of "Content-Length: 2" ++ [13; 10] ++ bytes_of "Content-Type: x" ++ [13; 10; 13; 10] ++ [123; 125])) = ([], Crashed) /\
  from_utf8 [0xC0; 0x80] = None /\
  run_session (map Byte (protocol_frame [0xC0; 0x80] ++ protocol_frame [123; 125])) = ([], Closed).
Proof. repeat split; vm_compute; reflexivity. Qed.
