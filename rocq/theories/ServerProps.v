(** C07, C08, C10, C11, C28–C31: the server as a state machine.  Every theorem holds for every
    choice of the language features [F]. *)
From Coq Require Import String List Arith NArith ZArith Bool Lia.
Import ListNotations.
From Verif Require Import TextModel JsonModel ServerModel ServerSpec ServerProofs ServerLife.

(** ** a small server for the concrete cases: the tree is the text, [qlueLs/parseTree] returns it *)
Definition demo : features text unit := {|
  f_parse := fun t => Some t;
  f_error_positions := fun _ => Some JNull;
  f_target := fun _ p => match struct_fields [str "uri"] p with Some [u] => req as_str u | _ => None end;
  f_early := fun _ _ _ => None;
  f_body := fun m _ _ t _ =>
    if text_eqb m (str "textDocument/diagnostic") then Answer (Some JNull) (Some JNull) None tt
    else if text_eqb m (str "textDocument/rename") then Fail InvalidRequest tt
    else Answer None (Some (JStr t)) None tt;
  f_optype := fun _ => JNull;
  f_execute := fun _ => None;
  f_run := fun _ _ _ _ => Fail Unknown tt;
  f_backend := fun p => match struct_fields [str "name"; str "default"; str "queries"] p with
    | Some [n; d; q] => match req as_str n, req as_bool d with
        | Some n, Some d => Some (mkbackend n [] d [] (match q with Some _ => [([], [])] | None => [] end) JNull) | _, _ => None end
    | _ => None end;
  f_prefixes_ok := fun _ => true;
  f_templates := fun qs a => (a, match qs with [] => true | _ => false end);
  f_init := fun _ => Some (false, fun a => a);
  f_config := fun _ => [];
  f_initialize_result := fun _ => JNull;
  f_ping := fun _ => true;
  f_settings := fun a _ => inr a;
  f_default_settings := JNull;
  f_item := fun b => JStr (bk_name b);
  f_version_text := JNull |}.
Definition request (i : N) (m : string) (p : list (text * json)) : json :=
  JObj [k_jsonrpc; (str "id", JInt (Z.of_N i)); (str "method", JStr (str m)); (str "params", JObj p)].
Definition note (m : string) (p : list (text * json)) : json :=
  JObj [k_jsonrpc; (str "method", JStr (str m)); (str "params", JObj p)].
Definition open_ (u : string) (v : Z) (t : string) : json :=
  note "textDocument/didOpen" [(str "textDocument", JObj [(str "uri", JStr (str u)); (str "languageId", JStr []);
    (str "version", JInt v); (str "text", JStr (str t))])].
Definition change_ (u : string) (t : string) : json :=
  note "textDocument/didChange" [(str "textDocument", JObj [(str "uri", JStr (str u)); (str "version", JInt 7)]);
    (str "contentChanges", JArr [JObj [(str "text", JStr (str t))]])].
Definition tree_of (i : N) (u : string) : json := request i "qlueLs/parseTree" [(str "uri", JStr (str u))].
Ltac fields := cbn; repeat (first [left; reflexivity | right]).
Ltac nodup := repeat (constructor; [let X := fresh in cbn; intros X; repeat (destruct X as [X|X]; [discriminate X|]); contradiction|]); constructor.
Lemma request_is i m p : (i < 4294967296)%N -> request_message (request i m p) (IdInt i) (str m) (Some (JObj p)).
Proof.
  intros H. eexists. split; [reflexivity|]. split; [cbn [map fst k_jsonrpc]; nodup|]. split; [left; reflexivity|].
  split; [exact H|]. split; [right; left; reflexivity|]. split; [right; right; left; reflexivity|].
  split; [right; right; right; left; reflexivity|]. right. eauto.
Qed.
Lemma note_is m p : notification_message (note m p) (str m) (Some (JObj p)).
Proof.
  eexists. split; [reflexivity|]. split; [cbn [map fst k_jsonrpc]; nodup|]. split; [left; reflexivity|].
  split; [intros v H; cbn in H; repeat (destruct H as [H|H]; [discriminate H|]); contradiction|].
  split; [right; left; reflexivity|]. split; [right; right; left; reflexivity|]. right. eauto.
Qed.

(** * C07: answers come from the current text *)
(** the cache cannot be observed: a server that forgets it before every message answers the same *)
Theorem C07_cache_invisible : forall {tree aux} (F : features tree aux) (a : aux) (h : list (option json)),
  versions_determine_text h ->
  snd (run F h (init a)) = snd (run_uncached F h (init a)) /\
  match fst (run F h (init a)), fst (run_uncached F h (init a)) with
  | Some s, Some s' => same_but_cache s s' | None, None => True | _, _ => False end.
Proof. intros tree aux F a h HV. apply (run_same F h [] (init a) (init a)); [apply hist_init|exact HV|reflexivity]. Qed.

(** a request about a document's tree is answered from the parse of the text the history left *)
Theorem C07_answer_uses_current_text : forall {tree aux} (F : features tree aux) (a : aux) h s outs j i m p u d,
  versions_determine_text h -> run F h (init a) = (Some s, outs) ->
  request_message j i (str m) (Some p) -> In m tree_methods -> f_target F (str m) p = Some u ->
  current u h = Some d -> f_early F (str m) (d_text d) p = None ->
  forall t, f_parse F (d_text d) = Some t ->
  match f_body F (str m) (view_of s) (d_text d) t p, handle_message F (Some j) s with
  | Answer None res err _, Next _ out => out = [response i res err]
  | Answer (Some e) res err _, Next _ out => exists r, out = [r; response i res err]
  | Fail c _, Next _ out => exists o, out = [o] /\ response_to i o /\ reports c o
  | Panics, Crash out => out = []
  | _, _ => False
  end.
Proof.
  intros tree aux F a h s outs j i m p u d HV HR Hj Hm Ht Hc He t Hp.
  assert (Hi : hist_inv F h s) by (apply (hist_run F h [] (init a) s outs); [apply hist_init|exact HR]).
  assert (Hco : coherent F s) by (eapply (coherent_hist F h []); [exact Hi|rewrite app_nil_r; exact HV]).
  assert (Hroute : exists b, route_of (str m) = Some (R_document b)).
  { cbn in Hm. repeat (destruct Hm as [<-|Hm]; [eexists; reflexivity|]). contradiction. }
  destruct Hroute as [b Hroute].
  assert (Hd : dispatch F (Request i (str m) (Some p)) s = h_document F (str m) i u p s).
  { unfold dispatch. cbn [method_of]. rewrite Hroute. unfold with_params. cbn [as_request method_of]. rewrite Ht. reflexivity. }
  unfold handle_message. rewrite (decode_request _ _ _ _ Hj), Hd, (recover_request _ _ _ _ Hj).
  unfold h_document. pose proof (fetch_coherent F u s Hco) as HF. destruct Hi as [Hi _]. rewrite Hi, Hc in HF |- *. rewrite He.
  rewrite Hp in HF. destruct HF as [c ->]. change (view_of (with_cache c s)) with (view_of s).
  destruct (f_body F (str m) (view_of s) (d_text d) t p) as [[e|] res err a'|ec a'|]; cbn; eauto.
  eexists. split; [reflexivity|]. apply error_response_shape.
Qed.
(** clients whose version numbers grow (reopening included) are safe *)
Theorem C07_growing_versions : forall h, versions_grow h -> versions_determine_text h.
Proof. exact versions_grow_determine. Qed.
(** but a document opened again with its old version number is answered from the old text *)
Definition reopened : list (option json) :=
  [Some (open_ "u" 1 "old"); Some (tree_of 1 "u"); Some (open_ "u" 1 "new")].
Theorem C07_reopened_refuted :
  current (str "u") reopened = Some (mkdoc (str "new") 1) /\
  snd (run demo (reopened ++ [Some (tree_of 2 "u")]) (init tt))
    = [[]; [response (IdInt 1) (Some (JStr (str "old"))) None]; []; [response (IdInt 2) (Some (JStr (str "old"))) None]] /\
  snd (run_uncached demo (reopened ++ [Some (tree_of 2 "u")]) (init tt))
    = [[]; [response (IdInt 1) (Some (JStr (str "old"))) None]; []; [response (IdInt 2) (Some (JStr (str "new"))) None]].
Proof. vm_compute. auto. Qed.
(** reopening with a lower number is no help: the next edit reaches the old number *)
Theorem C07_reopened_lower_refuted :
  let h := [Some (open_ "u" 1 "a"); Some (change_ "u" "old"); Some (tree_of 1 "u"); Some (open_ "u" 1 "b"); Some (change_ "u" "new")] in
  current (str "u") h = Some (mkdoc (str "new") 2) /\
  last (snd (run demo (h ++ [Some (tree_of 2 "u")]) (init tt))) [] = [response (IdInt 2) (Some (JStr (str "old"))) None].
Proof. vm_compute. auto. Qed.
(** a check of [versions_grow] for concrete histories *)
Fixpoint grow_check (ds : map_ document) (h : list (option json)) : bool :=
  match h with
  | [] => true
  | j :: r =>
    forallb (fun e => (d_version (snd e) + 1 <? 4294967296)%N) ds &&
    match doc_event_of j with
    | Some (Opens u d) => match get u ds with Some d0 => (d_version d0 <? d_version d)%N | None => true end
    | _ => true
    end && grow_check (docs_after (doc_event_of j) ds) r
  end.
Lemma grow_check_sound : forall h ds h0, (forall u, get u ds = current u h0) -> grow_check ds h = true ->
  forall h1 j h2 u d, h = h1 ++ j :: h2 -> current u (h0 ++ h1) = Some d ->
    (forall d', doc_event_of j = Some (Opens u d') -> (d_version d < d_version d')%N) /\ (d_version d + 1 < 4294967296)%N.
Proof.
  induction h as [|j0 h IH]; intros ds h0 Hg Hc h1 j h2 u d E C; [destruct h1; discriminate|].
  cbn in Hc. apply andb_true_iff in Hc as [Hc Hr]. apply andb_true_iff in Hc as [Hb Ho]. destruct h1 as [|j1 h1].
  - injection E as <- <-. rewrite app_nil_r in C. split.
    + intros d' Ev. rewrite Ev, Hg, C in Ho. apply N.ltb_lt in Ho. exact Ho.
    + rewrite <- Hg in C. unfold get in C. destruct (find _ ds) as [e|] eqn:Ef; [|discriminate]. injection C as <-.
      apply find_some in Ef as [Hin _]. rewrite forallb_forall in Hb. apply Hb in Hin. apply N.ltb_lt in Hin. exact Hin.
  - injection E as <- ->. refine (IH (docs_after (doc_event_of j0) ds) (h0 ++ [j0]) _ Hr h1 j h2 u d eq_refl _).
    + intros w. rewrite get_docs_after, Hg, current_snoc. reflexivity.
    + rewrite <- app_assoc. exact C.
Qed.
(** a history with two documents, edits and a reopening at a higher version meets the hypotheses *)
Definition ordinary : list (option json) :=
  [Some (open_ "u" 1 "a"); Some (open_ "w" 1 "b"); Some (tree_of 1 "u"); Some (change_ "u" "c"); Some (tree_of 2 "u");
   Some (open_ "u" 9 "d"); Some (tree_of 3 "u"); Some (tree_of 4 "w")].
Example C07_witness : versions_grow ordinary /\
  snd (run demo ordinary (init tt)) = [[]; []; [response (IdInt 1) (Some (JStr (str "a"))) None]; [];
    [response (IdInt 2) (Some (JStr (str "c"))) None]; []; [response (IdInt 3) (Some (JStr (str "d"))) None];
    [response (IdInt 4) (Some (JStr (str "b"))) None]].
Proof.
  split; [|vm_compute; reflexivity].
  exact (grow_check_sound ordinary [] [] (fun _ => eq_refl) eq_refl).
Qed.

(** * C08: documents are independent *)
(** what is stored for a document is what the messages naming it say, in order, and nothing else *)
Theorem C08_documents_replayed : forall {tree aux} (F : features tree aux) (a : aux) h s outs u,
  run F h (init a) = (Some s, outs) -> get u (documents s) = current u h.
Proof.
  intros tree aux F a h s outs u HR.
  destruct (hist_run F h [] (init a) s outs (hist_init F a) HR) as [H _]. apply H.
Qed.
(** a message that neither opens nor edits [u] leaves its text and version alone *)
Theorem C08_other_documents_untouched : forall {tree aux} (F : features tree aux) j s s' out u,
  handle_message F j s = Next s' out ->
  (forall d, doc_event_of j <> Some (Opens u d)) -> (forall chs, doc_event_of j <> Some (Edits u chs)) ->
  get u (documents s') = get u (documents s).
Proof.
  intros tree aux F j s s' out u H H1 H2. apply handle_effect in H as (_ & -> & _). rewrite get_docs_after. unfold doc_step.
  destruct (doc_event_of j) as [[u' d|u' chs]|]; [| |reflexivity]; destruct (text_eqb u' u) eqn:E; try reflexivity;
  apply text_eqb_eq in E; subst u'; [destruct (H1 d)|destruct (H2 chs)]; reflexivity.
Qed.
(** a change to a document that is not open changes nothing at all ... *)
Theorem C08_unknown_change_ignored : forall {tree aux} (F : features tree aux) j p u chs s,
  notification_message j (str "textDocument/didChange") (Some p) -> did_change_params p = Some (u, chs) ->
  get u (documents s) = None -> handle_message F (Some j) s = Next s [].
Proof.
  intros tree aux F j p u chs s Hj Hp Hg. unfold handle_message.
  rewrite (decode_notification _ _ _ Hj), (recover_notification _ _ _ Hj).
  unfold dispatch. change (route_of (method_of _)) with (Some R_did_change). unfold with_note. cbn [as_notification]. rewrite Hp.
  unfold h_did_change, change_document. cbn [fst snd]. rewrite Hg. reflexivity.
Qed.
(** ... and the client is not told: a session of such changes is silent *)
Theorem C08_unknown_change_unreported_refuted :
  snd (run demo [Some (change_ "u" "x"); Some (change_ "u" "y")] (init tt)) = [[]; []] /\
  current (str "u") [Some (change_ "u" "x"); Some (change_ "u" "y")] = None.
Proof. vm_compute. auto. Qed.
Example C08_witness :
  notification_message (change_ "u" "x") (str "textDocument/didChange")
    (Some (JObj [(str "textDocument", JObj [(str "uri", JStr (str "u")); (str "version", JInt 7)]);
                 (str "contentChanges", JArr [JObj [(str "text", JStr (str "x"))]])])) /\
  (exists s outs, run demo ordinary (init tt) = (Some s, outs) /\ get (str "w") (documents s) = Some (mkdoc (str "b") 1)
     /\ get (str "u") (documents s) = Some (mkdoc (str "d") 9) /\ get (str "x") (documents s) = None).
Proof. split; [apply note_is|]. eexists _, _. split; [vm_compute; reflexivity|]. vm_compute. auto. Qed.

(** * C10: lifecycle *)
Section Life.
Context {tree aux : Type} (F : features tree aux).
(** after any [initialized], initialize is refused and changes nothing *)
Theorem C10_initialize_after_initialized : forall a h s outs j i p x,
  run F h (init a) = (Some s, outs) -> existsb (names "initialized") h = true ->
  request_message j i (str "initialize") (Some p) -> f_init F p = Some x ->
  exists o, handle_message F (Some j) s = Next s [o] /\ response_to i o /\ reports InvalidRequest o.
Proof.
  intros a h s outs j i p x HR HE Hj Hx. apply (life_run F) in HR. unfold life_inv, started in HR. rewrite HE in HR.
  unfold handle_message. rewrite (decode_request _ _ _ _ Hj), (recover_request _ _ _ _ Hj).
  unfold dispatch. change (route_of (method_of _)) with (Some R_initialize). unfold with_params. cbn [as_request]. rewrite Hx.
  unfold h_initialize. rewrite HR.
  destruct (running h); cbn; eexists; (split; [reflexivity|]); apply error_response_shape.
Qed.
(** before it, initialize succeeds (when the configured backends can be loaded) *)
Theorem C10_initialize_before_initialized : forall a h s outs j i p tk ef,
  run F h (init a) = (Some s, outs) -> existsb (names "initialized") h = false ->
  request_message j i (str "initialize") (Some p) -> f_init F p = Some (tk, ef) ->
  (forall b, In b (f_config F (ef (rest s))) -> f_prefixes_ok F (bk_prefixes b) = true) ->
  (forall qs b, snd (f_templates F qs b) = true) ->
  exists s' out o, handle_message F (Some j) s = Next s' out /\ last out JNull = o /\ response_to i o /\ successful o.
Proof.
  intros a h s outs j i p tk ef HR HE Hj Hx Hp Ht. apply (life_run F) in HR. unfold life_inv in HR.
  assert (Hr : running h = false) by (destruct (running h) eqn:E; [apply running_started in E; unfold started in E; congruence|reflexivity]).
  rewrite Hr in HR. unfold started in HR. rewrite HE in HR.
  unfold handle_message. rewrite (decode_request _ _ _ _ Hj), (recover_request _ _ _ _ Hj).
  unfold dispatch. change (route_of (method_of _)) with (Some R_initialize). unfold with_params. cbn [as_request]. rewrite Hx.
  cbn [fst snd]. unfold h_initialize. rewrite HR.
  assert (Hsucc : forall r, successful (response i (Some r) None)).
  { intros r. eexists. split; [reflexivity|]. split; [exists r; right; right; left; reflexivity|].
    intros e H. cbn in H. repeat (destruct H as [H|H]; [discriminate H|]). contradiction. }
  destruct tk.
  - assert (HA : forall bs s0, (forall b, In b bs -> f_prefixes_ok F (bk_prefixes b) = true) -> exists s1, add_all F bs s0 = Added s1).
    { induction bs as [|b bs IH]; intros s0 Hb; cbn; [eauto|]. unfold add_backend. rewrite (Hb b (or_introl eq_refl)).
      cbn [rest with_backends]. specialize (Ht (bk_queries b) (rest s0)). destruct (f_templates F (bk_queries b) (rest s0)) as [a' ok].
      cbn in Ht. subst ok. apply IH. intros b' Hb'. apply Hb. right. exact Hb'. }
    destruct (HA (f_config F (rest (with_rest (ef (rest s)) s))) (with_rest (ef (rest s)) s)) as [s1 ->]; [exact Hp|].
    eexists _, _, _. split; [reflexivity|]. split; [reflexivity|]. split; [apply response_shape|apply Hsucc].
  - eexists _, _, _. split; [reflexivity|]. split; [reflexivity|]. split; [apply response_shape|apply Hsucc].
Qed.
(** shutdown succeeds (result null) exactly when the latest of [initialized] and [shutdown] is [initialized] *)
Theorem C10_shutdown : forall a h s outs j i p,
  run F h (init a) = (Some s, outs) -> request_message j i (str "shutdown") p ->
  if running h then exists s', handle_message F (Some j) s = Next s' [response i (Some JNull) None]
  else exists o, handle_message F (Some j) s = Next s [o] /\ response_to i o /\ reports InvalidRequest o.
Proof.
  intros a h s outs j i p HR Hj. apply (life_run F) in HR. unfold life_inv in HR.
  unfold handle_message. rewrite (decode_request _ _ _ _ Hj), (recover_request _ _ _ _ Hj).
  unfold dispatch. change (route_of (method_of _)) with (Some R_shutdown). unfold with_id. cbn [as_request].
  unfold h_shutdown. rewrite HR. destruct (running h); [eexists; reflexivity|].
  destruct (started h); cbn; eexists; (split; [reflexivity|]); apply error_response_shape.
Qed.
(** no other message depends on the phase: requests before initialize or after shutdown are served *)
Theorem C10_other_messages_not_gated : forall j s st,
  (forall m, rpc_of (Some j) = Some m -> method_of m <> str "initialize" /\ method_of m <> str "shutdown" /\ method_of m <> str "initialized") ->
  match handle_message F (Some j) s, handle_message F (Some j) (with_status st s) with
  | Next s1 o1, Next s2 o2 => o1 = o2 /\ s2 = with_status st s1
  | Crash o1, Crash o2 => o1 = o2
  | Exit c1 o1, Exit c2 o2 => c1 = c2 /\ o1 = o2
  | _, _ => False
  end.
Proof.
  intros j s st H. unfold handle_message. unfold rpc_of in H. destruct (decode_rpc j) as [m|].
  - destruct (H m eq_refl) as (H1 & H2 & H3). rewrite (dispatch_status F st m s H1 H2 H3).
    destruct (dispatch F m s); cbn [map_hres]; try (destruct (recover_id (Some j))); repeat split.
  - destruct (recover_id (Some j)); repeat split.
Qed.
(** exit ends the process with code 0, whatever came before (LSP asks for 1 without a shutdown) *)
Theorem C10_exit_code_refuted : forall j p s, notification_message j (str "exit") p -> handle_message F (Some j) s = Exit 0 [].
Proof.
  intros j p s Hj. unfold handle_message. rewrite (decode_notification _ _ _ Hj).
  unfold dispatch. change (route_of (method_of _)) with (Some R_exit). reflexivity.
Qed.
End Life.
(** initialize can succeed twice, and shutdown can too: the phase can be re-entered *)
Theorem C10_initialize_twice_refuted :
  snd (run demo [Some (request 1 "initialize" []); Some (request 2 "initialize" [])] (init tt))
  = [[response (IdInt 1) (Some JNull) None]; [response (IdInt 2) (Some JNull) None]].
Proof. vm_compute. reflexivity. Qed.
Theorem C10_shutdown_twice_refuted :
  snd (run demo [Some (note "initialized" []); Some (request 1 "shutdown" []); Some (note "initialized" []); Some (request 2 "shutdown" [])] (init tt))
  = [[]; [response (IdInt 1) (Some JNull) None]; []; [response (IdInt 2) (Some JNull) None]].
Proof. vm_compute. reflexivity. Qed.
Example C10_witness :
  running [Some (request 1 "initialize" []); Some (note "initialized" [])] = true /\
  running [Some (request 1 "initialize" []); Some (note "initialized" []); Some (request 2 "shutdown" [])] = false /\
  existsb (names "initialized") [Some (request 1 "initialize" []); Some (note "initialized" [])] = true /\
  (exists s outs, run demo [Some (request 1 "initialize" []); Some (note "initialized" [])] (init tt) = (Some s, outs)) /\
  request_message (request 3 "shutdown" []) (IdInt 3) (str "shutdown") (Some (JObj [])).
Proof. repeat split; try (apply request_is; lia). eexists _, _. vm_compute. reflexivity. Qed.

Lemma routes_listed n r : In (n, r) routes -> In n (request_methods ++ notification_methods).
Proof.
  assert (HF : forallb (fun e => if in_dec string_dec (fst e) (request_methods ++ notification_methods) then true else false) routes = true)
    by (vm_compute; reflexivity).
  rewrite forallb_forall in HF. intros Hin. specialize (HF _ Hin). cbn [fst] in HF. destruct (in_dec _ _ _); [assumption|discriminate].
Qed.
(** * C11: one response per request *)
Section Responses.
Context {tree aux : Type} (F : features tree aux).
(** a request whose method is not one of the notifications gets exactly one response with its id,
    unless handling it takes the server down *)
Theorem C11_request_answered : forall j i m p s,
  request_message j i m p -> ~ In m (map str notification_methods) ->
  match handle_message F (Some j) s with
  | Next _ out => exactly_one_response i out
  | Crash out => no_response out
  | Exit _ _ => False
  end.
Proof.
  intros j i m p s Hj Hn. unfold handle_message. rewrite (decode_request _ _ _ _ Hj), (recover_request _ _ _ _ Hj).
  destruct (route_of m) as [r|] eqn:HR.
  - pose proof (request_answered F i m p s r HR (routed_request _ _ HR Hn)) as H.
    destruct (dispatch F (Request i m p) s); cbn in H |- *; auto. apply append_error. exact H.
  - unfold dispatch. cbn [method_of]. rewrite HR. apply (append_error i MethodNotFound error_text []). intros x [].
Qed.
(** it is not taken down when the features do not panic and, for the four methods run in a task, the
    parameters can be read *)
Theorem C11_request_not_fatal : forall j i m p s, never_panics F ->
  request_message j i m p -> ~ In m (map str notification_methods) ->
  (In m (map str task_methods) -> readable F m p) ->
  exists s' out, handle_message F (Some j) s = Next s' out /\ exactly_one_response i out.
Proof.
  intros j i m p s HN Hj Hn Ht. pose proof (C11_request_answered j i m p s Hj Hn) as H.
  destruct (handle_message F (Some j) s) as [s' out|out|c out] eqn:E; [eauto| |contradiction].
  exfalso. unfold handle_message in E. rewrite (decode_request _ _ _ _ Hj), (recover_request _ _ _ _ Hj) in E.
  pose proof (request_no_crash F i m p s HN Hn Ht) as HC.
  destruct (dispatch F (Request i m p) s); try discriminate. exact (HC _ eq_refl).
Qed.
(** a method the server does not know: MethodNotFound, nothing changes *)
Theorem C11_unknown_method : forall j i m p s,
  request_message j i m p -> ~ In m (map str (request_methods ++ notification_methods)) ->
  exists o, handle_message F (Some j) s = Next s [o] /\ response_to i o /\ reports MethodNotFound o.
Proof.
  intros j i m p s Hj Hn. unfold handle_message. rewrite (decode_request _ _ _ _ Hj), (recover_request _ _ _ _ Hj).
  unfold dispatch. cbn [method_of]. destruct (route_of m) as [r|] eqn:HR.
  - exfalso. apply Hn. apply route_of_in in HR as [n [Hin ->]]. apply in_map.
    exact (routes_listed _ _ Hin).
  - cbn. eexists. split; [reflexivity|]. apply error_response_shape.
Qed.
(** a notification is never answered *)
Theorem C11_notification_silent : forall j m p s,
  notification_message j m p ->
  match handle_message F (Some j) s with Next _ out | Crash out | Exit _ out => no_response out end.
Proof.
  intros j m p s Hj. unfold handle_message. rewrite (decode_notification _ _ _ Hj), (recover_notification _ _ _ Hj).
  pose proof (notification_silent F m p s) as H. destruct (dispatch F (Notification m p) s); exact H.
Qed.
(** over a whole session of requests and notifications that never goes down: reply by reply *)
Theorem C11_session : forall js s s' outs,
  Forall (fun j => exists j', j = Some j' /\
     ((exists i m p, request_message j' i m p /\ ~ In m (map str notification_methods)) \/ (exists m p, notification_message j' m p))) js ->
  run F js s = (Some s', outs) ->
  Forall2 (fun j out => forall j', j = Some j' ->
     (forall i m p, request_message j' i m p -> ~ In m (map str notification_methods) -> exactly_one_response i out) /\
     (forall m p, notification_message j' m p -> no_response out)) js outs.
Proof.
  induction js as [|j js IH]; intros s s' outs HF; cbn.
  - intros [= _ <-]. constructor.
  - inversion HF as [|? ? Hj HF']; subst. destruct (handle_message F j s) as [s1 o| |] eqn:E; try discriminate.
    destruct (run F js s1) as [e os] eqn:E2. intros [= -> <-]. constructor; [|eapply IH; eauto].
    intros j' ->. split.
    + intros i m p Hr Hn. pose proof (C11_request_answered j' i m p s Hr Hn) as H. rewrite E in H. exact H.
    + intros m p Hr. pose proof (C11_notification_silent j' m p s Hr) as H. rewrite E in H. exact H.
Qed.
(** a notification method sent with an id is a request that is never answered *)
Theorem C11_request_unanswered_refuted : forall j i p s,
  request_message j i (str "initialized") p -> exists s', handle_message F (Some j) s = Next s' [].
Proof.
  intros j i p s Hj. unfold handle_message. rewrite (decode_request _ _ _ _ Hj).
  unfold dispatch. change (route_of (method_of _)) with (Some R_initialized). cbn. eauto.
Qed.
(** a cancellation or trace notification does nothing at all, with or without an id *)
Theorem C11_ignored_methods : forall j i m p s,
  In m (map str ["$/cancelRequest"; "$/setTrace"]%string) -> request_message j i m p \/ notification_message j m p ->
  handle_message F (Some j) s = Next s [].
Proof.
  intros j i m p s Hm Hj. unfold handle_message.
  destruct Hj as [Hj|Hj]; [rewrite (decode_request _ _ _ _ Hj)|rewrite (decode_notification _ _ _ Hj)]; unfold dispatch; cbn [method_of];
    (replace (route_of m) with (Some R_ignore) by (destruct Hm as [<-|[<-|[]]]; reflexivity)); reflexivity.
Qed.
(** getBackend without params, which its specification makes optional, is an error *)
Theorem C11_get_backend_without_params_refuted : forall j i s,
  request_message j i (str "qlueLs/getBackend") None ->
  exists o, handle_message F (Some j) s = Next s [o] /\ response_to i o /\ reports ParseError o.
Proof.
  intros j i s Hj. unfold handle_message. rewrite (decode_request _ _ _ _ Hj), (recover_request _ _ _ _ Hj).
  unfold dispatch. change (route_of (method_of _)) with (Some R_get_backend). cbn. eexists. split; [reflexivity|]. apply error_response_shape.
Qed.
End Responses.
(** a client's own error response (integer code, as JSON-RPC says) is answered with an error response *)
Definition client_error : json :=
  JObj [k_jsonrpc; (str "id", JInt 0); (str "error", JObj [(str "code", JInt (-32601)); (str "message", JStr [])])].
Theorem C11_response_answered_refuted : forall {tree aux} (F : features tree aux) s,
  handle_message F (Some client_error) s = Next s [error_response (IdInt 0) ParseError error_text].
Proof. reflexivity. Qed.
Example C11_witness :
  never_panics demo /\ ~ In (str "textDocument/rename") (map str notification_methods) /\
  request_message (request 5 "textDocument/hover" [(str "uri", JStr (str "u"))]) (IdInt 5) (str "textDocument/hover") (Some (JObj [(str "uri", JStr (str "u"))])) /\
  readable demo (str "textDocument/hover") (Some (JObj [(str "uri", JStr (str "u"))])) /\
  snd (run demo [Some (open_ "u" 1 "a"); Some (request 5 "textDocument/hover" [(str "uri", JStr (str "u"))]);
                 Some (request 6 "textDocument/rename" [(str "uri", JStr (str "u"))]); Some (request 7 "nope" [])] (init tt))
  = [[]; [response (IdInt 5) (Some (JStr (str "a"))) None]; [error_response (IdInt 6) InvalidRequest error_text];
     [error_response (IdInt 7) MethodNotFound error_text]].
Proof.
  split; [|split; [|split; [|split]]].
  - repeat split; intros; cbn; try discriminate. destruct (text_eqb _ _); [discriminate|]. destruct (text_eqb _ _); discriminate.
  - cbn. intros H. repeat (destruct H as [H|H]; [discriminate H|]). contradiction.
  - apply request_is. lia.
  - eexists. split; [reflexivity|]. split; [|split]; [|discriminate|discriminate]. intros _. vm_compute. discriminate.
  - vm_compute. reflexivity.
Qed.

(** * C28: which messages take the server down *)
(** with features that do not panic, only two kinds: a message handled in a task whose content cannot
    be read, and a didChange naming a place the document does not have *)
Theorem C28_only_these_crash : forall {tree aux} (F : features tree aux) j s out,
  never_panics F -> (forall t, f_error_positions F t <> None) ->
  handle_message F j s = Crash out ->
  exists m, rpc_of j = Some m /\ (unreadable_task F m \/ bad_change m s).
Proof.
  intros tree aux F j s out HN HS H. unfold handle_message in H. fold (rpc_of j) in H. destruct (rpc_of j) as [m|].
  - exists m. split; [reflexivity|]. destruct (dispatch F m s) eqn:E; try discriminate.
    + destruct (recover_id j); discriminate.
    + eapply dispatch_panic; eauto.
  - destruct (recover_id j); discriminate.
Qed.
(** in particular nothing that is not JSON, and nothing that is not a request or notification *)
Theorem C28_garbage_harmless : forall {tree aux} (F : features tree aux) j s,
  rpc_of j = None -> exists out, handle_message F j s = Next s out.
Proof.
  intros tree aux F j s H. unfold handle_message. fold (rpc_of j). rewrite H. destruct (recover_id j); eauto.
Qed.
(** but a hover request without parameters, or a cancelQuery without a query id, ends the server *)
Theorem C28_hover_without_params_refuted : forall {tree aux} (F : features tree aux) j i s,
  request_message j i (str "textDocument/hover") None -> handle_message F (Some j) s = Crash [].
Proof.
  intros tree aux F j i s Hj. unfold handle_message. rewrite (decode_request _ _ _ _ Hj).
  unfold dispatch. change (route_of (method_of _)) with (Some (R_document true)). reflexivity.
Qed.
Theorem C28_cancel_without_id_refuted : forall {tree aux} (F : features tree aux) j s,
  notification_message j (str "qlueLs/cancelQuery") (Some (JObj [])) -> handle_message F (Some j) s = Crash [].
Proof.
  intros tree aux F j s Hj. unfold handle_message. rewrite (decode_notification _ _ _ Hj).
  unfold dispatch. change (route_of (method_of _)) with (Some R_cancel). reflexivity.
Qed.
(** a hover request with a negative id (not a u32) is taken for a notification and ends the server *)
Theorem C28_negative_id_refuted : forall {tree aux} (F : features tree aux) s,
  handle_message F (Some (JObj [k_jsonrpc; (str "id", JInt (-1)); (str "method", JStr (str "textDocument/hover"));
    (str "params", JObj [])])) s = Crash [].
Proof. reflexivity. Qed.
Example C28_witness : never_panics demo /\ (forall t, f_error_positions demo t <> None) /\
  request_message (JObj [k_jsonrpc; (str "id", JInt 3); (str "method", JStr (str "textDocument/hover"))]) (IdInt 3) (str "textDocument/hover") None /\
  notification_message (note "qlueLs/cancelQuery" []) (str "qlueLs/cancelQuery") (Some (JObj [])) /\
  rpc_of (Some (JArr [])) = None.
Proof.
  split; [apply C11_witness|]. split; [discriminate|]. split; [|split; [apply note_is|reflexivity]].
  eexists. split; [reflexivity|]. split; [cbn [map fst k_jsonrpc]; nodup|]. split; [left; reflexivity|].
  split; [cbn; lia|]. split; [right; left; reflexivity|]. split; [right; right; left; reflexivity|].
  intros v H. cbn in H. repeat (destruct H as [H|H]; [discriminate H|]). contradiction.
Qed.

(** * C29: ids of the server's own requests *)
Theorem C29_request_ids_consecutive : forall {tree aux} (F : features tree aux) (a : aux) h, exists n,
  sent_ids (snd (run F h (init a))) = map (fun k => JInt (Z.of_N (N.of_nat k mod 4294967296)%N)) (seq 0 n).
Proof. intros tree aux F a h. destruct (run_counts F h (init a)) as [n Hn]; [reflexivity|]. exists n. exact Hn. Qed.
(** so they are pairwise different as long as fewer than 2^32 are sent *)
Theorem C29_request_ids_distinct : forall {tree aux} (F : features tree aux) (a : aux) h,
  (N.of_nat (List.length (sent_ids (snd (run F h (init a))))) <= 4294967296)%N -> NoDup (sent_ids (snd (run F h (init a)))).
Proof.
  intros tree aux F a h. destruct (C29_request_ids_consecutive F a h) as [n ->]. rewrite map_length, seq_length. intros Hn.
  assert (H : forall l, NoDup l -> (forall x, In x l -> x < n) ->
    NoDup (map (fun k => JInt (Z.of_N (N.of_nat k mod 4294967296)%N)) l)).
  { induction l as [|x l IH]; intros ND Hl; cbn [map]; [constructor|]. inversion ND as [|? ? Hni ND']; subst. constructor.
    - intros (y & E & Hy)%in_map_iff. injection E as E. apply N2Z.inj in E.
      pose proof (Hl x (or_introl eq_refl)). pose proof (Hl y (or_intror Hy)).
      rewrite !N.mod_small in E by lia. apply Nat2N.inj in E. subst. contradiction.
    - apply IH; [exact ND'|]. intros y Hy. apply Hl. right. exact Hy. }
  apply H; [apply seq_NoDup|]. intros x Hx%in_seq. lia.
Qed.
Example C29_witness : sent_ids (snd (run demo [Some (open_ "u" 1 "a"); Some (request 1 "textDocument/diagnostic" [(str "uri", JStr (str "u"))]);
   Some (tree_of 2 "u"); Some (request 3 "textDocument/diagnostic" [(str "uri", JStr (str "u"))])] (init tt))) = [JInt 0; JInt 1].
Proof. vm_compute. reflexivity. Qed.

(** * C30: the default backend *)
(** in every reachable state the default backend, once there is one, is a registered backend *)
Theorem C30_default_registered : forall {tree aux} (F : features tree aux) (a : aux) h s outs n,
  run F h (init a) = (Some s, outs) -> default_backend s = Some n -> exists b, get n (backends s) = Some b.
Proof.
  intros tree aux F a h s outs n HR Hd. pose proof (default_run F h a s outs HR n Hd). destruct (get n (backends s)); [eauto|congruence].
Qed.
(** updateDefaultBackend makes getBackend without a name answer that backend; an unknown name changes nothing *)
Theorem C30_update_default : forall {tree aux} (F : features tree aux) j p n s,
  notification_message j (str "qlueLs/updateDefaultBackend") (Some p) -> name_param p = Some n ->
  match get n (backends s) with
  | None => handle_message F (Some j) s = Next s []
  | Some b => exists s', handle_message F (Some j) s = Next s' [] /\
      forall j' i p', request_message j' i (str "qlueLs/getBackend") (Some p') -> opt_name_param "backend" p' = Some None ->
        handle_message F (Some j') s' = Next s' [response i (Some (f_item F b)) (Some JNull)]
  end.
Proof.
  intros tree aux F j p n s Hj Hn.
  assert (E : handle_message F (Some j) s = match get n (backends s) with
    | None => Next s [] | Some _ => Next (with_backends (backends s) (converters s) (Some n) s) [] end).
  { unfold handle_message. rewrite (decode_notification _ _ _ Hj), (recover_notification _ _ _ Hj).
    unfold dispatch. change (route_of (method_of _)) with (Some R_update_default). unfold with_note. cbn [as_notification]. rewrite Hn.
    unfold h_update_default. destruct (get n (backends s)); reflexivity. }
  rewrite E. destruct (get n (backends s)) as [b|] eqn:G; [|reflexivity].
  eexists. split; [reflexivity|]. intros j' i p' Hj' Hp'.
  unfold handle_message. rewrite (decode_request _ _ _ _ Hj'). 
  unfold dispatch. change (route_of (method_of _)) with (Some R_get_backend). unfold with_params. cbn [as_request]. rewrite Hp'.
  unfold h_get_backend, get_default_backend. cbn [default_backend with_backends backends]. rewrite G. reflexivity.
Qed.
(** addBackend registers the backend under its name, as default if it says so; other backends stay *)
Theorem C30_add_backend : forall {tree aux} (F : features tree aux) j p b s,
  notification_message j (str "qlueLs/addBackend") (Some p) -> f_backend F p = Some b ->
  f_prefixes_ok F (bk_prefixes b) = true -> (forall qs a, snd (f_templates F qs a) = true) ->
  exists s', handle_message F (Some j) s = Next s' [] /\ get (bk_name b) (backends s') = Some b /\
    (forall n, n <> bk_name b -> get n (backends s') = get n (backends s)) /\
    default_backend s' = (if bk_default b then Some (bk_name b) else default_backend s).
Proof.
  intros tree aux F j p b s Hj Hb Hp Ht. unfold handle_message. rewrite (decode_notification _ _ _ Hj), (recover_notification _ _ _ Hj).
  unfold dispatch. change (route_of (method_of _)) with (Some R_add_backend). unfold with_note. cbn [as_notification]. rewrite Hb.
  unfold h_add_backend, add_backend. rewrite Hp. cbn [rest with_backends]. specialize (Ht (bk_queries b) (rest s)).
  destruct (f_templates F (bk_queries b) (rest s)) as [a ok]. cbn in Ht. subst ok.
  destruct (bk_default b); (eexists; split; [reflexivity|]; cbn -[get put]; rewrite get_put, text_eqb_refl; split; [reflexivity|]; split;
    [intros n Hn; rewrite get_put; destruct (text_eqb (bk_name b) n) eqn:E; [apply text_eqb_eq in E; congruence|reflexivity]|reflexivity]).
Qed.
(** listBackends still reports the old default: its flag is the configuration's *)
Theorem C30_list_default_refuted :
  let h := [Some (note "qlueLs/addBackend" [(str "name", JStr (str "A")); (str "default", JBool true)]);
            Some (note "qlueLs/addBackend" [(str "name", JStr (str "B")); (str "default", JBool false)]);
            Some (note "qlueLs/updateDefaultBackend" [(str "backendName", JStr (str "B"))])] in
  (exists s outs, run demo h (init tt) = (Some s, outs) /\ default_backend s = Some (str "B")) /\
  last (snd (run demo (h ++ [Some (request 1 "qlueLs/listBackends" [])]) (init tt))) []
  = [response (IdInt 1) (Some (JArr [
      JObj [(str "name", JStr (str "B")); (str "url", JStr []); (str "default", JBool false)];
      JObj [(str "name", JStr (str "A")); (str "url", JStr []); (str "default", JBool true)]])) None].
Proof. split; [|vm_compute; reflexivity]. eexists _, _. split; vm_compute; reflexivity. Qed.
(** an addBackend that fails half way has replaced the prefix map of the backend it names *)
Theorem C30_add_backend_atomic_refuted :
  exists s s' : server text unit, run demo [Some (note "qlueLs/addBackend" [(str "name", JStr (str "A")); (str "default", JBool true); (str "queries", JNull)])] (init tt)
     = (Some s', [[]]) /\ s = init tt /\ backends s' = backends s /\ get (str "A") (converters s) = None /\ get (str "A") (converters s') <> None.
Proof. eexists _, _. split; [vm_compute; reflexivity|]. split; [reflexivity|]. vm_compute. repeat split. discriminate. Qed.
Example C30_witness :
  notification_message (note "qlueLs/addBackend" [(str "name", JStr (str "A")); (str "default", JBool true)]) (str "qlueLs/addBackend")
    (Some (JObj [(str "name", JStr (str "A")); (str "default", JBool true)])) /\
  f_backend demo (JObj [(str "name", JStr (str "A")); (str "default", JBool true)]) = Some (mkbackend (str "A") [] true [] [] JNull) /\
  request_message (request 1 "qlueLs/getBackend" []) (IdInt 1) (str "qlueLs/getBackend") (Some (JObj [])) /\
  opt_name_param "backend" (JObj []) = Some None.
Proof. split; [apply note_is|]. split; [vm_compute; reflexivity|]. split; [apply request_is; lia|reflexivity]. Qed.

(** * C31: error responses and JSON-RPC *)
(** every error the server reports is malformed: a string where the integer code should be, and a
    [result] next to the error *)
Theorem C31_error_responses_refuted : forall {tree aux} (F : features tree aux) j i m p s,
  request_message j i m p -> ~ In m (map str (request_methods ++ notification_methods)) ->
  exists o, handle_message F (Some j) s = Next s [o] /\ response_to i o /\ reports MethodNotFound o /\ ~ json_rpc_response o.
Proof.
  intros tree aux F j i m p s Hj Hn. destruct (C11_unknown_method F j i m p s Hj Hn) as (o & H & Hr & Hc).
  exists o. split; [exact H|]. split; [exact Hr|]. split; [exact Hc|].
  intros (fs & E & _ & Hcode). destruct Hc as (fs' & es & E' & He & Hs). rewrite E in E'. injection E' as <-.
  destruct (Hcode _ He) as (es' & c & E2 & Hint). injection E2 as <-.
  unfold handle_message in H. rewrite (decode_request _ _ _ _ Hj), (recover_request _ _ _ _ Hj) in H.
  unfold dispatch in H. cbn [method_of] in H. destruct (route_of m) as [r|] eqn:HR.
  { apply Hn. apply route_of_in in HR as [n [Hin ->]]. apply in_map.
    exact (routes_listed _ _ Hin). }
  injection H as <-. unfold error_response in E. injection E as <-.
  unfold has in He. infields He. injection He as <-.
  unfold has in Hint. infields Hint.
Qed.
(** successful ones are well formed *)
Theorem C31_success_responses : forall i r, json_rpc_response (response i (Some r) None).
Proof.
  intros i r. eexists. split; [reflexivity|]. split.
  - split; [|intros _; exists r; right; right; left; reflexivity]. intros _ v H. unfold has in H. infields H.
  - intros e H. unfold has in H. infields H.
Qed.
Example C31_witness : request_message (request 7 "nope" []) (IdInt 7) (str "nope") (Some (JObj [])) /\
  ~ In (str "nope") (map str (request_methods ++ notification_methods)).
Proof. split; [apply request_is; lia|]. cbn. intros H. repeat (destruct H as [H|H]; [discriminate H|]). contradiction. Qed.
