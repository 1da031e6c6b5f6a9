(** Lemmas about the server state machine. *)
From Coq Require Import String List Arith NArith ZArith Bool Lia.
Import ListNotations.
From Verif Require Import TextModel JsonModel ServerModel ServerSpec.

(** ** text equality, maps *)
Lemma text_eqb_eq a b : text_eqb a b = true <-> a = b.
Proof.
  revert b. induction a as [|x a IH]; intros [|y b]; cbn; try (split; congruence).
  rewrite andb_true_iff, N.eqb_eq, IH. split; [intros [-> ->]; reflexivity | intros [= -> ->]; auto].
Qed.
Lemma text_eqb_refl a : text_eqb a a = true.
Proof. apply text_eqb_eq. reflexivity. Qed.
Lemma text_eqb_neq a b : text_eqb a b = false <-> a <> b.
Proof. rewrite <- text_eqb_eq. destruct (text_eqb a b); split; congruence. Qed.

Lemma find_filter {A} (f g : A -> bool) l :
  (forall x, f x = true -> g x = true) -> find f (filter g l) = find f l.
Proof.
  intros H. induction l as [|x l IH]; cbn; [reflexivity|].
  destruct (f x) eqn:E.
  - rewrite (H _ E). cbn. rewrite E. reflexivity.
  - destruct (g x); cbn; rewrite ?E; exact IH.
Qed.
Lemma find_filter_none {A} (f g : A -> bool) l :
  (forall x, f x = true -> g x = false) -> find f (filter g l) = None.
Proof.
  intros H. induction l as [|x l IH]; cbn; [reflexivity|].
  destruct (g x) eqn:E; [|exact IH]. cbn. destruct (f x) eqn:Ef; [apply H in Ef; congruence|exact IH].
Qed.
Lemma get_put {A} k k' (v : A) m : get k (put k' v m) = if text_eqb k' k then Some v else get k m.
Proof.
  unfold get, put, del. cbn. destruct (text_eqb k' k) eqn:E; [reflexivity|]. f_equal.
  apply find_filter. intros [x y]; cbn. intros H%text_eqb_eq. subst.
  destruct (text_eqb k k') eqn:E2; [|reflexivity]. apply text_eqb_eq in E2. subst. rewrite text_eqb_refl in E. discriminate.
Qed.

(** ** routes *)
Lemma find_some_in {A} (f : A -> bool) l x : find f l = Some x -> In x l /\ f x = true.
Proof. apply find_some. Qed.
Lemma route_of_in m r : route_of m = Some r -> exists n, In (n, r) routes /\ m = str n.
Proof.
  unfold route_of. destruct (find _ routes) as [[n r']|] eqn:E; [|discriminate].
  intros [= <-]. apply find_some in E as [H1 H2]. exists n. split; [exact H1|].
  symmetry. apply text_eqb_eq. exact H2.
Qed.
(** split over the whole table *)
Lemma routes_forall (P : string -> route -> Prop) : Forall (fun e => P (fst e) (snd e)) routes ->
  forall m r, route_of m = Some r -> exists n, m = str n /\ P n r.
Proof.
  intros H m r [n [Hin ->]]%route_of_in. exists n. split; [reflexivity|].
  rewrite Forall_forall in H. exact (H _ Hin).
Qed.
Lemma route_none_not_in m : route_of m = None -> forall n r, In (n, r) routes -> m <> str n.
Proof.
  unfold route_of. destruct (find _ routes) eqn:E; [discriminate|]. intros _ n r Hin ->.
  apply (find_none _ _ E) in Hin. cbn in Hin. rewrite text_eqb_refl in Hin. discriminate.
Qed.

Section P.
Context {tree aux : Type} (F : features tree aux).
Notation server := (server tree aux).

Definition rpc_of (j : option json) : option rpc := match j with Some j => decode_rpc j | None => None end.

(** state after a handler *)
Definition after (P : server -> Prop) (r : hres tree aux) : Prop :=
  match r with Ok_ s _ => P s | Err_ s _ _ => P s | _ => True end.
Lemma after_handle (P : server -> Prop) j s s' out :
  P s -> (forall m, rpc_of j = Some m -> after P (dispatch F m s)) ->
  handle_message F j s = Next s' out -> P s'.
Proof.
  unfold handle_message, rpc_of. intros Hs H.
  destruct (match j with Some j => decode_rpc j | None => None end) as [m|].
  - specialize (H m eq_refl). destruct (dispatch F m s); cbn in H; try discriminate.
    + intros [= <- <-]. exact H.
    + destruct (recover_id j); intros [= <- <-]; exact H.
  - destruct (recover_id j); intros [= <- <-]; exact Hs.
Qed.

(** backends: registering keeps everything else *)
Definition frame (s s' : server) : Prop :=
  status s' = status s /\ documents s' = documents s /\ cache s' = cache s /\ counter s' = counter s.
Lemma frame_refl s : frame s s. Proof. repeat split. Qed.
Lemma frame_trans a b c : frame a b -> frame b c -> frame a c.
Proof. unfold frame. intuition congruence. Qed.
Lemma add_backend_frame b s : match add_backend F b s with Added s' | AddErr s' => frame s s' end.
Proof.
  unfold add_backend. destruct (f_prefixes_ok F _); [|apply frame_refl].
  destruct (f_templates F _ _) as [a [|]]; [|repeat split].
  destruct (bk_default b); repeat split.
Qed.
Lemma add_all_frame bs : forall s, match add_all F bs s with Added s' | AddErr s' => frame s s' end.
Proof.
  induction bs as [|b bs IH]; intros s; cbn; [apply frame_refl|].
  pose proof (add_backend_frame b s) as H. destruct (add_backend F b s) as [s'|s']; [|exact H].
  specialize (IH s'). destruct (add_all F bs s'); eapply frame_trans; eauto.
Qed.

(** what a message means for the documents *)
Definition event_of_rpc (m : rpc) : option doc_event :=
  match m with
  | Request _ m (Some p) | Notification m (Some p) =>
    if text_eqb m (str "textDocument/didOpen") then
      option_map (fun x => Opens (fst x) (snd x)) (did_open_params p)
    else if text_eqb m (str "textDocument/didChange") then
      option_map (fun x => Edits (fst x) (snd x)) (did_change_params p)
    else None
  | _ => None
  end.
Lemma doc_event_of_rpc j : doc_event_of j = match rpc_of j with Some m => event_of_rpc m | None => None end.
Proof. unfold doc_event_of, rpc_of. destruct (match j with Some j => decode_rpc j | None => None end); reflexivity. Qed.
Definition docs_after (e : option doc_event) (ds : map_ document) : map_ document :=
  match e with
  | Some (Opens u d) => put u d ds
  | Some (Edits u chs) =>
    match get u ds with
    | Some d => match apply_content_changes (d_text d) chs with
                | Done t => put u (mkdoc t ((d_version d + 1) mod 4294967296)%N) ds
                | _ => ds
                end
    | None => ds
    end
  | None => ds
  end.
Lemma get_docs_after u j ds : get u (docs_after (doc_event_of j) ds) = doc_step u (get u ds) j.
Proof.
  unfold docs_after, doc_step. destruct (doc_event_of j) as [[u' d|u' chs]|]; [|  |reflexivity].
  - apply get_put.
  - destruct (text_eqb u' u) eqn:E.
    + apply text_eqb_eq in E. subst u'. destruct (get u ds) as [d|] eqn:G; [|exact G].
      destruct (apply_content_changes _ _); rewrite ?get_put, ?text_eqb_refl; auto.
    + destruct (get u' ds) as [d|]; [|reflexivity].
      destruct (apply_content_changes _ _); rewrite ?get_put, ?E; reflexivity.
Qed.

Ltac table H :=
  apply route_of_in in H; destruct H as [?n [H ?Hn]]; cbn in H;
  repeat (destruct H as [H|H]; [injection H as <- ?; subst|]); try contradiction; try discriminate.

Lemma cached_frame u s : match get_cached_parse_tree F u s with
  | Tree _ s' => status s' = status s /\ documents s' = documents s /\ counter s' = counter s
                 /\ backends s' = backends s /\ converters s' = converters s /\ default_backend s' = default_backend s /\ rest s' = rest s
  | _ => True end.
Proof.
  unfold get_cached_parse_tree. destruct (get u _); [|exact I].
  destruct (cache s); [destruct (_ && _)|]; try (destruct (f_parse F _)); cbn; auto 10.
Qed.

(** [quiet]: neither status, documents nor cache touched *)
Definition quiet (s s' : server) : Prop := status s' = status s /\ documents s' = documents s /\ cache s' = cache s.
Lemma quiet_refl s : quiet s s. Proof. repeat split. Qed.
Hint Resolve quiet_refl : srv.
Lemma frame_quiet s s' : frame s s' -> quiet s s'.
Proof. unfold frame, quiet. intuition. Qed.
Hint Resolve frame_quiet : srv.
Lemma conclude_quiet i r s : after (quiet s) (conclude i r s).
Proof. destruct r as [[e|] res err a|c a|]; cbn; auto; repeat split. Qed.
Lemma h_initialize_quiet i tk ef s : after (quiet s) (h_initialize F i tk ef s).
Proof.
  unfold h_initialize. destruct (status s) eqn:E; cbn; auto with srv.
  destruct tk; cbn; [|repeat split].
  pose proof (add_all_frame (f_config F (ef (rest s))) (with_rest (ef (rest s)) s)) as H.
  destruct (add_all F _ _); cbn; destruct H as (H1 & H2 & H3 & _); cbn in *; repeat split; congruence.
Qed.
Lemma h_identify_quiet i u s : after (quiet s) (h_identify F i u s).
Proof. unfold h_identify. destruct (get u _); cbn; auto with srv. Qed.
Lemma h_execute_quiet i x p s : after (quiet s) (h_execute F i x p s).
Proof.
  unfold h_execute. destruct (match x with inl u => _ | inr q => _ end); cbn; auto with srv.
  destruct (get_default_backend s); cbn; auto with srv. apply conclude_quiet.
Qed.
Lemma h_add_backend_quiet b s : after (quiet s) (h_add_backend F b s).
Proof. unfold h_add_backend. pose proof (add_backend_frame b s) as H. destruct (add_backend F b s); cbn; auto with srv. Qed.
Lemma h_get_backend_quiet i n s : after (quiet s) (h_get_backend F i n s).
Proof. unfold h_get_backend. destruct (match n with Some _ => _ | None => _ end); cbn; auto with srv. Qed.
Lemma h_list_quiet i s : after (quiet s) (h_list_backends i s).
Proof. cbn. auto with srv. Qed.
Lemma h_update_default_quiet n s : after (quiet s) (h_update_default n s).
Proof. unfold h_update_default. destruct (get n _); cbn; auto with srv. repeat split. Qed.
Lemma h_ping_quiet i n s : after (quiet s) (h_ping F i n s).
Proof. unfold h_ping. destruct (match n with Some _ => _ | None => _ end); cbn; auto with srv. Qed.
Lemma h_did_save_quiet u s : after (quiet s) (h_did_save F u s).
Proof. unfold h_did_save. destruct (get u _); cbn; auto with srv. destruct (f_error_positions F _); cbn; auto with srv. Qed.
Lemma h_change_settings_quiet p s : after (quiet s) (h_change_settings F p s).
Proof. unfold h_change_settings. destruct (f_settings F _ p); cbn; auto with srv. repeat split. Qed.
Hint Resolve conclude_quiet h_initialize_quiet h_identify_quiet h_execute_quiet h_add_backend_quiet h_get_backend_quiet
  h_list_quiet h_update_default_quiet h_ping_quiet h_did_save_quiet h_change_settings_quiet : srv.

(** a cache entry agrees with the document store *)
Definition entry_ok (ds : map_ document) (c : cached tree) : Prop :=
  exists d, get (c_uri c) ds = Some d /\ d_version d = c_version c /\ f_parse F (d_text d) = Some (c_tree c).
Definition fetches (s s' : server) : Prop :=
  status s' = status s /\ documents s' = documents s /\
  (cache s' = cache s \/ exists c, cache s' = Some c /\ entry_ok (documents s) c).
Lemma quiet_fetches s s' : quiet s s' -> fetches s s'.
Proof. unfold quiet, fetches. intuition. Qed.
Lemma get_cached_fetches u s : match get_cached_parse_tree F u s with Tree _ s' => fetches s s' | _ => True end.
Proof.
  unfold get_cached_parse_tree. destruct (get u _) as [d|] eqn:G; [|exact I].
  assert (H : match f_parse F (d_text d) with
    | Some t => fetches s (with_cache (Some (mkcached u (d_version d) t)) s) | None => True end).
  { destruct (f_parse F (d_text d)) eqn:E; [|exact I]. repeat split. right. eexists. split; [reflexivity|].
    exists d. auto. }
  destruct (cache s); [destruct (_ && _)|]; try (destruct (f_parse F _); exact H).
  repeat split. left. reflexivity.
Qed.
Lemma after_impl (P Q : server -> Prop) r : (forall s, P s -> Q s) -> after P r -> after Q r.
Proof. destruct r; cbn; auto. Qed.
Lemma h_document_fetches me i u p s : after (fetches s) (h_document F me i u p s).
Proof.
  unfold h_document. destruct (get u _) as [d|]; [|cbn; auto using quiet_fetches with srv].
  destruct (f_early F me (d_text d) p); [cbn; auto using quiet_fetches with srv|].
  pose proof (get_cached_fetches u s) as H.
  destruct (get_cached_parse_tree F u s) as [t s'| |]; cbn; auto using quiet_fetches with srv.
  eapply after_impl; [|apply conclude_quiet]. intros s2 (E1 & E2 & E3).
  destruct H as (H1 & H2 & H3). repeat split; try congruence. rewrite E3. exact H3.
Qed.

Definition status_after (m : rpc) (s : server) : server_status :=
  match m with
  | Response _ _ => status s
  | Request _ me _ =>
    if text_eqb me (str "initialized") then Running
    else if text_eqb me (str "shutdown") then match status s with Running => ShuttingDown | st => st end else status s
  | Notification me _ => if text_eqb me (str "initialized") then Running else status s
  end.
Definition effect (m : rpc) (s s' : server) : Prop :=
  status s' = status_after m s /\ documents s' = docs_after (event_of_rpc m) (documents s) /\
  (cache s' = cache s \/ exists c, cache s' = Some c /\ entry_ok (documents s) c).

Lemma fetches_effect m s s' : status_after m s = status s -> event_of_rpc m = None -> fetches s s' -> effect m s s'.
Proof. unfold fetches, effect. intros -> ->. cbn. auto. Qed.

Lemma dispatch_effect m s : after (effect m s) (dispatch F m s).
Proof.
  unfold dispatch. destruct (route_of (method_of m)) as [r|] eqn:HR.
  - assert (HR' := HR). apply route_of_in in HR as [n [Hin Hn]].
    assert (Hplain : (r <> R_did_open /\ r <> R_did_change /\ r <> R_shutdown /\ r <> R_initialized) ->
      status_after m s = status s /\ event_of_rpc m = None).
    { intros Hr. cbn in Hin. destruct m as [i me p|i p|me p]; cbn in Hn |- *; subst; auto;
      repeat (destruct Hin as [Hin|Hin];
       [injection Hin as <- <-; first [exfalso; intuition congruence | (split; [reflexivity|]; try (destruct p; reflexivity); reflexivity)]|]); contradiction. }
    assert (Hd : r = R_did_open -> n = "textDocument/didOpen"%string).
    { intros ->. cbn in Hin. repeat (destruct Hin as [Hin|Hin]; [injection Hin as <-; try discriminate; reflexivity|]). contradiction. }
    assert (Hc : r = R_did_change -> n = "textDocument/didChange"%string).
    { intros ->. cbn in Hin. repeat (destruct Hin as [Hin|Hin]; [injection Hin as <-; try discriminate; reflexivity|]). contradiction. }
    assert (Hs : r = R_shutdown -> n = "shutdown"%string).
    { intros ->. cbn in Hin. repeat (destruct Hin as [Hin|Hin]; [injection Hin as <-; try discriminate; reflexivity|]). contradiction. }
    assert (Hi : r = R_initialized -> n = "initialized"%string).
    { intros ->. cbn in Hin. repeat (destruct Hin as [Hin|Hin]; [injection Hin as <-; try discriminate; reflexivity|]). contradiction. }
    clear Hin HR'.
    destruct r;
      try (match type of Hplain with ?A -> _ => assert (HA : A) by (repeat split; discriminate) end;
           specialize (Hplain HA); destruct Hplain as [Hp1 Hp2]; clear HA;
           eapply after_impl; [intros s0 Hf; exact (fetches_effect m s s0 Hp1 Hp2 Hf)|]; clear Hp1 Hp2).
    all: try (unfold with_params, with_note, with_id, with_bare, unparsable; destruct m as [i me p|i p|me p];
      cbn [as_request as_notification]; try (destruct p as [p|]);
      try match goal with |- after _ (match ?x with Some _ => _ | None => _ end) => destruct x end;
      try match goal with |- after _ (if ?b then _ else _) => destruct b end;
      solve [exact I | apply h_document_fetches
            | eapply after_impl; [apply quiet_fetches|]; first [exact I | apply quiet_refl | solve [auto with srv]]]).
    + (* shutdown *)
      rewrite (Hs eq_refl) in Hn. unfold with_id. destruct m as [i me p|i p|me p]; cbn in Hn; [subst me|discriminate|subst me]; cbn [as_request].
      * unfold h_shutdown. destruct (status s) eqn:E; cbn; repeat split; cbn; rewrite ?E; try (destruct p; reflexivity); auto.
      * cbn. repeat split; cbn; try (destruct p; reflexivity); auto.
    + (* initialized *)
      rewrite (Hi eq_refl) in Hn. unfold with_bare. destruct m as [i me p|i p|me p]; cbn in Hn; [subst me|discriminate|subst me]; cbn [as_notification];
      cbn; repeat split; cbn; try (destruct p; reflexivity); auto.
    + rewrite (Hd eq_refl) in Hn. unfold with_note, unparsable.
      assert (Hst : status_after m s = status s) by (destruct m; cbn in Hn |- *; subst; reflexivity).
      destruct m as [i me p|i p|me p]; cbn in Hn; [subst me|discriminate|subst me]; cbn [as_notification]; destruct p as [p|];
      try (cbn; repeat split; cbn; auto; fail);
      (destruct (did_open_params p) as [[u d]|] eqn:E; cbn; (split; [symmetry; exact Hst|]);
      cbn; rewrite E; cbn; split; auto).
    + assert (Hno : text_eqb (str "textDocument/didChange") (str "textDocument/didOpen") = false) by reflexivity.
      rewrite (Hc eq_refl) in Hn. unfold with_note, unparsable.
      assert (Hst : status_after m s = status s) by (destruct m; cbn in Hn |- *; subst; reflexivity).
      destruct m as [i me p|i p|me p]; cbn [method_of] in Hn; [subst me|discriminate|subst me]; cbn [as_notification]; destruct p as [p|];
      try (cbn; repeat split; cbn; auto; fail);
      (destruct (did_change_params p) as [[u d]|] eqn:E; unfold h_did_change, change_document; cbn [fst snd];
       [destruct (get u (documents s)) eqn:G; [destruct (apply_content_changes _ _) eqn:A|]|];
       cbn [after]; try exact I; (split; [symmetry; exact Hst|]);
      unfold event_of_rpc; rewrite Hno, text_eqb_refl, E; cbn [option_map docs_after documents with_docs fst snd];
      rewrite ?G, ?A; split; auto).
  - cbn. assert (Hnn := route_none_not_in _ HR).
    assert (Hs : forall n r, In (n, r) routes -> text_eqb (method_of m) (str n) = false).
    { intros n r Hin. apply text_eqb_neq. exact (Hnn n r Hin). }
    apply fetches_effect; [| |apply quiet_fetches, quiet_refl].
    + destruct m as [i me p|i p|me p]; cbn [status_after method_of] in *; [|reflexivity|].
      * rewrite (Hs "initialized"%string R_initialized), (Hs "shutdown"%string R_shutdown); [reflexivity|cbn; tauto|cbn; tauto].
      * rewrite (Hs "initialized"%string R_initialized); [reflexivity|cbn; tauto].
    + destruct m as [i me [p|]|i p|me [p|]]; cbn [event_of_rpc method_of] in *; try reflexivity;
      rewrite (Hs "textDocument/didOpen"%string R_did_open), (Hs "textDocument/didChange"%string R_did_change); try reflexivity; cbn; tauto.
Qed.

Lemma handle_effect j s s' out : handle_message F j s = Next s' out ->
  status s' = match rpc_of j with Some m => status_after m s | None => status s end /\
  documents s' = docs_after (doc_event_of j) (documents s) /\
  (cache s' = cache s \/ exists c, cache s' = Some c /\ entry_ok (documents s) c).
Proof.
  intros H. unfold handle_message in H. rewrite doc_event_of_rpc.
  fold (rpc_of j) in H. destruct (rpc_of j) as [m|].
  - pose proof (dispatch_effect m s) as HE.
    destruct (dispatch F m s); cbn in HE; try discriminate.
    + injection H as <- <-. exact HE.
    + destruct (recover_id j); injection H as <- <-; exact HE.
  - cbn. destruct (recover_id j); injection H as <- <-; auto.
Qed.

(** ** histories *)
Definition hist_inv (h : list (option json)) (s : server) : Prop :=
  (forall u, get u (documents s) = current u h) /\
  (forall c, cache s = Some c -> exists h1 h2 d, h = h1 ++ h2 /\ current (c_uri c) h1 = Some d /\
     d_version d = c_version c /\ f_parse F (d_text d) = Some (c_tree c)).
Lemma hist_init a : hist_inv [] (init a).
Proof. split; [reflexivity | discriminate]. Qed.
Lemma current_snoc u h j : current u (h ++ [j]) = doc_step u (current u h) j.
Proof. unfold current. rewrite fold_left_app. reflexivity. Qed.
Lemma hist_step h s j s' out : hist_inv h s -> handle_message F j s = Next s' out -> hist_inv (h ++ [j]) s'.
Proof.
  intros [H1 H2] H. apply handle_effect in H as (_ & HD & HC). split.
  - intros u. rewrite HD, get_docs_after, H1, current_snoc. reflexivity.
  - intros c Hc. destruct HC as [HC | (c' & HC & d & G & Hv & Hp)].
    + rewrite HC in Hc. destruct (H2 c Hc) as (h1 & h2 & d & -> & Hr).
      exists h1, (h2 ++ [j]), d. rewrite <- app_assoc. auto.
    + rewrite HC in Hc. injection Hc as <-. exists h, [j], d. rewrite <- H1. auto.
Qed.
Lemma hist_run : forall js h s s' outs, hist_inv h s -> run F js s = (Some s', outs) -> hist_inv (h ++ js) s'.
Proof.
  induction js as [|j js IH]; intros h s s' outs Hi; cbn.
  - intros [= <- <-]. rewrite app_nil_r. exact Hi.
  - destruct (handle_message F j s) as [s1 o| |] eqn:E; try discriminate.
    destruct (run F js s1) as [e os] eqn:E2. intros [= -> <-].
    specialize (IH (h ++ [j]) s1 s' os). rewrite <- app_assoc in IH. apply IH; [|exact E2].
    eapply hist_step; eauto.
Qed.

(** ** cache transparency *)
Definition coherent (s : server) : Prop :=
  forall c d, cache s = Some c -> get (c_uri c) (documents s) = Some d -> d_version d = c_version c ->
    f_parse F (d_text d) = Some (c_tree c).
Lemma coherent_hist h h' s : hist_inv h s -> versions_determine_text (h ++ h') -> coherent s.
Proof.
  intros [H1 H2] HV c d Hc Hg Hv. destruct (H2 c Hc) as (h1 & h2 & d1 & -> & Hcu & Hv1 & Hp).
  rewrite H1 in Hg.
  assert (E : d_text d = d_text d1).
  { eapply HV; [reflexivity| |exact Hg|exact Hcu|congruence]. rewrite <- app_assoc. reflexivity. }
  rewrite E. exact Hp.
Qed.

Definition lift (c : option (cached tree)) (r : hres tree aux) : hres tree aux :=
  match r with Ok_ s o => Ok_ (with_cache c s) o | Err_ s o e => Err_ (with_cache c s) o e | r => r end.
Definition same_hres (r1 r2 : hres tree aux) : Prop :=
  match r1, r2 with
  | Ok_ s1 o1, Ok_ s2 o2 => same_but_cache s1 s2 /\ o1 = o2
  | Err_ s1 o1 e1, Err_ s2 o2 e2 => same_but_cache s1 s2 /\ o1 = o2 /\ e1 = e2
  | Panic_ o1, Panic_ o2 => o1 = o2
  | Exit_ o1, Exit_ o2 => o1 = o2
  | _, _ => False
  end.
Lemma sbc_eq (s1 s2 : server) : same_but_cache s1 s2 -> s2 = with_cache (cache s2) s1.
Proof. destruct s1, s2. unfold same_but_cache, with_cache. cbn. intros [= -> -> -> -> -> -> ->]. reflexivity. Qed.
Lemma sbc_with c (s : server) : same_but_cache s (with_cache c s).
Proof. reflexivity. Qed.
Lemma lift_same c r : same_hres r (lift c r).
Proof. destruct r; cbn; auto using sbc_with. Qed.

Definition lift_added c (r : added tree aux) := match r with Added s => Added (with_cache c s) | AddErr s => AddErr (with_cache c s) end.
Lemma add_backend_cache c b s : add_backend F b (with_cache c s) = lift_added c (add_backend F b s).
Proof.
  unfold add_backend. destruct (f_prefixes_ok F _); [|reflexivity]. cbn [rest with_backends with_cache].
  destruct (f_templates F _ _) as [a [|]]; [|reflexivity]. destruct (bk_default b); reflexivity.
Qed.
Lemma add_all_cache c bs : forall s, add_all F bs (with_cache c s) = lift_added c (add_all F bs s).
Proof.
  induction bs as [|b bs IH]; intros s; cbn; [reflexivity|].
  rewrite add_backend_cache. destruct (add_backend F b s); cbn; [apply IH|reflexivity].
Qed.
Lemma conclude_cache c i r (s : server) : conclude i r (with_cache c s) = lift c (conclude i r s).
Proof. destruct r as [[e|] res err a|e a|]; reflexivity. Qed.
Lemma h_initialize_cache c i tk ef s : h_initialize F i tk ef (with_cache c s) = lift c (h_initialize F i tk ef s).
Proof.
  unfold h_initialize. cbn [status with_cache]. destruct (status s); try reflexivity.
  destruct tk; [|reflexivity]. cbn [rest with_rest with_cache].
  change (with_rest (ef (rest s)) (with_cache c s)) with (with_cache c (with_rest (ef (rest s)) s)).
  rewrite add_all_cache. destruct (add_all F _ _); reflexivity.
Qed.
Lemma h_shutdown_cache c i (s : server) : h_shutdown i (with_cache c s) = lift c (h_shutdown i s).
Proof. unfold h_shutdown. cbn. destruct (status s); reflexivity. Qed.
Lemma h_identify_cache c i u s : h_identify F i u (with_cache c s) = lift c (h_identify F i u s).
Proof. unfold h_identify. cbn. destruct (get u _); reflexivity. Qed.
Lemma h_execute_cache c i x p s : h_execute F i x p (with_cache c s) = lift c (h_execute F i x p s).
Proof.
  unfold h_execute. cbn [documents with_cache]. destruct (match x with inl u => _ | inr q => _ end); [|reflexivity].
  change (get_default_backend (with_cache c s)) with (get_default_backend s).
  destruct (get_default_backend s); [|reflexivity].
  change (view_of (with_cache c s)) with (view_of s). apply conclude_cache.
Qed.
Lemma h_add_backend_cache c b s : h_add_backend F b (with_cache c s) = lift c (h_add_backend F b s).
Proof. unfold h_add_backend. rewrite add_backend_cache. destruct (add_backend F b s); reflexivity. Qed.
Lemma h_get_backend_cache c i n s : h_get_backend F i n (with_cache c s) = lift c (h_get_backend F i n s).
Proof. unfold h_get_backend. cbn [backends with_cache].
  change (get_default_backend (with_cache c s)) with (get_default_backend s).
  destruct (match n with Some _ => _ | None => _ end); reflexivity. Qed.
Lemma h_update_default_cache c n (s : server) : h_update_default n (with_cache c s) = lift c (h_update_default n s).
Proof. unfold h_update_default. cbn [backends with_cache]. destruct (get n _); reflexivity. Qed.
Lemma h_ping_cache c i n s : h_ping F i n (with_cache c s) = lift c (h_ping F i n s).
Proof. unfold h_ping. cbn [backends with_cache].
  change (get_default_backend (with_cache c s)) with (get_default_backend s).
  destruct (match n with Some _ => _ | None => _ end); reflexivity. Qed.
Lemma h_did_change_cache c u chs (s : server) : h_did_change u chs (with_cache c s) = lift c (h_did_change u chs s).
Proof. unfold h_did_change, change_document. cbn [documents with_cache].
  destruct (get u _); [|reflexivity]. destruct (apply_content_changes _ _); reflexivity. Qed.
Lemma h_did_save_cache c u s : h_did_save F u (with_cache c s) = lift c (h_did_save F u s).
Proof. unfold h_did_save. cbn [documents with_cache]. destruct (get u _); [|reflexivity]. destruct (f_error_positions F _); reflexivity. Qed.
Lemma h_change_settings_cache c p s : h_change_settings F p (with_cache c s) = lift c (h_change_settings F p s).
Proof. unfold h_change_settings. cbn [rest with_cache]. destruct (f_settings F _ p); reflexivity. Qed.

(** what a coherent server fetches *)
Lemma fetch_coherent u s : coherent s ->
  match get u (documents s) with
  | None => get_cached_parse_tree F u s = NoDocument
  | Some d => match f_parse F (d_text d) with
              | None => get_cached_parse_tree F u s = ParsePanic
              | Some t => exists c, get_cached_parse_tree F u s = Tree t (with_cache c s)
              end
  end.
Proof.
  intros Hco. unfold get_cached_parse_tree. destruct (get u _) as [d|] eqn:G; [|reflexivity].
  destruct (cache s) as [c|] eqn:C.
  - destruct (text_eqb u (c_uri c) && N.eqb (c_version c) (d_version d)) eqn:E.
    + apply andb_true_iff in E as [E1%text_eqb_eq E2%N.eqb_eq]. subst u.
      rewrite (Hco c d C G (eq_sym E2)). exists (Some c). f_equal. destruct s; cbn in C |- *. rewrite C. reflexivity.
    + destruct (f_parse F _); [eexists; reflexivity|reflexivity].
  - destruct (f_parse F _); [eexists; reflexivity|reflexivity].
Qed.
Lemma h_document_same me i u p c s : coherent s -> coherent (with_cache c s) ->
  same_hres (h_document F me i u p s) (h_document F me i u p (with_cache c s)).
Proof.
  intros H1 H2. unfold h_document. cbn [documents with_cache].
  pose proof (fetch_coherent u s H1) as A. pose proof (fetch_coherent u _ H2) as B. cbn [documents with_cache] in B.
  destruct (get u (documents s)) as [d|]; [|cbn; auto using sbc_with].
  destruct (f_early F me (d_text d) p); [cbn; auto using sbc_with|].
  destruct (f_parse F (d_text d)).
  - destruct A as [c1 ->], B as [c2 ->].
    change (view_of (with_cache c1 s)) with (view_of s). change (view_of (with_cache c2 (with_cache c s))) with (view_of s).
    rewrite !conclude_cache.
    destruct (conclude i (f_body F me (view_of s) (d_text d) t p) s); cbn; auto; repeat split.
  - rewrite A, B. reflexivity.
Qed.
Lemma dispatch_same m c s : coherent s -> coherent (with_cache c s) ->
  same_hres (dispatch F m s) (dispatch F m (with_cache c s)).
Proof.
  intros H1 H2. unfold dispatch. destruct (route_of (method_of m)) as [r|]; [|cbn; auto using sbc_with].
  destruct r; unfold with_params, with_note, with_id, with_bare, unparsable; destruct m as [i me p|i p|me p];
  cbn [as_request as_notification method_of]; try (destruct p as [p|]);
  try match goal with |- same_hres (match ?x with Some _ => _ | None => _ end) _ => destruct x end;
  try match goal with |- same_hres (if ?b then _ else _) _ => destruct b end;
  rewrite ?h_initialize_cache, ?h_shutdown_cache, ?h_identify_cache, ?h_execute_cache, ?h_add_backend_cache, ?h_get_backend_cache,
    ?h_update_default_cache, ?h_ping_cache, ?h_did_change_cache, ?h_did_save_cache, ?h_change_settings_cache;
  first [apply lift_same | apply h_document_same; assumption | cbn; auto using sbc_with; repeat split].
Qed.
Lemma handle_same j c s : coherent s -> coherent (with_cache c s) ->
  same_outcome (handle_message F j s) (handle_message F j (with_cache c s)).
Proof.
  intros H1 H2. unfold handle_message. destruct (match j with Some j => decode_rpc j | None => None end) as [m|].
  - pose proof (dispatch_same m c s H1 H2) as H.
    destruct (dispatch F m s), (dispatch F m (with_cache c s)); cbn in H |- *; try contradiction; auto.
    destruct H as (Hs & -> & ->). destruct (recover_id j); cbn; auto.
  - destruct (recover_id j); cbn; auto using sbc_with.
Qed.
Lemma coherent_none s : cache s = None -> coherent s.
Proof. intros H c d Hc. congruence. Qed.

Lemma run_same : forall js h s s2, hist_inv h s -> versions_determine_text (h ++ js) -> same_but_cache s s2 ->
  snd (run F js s) = snd (run_uncached F js s2) /\
  match fst (run F js s), fst (run_uncached F js s2) with
  | Some s', Some s2' => same_but_cache s' s2' | None, None => True | _, _ => False end.
Proof.
  induction js as [|j js IH]; intros h s s2 Hi HV Hs; cbn; [auto|].
  assert (E : with_cache None s2 = with_cache None s) by (symmetry; exact Hs). rewrite E.
  pose proof (handle_same j None s (coherent_hist _ _ _ Hi HV) (coherent_none (with_cache None s) eq_refl)) as H.
  destruct (handle_message F j s) as [s1 o1|o1|c1 o1] eqn:E1, (handle_message F j (with_cache None s)) as [s1' o1'|o1'|c1' o1'] eqn:E2;
    cbn in H; try contradiction.
  - destruct H as [Hs1 ->].
    specialize (IH (h ++ [j]) s1 s1'). rewrite <- app_assoc in IH.
    specialize (IH (hist_step _ _ _ _ _ Hi E1) HV Hs1).
    destruct (run F js s1), (run_uncached F js s1'). cbn in IH |- *. destruct IH as [-> IH]. auto.
  - subst. cbn. auto.
  - destruct H as [-> ->]. cbn. auto.
Qed.
End P.

(** ** growing versions *)
Lemma versions_grow_determine h : versions_grow h -> versions_determine_text h.
Proof.
  intros HG.
  (* between two prefixes the version of an open document does not fall, and does not move unless the text stays *)
  assert (step : forall k2 k1 u d1 d2 k3, h = k1 ++ k2 ++ k3 -> current u k1 = Some d1 -> current u (k1 ++ k2) = Some d2 ->
    (d_version d1 < d_version d2)%N \/ d1 = d2).
  { induction k2 as [|j k2 IH]; intros k1 u d1 d2 k3 E H1 H2.
    - rewrite app_nil_r in H2. right. congruence.
    - assert (HJ := HG k1 j (k2 ++ k3) u d1 E H1).
      assert (exists d, current u (k1 ++ [j]) = Some d /\ ((d_version d1 < d_version d)%N \/ d1 = d)) as (d & Hd & Hor).
      { rewrite current_snoc, H1. unfold doc_step. destruct (doc_event_of j) as [[u' d'|u' chs]|] eqn:Ev.
        - destruct (text_eqb u' u) eqn:Eu; [|eauto]. apply text_eqb_eq in Eu. subst u'.
          exists d'. split; [reflexivity|]. left. apply HJ. reflexivity.
        - destruct (text_eqb u' u); [|eauto]. destruct (apply_content_changes _ _); eauto.
          eexists. split; [reflexivity|]. left. cbn. destruct HJ as [_ HJ].
          rewrite N.mod_small by exact HJ. lia.
        - eauto. }
      specialize (IH (k1 ++ [j]) u d d2 k3). rewrite <- !app_assoc in IH. specialize (IH E Hd H2).
      destruct Hor as [Hlt | -> ], IH as [Hlt2 | <- ]; auto; left; lia. }
  intros h1 h1' h2 h2' u d1 d2 E1 E2 C1 C2 Hv.
  destruct (le_ge_dec (length h1) (length h2)) as [L|L].
  - assert (exists k, h2 = h1 ++ k) as [k ->].
    { exists (firstn (length h2 - length h1) h1'). 
      assert (E : h2 = firstn (length h2) h) by (rewrite E2, firstn_app, Nat.sub_diag, firstn_all; cbn; rewrite app_nil_r; reflexivity).
      rewrite E at 1. rewrite E1, firstn_app. rewrite firstn_all2 by exact L. reflexivity. }
    rewrite <- app_assoc in E2. destruct (step k h1 u d1 d2 h2' E2 C1 C2) as [H | -> ]; [lia|reflexivity].
  - assert (exists k, h1 = h2 ++ k) as [k ->].
    { exists (firstn (length h1 - length h2) h2').
      assert (E : h1 = firstn (length h1) h) by (rewrite E1, firstn_app, Nat.sub_diag, firstn_all; cbn; rewrite app_nil_r; reflexivity).
      rewrite E at 1. rewrite E2, firstn_app. rewrite firstn_all2 by exact L. reflexivity. }
    rewrite <- app_assoc in E1. destruct (step k h2 u d2 d1 h1' E1 C2 C1) as [H | -> ]; [lia|reflexivity].
Qed.

(** ** reading messages *)
Lemma values_lacks fs k : lacks fs k -> values (str k) fs = [].
Proof.
  intros H. unfold values. induction fs as [|[k' v] fs IH]; cbn; [reflexivity|].
  destruct (text_eqb k' (str k)) eqn:E.
  - apply text_eqb_eq in E. subst. destruct (H v). left. reflexivity.
  - apply IH. intros w Hw. apply (H w). right. exact Hw.
Qed.
Lemma values_has fs k v : NoDup (map fst fs) -> has fs k v -> values (str k) fs = [v].
Proof.
  unfold has, values. induction fs as [|[k' w] fs IH]; cbn; [tauto|].
  intros ND [E|Hin]; inversion ND as [|? ? Hni ND']; subst.
  - injection E as -> ->. rewrite text_eqb_refl. cbn. f_equal.
    apply values_lacks. intros x Hx. apply Hni. apply (in_map fst) in Hx. exact Hx.
  - destruct (text_eqb k' (str k)) eqn:E; [|auto].
    apply text_eqb_eq in E. subst. destruct Hni. apply (in_map fst) in Hin. exact Hin.
Qed.
Lemma once_has fs k v : NoDup (map fst fs) -> has fs k v -> once (str k) fs = Some (Some v).
Proof. intros ND H. unfold once. rewrite (values_has fs k v ND H). reflexivity. Qed.
Lemma once_lacks fs k : lacks fs k -> once (str k) fs = Some None.
Proof. intros H. unfold once. rewrite (values_lacks fs k H). reflexivity. Qed.
Lemma as_id_json i : valid_id i -> as_id (id_json i) = Some i.
Proof.
  destruct i as [s|n]; cbn; [reflexivity|]. intros H. unfold u32_bound.
  destruct (0 <=? Z.of_N n)%Z eqn:E1; [|lia]. destruct (Z.of_N n <? 4294967296)%Z eqn:E2; [|lia].
  cbn. rewrite N2Z.id. reflexivity.
Qed.
Lemma params_read fs p : NoDup (map fst fs) -> has_params fs p ->
  match once (str "params") fs with Some v => as_opt as_params v | None => None end = Some p.
Proof.
  intros ND H. destruct p as [v|]; cbn in H.
  - destruct H as [Hh [[l ->]|[gs ->]]]; rewrite (once_has _ _ _ ND Hh); reflexivity.
  - rewrite (once_lacks _ _ H). reflexivity.
Qed.
Lemma decode_request j i m p : request_message j i m p -> decode_rpc j = Some (Request i m p).
Proof.
  intros (fs & -> & ND & Hj & Hv & Hi & Hm & Hp). unfold decode_rpc.
  rewrite (once_has _ _ _ ND Hj), (once_has _ _ _ ND Hi), (once_has _ _ _ ND Hm), (params_read _ _ ND Hp).
  cbn [req as_str]. rewrite (as_id_json i Hv). reflexivity.
Qed.
Lemma recover_request j i m p : request_message j i m p -> recover_id (Some j) = Some i.
Proof.
  intros (fs & -> & ND & Hj & Hv & Hi & Hm & Hp). unfold recover_id.
  rewrite (once_has _ _ _ ND Hi). apply as_id_json. exact Hv.
Qed.
Lemma decode_notification j m p : notification_message j m p -> decode_rpc j = Some (Notification m p).
Proof.
  intros (fs & -> & ND & Hj & Hi & Hm & Hp). unfold decode_rpc.
  rewrite (once_has _ _ _ ND Hj), (once_lacks _ _ Hi), (once_has _ _ _ ND Hm), (params_read _ _ ND Hp). reflexivity.
Qed.
Lemma recover_notification j m p : notification_message j m p -> recover_id (Some j) = None.
Proof. intros (fs & -> & ND & Hj & Hi & Hm & Hp). unfold recover_id. rewrite (once_lacks _ _ Hi). reflexivity. Qed.

(** ** shapes of outgoing messages *)
Ltac infields H := cbn in H; repeat (destruct H as [H|H]; [try discriminate H|]); try contradiction.
Lemma response_shape i res err : response_to i (response i res err).
Proof.
  eexists. split; [reflexivity|]. split.
  - intros v. split.
    + intros H. unfold has in H. destruct res, err; infields H; injection H as <-; reflexivity.
    + intros ->. right. left. reflexivity.
  - intros v H. unfold has in H. destruct res, err; infields H.
Qed.
Lemma error_response_shape i c t : response_to i (error_response i c t) /\ reports c (error_response i c t).
Proof.
  split.
  - eexists. split; [reflexivity|]. split.
    + intros v. split; [|intros ->; right; left; reflexivity]. intros H. infields H. injection H as <-. reflexivity.
    + intros v H. infields H.
  - eexists _, _. split; [reflexivity|]. split; [right; right; right; left; reflexivity|left; reflexivity].
Qed.
Lemma notification_not_response m p : ~ is_response (notification m p).
Proof. intros (fs & E & _ & H). injection E as <-. apply (H (JStr m)). right. left. reflexivity. Qed.
Lemma server_request_not_response i m p : ~ is_response (server_request i m p).
Proof. intros (fs & E & _ & H). injection E as <-. apply (H (JStr m)). right. right. left. reflexivity. Qed.

Lemma one_response i res err : exactly_one_response i [response i res err].
Proof. exists [], (response i res err), []. split; [reflexivity|]. split; [apply response_shape|]. intros x []. Qed.
Lemma one_more i o l : ~ is_response o -> exactly_one_response i l -> exactly_one_response i (o :: l).
Proof.
  intros Ho (l1 & r & l2 & -> & H1 & H2). exists (o :: l1), r, l2. split; [reflexivity|]. split; [exact H1|].
  intros x [<-|Hx]; auto.
Qed.
Lemma no_response_nil : no_response []. Proof. intros x []. Qed.
Lemma no_response_cons o l : ~ is_response o -> no_response l -> no_response (o :: l).
Proof. intros H1 H2 x [<-|Hx]; auto. Qed.
Lemma append_error i c t out : no_response out -> exactly_one_response i (out ++ [error_response i c t]).
Proof.
  intros H. exists out, (error_response i c t), []. split; [reflexivity|]. split; [apply error_response_shape|].
  rewrite app_nil_r. exact H.
Qed.

Section R.
Context {tree aux : Type} (F : features tree aux).
Notation server := (server tree aux).
Definition answered (i : request_id) (r : hres tree aux) : Prop :=
  match r with
  | Ok_ _ out => exactly_one_response i out
  | Err_ _ out _ => no_response out
  | Panic_ out => no_response out
  | Exit_ _ => False
  end.
Definition silent (r : hres tree aux) : Prop :=
  match r with Ok_ _ out | Err_ _ out _ | Panic_ out | Exit_ out => no_response out end.
Hint Resolve one_response no_response_nil notification_not_response server_request_not_response no_response_cons one_more : srv.
Lemma conclude_answered i r s : answered i (conclude i r s).
Proof. destruct r as [[e|] res err a|c a|]; cbn; auto with srv. Qed.
Lemma unparsable_answered i b s : answered i (@unparsable tree aux b s).
Proof. destruct b; cbn; auto with srv. Qed.
Lemma unparsable_silent b s : silent (@unparsable tree aux b s).
Proof. destruct b; cbn; auto with srv. Qed.
Hint Resolve conclude_answered unparsable_answered unparsable_silent : srv.
Lemma progress_not w : ~ is_response (progress F w). Proof. apply notification_not_response. Qed.
Hint Resolve progress_not : srv.
Lemma h_initialize_answered i tk ef s : answered i (h_initialize F i tk ef s).
Proof.
  unfold h_initialize. destruct (status s); cbn; auto with srv. destruct tk; cbn; auto with srv.
  destruct (add_all F _ _); cbn; auto 10 with srv.
Qed.
Lemma h_shutdown_answered i s : answered i (@h_shutdown tree aux i s).
Proof. unfold h_shutdown. destruct (status s); cbn; auto with srv. Qed.
Lemma h_document_answered me i u p s : answered i (h_document F me i u p s).
Proof.
  unfold h_document. destruct (get u _); cbn; auto with srv. destruct (f_early F _ _ _); cbn; auto with srv.
  destruct (get_cached_parse_tree F u s); cbn; auto with srv.
Qed.
Lemma h_identify_answered i u s : answered i (h_identify F i u s).
Proof. unfold h_identify. destruct (get u _); cbn; auto with srv. Qed.
Lemma h_execute_answered i x p s : answered i (h_execute F i x p s).
Proof.
  unfold h_execute. destruct (match x with inl u => _ | inr q => _ end); cbn; auto with srv.
  destruct (get_default_backend s); cbn; auto with srv.
Qed.
Lemma h_get_backend_answered i n s : answered i (h_get_backend F i n s).
Proof. unfold h_get_backend. destruct (match n with Some _ => _ | None => _ end); cbn; auto with srv. Qed.
Lemma h_ping_answered i n s : answered i (h_ping F i n s).
Proof. unfold h_ping. destruct (match n with Some _ => _ | None => _ end); cbn; auto with srv. Qed.
Hint Resolve h_initialize_answered h_shutdown_answered h_document_answered h_identify_answered h_execute_answered
  h_get_backend_answered h_ping_answered : srv.

Definition request_route (r : route) : bool :=
  match r with
  | R_initialize | R_shutdown | R_document _ | R_identify | R_execute | R_get_backend | R_list_backends | R_ping | R_default_settings => true
  | _ => false
  end.
Lemma routed_request m r : route_of m = Some r -> ~ In m (map str notification_methods) -> request_route r = true.
Proof.
  intros H Hn. apply route_of_in in H as [n [Hin ->]]. cbn in Hin.
  repeat (destruct Hin as [Hin|Hin]; [injection Hin as <- <-; first [reflexivity | exfalso; apply Hn, in_map; cbn; tauto]|]).
  contradiction.
Qed.
Lemma request_answered i m p s r : route_of m = Some r -> request_route r = true -> answered i (dispatch F (Request i m p) s).
Proof.
  intros H Hr. unfold dispatch. cbn [method_of]. rewrite H.
  destruct r; try discriminate; unfold with_params, with_id; cbn [as_request]; try (destruct p as [p|]); auto with srv;
  try (match goal with |- answered _ (match ?x with Some _ => _ | None => _ end) => destruct x end; auto with srv);
  cbn; auto with srv.
Qed.
Lemma notification_silent m p s : silent (dispatch F (Notification m p) s).
Proof.
  unfold dispatch. cbn [method_of]. destruct (route_of m) as [r|]; [|cbn; auto with srv].
  destruct r; unfold with_params, with_id, with_note, with_bare; cbn [as_request as_notification]; try (destruct p as [p|]);
  auto with srv; try (cbn; auto with srv; fail);
  try (match goal with |- silent (match ?x with Some _ => _ | None => _ end) => destruct x end; auto with srv);
  try (cbn; auto with srv; fail).
  - unfold h_add_backend. destruct (add_backend F b s); cbn; auto with srv.
  - unfold h_update_default. destruct (get _ _); cbn; auto with srv.
  - unfold h_did_change, change_document. destruct (get _ _); cbn [silent]; auto with srv.
    destruct (apply_content_changes _ _); cbn; auto with srv.
  - unfold h_did_save. destruct (get _ _); cbn; auto with srv. destruct (f_error_positions F _); cbn; auto with srv.
  - unfold h_change_settings. destruct (f_settings F _ _); cbn; auto with srv.
  - unfold h_change_settings. destruct (f_settings F _ _); cbn; auto with srv.
Qed.
End R.
