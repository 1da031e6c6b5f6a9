(** Lemmas: lifecycle, crashes, request ids, backends over histories. *)
From Coq Require Import String List Arith NArith ZArith Bool Lia.
Import ListNotations.
From Verif Require Import TextModel JsonModel ServerModel ServerSpec ServerProofs.

Section L.
Context {tree aux : Type} (F : features tree aux).
Notation server := (server tree aux).

(** ** lifecycle *)
Lemma names_rpc n j : names n j = match rpc_of j with
  | Some (Request _ m _) | Some (Notification m _) => text_eqb m (str n) | _ => false end.
Proof. reflexivity. Qed.
Lemma asks_rpc n j : asks n j = match rpc_of j with Some (Request _ m _) => text_eqb m (str n) | _ => false end.
Proof. reflexivity. Qed.
Definition started (h : list (option json)) : bool := existsb (names "initialized") h.
Definition life_inv (h : list (option json)) (s : server) : Prop :=
  status s = if running h then Running else if started h then ShuttingDown else Initializing.
Lemma running_snoc h j : running (h ++ [j]) = if names "initialized" j then true else if asks "shutdown" j then false else running h.
Proof. unfold running. rewrite fold_left_app. reflexivity. Qed.
Lemma started_snoc h j : started (h ++ [j]) = started h || names "initialized" j.
Proof. unfold started. rewrite existsb_app. cbn. rewrite orb_false_r. reflexivity. Qed.
Lemma running_started h : running h = true -> started h = true.
Proof.
  induction h as [|j h IH] using rev_ind; [discriminate|]. rewrite running_snoc, started_snoc.
  destruct (names "initialized" j); [intros _; apply orb_true_r|]. destruct (asks "shutdown" j); [discriminate|].
  intros H. rewrite (IH H). reflexivity.
Qed.
Lemma life_step h s j s' out : life_inv h s -> handle_message F j s = Next s' out -> life_inv (h ++ [j]) s'.
Proof.
  unfold life_inv. intros Hi H. apply handle_effect in H as (Hs & _ & _). rewrite running_snoc, started_snoc.
  rewrite Hs. rewrite names_rpc, asks_rpc.
  pose proof (running_started h) as HR.
  destruct (rpc_of j) as [[i m p|i p|m p]|]; cbn [status_after].
  - destruct (text_eqb m (str "initialized")); [reflexivity|]. rewrite orb_false_r.
    destruct (text_eqb m (str "shutdown")); [|exact Hi]. rewrite Hi. destruct (running h); [rewrite (HR eq_refl); reflexivity|].
    destruct (started h); reflexivity.
  - rewrite orb_false_r. exact Hi.
  - destruct (text_eqb m (str "initialized")); [reflexivity|]. rewrite orb_false_r. exact Hi.
  - rewrite orb_false_r. exact Hi.
Qed.
Lemma run_inv (I : list (option json) -> server -> Prop) :
  (forall h s j s' out, I h s -> handle_message F j s = Next s' out -> I (h ++ [j]) s') ->
  forall js h s s' outs, I h s -> run F js s = (Some s', outs) -> I (h ++ js) s'.
Proof.
  intros Hstep. induction js as [|j js IH]; intros h s s' outs Hi; cbn.
  - intros [= <- <-]. rewrite app_nil_r. exact Hi.
  - destruct (handle_message F j s) as [s1 o| |] eqn:E; try discriminate.
    destruct (run F js s1) as [e os] eqn:E2. intros [= -> <-].
    specialize (IH (h ++ [j]) s1 s' os). rewrite <- app_assoc in IH. apply IH; [|exact E2].
    eapply Hstep; eauto.
Qed.
Lemma life_run h a s outs : run F h (init a) = (Some s, outs) -> life_inv h s.
Proof. intros H. apply (run_inv life_inv life_step h [] (init a) s outs); [reflexivity|exact H]. Qed.

(** ** the status is read by two requests only *)
Definition map_hres (f : server -> server) (r : hres tree aux) : hres tree aux :=
  match r with Ok_ s o => Ok_ (f s) o | Err_ s o e => Err_ (f s) o e | r => r end.
Definition map_added (f : server -> server) (r : added tree aux) := match r with Added s => Added (f s) | AddErr s => AddErr (f s) end.
Lemma conclude_status st i r (s : server) : conclude i r (with_status st s) = map_hres (with_status st) (conclude i r s).
Proof. destruct r as [[e|] res err a|e a|]; reflexivity. Qed.
Lemma add_backend_status st b s : add_backend F b (with_status st s) = map_added (with_status st) (add_backend F b s).
Proof.
  unfold add_backend. destruct (f_prefixes_ok F _); [|reflexivity]. cbn [rest with_backends with_status].
  destruct (f_templates F _ _) as [a [|]]; [|reflexivity]. destruct (bk_default b); reflexivity.
Qed.
Lemma fetch_status st u s : get_cached_parse_tree F u (with_status st s) =
  match get_cached_parse_tree F u s with Tree t s' => Tree t (with_status st s') | r => r end.
Proof.
  unfold get_cached_parse_tree. cbn [documents cache with_status]. destruct (get u _); [|reflexivity].
  destruct (cache s); [destruct (_ && _)|]; try (destruct (f_parse F _)); reflexivity.
Qed.
Lemma dispatch_status st m s :
  method_of m <> str "initialize" -> method_of m <> str "shutdown" -> method_of m <> str "initialized" ->
  dispatch F m (with_status st s) = map_hres (with_status st) (dispatch F m s).
Proof.
  intros H1 H2 H3. unfold dispatch. destruct (route_of (method_of m)) as [r|] eqn:HR; [|reflexivity].
  assert (Hr : r <> R_initialize /\ r <> R_shutdown /\ r <> R_initialized).
  { apply route_of_in in HR as [n [Hin Hn]]. rewrite Hn in H1, H2, H3. cbn in Hin.
    repeat (destruct Hin as [Hin|Hin]; [injection Hin as <- <-; first [exfalso; congruence | (repeat split; discriminate)]|]). contradiction. }
  destruct r; try (exfalso; intuition congruence);
  unfold with_params, with_note, with_id, with_bare, unparsable; destruct m as [i me p|i p|me p];
  cbn [as_request as_notification method_of]; try (destruct p as [p|]); try (destruct async); try reflexivity;
  try match goal with |- match ?x with Some _ => _ | None => _ end = _ => destruct x; try reflexivity end;
  unfold h_document, h_identify, h_execute, h_add_backend, h_get_backend, h_update_default, h_ping, h_did_change, change_document, h_did_save, h_change_settings, get_default_backend, view_of;
  cbn [documents backends rest default_backend converters with_status]; rewrite ?add_backend_status, ?fetch_status;
  repeat match goal with
  | |- context [match get ?u ?m with _ => _ end] => destruct (get u m); try reflexivity
  | |- context [match apply_content_changes ?u ?m with _ => _ end] => destruct (apply_content_changes u m); try reflexivity
  | |- _ = map_hres _ (match ?x with _ => _ end) => destruct x eqn:?; cbn [map_added]; try reflexivity
  end; try (apply conclude_status).
Qed.

(** ** crashes *)
Lemma conclude_no_panic i r (s : server) : r <> Panics -> forall o, conclude i r s <> Panic_ o.
Proof. destruct r as [[e|] res err a|e a|]; cbn; congruence. Qed.
Lemma request_no_crash i m p s : never_panics F -> ~ In m (map str notification_methods) ->
  (In m (map str task_methods) -> readable F m p) -> forall o, dispatch F (Request i m p) s <> Panic_ o.
Proof.
  intros (N1 & N2 & N3) Hn Ht o. unfold dispatch. cbn [method_of].
  destruct (route_of m) as [r|] eqn:HR; [|discriminate].
  assert (Hrr := routed_request _ _ HR Hn).
  assert (Hasync : (r = R_document true -> m = str "textDocument/hover" \/ m = str "textDocument/completion") /\
                   (r = R_execute -> m = str "qlueLs/executeOperation") /\ (r = R_ping -> m = str "qlueLs/pingBackend")).
  { apply route_of_in in HR as [n [Hin ->]]. cbn in Hin.
    repeat (destruct Hin as [Hin|Hin]; [injection Hin as <- <-; (repeat split; intros; first [discriminate | auto])|]). contradiction. }
  destruct Hasync as (A1 & A2 & A3).
  assert (Hdoc : forall me u v, h_document F me i u v s <> Panic_ o).
  { intros me u v. unfold h_document. destruct (get u _) as [d|] eqn:G; [|discriminate]. destruct (f_early F _ _ _); [discriminate|].
    unfold get_cached_parse_tree. rewrite G. pose proof (N1 (d_text d)) as HP.
    destruct (cache s); [destruct (_ && _)|]; try (destruct (f_parse F (d_text d)); [|congruence]); apply conclude_no_panic; apply N2. }
  destruct r; try discriminate; unfold with_params, with_id; cbn [as_request].
  - destruct p as [p|]; [|discriminate]. destruct (f_init F p) as [[tk ef]|]; [|discriminate]. cbn.
    unfold h_initialize. destruct (status s); try discriminate. destruct tk; [|discriminate]. destruct (add_all F _ _); discriminate.
  - unfold h_shutdown. destruct (status s); discriminate.
  - destruct async.
    + specialize (A1 eq_refl). destruct Ht as (v & -> & R1 & _); [destruct A1 as [-> | ->]; cbn; tauto|].
      destruct (f_target F m v) eqn:E; [|destruct (R1 A1); reflexivity]. apply Hdoc.
    + destruct p as [p|]; [|discriminate]. destruct (f_target F m p); [apply Hdoc|discriminate].
  - destruct p as [p|]; [|discriminate]. destruct (f_target F m p); [|discriminate].
    unfold h_identify. destruct (get _ _); discriminate.
  - specialize (A2 eq_refl). destruct Ht as (v & -> & _ & _ & R1); [subst; cbn; tauto|].
    destruct (f_execute F v) eqn:E; [|destruct (R1 A2); reflexivity].
    unfold h_execute. destruct (match s0 with inl u => _ | inr q => _ end); [|discriminate].
    destruct (get_default_backend s); [|discriminate]. apply conclude_no_panic, N3.
  - destruct p as [p|]; [|discriminate]. destruct (opt_name_param _ p); [|discriminate].
    unfold h_get_backend. destruct o0 as [n|]; [destruct (get n _)|destruct (get_default_backend s)]; discriminate.
  - specialize (A3 eq_refl). destruct Ht as (v & -> & _ & R1 & _); [subst; cbn; tauto|].
    destruct (opt_name_param "backendName" v) eqn:E; [|destruct (R1 A3); reflexivity].
    unfold h_ping. destruct o0 as [n|]; [destruct (get n _)|destruct (get_default_backend s)]; discriminate.
Qed.

Definition cancel_param (p : json) := match struct_fields [str "queryId"] p with Some [n] => req as_str n | _ => None end.
Lemma cancel_param_obj fs : cancel_param (JObj fs) = None -> forall q, member (str "queryId") fs <> Some (JStr q).
Proof. unfold cancel_param, struct_fields. cbn [map]. intros H q E. rewrite E in H. discriminate. Qed.
Lemma dispatch_panic m s o : never_panics F -> (forall t, f_error_positions F t <> None) ->
  dispatch F m s = Panic_ o -> unreadable_task F m \/ bad_change m s.
Proof.
  intros HN HS H.
  assert (Hresp : forall i p, m <> Response i p).
  { intros i p ->. unfold dispatch in H. change (route_of (method_of (Response i p))) with (Some R_response) in H.
    cbn in H. destruct (edit_result p); discriminate. }
  assert (Htask : forall n r, In (n, r) routes -> r = R_document true \/ r = R_execute \/ r = R_ping <-> In n task_methods).
  { intros n r Hin. cbn in Hin.
    repeat (destruct Hin as [Hin|Hin]; [injection Hin as <- <-; split;
      [intros [E|[E|E]]; try discriminate; cbn; tauto | intros E; cbn in E; repeat (destruct E as [E|E]; [try discriminate E|]); try contradiction; auto]|]).
    contradiction. }
  destruct m as [i me p|i p|me p]; [|destruct (Hresp i p); reflexivity|].
  - destruct (in_dec (list_eq_dec N.eq_dec) me (map str notification_methods)) as [Hin|Hni].
    + (* notification methods sent with an id *)
      unfold dispatch in H. cbn [method_of] in H. destruct (route_of me) as [r|] eqn:HR; [|discriminate].
      apply route_of_in in HR as [n [Hr ->]].
      destruct r; cbn in H; try discriminate; unfold with_note, with_params, with_id, with_bare in H; cbn [as_request as_notification] in H.
      all: try (exfalso; assert (Hx : existsb (fun k => text_eqb (str k) (str n)) notification_methods = true)
        by (apply existsb_exists; apply in_map_iff in Hin as (k & Hk & Hk2); exists k; rewrite Hk, text_eqb_refl; auto);
        clear -Hr Hx; cbn in Hr; repeat (destruct Hr as [Hr|Hr]; [first [discriminate Hr | injection Hr as <-; discriminate Hx | injection Hr as <- <-; discriminate Hx]|]); contradiction).
      * destruct p as [p|]; [|discriminate]. destruct (f_backend F p); [|discriminate].
        unfold h_add_backend in H. destruct (add_backend F _ _); discriminate.
      * destruct p as [p|]; [|discriminate]. destruct (name_param p); [|discriminate].
        unfold h_update_default in H. destruct (get _ _); discriminate.
      * destruct p as [p|]; [|discriminate]. destruct (did_open_params p); discriminate.
      * destruct p as [p|]; [|discriminate]. destruct (did_change_params p) as [[u chs]|] eqn:E; [|discriminate].
        right. unfold h_did_change, change_document in H. cbn [fst snd] in H. destruct (get u (documents s)) as [d|] eqn:G; [|discriminate].
        destruct (apply_content_changes (d_text d) chs) eqn:A; try discriminate.
        all: exists p, u, chs, d; repeat split; auto; try congruence;
          clear -Hr; cbn in Hr; repeat (destruct Hr as [Hr|Hr]; [first [discriminate Hr | injection Hr as <-; reflexivity]|]); contradiction.
      * destruct p as [p|]; [|discriminate]. destruct (did_save_params p); [|discriminate].
        unfold h_did_save in H. destruct (get _ _) as [d|]; [|discriminate]. destruct (f_error_positions F (d_text d)) eqn:E; [discriminate|]. destruct (HS _ E).
      * unfold h_change_settings in H. destruct (f_settings F _ _); discriminate.
      * left. right.
        assert (n = "qlueLs/cancelQuery"%string) as -> by
          (clear -Hr; cbn in Hr; repeat (destruct Hr as [Hr|Hr]; [first [discriminate Hr | injection Hr as <-; reflexivity]|]); contradiction).
        split; [reflexivity|]. intros fs q ->. apply cancel_param_obj. unfold cancel_param; change (str "queryId") with [113%N; 117%N; 101%N; 114%N; 121%N; 73%N; 100%N].
        match goal with |- ?x = None => destruct x; [discriminate|reflexivity] end.
    + left. left. destruct (in_dec (list_eq_dec N.eq_dec) me (map str task_methods)) as [Ht|Hnt].
      * split; [exact Ht|]. intros R. eapply request_no_crash; [exact HN|exact Hni|intros _; exact R|exact H].
      * exfalso. eapply request_no_crash; [exact HN|exact Hni|intros Ht; contradiction|exact H].
  - unfold dispatch in H. cbn [method_of] in H. destruct (route_of me) as [r|] eqn:HR; [|discriminate].
    apply route_of_in in HR as [n [Hr ->]]. specialize (Htask n r Hr).
    destruct r; cbn in H; try discriminate; unfold with_note, with_params, with_id, with_bare in H; cbn [as_request as_notification] in H; try discriminate.
    + destruct async; [|discriminate]. left. left. apply in_map, Htask. auto.
    + left. left. apply in_map, Htask. auto.
    + destruct p as [p|]; [|discriminate]. destruct (f_backend F p); [|discriminate].
      unfold h_add_backend in H. destruct (add_backend F _ _); discriminate.
    + destruct p as [p|]; [|discriminate]. destruct (name_param p); [|discriminate].
      unfold h_update_default in H. destruct (get _ _); discriminate.
    + left. left. apply in_map, Htask. auto.
    + destruct p as [p|]; [|discriminate]. destruct (did_open_params p); discriminate.
    + destruct p as [p|]; [|discriminate]. destruct (did_change_params p) as [[u chs]|] eqn:E; [|discriminate].
      right. unfold h_did_change, change_document in H. cbn [fst snd] in H. destruct (get u (documents s)) as [d|] eqn:G; [|discriminate].
      destruct (apply_content_changes (d_text d) chs) eqn:A; try discriminate.
      all: exists p, u, chs, d; repeat split; auto; try congruence;
        clear -Hr; cbn in Hr; repeat (destruct Hr as [Hr|Hr]; [first [discriminate Hr | injection Hr as <-; reflexivity]|]); contradiction.
    + destruct p as [p|]; [|discriminate]. destruct (did_save_params p); [|discriminate].
      unfold h_did_save in H. destruct (get _ _) as [d|]; [|discriminate]. destruct (f_error_positions F (d_text d)) eqn:E; [discriminate|]. destruct (HS _ E).
    + unfold h_change_settings in H. destruct (f_settings F _ _); discriminate.
    + left. right.
      assert (n = "qlueLs/cancelQuery"%string) as -> by
        (clear -Hr; cbn in Hr; repeat (destruct Hr as [Hr|Hr]; [first [discriminate Hr | injection Hr as <-; reflexivity]|]); contradiction).
      split; [reflexivity|]. intros fs q ->. apply cancel_param_obj. unfold cancel_param; change (str "queryId") with [113%N; 117%N; 101%N; 114%N; 121%N; 73%N; 100%N].
      match goal with |- ?x = None => destruct x; [discriminate|reflexivity] end.
Qed.

(** ** ids of the requests the server sends *)
Definition out_of (r : hres tree aux) : list json := match r with Ok_ _ o | Err_ _ o _ | Panic_ o | Exit_ o => o end.
Definition ids_of (out : list json) : list json := flat_map (fun o => match sent_id o with Some i => [i] | None => [] end) out.
Definition counts (s : server) (r : hres tree aux) : Prop :=
  match r with
  | Ok_ s' out | Err_ s' out _ =>
      (ids_of out = [] /\ counter s' = counter s) \/ (ids_of out = [JInt (Z.of_N (counter s))] /\ counter s' = bump (counter s))
  | Panic_ out | Exit_ out => ids_of out = []
  end.
Lemma sent_response i res err : sent_id (response i res err) = None.
Proof. destruct res, err; reflexivity. Qed.
Lemma sent_error i c t : sent_id (error_response i c t) = None. Proof. reflexivity. Qed.
Lemma sent_notification m p : sent_id (notification m p) = None. Proof. reflexivity. Qed.
Lemma sent_progress w : sent_id (progress F w) = None. Proof. reflexivity. Qed.
Lemma ids_response i res err : ids_of [response i res err] = [].
Proof. unfold ids_of. cbn [flat_map]. rewrite sent_response. reflexivity. Qed.
Lemma conclude_counts i r s s0 : counter s = counter s0 -> counts s0 (conclude i r s).
Proof.
  intros E. destruct r as [[e|] res err a|c a|]; cbn [conclude counts]; rewrite <- ?E; try (left; auto; fail); try reflexivity.
  - right. split; [|reflexivity]. unfold ids_of. cbn [flat_map]. rewrite sent_response. reflexivity.
  - left. split; [apply ids_response|reflexivity].
Qed.
Lemma h_document_counts me i u p s : counts s (h_document F me i u p s).
Proof.
  unfold h_document. destruct (get u _); [|left; auto]. destruct (f_early F _ _ _); [left; auto|].
  pose proof (cached_frame F u s) as H. destruct (get_cached_parse_tree F u s); [|left; auto|reflexivity].
  apply conclude_counts. tauto.
Qed.
Lemma h_add_backend_counts b s : counts s (h_add_backend F b s).
Proof.
  unfold h_add_backend. pose proof (add_backend_frame F b s) as HF. destruct (add_backend F b s); destruct HF as (_ & _ & _ & HF);
  left; (split; [reflexivity|exact HF]).
Qed.
Lemma h_did_change_counts u chs (s : server) : counts s (h_did_change u chs s).
Proof.
  unfold h_did_change, change_document. destruct (get u _); [|left; auto].
  destruct (apply_content_changes _ _); try reflexivity. left. split; reflexivity.
Qed.
Lemma dispatch_counts m s : counts s (dispatch F m s).
Proof.
  unfold dispatch. destruct (route_of (method_of m)) as [r|]; [|left; auto].
  destruct r; unfold with_params, with_note, with_id, with_bare, unparsable; destruct m as [i me p|i p|me p];
  cbn [as_request as_notification method_of]; try (destruct p as [p|]); try (destruct async); try (left; split; reflexivity);
  try match goal with |- counts _ (match ?x with Some _ => _ | None => _ end) => destruct x end; try (left; split; reflexivity); try reflexivity;
  try apply h_document_counts; try apply h_add_backend_counts; try apply h_did_change_counts.
  all: unfold h_identify, h_execute, h_add_backend, h_get_backend, h_update_default, h_ping, h_did_change, change_document, h_did_save, h_change_settings, h_shutdown.
  all: try (unfold h_initialize; destruct (status s); [|left; auto|left; auto]; destruct p0 as [[|] ef]; cbn [fst snd];
    [pose proof (add_all_frame F (f_config F (rest (with_rest (ef (rest s)) s))) (with_rest (ef (rest s)) s)) as HF;
     destruct (add_all F _ _); destruct HF as (_ & _ & _ & HF); left; split; try reflexivity; exact HF
    |left; split; reflexivity]).
  all: repeat match goal with
  | |- counts _ (match ?x with _ => _ end) => destruct x eqn:?; try (left; split; reflexivity); try reflexivity
  end; try (apply conclude_counts; reflexivity).
Qed.
Lemma ids_app a b : ids_of (a ++ b) = ids_of a ++ ids_of b.
Proof. apply flat_map_app. Qed.
Lemma handle_counts j s : match handle_message F j s with
  | Next s' out => (ids_of out = [] /\ counter s' = counter s) \/ (ids_of out = [JInt (Z.of_N (counter s))] /\ counter s' = bump (counter s))
  | Crash out | Exit _ out => ids_of out = [] end.
Proof.
  unfold handle_message. destruct (match j with Some j => decode_rpc j | None => None end) as [m|].
  - pose proof (dispatch_counts m s) as H. destruct (dispatch F m s); cbn in H; auto.
    destruct (recover_id j); rewrite ?ids_app; cbn [ids_of flat_map]; rewrite ?sent_error, ?app_nil_r; exact H.
  - destruct (recover_id j); left; split; reflexivity.
Qed.
Lemma sent_ids_cons o os : sent_ids (o :: os) = ids_of o ++ sent_ids os.
Proof. unfold sent_ids. cbn [concat]. apply flat_map_app. Qed.
Lemma run_counts : forall js s, (counter s < 4294967296)%N -> exists n,
  sent_ids (snd (run F js s)) = map (fun k => JInt (Z.of_N ((counter s + N.of_nat k) mod 4294967296)%N)) (seq 0 n).
Proof.
  induction js as [|j js IH]; intros s Hc; cbn [run].
  - exists 0. reflexivity.
  - pose proof (handle_counts j s) as H. destruct (handle_message F j s) as [s1 o|o|c o].
    + assert (Hc1 : (counter s1 < 4294967296)%N).
      { destruct H as [[_ ->] | [_ ->]]; [exact Hc|]. unfold bump. apply N.mod_lt. lia. }
      destruct (IH s1 Hc1) as [n Hn]. destruct (run F js s1) as [e os]. cbn [snd] in *. rewrite sent_ids_cons, Hn.
      destruct H as [[-> ->] | [-> E]].
      * exists n. reflexivity.
      * exists (S n). cbn [seq map app]. f_equal.
        { f_equal. f_equal. rewrite N.add_0_r, N.mod_small by exact Hc. reflexivity. }
        rewrite <- seq_shift, map_map. apply map_ext. intros k. f_equal. f_equal. rewrite E. unfold bump.
        rewrite N.add_mod_idemp_l by lia. f_equal. lia.
    + exists 0. cbn [snd]. rewrite sent_ids_cons, H. reflexivity.
    + exists 0. cbn [snd]. rewrite sent_ids_cons, H. reflexivity.
Qed.

(** ** the default backend is registered *)
Definition default_ok (s : server) : Prop := forall n, default_backend s = Some n -> get n (backends s) <> None.
Lemma add_backend_default b s : default_ok s -> match add_backend F b s with Added s' | AddErr s' => default_ok s' end.
Proof.
  intros H. unfold add_backend. destruct (f_prefixes_ok F _); [|exact H].
  destruct (f_templates F _ _) as [a [|]]; [|exact H].
  assert (Hput : forall n, get n (backends s) <> None -> get n (put (bk_name b) b (backends s)) <> None).
  { intros n Hn. rewrite get_put. destruct (text_eqb _ _); [discriminate|exact Hn]. }
  destruct (bk_default b); intros n; cbn.
  - intros [= <-]. rewrite get_put, text_eqb_refl. discriminate.
  - intros Hn. apply Hput, H, Hn.
Qed.
Lemma add_all_default bs : forall s, default_ok s -> match add_all F bs s with Added s' | AddErr s' => default_ok s' end.
Proof.
  induction bs as [|b bs IH]; intros s H; cbn; [exact H|].
  pose proof (add_backend_default b s H) as H'. destruct (add_backend F b s); [apply IH; exact H'|exact H'].
Qed.
Lemma default_same s s' : default_backend s' = default_backend s -> backends s' = backends s -> default_ok s -> default_ok s'.
Proof. unfold default_ok. intros -> ->. auto. Qed.
Lemma conclude_default i r s : default_ok s -> after default_ok (conclude i r s).
Proof. intros H. destruct r as [[e|] res err a|c a|]; cbn; auto. Qed.
Lemma h_document_default me i u p s : default_ok s -> after default_ok (h_document F me i u p s).
Proof.
  intros H. unfold h_document. destruct (get u _); [|exact H]. destruct (f_early F _ _ _); [exact H|].
  pose proof (cached_frame F u s) as HC. destruct (get_cached_parse_tree F u s); [|exact H|exact I].
  apply conclude_default. destruct HC as (_ & _ & _ & C1 & _ & C2 & _). apply (default_same s); assumption.
Qed.
Lemma h_add_backend_default b s : default_ok s -> after default_ok (h_add_backend F b s).
Proof. intros H. unfold h_add_backend. pose proof (add_backend_default b s H) as HF. destruct (add_backend F b s); exact HF. Qed.
Lemma h_initialize_default i tk ef s : default_ok s -> after default_ok (h_initialize F i tk ef s).
Proof.
  intros H. unfold h_initialize. destruct (status s); [|exact H|exact H]. destruct tk; [|exact H].
  pose proof (add_all_default (f_config F (rest (with_rest (ef (rest s)) s))) (with_rest (ef (rest s)) s) H) as HF.
  destruct (add_all F _ _); exact HF.
Qed.
Lemma h_did_change_default u chs (s : server) : default_ok s -> after default_ok (h_did_change u chs s).
Proof.
  intros H. unfold h_did_change, change_document. destruct (get u _); [|exact H].
  destruct (apply_content_changes _ _); try exact I. exact H.
Qed.
Lemma h_update_default_default n (s : server) : default_ok s -> after default_ok (h_update_default n s).
Proof. intros H. unfold h_update_default. destruct (get n _) eqn:E; [|exact H]. intros k [= <-]. cbn. congruence. Qed.
Lemma dispatch_default m s : default_ok s -> after default_ok (dispatch F m s).
Proof.
  intros H. unfold dispatch. destruct (route_of (method_of m)) as [r|]; [|exact H].
  destruct r; unfold with_params, with_note, with_id, with_bare, unparsable; destruct m as [i me p|i p|me p];
  cbn [as_request as_notification method_of]; try (destruct p as [p|]); try (destruct async); try exact H; try exact I;
  try match goal with |- after _ (match ?x with Some _ => _ | None => _ end) => destruct x end; try exact H; try exact I;
  auto using h_document_default, h_add_backend_default, h_initialize_default, h_did_change_default, h_update_default_default.
  all: unfold h_identify, h_execute, h_get_backend, h_ping, h_did_save, h_change_settings, h_shutdown.
  all: repeat match goal with
  | |- after _ (match ?x with _ => _ end) => destruct x eqn:?; try exact H; try exact I
  end; try (apply conclude_default; exact H).
Qed.
Lemma default_run h a s outs : run F h (init a) = (Some s, outs) -> default_ok s.
Proof.
  intros H. refine (run_inv (fun _ s => default_ok s) _ h [] (init a) s outs _ H); [|discriminate].
  intros h0 s0 j s' out H0. apply after_handle; [exact H0|]. intros m _. apply dispatch_default. exact H0.
Qed.
End L.
