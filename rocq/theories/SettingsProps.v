(** C32: a settings patch overrides exactly the keys it contains. *)
From Coq Require Import String List Arith NArith ZArith Bool.
Import ListNotations.
From Verif Require Import TextModel JsonModel ServerModel ServerProofs SettingsModel.

(** ** specification: values at a path of keys *)
Fixpoint at_path (path : list text) (j : json) : option json :=
  match path with
  | [] => Some j
  | k :: r => match j with JObj fs => match member k fs with Some v => at_path r v | None => None end | _ => None end
  end.
Definition is_object (j : json) : Prop := exists fs, j = JObj fs.
(** no object repeats a key *)
Inductive well_formed : json -> Prop :=
| wf_leaf j : ~ is_object j -> well_formed j
| wf_obj fs : NoDup (map fst fs) -> Forall (fun e => well_formed (snd e)) fs -> well_formed (JObj fs).
(** the patch says nothing about the path: where it parts from the path it is an object without the next key *)
Definition silent_about (path : list text) (patch : json) : Prop :=
  exists q k r ps, path = q ++ k :: r /\ at_path q patch = Some (JObj ps) /\ member k ps = None.

(** ** lemmas *)
Lemma last_some (l : list json) : forall d, last (map Some l) d = match last (map Some l) None with Some w => Some w | None => d end.
Proof.
  induction l as [|x l IH]; intros d; [reflexivity|]. cbn [map]. destruct l as [|y l]; [reflexivity|].
  change (last (map Some (y :: l)) d = match last (map Some (y :: l)) None with Some w => Some w | None => d end). apply IH.
Qed.
Lemma last_first {A} (l : list A) : forall a d, last (a :: l) d = last l a.
Proof. induction l as [|b l IH]; intros a d; [reflexivity|]. rewrite (IH b a). exact (IH b d). Qed.
Lemma member_cons k k' v fs : member k ((k', v) :: fs) = match member k fs with Some w => Some w | None => if text_eqb k' k then Some v else None end.
Proof.
  unfold member, values. cbn [filter fst]. destruct (text_eqb k' k); cbn [map snd].
  - rewrite last_first. apply last_some.
  - destruct (last _ _); reflexivity.
Qed.
Lemma member_nil k : member k [] = None. Proof. reflexivity. Qed.
Lemma member_app k a b : member k (a ++ b) = match member k b with Some v => Some v | None => member k a end.
Proof.
  induction a as [|[k' v] a IH]; cbn [app]; [destruct (member k b); reflexivity|].
  rewrite !member_cons, IH. destruct (member k b); reflexivity.
Qed.
Lemma member_set k k' v fs : member k' (set_member k v fs) = if text_eqb k k' then match member k' fs with Some _ => Some v | None => None end else member k' fs.
Proof.
  induction fs as [|[a w] fs IH]; cbn [set_member map fst].
  - rewrite member_nil. destruct (text_eqb k k'); reflexivity.
  - fold (set_member k v fs). destruct (text_eqb a k) eqn:E.
    + apply text_eqb_eq in E. subst a. rewrite !member_cons, IH. destruct (text_eqb k k'); destruct (member k' fs); reflexivity.
    + rewrite !member_cons, IH. destruct (text_eqb k k') eqn:E2; destruct (member k' fs); try reflexivity.
      apply text_eqb_eq in E2. subst k'. rewrite E. reflexivity.
Qed.
Lemma member_in k v fs : member k fs = Some v -> In (k, v) fs.
Proof.
  induction fs as [|[k' w] fs IH]; [discriminate|]. rewrite member_cons. destruct (member k fs).
  - intros [= ->]. right. auto.
  - destruct (text_eqb k' k) eqn:E; [|discriminate]. apply text_eqb_eq in E. subst. intros [= ->]. left. reflexivity.
Qed.
Lemma member_not_in k fs : ~ In k (map fst fs) -> member k fs = None.
Proof. intros H. destruct (member k fs) eqn:E; [|reflexivity]. destruct H. apply member_in in E. apply (in_map fst) in E. exact E. Qed.

Lemma merge_member ts ps k : NoDup (map fst ps) ->
  match merge_value (JObj ts) (JObj ps) with
  | JObj fs => member k fs = match member k ps with
      | None => member k ts
      | Some v => match member k ts with Some tv => Some (merge_value tv v) | None => Some v end end
  | _ => False
  end.
Proof.
  cbn [merge_value]. revert ts. induction ps as [|[k' v] ps IH]; intros ts ND.
  - reflexivity.
  - inversion ND as [|? ? Hni ND']; subst. rewrite IH by exact ND'. clear IH. rewrite (member_cons k k' v ps).
    destruct (text_eqb k' k) eqn:E.
    + apply text_eqb_eq in E. subst k'. cbn [fst] in Hni. rewrite (member_not_in k ps Hni).
      destruct (member k ts) eqn:T.
      * rewrite member_set, text_eqb_refl, T. reflexivity.
      * rewrite member_app, member_cons, member_nil, text_eqb_refl. reflexivity.
    + assert (Hk : member k (match member k' ts with Some tv => set_member k' (merge_value tv v) ts | None => ts ++ [(k', v)] end) = member k ts).
      { destruct (member k' ts); [rewrite member_set, E; reflexivity|]. rewrite member_app, member_cons, member_nil, E. reflexivity. }
      rewrite Hk. destruct (member k ps); reflexivity.
Qed.
Lemma wf_member fs k v : well_formed (JObj fs) -> member k fs = Some v -> well_formed v.
Proof.
  intros H Hm. inversion H as [j Hn|fs' ND HF]; subst; [destruct Hn; eexists; reflexivity|].
  rewrite Forall_forall in HF. exact (HF _ (member_in _ _ _ Hm)).
Qed.
Lemma wf_nodup fs : well_formed (JObj fs) -> NoDup (map fst fs).
Proof. intros H. inversion H as [j Hn|fs' ND HF]; subst; [destruct Hn; eexists; reflexivity|exact ND]. Qed.
(** one step down *)
Lemma merge_not_object t p : ~ (is_object t /\ is_object p) -> merge_value t p = p.
Proof. destruct t, p; try reflexivity. intros H. destruct H. split; eexists; reflexivity. Qed.

(** ** theorems *)
(** every value the patch gives for a path is the value afterwards *)
Theorem C32_patch_overrides : forall path t p v, well_formed p ->
  at_path path p = Some v -> ~ is_object v -> at_path path (merge_value t p) = Some v.
Proof.
  induction path as [|k path IH]; intros t p v Hw Hp Hv.
  - cbn in Hp. injection Hp as ->. cbn. rewrite merge_not_object; [reflexivity|tauto].
  - destruct p as [| | | | | |ps]; try discriminate. cbn in Hp. destruct (member k ps) as [pv|] eqn:Hm; [|discriminate].
    destruct t as [| | | | | |ts]; try (cbn; rewrite Hm; exact Hp).
    pose proof (merge_member ts ps k (wf_nodup _ Hw)) as H. destruct (merge_value (JObj ts) (JObj ps)); try contradiction.
    cbn [at_path]. rewrite H, Hm. destruct (member k ts); [apply IH; auto; eapply wf_member; eauto|exact Hp].
Qed.
(** every path the patch is silent about keeps what it had, arrays and nulls included *)
Theorem C32_others_kept : forall path t p, well_formed p -> silent_about path p ->
  at_path path (merge_value t p) = at_path path t.
Proof.
  induction path as [|k path IH]; intros t p Hw (q & k' & r & ps & E & Hq & Hm); [destruct q; discriminate|].
  destruct q as [|k1 q].
  - injection E as <- <-. cbn in Hq. injection Hq as ->.
    destruct t as [| | | | | |ts]; try (cbn; rewrite Hm; reflexivity).
    pose proof (merge_member ts ps k (wf_nodup _ Hw)) as H. destruct (merge_value (JObj ts) (JObj ps)); try contradiction.
    cbn [at_path]. rewrite H, Hm. reflexivity.
  - injection E as <- ->. destruct p as [| | | | | |ps']; try discriminate. cbn in Hq.
    destruct (member k ps') as [pv|] eqn:Hk; [|discriminate].
    assert (Hs : silent_about (q ++ k' :: r) pv) by (exists q, k', r, ps; auto).
    assert (Hwv : well_formed pv) by (eapply wf_member; eauto).
    destruct t as [| | | | | |ts].
    7: { pose proof (merge_member ts ps' k (wf_nodup _ Hw)) as H. destruct (merge_value (JObj ts) (JObj ps')); try contradiction.
      cbn [at_path]. rewrite H, Hk. destruct (member k ts) as [tv|]; [apply IH; assumption|].
      clear -Hq Hm. revert pv Hq. induction q as [|k1 q IH]; intros pv Hq; cbn in Hq |- *.
      - injection Hq as ->. rewrite Hm. reflexivity.
      - destruct pv; try discriminate. destruct (member k1 fields); [apply IH; exact Hq|reflexivity]. }
    all: cbn [at_path merge_value]; rewrite Hk; clear -Hq Hm; revert pv Hq; induction q as [|k1 q IH]; intros pv Hq; cbn in Hq |- *;
      [injection Hq as ->; rewrite Hm; reflexivity|destruct pv; try discriminate; destruct (member k1 fields); [apply IH; exact Hq|reflexivity]].
Qed.
(** an empty patch changes nothing; a patch that is not an object replaces everything *)
Theorem C32_empty_patch : forall ts, merge_value (JObj ts) (JObj []) = JObj ts.
Proof. reflexivity. Qed.
(** a patch that leaves no valid settings is refused and the settings stay as they were *)
Theorem C32_refused_or_applied : forall {settings} (ser : settings -> json) de valid s patch s',
  merge_settings ser de valid s patch = inr s' -> de (merge_value (ser s) patch) = Some s' /\ valid s' = true.
Proof.
  intros settings ser de valid s patch s'. unfold merge_settings. destruct (de _) as [m|]; [|discriminate].
  destruct (valid m) eqn:E; [|discriminate]. intros [= ->]. auto.
Qed.
Theorem C32_failure_changes_nothing : forall {tree aux} (F : features tree aux) j p s c,
  ServerSpec.notification_message j (str "qlueLs/changeSettings") (Some p) -> f_settings F (rest s) p = inl c ->
  handle_message F (Some j) s = Next s [].
Proof.
  intros tree aux F j p s c Hj Hc. unfold handle_message. rewrite (decode_notification _ _ _ Hj), (recover_notification _ _ _ Hj).
  unfold dispatch. change (route_of (method_of _)) with (Some R_change_settings). cbn. unfold h_change_settings. rewrite Hc. reflexivity.
Qed.
Example C32_witness :
  let t := JObj [(str "format", JObj [(str "a", JBool true); (str "b", JInt 3)]); (str "c", JArr [JNull])] in
  let p := JObj [(str "format", JObj [(str "b", JInt 4)]); (str "c", JArr [])] in
  well_formed p /\ silent_about [str "format"; str "a"] p /\
  merge_value t p = JObj [(str "format", JObj [(str "a", JBool true); (str "b", JInt 4)]); (str "c", JArr [])].
Proof.
  cbn zeta. split; [|split; [|vm_compute; reflexivity]].
  - assert (L : forall j, (forall fs, j <> JObj fs) -> well_formed j) by (intros j H; apply wf_leaf; intros [fs E]; exact (H fs E)).
    apply wf_obj.
    + constructor; [cbn; intros [H|[]]; discriminate|]. constructor; [intros []|constructor].
    + constructor; [|constructor; [|constructor]]; cbn [snd].
      * apply wf_obj; [constructor; [intros []|constructor]|]. constructor; [|constructor]. apply L. discriminate.
      * apply L. discriminate.
  - exists [str "format"], (str "a"), [], [(str "b", JInt 4)]. vm_compute. auto.
Qed.
