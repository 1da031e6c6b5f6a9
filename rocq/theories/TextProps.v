(** Properties C01-C06 and C26: document synchronisation, positions, text edits. *)
From Coq Require Import List Arith NArith Lia Bool Permutation Sorted.
Import ListNotations.
From Verif Require Import TextModel TextSpec TextProofs TextEditProofs.

(** ** C01 *)
Theorem C01_incremental_sync : forall t chs t',
  changes_effect t chs t' -> apply_content_changes t chs = Done t'.
Proof. exact apply_content_changes_effect. Qed.

(** hypotheses are satisfiable: "aé\r\nx𝄞y", replace "é\r\nx" then the whole document *)
Example C01_witness :
  let t := [97; 233; 13; 10; 120; 119070; 121]%N in
  let chs := [ mkchange (Some (mkrange (mkpos 0 1) (mkpos 1 1))) [98; 10; 99]%N;
               mkchange (Some (mkrange (mkpos 1 1) (mkpos 1 3))) [100]%N ] in
  changes_effect t chs [97; 98; 10; 99; 100; 121]%N
  /\ apply_content_changes t chs = Done [97; 98; 10; 99; 100; 121]%N.
Proof.
  split; [|vm_compute; reflexivity].
  assert (D : forall t p i, i <= length t -> position_after (firstn i t) = p ->
    (nth_error t i <> Some NL) -> denotes t p i).
  { intros t p i H1 H2 H3. split; [assumption|]. split; [assumption|].
    intros (a & b & -> & ->). apply H3. rewrite nth_error_app2 by lia.
    replace (S (length a) - length a) with 1 by lia. reflexivity. }
  eapply effects_cons.
  - apply (effect_range _ _ _ _ 1 5).
    + apply D; cbn; [lia|reflexivity|discriminate].
    + apply D; cbn; [lia|reflexivity|discriminate].
    + lia.
  - cbn. eapply effects_cons; [|cbn; apply effects_nil].
    refine (effect_range [97; 98; 10; 99; 119070; 121]%N _ _ [100]%N 4 5 _ _ _).
    + apply D; cbn; [lia|reflexivity|discriminate].
    + apply D; cbn; [lia|reflexivity|discriminate].
    + lia.
Qed.

(** ** C02: what happens with positions that do not exist.
    The end does not exist: the server panics (nothing is stored). *)
Theorem C02_missing_end_panics : forall t s e w rest,
  (forall j, ~ denotes t e j) ->
  apply_content_changes t (mkchange (Some (mkrange s e)) w :: rest) = Panic.
Proof. exact change_bad_end_panics. Qed.

(** The start does not exist but the end does: everything from the beginning of the
    document up to the end position is deleted, whatever the start was. *)
Theorem C02_missing_start_refuted : forall t s e w j,
  denotes t e j -> (forall i, ~ denotes t s i) -> pos_le s e ->
  apply_content_changes t [mkchange (Some (mkrange s e)) w] = Done (w ++ skipn j t).
Proof. exact change_bad_start_deletes. Qed.

(** the claim itself fails: start past the end of line 0 of "ab\ncd" (clamped it would
    be the place before the '\n'), end (1,0).  Clamping gives "abcd"; the server stores "cd". *)
Example C02_witness :
  let t := [97; 98; 10; 99; 100]%N in
  denotes t (mkpos 1 0) 3 /\ (forall i, ~ denotes t (mkpos 0 100) i) /\
  apply_content_changes t [mkchange (Some (mkrange (mkpos 0 100) (mkpos 1 0))) []] = Done [99; 100]%N.
Proof.
  split; [|split].
  - split; [cbn; lia|]. split; [reflexivity|]. intros (a & b & E & L).
    assert (length a = 2) by lia. destruct a as [|? [|? [|? ?]]]; try discriminate.
  - intros i (Hi & Hp & _). cbn in Hi.
    do 6 (destruct i as [|i]; [cbn in Hp; unfold position_after, utf16_len in Hp; cbn in Hp; discriminate|]). lia.
  - vm_compute. reflexivity.
Qed.

(** ** C03 *)
Theorem C03_boundary_to_position_and_back : forall x y, cr_only_in_crlf (x ++ y) ->
  ~ inside_crlf (x ++ y) (length x) ->
  from_byte_index (byte_len x) (x ++ y) = Some (position_after x) /\
  byte_index (position_after x) (x ++ y) = Some (byte_len x).
Proof.
  intros x y H Hin. split; [apply from_byte_index_boundary|]. apply byte_index_of_position; [exact H|].
  intros (x' & y' & -> & ->). apply Hin. exists x', y'. rewrite <- app_assoc, app_length. cbn. split; [reflexivity|lia].
Qed.

(** offset -> position needs no restriction, and is defined on exactly the boundaries *)
Theorem C03_offset_to_position : forall off t p,
  from_byte_index off t = Some p <-> exists x y, t = x ++ y /\ off = byte_len x /\ p = position_after x.
Proof.
  intros off t p. split; [apply from_byte_index_sound|].
  intros (x & y & -> & -> & ->). apply from_byte_index_boundary.
Qed.
Theorem C03_offset_rejected : forall off t,
  from_byte_index off t = None <-> (forall x y, t = x ++ y -> byte_len x <> off).
Proof. exact from_byte_index_none. Qed.

(** every accepted position that is not inside a surrogate pair comes back *)
Theorem C03_position_to_offset_and_back : forall p t b, cr_only_in_crlf t ->
  (forall x c y, t = x ++ c :: y -> len_utf16 c = 2 ->
     p <> mkpos (line (position_after x)) (character (position_after x) + 1)) ->
  byte_index p t = Some b -> from_byte_index b t = Some p.
Proof.
  intros p t b Hcr Hs H. destruct (byte_index_sound p t b Hcr H) as (x & y & -> & -> & _ & [<-|K]).
  - apply from_byte_index_boundary.
  - destruct K as (x' & c & -> & Hc & ->). exfalso. eapply (Hs x' c y); [now rewrite <- app_assoc|exact Hc|reflexivity].
Qed.
(** exactly which positions are accepted, and what each is mapped to *)
Theorem C03_position_to_offset : forall p t b, cr_only_in_crlf t ->
  byte_index p t = Some b <->
  exists x y, t = x ++ y /\ b = byte_len x /\ ~ inside_crlf t (length x) /\
    (position_after x = p \/
     exists x' c, x = x' ++ [c] /\ len_utf16 c = 2 /\
       p = mkpos (line (position_after x')) (character (position_after x') + 1)).
Proof.
  intros p t b Hcr. split.
  - intros H. destruct (byte_index_sound p t b Hcr H) as (x & y & -> & -> & Hn & K).
    exists x, y. split; [reflexivity|]. split; [reflexivity|]. split; [|exact K].
    intros (a & d & E & El). apply Hn. 
    assert (Ex : x = a ++ [CR]).
    { apply (f_equal (firstn (length x))) in E. rewrite firstn_app, Nat.sub_diag, firstn_all in E. cbn in E.
      rewrite app_nil_r in E. rewrite E, El.
      change (a ++ CR :: NL :: d) with (a ++ [CR] ++ NL :: d). rewrite app_assoc.
      rewrite firstn_app. replace (S (length a)) with (length (a ++ [CR])) by (rewrite app_length; cbn; lia).
      rewrite Nat.sub_diag, firstn_all. cbn. now rewrite app_nil_r. }
    exists a, d. split; [exact Ex|]. subst x. rewrite <- app_assoc in E. cbn in E.
    apply app_inv_head in E. injection E as ->. reflexivity.
  - intros (x & y & -> & -> & Hn & K).
    assert (Hn' : ~ (exists x' y', x = x' ++ [CR] /\ y = NL :: y')).
    { intros (x' & y' & -> & ->). apply Hn. exists x', y'. rewrite <- app_assoc, app_length. cbn. split; [reflexivity|lia]. }
    destruct K as [<-|(x' & c & -> & Hc & ->)]; [now apply byte_index_of_position|].
    assert (Hc1 : c <> NL) by (intros ->; discriminate Hc).
    assert (Hc2 : c <> CR) by (intros ->; discriminate Hc).
    destruct (split_last_line x') as (a & u & -> & Hu & Ha).
    rewrite (position_after_lines a u Ha Hu), byte_index_unfold; cbn [line character].
    rewrite <- !app_assoc in *.
    assert (Hl : skip_lines (count_occ N.eq_dec a NL) (a ++ u ++ [c] ++ y) 0 = Some (byte_len a, u ++ [c] ++ y)).
    { apply skip_lines_spec; [exact Hcr|]. exists a. auto. }
    rewrite Hl. apply crlf_app_r in Hcr. apply skip_cols_spec; [exact Hcr|].
    exists (u ++ [c]), y. rewrite <- app_assoc. split; [reflexivity|]. rewrite !in_app_iff. cbn [In].
    split; [intros [K|[K|[]]]; [contradiction|congruence]|].
    split. { intros [K|[K|[]]]; [|congruence]. revert K. apply (crlf_piece u ([c] ++ y) Hcr Hu). intros (b' & y' & _ & E). injection E as -> _. congruence. }
    split; [now rewrite !byte_len_app|]. right. exists u, c. split; [reflexivity|].
    unfold utf16_len in *. rewrite map_app, list_sum_app. cbn. lia.
Qed.

(** without the '\r' restriction the round trip fails: "\räb" *)
Theorem C03_with_cr_refuted : exists x y,
  from_byte_index (byte_len x) (x ++ y) = Some (position_after x) /\
  byte_index (position_after x) (x ++ y) <> Some (byte_len x).
Proof.
  exists [13; 228]%N, [98]%N. split; [apply from_byte_index_boundary|vm_compute; discriminate].
Qed.
(** worse, the offset returned need not be a character boundary: using it to slice panics *)
Theorem C03_offset_off_boundary_refuted : exists p t b,
  byte_index p t = Some b /\ (forall x y, t = x ++ y -> byte_len x <> b).
Proof.
  exists (mkpos 0 2), [13; 228; 98]%N, 2. split; [vm_compute; reflexivity|].
  apply from_byte_index_none. vm_compute. reflexivity.
Qed.
(** a position inside a surrogate pair is accepted and does not come back *)
Theorem C03_surrogate_refuted : exists p t b q,
  no_cr t /\ byte_index p t = Some b /\ from_byte_index b t = Some q /\ q <> p.
Proof.
  exists (mkpos 0 1), [119070]%N, 4, (mkpos 0 2).
  split; [intros [H|[]]; discriminate|]. split; [vm_compute; reflexivity|]. split; [vm_compute; reflexivity|discriminate].
Qed.
Example C03_witness : no_cr ([97; 10; 119070] ++ [233; 10])%N /\
  byte_index (mkpos 1 2) [97; 10; 119070; 233; 10]%N = Some 6.
Proof. split; [intros H; repeat (destruct H as [H|H]; [discriminate|]); exact H|vm_compute; reflexivity]. Qed.
Example C03_witness_crlf : cr_only_in_crlf [97; 13; 10; 119070; 233; 10]%N /\
  byte_index (mkpos 1 2) [97; 13; 10; 119070; 233; 10]%N = Some 7.
Proof.
  split; [|vm_compute; reflexivity]. intros a b E.
  do 6 (destruct a as [|? a]; [try discriminate E; injection E as <-; eexists; reflexivity|injection E as _ E]).
  destruct a; discriminate E.
Qed.

(** ** C04 *)
Theorem C04_positions_monotone : forall off off' t p p',
  from_byte_index off t = Some p -> from_byte_index off' t = Some p' ->
  (off < off' <-> pos_ltb p p' = true) /\ (off = off' <-> p = p').
Proof. exact from_byte_index_monotone. Qed.
Example C04_witness :
  from_byte_index 2 [97; 10; 119070; 233; 10]%N = Some (mkpos 1 0) /\
  from_byte_index 8 [97; 10; 119070; 233; 10]%N = Some (mkpos 1 3).
Proof. split; vm_compute; reflexivity. Qed.

(** ** C05 *)
Theorem C05_simultaneous_edits : forall t es es' cs,
  Permutation es es' -> Forall2 (edit_denotes t) es' cs -> StronglySorted before cs ->
  exists r, apply_text_edits t es = Done r /\
    ((ends_with_newline (splice 0 t cs) /\ r = splice 0 t cs) \/
     (~ ends_with_newline (splice 0 t cs) /\ r = splice 0 t cs ++ [NL])).
Proof.
  intros t es es' cs P F S. eexists. split; [eapply apply_text_edits_effect; eauto|].
  destruct (ensure_final_newline_spec (splice 0 t cs)) as [[H ->]|[H ->]]; auto.
Qed.
(** "select *\nwhere{}" : capitalise both keywords, insert a space before '{', listed out of order *)
Example C05_witness :
  let t := [115;101;108;10;119;104;123;125]%N in
  let e1 := mkedit (mkrange (mkpos 0 0) (mkpos 0 3)) [83;69;76]%N in
  let e2 := mkedit (mkrange (mkpos 1 0) (mkpos 1 2)) [87;72]%N in
  let e3 := mkedit (mkrange (mkpos 1 2) (mkpos 1 2)) [32]%N in
  let e4 := mkedit (mkrange (mkpos 1 2) (mkpos 1 3)) [40]%N in
  Permutation [e4; e2; e3; e1] [e1; e2; e3; e4] /\
  Forall2 (edit_denotes t) [e1; e2; e3; e4] [mkcedit 0 3 [83;69;76]; mkcedit 4 6 [87;72]; mkcedit 6 6 [32]; mkcedit 6 7 [40]]%N /\
  StronglySorted before [mkcedit 0 3 [83;69;76]; mkcedit 4 6 [87;72]; mkcedit 6 6 [32]; mkcedit 6 7 [40]]%N /\
  apply_text_edits t [e4; e2; e3; e1] = Done [83;69;76;10;87;72;32;40;125;10]%N.
Proof.
  cbv zeta. split; [|split; [|split]].
  - apply NoDup_Permutation_bis.
    + repeat constructor; cbn; intuition discriminate.
    + cbn; lia.
    + intros x; cbn; intuition.
  - repeat (constructor; [unfold edit_denotes; cbn; repeat split; try lia|]). constructor.
  - repeat constructor; cbn; lia.
  - vm_compute. reflexivity.
Qed.

(** ** C06: two insertions at one place always come out in reverse order *)
Theorem C06_insert_order_refuted : forall a b x y,
  let p := position_after x in
  exists r, apply_text_edits (x ++ y) [mkedit (mkrange p p) a; mkedit (mkrange p p) b] = Done r /\
    (r = x ++ b ++ a ++ y \/ r = x ++ b ++ a ++ y ++ [NL]).
Proof.
  intros a b x y p. eexists. split; [apply two_inserts_reversed; reflexivity|].
  destruct (ensure_final_newline_spec (x ++ b ++ a ++ y)) as [[_ ->]|[_ ->]]; [left; reflexivity|right].
  now rewrite <- !app_assoc.
Qed.
Example C06_witness : (* LSP requires "abX\n" *)
  apply_text_edits [88]%N [mkedit (mkrange (mkpos 0 0) (mkpos 0 0)) [97]%N;
                           mkedit (mkrange (mkpos 0 0) (mkpos 0 0)) [98]%N] = Done [98; 97; 88; 10]%N.
Proof. vm_compute. reflexivity. Qed.

(** ** C26 *)
Theorem C26_overlap_exact : forall a b,
  pos_lt (rstart a) (rend a) -> pos_lt (rstart b) (rend b) ->
  (overlaps a b = true <-> exists p, in_range p a /\ in_range p b).
Proof. exact overlaps_common. Qed.
Theorem C26_overlap_symmetric : forall a b, overlaps a b = overlaps b a.
Proof. exact overlaps_symmetric. Qed.
Theorem C26_overlap_bounds : forall a b,
  overlaps a b = true <-> pos_lt (rstart a) (rend b) /\ pos_lt (rstart b) (rend a).
Proof. intros a b. unfold overlaps. now rewrite andb_true_iff, !pos_ltb_lt. Qed.
Example C26_witness : overlaps (mkrange (mkpos 0 3) (mkpos 1 1)) (mkrange (mkpos 1 0) (mkpos 2 0)) = true /\
  overlaps (mkrange (mkpos 0 3) (mkpos 1 0)) (mkrange (mkpos 1 0) (mkpos 2 0)) = false.
Proof. split; reflexivity. Qed.

