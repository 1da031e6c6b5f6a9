(** UTF-8, as [String::from_utf8] accepts it and [String::len]/[as_bytes] produce it (Rust
    standard library; used by /repo/src/stdio_reader.rs:61-62,84 and /repo/src/main.rs:98).
    A text is a list of Unicode scalar values, a byte is an [N] below 256. *)
From Coq Require Import List Arith NArith ZArith Lia Bool ZifyBool ZifyNat ZifyN.
Import ListNotations.
From Verif Require Import TextModel.
Local Open Scope N_scope.

Notation byte := N (only parsing).

(** a Unicode scalar value (Rust [char]) *)
Definition is_scalar (c : char) : bool := (c <? 0xD800) || ((0xE000 <=? c) && (c <? 0x110000)).

(** [char::encode_utf8] *)
Definition utf8_char (c : char) : list byte :=
  if c <? 0x80 then [c]
  else if c <? 0x800 then [0xC0 + c / 64; 0x80 + c mod 64]
  else if c <? 0x10000 then [0xE0 + c / 4096; 0x80 + (c / 64) mod 64; 0x80 + c mod 64]
  else [0xF0 + c / 262144; 0x80 + (c / 4096) mod 64; 0x80 + (c / 64) mod 64; 0x80 + c mod 64].
Definition utf8 (t : text) : list byte := flat_map utf8_char t.

(** [String::from_utf8]: the well-formed byte sequences of the Unicode standard (table 3-7) *)
Definition cont (b : byte) : bool := (0x80 <=? b) && (b <? 0xC0).
Fixpoint from_utf8 (bs : list byte) : option text :=
  match bs with
  | [] => Some []
  | b0 :: r0 =>
    if b0 <? 0x80 then option_map (cons b0) (from_utf8 r0)
    else if b0 <? 0xC2 then None
    else match r0 with
    | [] => None
    | b1 :: r1 =>
      if b0 <? 0xE0 then
        if cont b1 then option_map (cons ((b0 - 0xC0) * 64 + (b1 - 0x80))) (from_utf8 r1) else None
      else match r1 with
      | [] => None
      | b2 :: r2 =>
        if b0 <? 0xF0 then
          if cont b1 && cont b2
             && (if b0 =? 0xE0 then 0xA0 <=? b1 else if b0 =? 0xED then b1 <? 0xA0 else true)
          then option_map (cons ((b0 - 0xE0) * 4096 + (b1 - 0x80) * 64 + (b2 - 0x80))) (from_utf8 r2)
          else None
        else match r2 with
        | [] => None
        | b3 :: r3 =>
          if (b0 <? 0xF5) && cont b1 && cont b2 && cont b3
             && (if b0 =? 0xF0 then 0x90 <=? b1 else if b0 =? 0xF4 then b1 <? 0x90 else true)
          then option_map (cons ((b0 - 0xF0) * 262144 + (b1 - 0x80) * 4096 + (b2 - 0x80) * 64 + (b3 - 0x80))) (from_utf8 r3)
          else None
        end
      end
    end
  end.

Ltac Zify.zify_post_hook ::= Z.div_mod_to_equations.

Ltac dec :=
  repeat match goal with
  | |- context [if ?b then _ else _] => destruct b eqn:?
  end.

Lemma from_utf8_char c t : is_scalar c = true ->
  from_utf8 (utf8_char c ++ t) = option_map (cons c) (from_utf8 t).
Proof.
  intros H. unfold utf8_char, is_scalar in *.
  destruct (c <? 0x80) eqn:E1.
  { cbn [app from_utf8]. now rewrite E1. }
  destruct (c <? 0x800) eqn:E2.
  { cbn [app from_utf8]. unfold cont.
    replace (192 + c / 64 <? 128) with false by lia. replace (192 + c / 64 <? 194) with false by lia.
    replace (192 + c / 64 <? 224) with true by lia.
    replace ((128 <=? 128 + c mod 64) && (128 + c mod 64 <? 192))%bool with true by lia.
    f_equal. f_equal. lia. }
  destruct (c <? 0x10000) eqn:E3.
  { cbn [app from_utf8]. unfold cont.
    replace (224 + c / 4096 <? 128) with false by lia. replace (224 + c / 4096 <? 194) with false by lia.
    replace (224 + c / 4096 <? 224) with false by lia. replace (224 + c / 4096 <? 240) with true by lia.
    match goal with |- (if ?b then _ else _) = _ => replace b with true end.
    - f_equal. f_equal. lia.
    - symmetry. rewrite !andb_true_iff. repeat split; [lia..|]. dec; lia. }
  { cbn [app from_utf8]. unfold cont.
    replace (240 + c / 262144 <? 128) with false by lia. replace (240 + c / 262144 <? 194) with false by lia.
    replace (240 + c / 262144 <? 224) with false by lia. replace (240 + c / 262144 <? 240) with false by lia.
    match goal with |- (if ?b then _ else _) = _ => replace b with true end.
    - f_equal. f_equal. lia.
    - symmetry. rewrite !andb_true_iff. repeat split; [lia..|]. dec; lia. }
Qed.
Lemma from_utf8_utf8 t : forallb is_scalar t = true -> from_utf8 (utf8 t) = Some t.
Proof.
  induction t as [|c t IH]; cbn [forallb utf8 flat_map]; [reflexivity|].
  intros H%andb_prop. destruct H as [Hc Ht]. rewrite from_utf8_char by assumption.
  fold (utf8 t). rewrite IH by assumption. reflexivity.
Qed.

Lemma from_utf8_sound_aux : forall n bs, (length bs <= n)%nat -> forall t, from_utf8 bs = Some t ->
  utf8 t = bs /\ forallb is_scalar t = true.
Proof.
  assert (G : forall n (P : list byte -> Prop) c rest bs t,
    (forall bs, (length bs <= n)%nat -> forall t, from_utf8 bs = Some t -> utf8 t = bs /\ forallb is_scalar t = true) ->
    (length rest <= n)%nat -> utf8_char c ++ rest = bs -> is_scalar c = true ->
    option_map (cons c) (from_utf8 rest) = Some t -> utf8 t = bs /\ forallb is_scalar t = true).
  { intros n _ c rest bs t IH Hl Hb Hc H. destruct (from_utf8 rest) as [t'|] eqn:E; [|discriminate].
    cbn [option_map] in H. injection H as <-. destruct (IH rest Hl t' E) as [H1 H2].
    cbn [utf8 flat_map forallb]. fold (utf8 t'). rewrite H1, Hb, Hc, H2. auto. }
  induction n as [|n IH]; intros bs Hn t H.
  { destruct bs; [|cbn in Hn; lia]. injection H as <-. auto. }
  destruct bs as [|b0 r0]; [injection H as <-; auto|].
  cbn [from_utf8] in H. cbn [length] in Hn.
  destruct (b0 <? 0x80) eqn:E1.
  { eapply (G n (fun _ => True)); [exact IH| |  | |exact H]; [lia| |unfold is_scalar; lia].
    unfold utf8_char. now rewrite E1. }
  destruct (b0 <? 0xC2) eqn:E2; [discriminate|].
  destruct r0 as [|b1 r1]; [discriminate|]. cbn [length] in Hn.
  destruct (b0 <? 0xE0) eqn:E3.
  { unfold cont in H. destruct ((128 <=? b1) && (b1 <? 192))%bool eqn:C1; [|discriminate].
    eapply (G n (fun _ => True)); [exact IH| |  | |exact H]; [lia| |unfold is_scalar; lia].
    unfold utf8_char. replace ((b0 - 192) * 64 + (b1 - 128) <? 128) with false by lia.
    replace ((b0 - 192) * 64 + (b1 - 128) <? 2048) with true by lia.
    cbn [app]. f_equal; [lia|]. f_equal. lia. }
  destruct r1 as [|b2 r2]; [discriminate|]. cbn [length] in Hn.
  destruct (b0 <? 0xF0) eqn:E4.
  { unfold cont in H.
    match type of H with (if ?b then _ else _) = _ => destruct b eqn:C1; [|discriminate] end.
    rewrite !andb_true_iff in C1. destruct C1 as [[C1 C2] C3].
    assert (D : 0x800 <= (b0 - 224) * 4096 + (b1 - 128) * 64 + (b2 - 128) < 0x10000 /\
      is_scalar ((b0 - 224) * 4096 + (b1 - 128) * 64 + (b2 - 128)) = true).
    { unfold is_scalar. destruct (b0 =? 224) eqn:?; [lia|]. destruct (b0 =? 237) eqn:?; lia. }
    destruct D as [D D'].
    eapply (G n (fun _ => True)); [exact IH| |  | |exact H]; [lia| |exact D'].
    unfold utf8_char. remember ((b0 - 224) * 4096 + (b1 - 128) * 64 + (b2 - 128)) as c.
    replace (c <? 128) with false by lia. replace (c <? 2048) with false by lia.
    replace (c <? 65536) with true by lia.
    cbn [app]. f_equal; [lia|]. f_equal; [lia|]. f_equal. lia. }
  destruct r2 as [|b3 r3]; [discriminate|]. cbn [length] in Hn.
  { unfold cont in H.
    match type of H with (if ?b then _ else _) = _ => destruct b eqn:C1; [|discriminate] end.
    rewrite !andb_true_iff in C1. destruct C1 as [[[[C0 C1] C2] C3] C4].
    assert (D : 0x10000 <= (b0 - 240) * 262144 + (b1 - 128) * 4096 + (b2 - 128) * 64 + (b3 - 128) < 0x110000).
    { destruct (b0 =? 240) eqn:?; [lia|]. destruct (b0 =? 244) eqn:?; lia. }
    eapply (G n (fun _ => True)); [exact IH| |  | |exact H]; [lia| |unfold is_scalar; lia].
    unfold utf8_char. remember ((b0 - 240) * 262144 + (b1 - 128) * 4096 + (b2 - 128) * 64 + (b3 - 128)) as c.
    replace (c <? 128) with false by lia. replace (c <? 2048) with false by lia.
    replace (c <? 65536) with false by lia.
    cbn [app]. f_equal; [lia|]. f_equal; [lia|]. f_equal; [lia|]. f_equal. lia. }
Qed.
Lemma from_utf8_sound bs t : from_utf8 bs = Some t -> utf8 t = bs /\ forallb is_scalar t = true.
Proof. apply (from_utf8_sound_aux (length bs)). lia. Qed.

(** the byte length used by the text model is the length of the encoding *)
Lemma utf8_length t : length (utf8 t) = byte_len t.
Proof.
  induction t as [|c t IH]; [reflexivity|]. cbn [utf8 flat_map byte_len]. rewrite app_length. fold (utf8 t). rewrite IH.
  f_equal. unfold utf8_char, len_utf8. 
  destruct (c <? 0x80); [reflexivity|]. destruct (c <? 0x800); [reflexivity|]. destruct (c <? 0x10000); reflexivity.
Qed.
