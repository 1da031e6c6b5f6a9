(** Specification of LSP positions and edits, independent of the code's loops.

    A position of a text is named by how many characters precede it.  [position_after pre]
    is the (line, UTF-16 column) reached after reading the characters [pre]:
    the line is the number of '\n' in [pre], the column the UTF-16 length of what
    follows the last '\n'. *)
From Coq Require Import List Arith NArith Bool Permutation Sorted.
Import ListNotations.
From Verif Require Import TextModel.

(** the order of positions *)
Definition pos_lt (p q : pos) : Prop :=
  line p < line q \/ (line p = line q /\ character p < character q).
Definition pos_le (p q : pos) : Prop := pos_lt p q \/ p = q.
(** [p] lies in the half-open range [r] *)
Definition in_range (p : pos) (r : range) : Prop := pos_le (rstart r) p /\ pos_lt p (rend r).

(** texts without carriage return *)
Definition no_cr (t : text) : Prop := ~ In CR t.
(** every '\r' starts a "\r\n" line break: texts with "\n" and "\r\n" line ends, freely mixed *)
Definition cr_only_in_crlf (t : text) : Prop := forall a b, t = a ++ CR :: b -> exists b', b = NL :: b'.

Definition utf16_len (t : text) : nat := list_sum (map len_utf16 t).

Fixpoint last_line_from (acc t : text) : text :=
  match t with
  | [] => acc
  | c :: r => if N.eqb c NL then last_line_from [] r else last_line_from (acc ++ [c]) r
  end.
Definition last_line (t : text) : text := last_line_from [] t.

Definition position_after (pre : text) : pos :=
  mkpos (count_occ N.eq_dec pre NL) (utf16_len (last_line pre)).

(** [i] characters into [t] we are between the '\r' and the '\n' of one line ending;
    no LSP position denotes that place. *)
Definition inside_crlf (t : text) (i : nat) : Prop :=
  exists a b, t = a ++ [CR; NL] ++ b /\ i = S (length a).

(** position [p] denotes the place [i] characters into [t] *)
Definition denotes (t : text) (p : pos) (i : nat) : Prop :=
  i <= length t /\ position_after (firstn i t) = p /\ ~ inside_crlf t i.

(** effect of one content change, as LSP describes it *)
Inductive change_effect : text -> change -> text -> Prop :=
| effect_full : forall t w, change_effect t (mkchange None w) w
| effect_range : forall t s e w i j,
    denotes t s i -> denotes t e j -> i <= j ->
    change_effect t (mkchange (Some (mkrange s e)) w) (firstn i t ++ w ++ skipn j t).

(** effect of a list of changes: one after the other *)
Inductive changes_effect : text -> list change -> text -> Prop :=
| effects_nil : forall t, changes_effect t [] t
| effects_cons : forall t ch chs t1 t2,
    change_effect t ch t1 -> changes_effect t1 chs t2 -> changes_effect t (ch :: chs) t2.

(** ---- simultaneous edits ---- *)

(** an edit given by character indices into the original text *)
Record cedit := mkcedit { ci : nat; cj : nat; cnew : text }.

(** the text edit denotes the indexed edit (this half of the protocol addresses
    lines by '\n' only, a '\r' is an ordinary character) *)
Definition edit_denotes (t : text) (e : text_edit) (c : cedit) : Prop :=
  ci c <= cj c <= length t /\
  position_after (firstn (ci c) t) = rstart (erange e) /\
  position_after (firstn (cj c) t) = rend (erange e) /\
  new_text e = cnew c.

(** ascending, non-overlapping; only an insertion may share its place with the edit
    right behind it *)
Definition before (a b : cedit) : Prop :=
  cj a <= ci b /\ (ci a < ci b \/ (ci a = ci b /\ cj a < cj b)).

(** replace every edited range, keep everything else; [at_] is the index in the
    original text of the first character of [t] *)
Fixpoint splice (at_ : nat) (t : text) (es : list cedit) : text :=
  match es with
  | [] => t
  | e :: r => firstn (ci e - at_) t ++ cnew e ++ splice (cj e) (skipn (cj e - at_) t) r
  end.

(** exactly one newline is added when the text does not already end in one *)
Definition ends_with_newline (t : text) : Prop := exists t', t = t' ++ [NL].
