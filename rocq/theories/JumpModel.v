(** Jump to the next or previous place of interest.  /repo/src/server/message_handler/jump/mod.rs (below: jump).

    Simplifications: the second run of the parser is the parameter [reparse] ([None]: it panics); the whole-document edit
    of the answer is its text.  Offsets are [nat]; [delta] is an unbounded integer instead of an i64. *)
From Coq Require Import String List Arith NArith ZArith Bool.
Import ListNotations.
From Verif Require Import ServerModel Kinds ParserModel TextModel LexerSpec FormatData FormatModel TreeModel VarModel DiagModel LexLayout OnTypeModel.

(** textdocument.rs:378-383 Range::to_byte_index_range; TextRange::new panics if start > end *)
Definition to_byte_index_range (r : range) (t : text) : vout (option (nat * nat)) :=
  match byte_index (rstart r) t, byte_index (rend r) t with
  | Some a, Some b => if b <? a then VPanic else VDone (Some (a, b))
  | _, _ => VDone None
  end.
(** jump:108-117 the edits in bytes: range and length of the new text *)
Definition byte_edits (es : list text_edit) (t : text) : vout (list (nat * nat * nat)) :=
  let! l := vmap (fun e => let! r := to_byte_index_range (erange e) t in VDone (option_map (fun r => (r, byte_len (new_text e))) r)) es in
  VDone (flatten l).
(** jump:119-128 *)
Fixpoint shift_offset (offset : nat) (es : list (nat * nat * nat)) (delta : Z) : nat :=
  match es with
  | [] => Z.to_nat (Z.of_nat offset + delta)%Z
  | (a, b, n) :: es =>
    if b <=? offset then shift_offset offset es (delta + (Z.of_nat n - Z.of_nat (b - a)))%Z
    else if a <? offset then Z.to_nat (Z.of_nat a + delta + Z.of_nat n)%Z
    else Z.to_nat (Z.of_nat offset + delta)%Z
  end.
(** jump:107-130 map_offset_through_edits *)
Definition map_offset_through_edits (offset : nat) (es : list text_edit) (t : text) : vout nat :=
  let! l := byte_edits es t in
  VDone (shift_offset offset (sort_by (fun x y => Nat.compare (fst (fst x)) (fst (fst y))) l) 0%Z).

(** a place of interest: its offset, what is to be inserted before and behind the cursor *)
Record place := mkplace { p_offset : nat; p_before : text; p_after : text }.
Definition two_spaces : text := [SPACE; SPACE].
(** jump:138-150 *)
Definition select_place (t : tree) (prev : bool) : list place :=
  match select_query t with
  | Some sq => if prev then match where_clause t sq with Some wc => [mkplace (start_at t wc) [] [SPACE]] | None => [] end
               else match select_clause t sq with Some sc => [mkplace (end_at t sc) [SPACE] []] | None => [] end
  | None => []
  end.
(** jump:152-170 *)
Definition group_place (t : tree) (g : path) : list place :=
  match last_index_of t g with
  | Some n => [mkplace (start_at t (g ++ [n])) (match first_child t g with Some _ => two_spaces | None => NL :: two_spaces end) [NL]]
  | None => []
  end.
(** jump:172-181; prev_token() walks over the tokens of the document *)
Definition end_place (t : tree) : list place :=
  match find (fun p => negb (kind_is t p K_WHITESPACE)) (rev (leaf_paths t)) with
  | Some p => [mkplace (end_at t p) [NL] []]
  | None => []
  end.
(** jump:132-185 relevant_positions *)
Definition relevant_positions (t : tree) (prev : bool) : list place :=
  if kind_is t [] K_QueryUnit
  then sort_by (fun a b => Nat.compare (p_offset a) (p_offset b)) (select_place t prev ++ flat_map (group_place t) (nodes_of_kind t [] K_GroupGraphPattern) ++ end_place t)
  else [].
Definition or_else {A} (a b : option A) : option A := match a with Some _ => a | None => b end.
(** jump:60-75 the target *)
Definition jump_target (l : list place) (prev : bool) (offset : nat) : option place :=
  if prev then or_else (find (fun p => p_offset p <? offset) (rev l)) (last_of l)
  else or_else (find (fun p => offset <? p_offset p) l) (hd_error l).
(** the answer: the new document and the new position of the cursor *)
Record jump_result := mkjump { j_text : text; j_position : option pos }.
(** jump:77-87; insert_str panics if the offset is not a character boundary *)
Definition jump_insert (f : text) (target : option place) : vout jump_result :=
  match target with
  | Some p => match split_byte f (p_offset p) with
              | Some (a, b) => let final := a ++ (p_before p ++ p_after p) ++ b in
                               VDone (mkjump final (from_byte_index (p_offset p + byte_len (p_before p)) final))
              | None => VPanic
              end
  | None => VDone (mkjump f None)
  end.
Section Jump.
Context (width : text -> nat) (s : fsettings) (reparse : text -> option tree).
Definition of_vout {A} (v : vout A) : reply A := match v with VDone a => Reply a | VPanic => Crash | VLoop => Hang end.
(** jump:22-99; without options of the client two spaces are used.  [s] are the settings; contraction is off, as in FormatModel.v *)
Definition jump (options : option foptions) (x : tree) (t : text) (at_ : pos) (prev : option bool) : reply jump_result :=
  let prev := match prev with Some b => b | None => false end in
  match byte_index at_ t with
  | None => Refused InvalidRequest
  | Some cursor =>
    match format_document width s (match options with Some o => o | None => mkfo 2 true end) t x with
    | FPanic => Crash
    | FLoop => Hang
    | FDone es =>
      match map_offset_through_edits cursor es t, apply_text_edits t es with
      | VDone offset, Done f =>
        match reparse f with
        | Some y => of_vout (jump_insert f (jump_target (relevant_positions y prev) prev offset))
        | None => Crash
        end
      | VLoop, _ | _, Stuck => Hang
      | _, _ => Crash
      end
    end
  end.
End Jump.
