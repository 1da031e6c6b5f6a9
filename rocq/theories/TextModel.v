(** Model of src/server/lsp/textdocument.rs (positions, ranges, text edits,
    incremental content changes).

    Simplifications common to this file:
    - a Rust [char] is an [N] (its Unicode scalar value); a [String]/[&str] is the
      list of its chars.  Only [len_utf8]/[len_utf16] and equality are observed.
    - byte offsets, lines and columns are unbounded [nat] instead of u32/usize
      (documents below 4 GiB; the u32 casts never wrap there).
    - a Rust panic is the explicit value [Panic]. *)
From Coq Require Import List Arith NArith Lia Bool.
Import ListNotations.

Definition char := N.
Definition text := list char.

(** std: char::len_utf8 *)
Definition len_utf8 (c : char) : nat :=
  if (c <? 128)%N then 1 else if (c <? 2048)%N then 2 else if (c <? 65536)%N then 3 else 4.
(** std: char::len_utf16 *)
Definition len_utf16 (c : char) : nat := if (c <? 65536)%N then 1 else 2.

Definition NL : char := 10%N.   (* '\n' *)
Definition CR : char := 13%N.   (* '\r' *)
Definition is_nl (c : char) : bool := N.eqb c NL.
Definition is_cr (c : char) : bool := N.eqb c CR.

(** std: str::len *)
Fixpoint byte_len (t : text) : nat :=
  match t with [] => 0 | c :: r => len_utf8 c + byte_len r end.

(** The two halves of [t] around byte offset [b]; [None] when [b] is outside [t]
    or not on a char boundary (where Rust's slicing panics). *)
Fixpoint split_byte (t : text) (b : nat) {struct t} : option (text * text) :=
  match b with
  | 0 => Some ([], t)
  | S _ =>
    match t with
    | [] => None
    | c :: r =>
      if b <? len_utf8 c then None
      else match split_byte r (b - len_utf8 c) with
           | Some (x, y) => Some (c :: x, y)
           | None => None
           end
    end
  end.

(** std: String::replace_range (start..end, with): panics when start > end or a
    bound is not a char boundary of the string. *)
Definition replace_range (t : text) (b1 b2 : nat) (w : text) : option text :=
  if b2 <? b1 then None
  else match split_byte t b1, split_byte t b2 with
       | Some (x, _), Some (_, y) => Some (x ++ w ++ y)
       | _, _ => None
       end.

(** textdocument.rs:214-217  struct Position *)
Record pos := mkpos { line : nat; character : nat }.
Definition pos_eqb (p q : pos) : bool :=
  (line p =? line q) && (character p =? character q).
(** textdocument.rs:330-337  Ord for Position (lexicographic) *)
Definition pos_cmp (p q : pos) : comparison :=
  match Nat.compare (line p) (line q) with
  | Eq => Nat.compare (character p) (character q)
  | x => x
  end.
Definition pos_leb (p q : pos) : bool := match pos_cmp p q with Gt => false | _ => true end.
Definition pos_ltb (p q : pos) : bool := match pos_cmp p q with Lt => true | _ => false end.

(** textdocument.rs:358-361  struct Range; 409-412 struct TextEdit *)
Record range := mkrange { rstart : pos; rend : pos }.
Record text_edit := mkedit { erange : range; new_text : text }.

(** textdocument.rs:385-387  Range::overlaps *)
Definition overlaps (a b : range) : bool :=
  pos_ltb (rstart a) (rend b) && pos_ltb (rstart b) (rend a).

(** textdocument.rs:230-252  Position::from_byte_index.  The loop over
    [text.chars()], stopping once [offset_count >= offset]. *)
Fixpoint from_byte_loop (cs : text) (count off : nat) (p : pos) : nat * pos :=
  match cs with
  | [] => (count, p)
  | c :: r =>
    if count <? off then
      from_byte_loop r (count + len_utf8 c) off
        (if is_nl c then mkpos (S (line p)) 0
         else mkpos (line p) (character p + len_utf16 c))
    else (count, p)
  end.
Definition from_byte_index (off : nat) (t : text) : option pos :=
  let '(count, p) := from_byte_loop t 0 off (mkpos 0 0) in
  if count =? off then Some p else None.

(** textdocument.rs:289-310  first loop of Position::byte_index: skip [todo] lines.
    Returns the byte index and the remaining characters. *)
Fixpoint skip_lines (todo : nat) (cs : text) (bi : nat) {struct cs} : option (nat * text) :=
  match todo with
  | 0 => Some (bi, cs)
  | S k =>
    match cs with
    | [] => None
    | c :: r =>
      if is_nl c then skip_lines k r (bi + 1)
      else if is_cr c then
        match r with
        | d :: r' => if is_nl d then skip_lines k r' (bi + 2) else skip_lines todo r (bi + len_utf8 c)
        | [] => skip_lines todo r (bi + len_utf8 c)
        end
      else skip_lines todo r (bi + len_utf8 c)
    end
  end.
(** textdocument.rs:311-319  second loop: walk [target] UTF-16 units.  As in the
    code, a '\r' consumes the following character even if that is not '\n'. *)
Fixpoint skip_cols (target idx : nat) (cs : text) (bi : nat) {struct cs} : option nat :=
  if idx <? target then
    match cs with
    | [] => None
    | c :: r =>
      if is_nl c then None
      else if is_cr c then
        match r with
        | d :: r' => if is_nl d then None
                     else skip_cols target (idx + len_utf16 c) r' (bi + len_utf8 c)
        | [] => skip_cols target (idx + len_utf16 c) r (bi + len_utf8 c)
        end
      else skip_cols target (idx + len_utf16 c) r (bi + len_utf8 c)
    end
  else Some bi.
(** textdocument.rs:285-321  Position::byte_index *)
Definition byte_index (p : pos) (t : text) : option nat :=
  match t with
  | [] => if (line p =? 0) && (character p =? 0) then Some 0
          else match skip_lines (line p) t 0 with
               | Some (bi, rest) => skip_cols (character p) 0 rest bi
               | None => None end
  | _ => match skip_lines (line p) t 0 with
         | Some (bi, rest) => skip_cols (character p) 0 rest bi
         | None => None end
  end.

Inductive outcome (A : Type) :=
| Done (a : A)
| Panic            (* a Rust panic: failed assert!, slice out of bounds, unwrap *)
| Stuck.           (* the model's fuel ran out; proved impossible where it matters *)
Arguments Done {A} a.
Arguments Panic {A}.
Arguments Stuck {A}.

(** TextDocumentContentChangeEvent (src/server/lsp/messages/textdocument_didchange.rs) *)
Record change := mkchange { crange : option range; ctext : text }.

(** ---- textdocument.rs:119-196  TextDocumentItem::apply_content_changes ---- *)
Record cc_state := mkcc {
  cc_text : text;          (* self.text *)
  cc_changes : list change;(* the peekable iterator *)
  cc_cursor : pos;         (* cursor *)
  cc_boff : nat;           (* byte_offset *)
  cc_start : nat           (* current_change_start_byte_offset *)
}.

(** lines 163-171: must the cursor be reset before the next change? *)
Definition needs_reset (rest : list change) (cur : pos) : bool :=
  match rest with
  | [] => false
  | ch :: _ => match crange ch with None => true | Some r => pos_ltb (rstart r) cur end
  end.

(** one iteration of the [while let Some(change) = changes.peek()] loop;
    [inl] = loop finished or panicked, [inr] = next iteration *)
Definition cc_step (s : cc_state) : outcome text + cc_state :=
  match cc_changes s with
  | [] => inl (Done (cc_text s))
  | ch :: rest =>
    match crange ch with
    | None => inr (mkcc (ctext ch) rest (mkpos 0 0) 0 0)            (* 131-138 *)
    | Some r =>
      if negb (pos_leb (rstart r) (rend r)) then inl Panic           (* 139-142 *)
      else if negb (pos_leb (cc_cursor s) (rend r)) then inl Panic   (* 143-147 *)
      else
        let st := if pos_eqb (rstart r) (cc_cursor s) then cc_boff s else cc_start s in (* 148-150 *)
        if pos_eqb (rend r) (cc_cursor s) then                       (* 151-173 *)
          match replace_range (cc_text s) st (cc_boff s) (ctext ch) with
          | None => inl Panic
          | Some t' =>
            if needs_reset rest (rstart r)
            then inr (mkcc t' rest (mkpos 0 0) 0 st)
            else inr (mkcc t' rest (rstart r) st st)
          end
        else
          match split_byte (cc_text s) (cc_boff s) with              (* 174-177 *)
          | None => inl Panic
          | Some (_, []) => inl Panic
          | Some (_, c :: more) =>
            if is_nl c then                                          (* 179-183 *)
              inr (mkcc (cc_text s) (cc_changes s)
                        (mkpos (S (line (cc_cursor s))) 0) (cc_boff s + len_utf8 c) st)
            else if is_cr c && match more with d :: _ => is_nl d | [] => false end then (* 184-188 *)
              inr (mkcc (cc_text s) (cc_changes s)
                        (mkpos (S (line (cc_cursor s))) 0) (cc_boff s + 2) st)
            else                                                     (* 189-192 *)
              inr (mkcc (cc_text s) (cc_changes s)
                        (mkpos (line (cc_cursor s)) (character (cc_cursor s) + len_utf16 c))
                        (cc_boff s + len_utf8 c) st)
          end
    end
  end.

Fixpoint cc_run (fuel : nat) (s : cc_state) : outcome text :=
  match fuel with
  | 0 => Stuck
  | S f => match cc_step s with inl o => o | inr s' => cc_run f s' end
  end.

(** enough iterations for every run: each change scans at most the whole text *)
Definition cc_total (t : text) (chs : list change) : nat :=
  length t + list_sum (map (fun ch => length (ctext ch)) chs).
Definition cc_fuel (t : text) (chs : list change) : nat :=
  S (length chs) * (S (S (cc_total t chs))).

Definition apply_content_changes (t : text) (chs : list change) : outcome text :=
  cc_run (cc_fuel t chs) (mkcc t chs (mkpos 0 0) 0 0).

(** ---- textdocument.rs:27-100  TextDocumentItem::apply_text_edits ---- *)

(** lines 32-37: the sort key, descending by (start, end); Rust's [sort_by] is a
    stable sort, modelled by stable insertion. *)
Definition edit_cmp (a b : text_edit) : comparison :=
  match pos_cmp (rstart (erange b)) (rstart (erange a)) with
  | Eq => pos_cmp (rend (erange b)) (rend (erange a))
  | x => x
  end.
Fixpoint sort_insert (e : text_edit) (l : list text_edit) : list text_edit :=
  match l with
  | [] => [e]
  | x :: r => match edit_cmp e x with Gt => x :: sort_insert e r | _ => e :: l end
  end.
Definition sort_edits (l : list text_edit) : list text_edit := fold_right sort_insert [] l.

(** lines 48-57: UTF-16 length of every '\n'-terminated line, and of the unfinished
    last line *)
Fixpoint line_lengths (cs : text) (acc : list nat) (cnt : nat) : list nat * nat :=
  match cs with
  | [] => (acc, cnt)
  | c :: r => if is_nl c then line_lengths r (acc ++ [cnt]) 0
              else line_lengths r acc (cnt + len_utf16 c)
  end.

Record te_state := mkte {
  te_text : text;            (* self.text *)
  te_edits : list text_edit; (* the peekable iterator *)
  te_cursor : pos;
  te_end : nat;              (* current_edit_end_byte_offset *)
  te_boff : nat;             (* byte_offset *)
  te_rev : text;             (* the original chars before the cursor, last one first
                                = chars[..char_offset] reversed *)
  te_breaks : list nat       (* line_breaks, last one first *)
}.

Definition te_step (s : te_state) : outcome text + te_state :=
  match te_edits s with
  | [] => inl (Done (te_text s))
  | e :: rest =>
    if negb (pos_leb (rstart (erange e)) (te_cursor s)) then inl Panic          (* 71-75 *)
    else
      let en := if pos_eqb (rend (erange e)) (te_cursor s) then te_boff s else te_end s in
      if pos_eqb (rstart (erange e)) (te_cursor s) then                         (* 79-84 *)
        match replace_range (te_text s) (te_boff s) en (new_text e) with
        | None => inl Panic
        | Some t' => inr (mkte t' rest (te_cursor s) en (te_boff s) (te_rev s) (te_breaks s))
        end
      else
        match te_rev s with                                                     (* 85-95 *)
        | [] => inr (mkte (te_text s) (te_edits s) (te_cursor s) en (te_boff s) [] (te_breaks s))
        | c :: r =>
          if is_nl c then
            match te_breaks s with
            | [] => inl Panic                       (* line_breaks.pop().unwrap() *)
            | b :: bs =>
              if line (te_cursor s) =? 0 then inl Panic   (* u32 underflow *)
              else if te_boff s <? len_utf8 c then inl Panic
              else inr (mkte (te_text s) (te_edits s) (mkpos (line (te_cursor s) - 1) b)
                             en (te_boff s - len_utf8 c) r bs)
            end
          else if character (te_cursor s) <? len_utf16 c then inl Panic
          else if te_boff s <? len_utf8 c then inl Panic
          else inr (mkte (te_text s) (te_edits s)
                         (mkpos (line (te_cursor s)) (character (te_cursor s) - len_utf16 c))
                         en (te_boff s - len_utf8 c) r (te_breaks s))
        end
  end.
Fixpoint te_run (fuel : nat) (s : te_state) : outcome text :=
  match fuel with
  | 0 => Stuck
  | S f => match te_step s with inl o => o | inr s' => te_run f s' end
  end.

(** lines 97-99 *)
Definition ensure_final_newline (t : text) : text :=
  match rev t with
  | c :: _ => if is_nl c then t else t ++ [NL]
  | [] => t ++ [NL]
  end.

Definition apply_text_edits (t : text) (es : list text_edit) : outcome text :=
  let '(breaks, cnt) := line_lengths t [] 0 in
  (* lines 59-63 *)
  let cur := match rev t with
             | c :: _ => if is_nl c then mkpos (length breaks) 0 else mkpos (length breaks) cnt
             | [] => mkpos (length breaks) cnt
             end in
  match te_run (S (length t + length es))
               (mkte t (sort_edits es) cur (byte_len t) (byte_len t) (rev t) (rev breaks)) with
  | Done t' => Done (ensure_final_newline t')
  | o => o
  end.
