(** The streaming reader for SPARQL JSON results:
    /repo/crates/lazy-sparql-result-reader/src/parser.rs and lib.rs, and its use in
    /repo/src/server/sparql_operations/wasm.rs. *)
From Coq Require Import List Arith NArith Bool.
Import ListNotations.
From Verif Require Import Utf8Model.

Definition QUOTE : byte := 34%N.
Definition BACKSLASH : byte := 92%N.
Definition LBRACE : byte := 123%N.
Definition RBRACE : byte := 125%N.
Definition LBRACKET : byte := 91%N.
Definition RBRACKET : byte := 93%N.

(** parser.rs:39-50  enum ScannerState *)
Inductive scan :=
| ReadingHead
| SearchingBindings
| SearchingBinding
| ReadingBinding (depth : nat)          (* a u8; the release build wraps *)
| ReadingString (prev : scan)
| ReadingStringEscaped (prev : scan)
| SearchingMeta
| ReadingMeta
| ReaderDone.

Section Reader.
(** [serde_json::from_slice] into the three types of sparql.rs: serde is not modelled, only which
    bytes it is given *)
Context {header binding meta : Type}.
Variables (header_of : list byte -> option header) (binding_of : list byte -> option binding)
          (meta_of : list byte -> option meta).

(** parser.rs:52-58 *)
Inductive partial := Header (h : header) | Bindings (bs : list binding) | Meta (m : meta).

(** parser.rs:5-13; counters are unbounded here (the code uses usize) *)
Record reader := mkreader {
  r_state : scan;
  r_input : list byte;
  r_batch : nat;
  r_buffer : list binding;
  r_count : nat;
  r_limit : option nat;
  r_offset : nat
}.
(** parser.rs:16-26 *)
Definition new_reader (batch : nat) (limit : option nat) (offset : nat) : reader :=
  mkreader ReadingHead [] batch [] 0 limit offset.
(** parser.rs:33-35 *)
Definition flush (r : reader) : list partial :=
  match r_buffer r with [] => [] | bs => [Bindings bs] end.

Definition set_state st r := mkreader st (r_input r) (r_batch r) (r_buffer r) (r_count r) (r_limit r) (r_offset r).
Definition set_input i r := mkreader (r_state r) i (r_batch r) (r_buffer r) (r_count r) (r_limit r) (r_offset r).
Definition set_buffer b r := mkreader (r_state r) (r_input r) (r_batch r) b (r_count r) (r_limit r) (r_offset r).
Definition set_count c r := mkreader (r_state r) (r_input r) (r_batch r) (r_buffer r) c (r_limit r) (r_offset r).

Definition none_or (o : option nat) (f : nat -> bool) : bool := match o with None => true | Some x => f x end.

(** parser.rs:64-70 store_char *)
Definition store_char (r : reader) : bool :=
  match r_state r with
  | ReadingHead | ReadingMeta | ReadingString _ | ReadingStringEscaped _ => true
  | ReadingBinding _ =>
    (r_offset r <=? r_count r) && none_or (r_limit r) (fun limit => (r_count r - r_offset r) <? limit)
  | _ => false
  end.

(** parser.rs:61-150  read_byte; [None]: serde failed, the error is returned *)
Definition read_byte (b : byte) (r : reader) : option (option partial * reader) :=
  let r := if store_char r then set_input (r_input r ++ [b]) r else r in
  match r_state r with
  | ReadingHead =>
    if N.eqb b RBRACE then
      let r := set_input (r_input r ++ [RBRACE]) r in
      match header_of (r_input r) with
      | None => None
      | Some h => Some (Some (Header h), set_state SearchingBindings r)
      end
    else if N.eqb b QUOTE then Some (None, set_state (ReadingString ReadingHead) r)
    else Some (None, r)
  | SearchingBindings =>
    if N.eqb b LBRACKET then Some (None, set_state SearchingBinding (set_input [] r)) else Some (None, r)
  | SearchingBinding =>
    if N.eqb b LBRACE then Some (None, set_state (ReadingBinding 1) (set_input [LBRACE] r))
    else if N.eqb b RBRACKET then Some (None, set_state SearchingMeta r)
    else Some (None, r)
  | ReadingBinding d =>
    if N.eqb b RBRACE then
      if d =? 1 then
        let r := set_state SearchingBinding (set_count (r_count r + 1) r) in
        if (r_offset r <? r_count r) && none_or (r_limit r) (fun limit => (r_count r - r_offset r) <=? limit) then
          match binding_of (r_input r) with
          | None => None
          | Some x =>
            let buf := r_buffer r ++ [x] in
            if length buf =? r_batch r then Some (Some (Bindings buf), set_buffer [] r)
            else Some (None, set_buffer buf r)
          end
        else Some (None, set_input [] r)
      else Some (None, set_state (ReadingBinding ((d + 255) mod 256)) r)
    else if N.eqb b LBRACE then Some (None, set_state (ReadingBinding ((d + 1) mod 256)) r)
    else if N.eqb b QUOTE then Some (None, set_state (ReadingString (ReadingBinding d)) r)
    else Some (None, r)
  | ReadingString prev =>
    if N.eqb b QUOTE then Some (None, set_state prev r)
    else if N.eqb b BACKSLASH then Some (None, set_state (ReadingStringEscaped prev) r)
    else Some (None, r)
  | ReadingStringEscaped prev => Some (None, set_state (ReadingString prev) r)
  | SearchingMeta =>
    if N.eqb b LBRACE then Some (None, set_state ReadingMeta (set_input [LBRACE] r)) else Some (None, r)
  | ReadingMeta =>
    if N.eqb b RBRACE then
      match meta_of (r_input r) with
      | None => None
      | Some m => Some (Some (Meta m), set_state ReaderDone r)
      end
    else Some (None, r)
  | ReaderDone => Some (None, r)
  end.

(** lib.rs:31-61: the callbacks made while the chunks arrive; [inr]: the stream ended, with the
    reader's state; [inl]: the error is returned, after the callbacks made so far *)
Fixpoint feed (bs : list byte) (r : reader) : list partial * option reader :=
  match bs with
  | [] => ([], Some r)
  | b :: rest =>
    match read_byte b r with
    | None => ([], None)
    | Some (o, r') =>
      let (ps, e) := feed rest r' in
      (match o with Some p => p :: ps | None => ps end, e)
    end
  end.
Fixpoint feed_chunks (cs : list (list byte)) (r : reader) : list partial * option reader :=
  match cs with
  | [] => ([], Some r)
  | c :: rest =>
    match feed c r with
    | (ps, None) => (ps, None)
    | (ps, Some r') => let (qs, e) := feed_chunks rest r' in (ps ++ qs, e)
    end
  end.

(** lib.rs:25-28: [limit - offset >= batch_size] on usize (32 bits on wasm; wraps in release) *)
Definition usize (n : nat) : N := (N.of_nat n mod 4294967296)%N.
Definition window_assert (batch : nat) (limit : option nat) (offset : nat) : bool :=
  match limit with
  | None => true
  | Some limit => (usize batch <=? (usize limit + (4294967296 - usize offset)) mod 4294967296)%N
  end.
(** lib.rs:17-67  read, on a stream that ends normally *)
Inductive read_result :=
| ReadOk (calls : list partial) (count : nat)
| ReadErr (calls : list partial)              (* JsonParseError *)
| ReadPanic.
Definition read (chunks : list (list byte)) (batch : nat) (limit : option nat) (offset : nat) : read_result :=
  if window_assert batch limit offset then
    match feed_chunks chunks (new_reader batch limit offset) with
    | (ps, None) => ReadErr ps
    | (ps, Some r) => ReadOk (ps ++ flush r) (r_count r)
    end
  else ReadPanic.
(** wasm.rs:188-203: how the server calls it *)
Definition server_read (chunks : list (list byte)) (limit : option nat) (offset : nat) : read_result :=
  read chunks (match limit with Some l => Nat.min 1000 l | None => 1000 end) limit offset.
End Reader.
Arguments partial : clear implicits.
Arguments reader : clear implicits.
Arguments read_result : clear implicits.
