(** Message framing on stdin/stdout: /repo/src/stdio_reader.rs and /repo/src/main.rs. *)
From Coq Require Import List Arith NArith Bool String Ascii DecimalN Decimal.
Import ListNotations.
From Verif Require Import TextModel Utf8Model.
Local Open Scope N_scope.

(** what the byte iterator over stdin yields (stdio_reader.rs:29,46: [io::Bytes]); the end of the
    list is end of file.  Buffering by [BufReader] is not visible here. *)
Inductive item := Byte (b : byte) | IoErr.
Definition stream := list item.

Definition bytes_of (s : string) : list byte := List.map N_of_ascii (list_ascii_of_string s).

(** [{}] of an unsigned integer: decimal digits without leading zeros (Rust std formatting) *)
Fixpoint uint_bytes (d : uint) : list byte :=
  match d with
  | Nil => []
  | D0 d => 48 :: uint_bytes d | D1 d => 49 :: uint_bytes d | D2 d => 50 :: uint_bytes d
  | D3 d => 51 :: uint_bytes d | D4 d => 52 :: uint_bytes d | D5 d => 53 :: uint_bytes d
  | D6 d => 54 :: uint_bytes d | D7 d => 55 :: uint_bytes d | D8 d => 56 :: uint_bytes d
  | D9 d => 57 :: uint_bytes d
  end.
Definition decimal (n : N) : list byte := uint_bytes (N.to_uint n).

(** main.rs:97-100  fn send_message: [print!("Content-Length: {}\r\n\r\n{}", message.len(), message)] *)
Definition crlf : list byte := [13; 10].
Definition send_message (m : text) : list byte :=
  bytes_of "Content-Length: " ++ decimal (N.of_nat (byte_len m)) ++ crlf ++ crlf ++ utf8 m.

(** [str::parse::<u32>] (Rust std): an optional '+', at least one digit, no overflow *)
Definition u32_max : N := 4294967295.
Fixpoint parse_digits (acc : N) (cs : text) : option N :=
  match cs with
  | [] => Some acc
  | c :: r => if (48 <=? c) && (c <=? 57)
              then let acc' := acc * 10 + (c - 48) in if acc' <=? u32_max then parse_digits acc' r else None
              else None
  end.
Definition parse_u32 (cs : text) : option N :=
  match (match cs with c :: r => if c =? 43 then r else cs | [] => [] end) with
  | [] => None
  | ds => parse_digits 0 ds
  end.

(** stdio_reader.rs:44-89  fn read_next_message.  [RNone]: the iterator returned None, so the
    message loop (main.rs:118) ends; [RPanic]: an [expect] failed. *)
Inductive read := RMsg (m : text) (rest : stream) | RNone | RPanic.

(** stdio_reader.rs:56  [self.buffer.ends_with(b"\r\n\r\n")] *)
Definition ends_header (buf : list byte) : bool :=
  match List.rev buf with
  | d :: c :: b :: a :: _ => (d =? 10) && (c =? 13) && (b =? 10) && (a =? 13)
  | _ => false
  end.
(** stdio_reader.rs:84-86 *)
Definition finish (buf : list byte) (s : stream) : read :=
  match from_utf8 buf with Some m => RMsg m s | None => RNone end.
(** stdio_reader.rs:67-83; an I/O error clears the buffer and leaves the loop *)
Fixpoint read_body (n : N) (buf : list byte) (s : stream) : read :=
  if n =? 0 then finish buf s
  else match s with
       | [] => RNone
       | IoErr :: r => finish [] r
       | Byte b :: r => read_body (n - 1) (buf ++ [b]) r
       end.
(** stdio_reader.rs:57-64: [get(16..len-4)], from_utf8, parse; each failing [expect] panics *)
Definition content_length (buf : list byte) : option N :=
  let stop := (List.length buf - 4)%nat in
  if (stop <? 16)%nat then None
  else match from_utf8 (firstn (stop - 16) (skipn 16 buf)) with
       | None => None
       | Some cs => parse_u32 cs
       end.
Fixpoint read_header (buf : list byte) (s : stream) : read :=
  match s with
  | [] => RNone
  | IoErr :: _ => RNone
  | Byte b :: r =>
    let buf' := buf ++ [b] in
    if ends_header buf'
    then match content_length buf' with
         | None => RPanic
         | Some n => read_body n [] r
         end
    else read_header buf' r
  end.

(** main.rs:118-120: the session handles messages until the iterator returns None.
    The buffer is empty at the start of each message: it is cleared at line 85 before returning. *)
Inductive ending := Closed | Crashed | OutOfGas.
Fixpoint session (gas : nat) (s : stream) : list text * ending :=
  match gas with
  | O => ([], OutOfGas)
  | S g =>
    match read_header [] s with
    | RNone => ([], Closed)
    | RPanic => ([], Crashed)
    | RMsg m r => let (ms, e) := session g r in (m :: ms, e)
    end
  end.
(** every message takes at least one byte off the stream *)
Definition run_session (s : stream) : list text * ending := session (S (List.length s)) s.
