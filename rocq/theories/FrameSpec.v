(** What a well-formed stdin stream is (LSP base protocol), independently of the reader. *)
From Coq Require Import List NArith.
Import ListNotations.
From Verif Require Import TextModel Utf8Model FrameModel.
Local Open Scope N_scope.

(** a message that can be framed: Unicode text whose UTF-8 length fits the reader's u32 *)
Definition deliverable (m : text) : Prop :=
  (forall c, In c m -> c < 0xD800 \/ 0xE000 <= c < 0x110000) /\ N.of_nat (length (utf8 m)) < 2 ^ 32.

(** the base protocol's header for a body of [n] bytes: the ASCII text [Content-Length: <n>]
    and an empty line *)
Definition protocol_frame (body : list byte) : list byte :=
  [67; 111; 110; 116; 101; 110; 116; 45; 76; 101; 110; 103; 116; 104; 58; 32]   (* Content-Length:_ *)
  ++ decimal (N.of_nat (length body)) ++ [13; 10; 13; 10] ++ body.

(** [decimal n] really denotes [n]: reading digits from the left *)
Fixpoint read_decimal (acc : N) (ds : list byte) : N :=
  match ds with [] => acc | d :: r => read_decimal (10 * acc + (d - 48)) r end.
Definition denotes_number (ds : list byte) (n : N) : Prop :=
  ds <> [] /\ (forall d, In d ds -> 48 <= d <= 57) /\ read_decimal 0 ds = n.
