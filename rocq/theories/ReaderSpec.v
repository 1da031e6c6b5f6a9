(** Specification vocabulary for the result reader: JSON texts and SPARQL result documents.
    Independent of the reader. *)
From Coq Require Import List Arith NArith.
Import ListNotations.
From Verif Require Import Utf8Model.

Definition chr (n : N) : list byte := [n].
Definition ws_byte (b : byte) : Prop := In b [32; 9; 10; 13]%N.
Definition ws (w : list byte) : Prop := Forall ws_byte w.

(** the inside of a JSON string: anything but an unescaped quote *)
Inductive string_body : list byte -> Prop :=
| sb_nil : string_body []
| sb_plain : forall b w, b <> 34%N -> b <> 92%N -> string_body w -> string_body (b :: w)
| sb_escape : forall b w, string_body w -> string_body (92%N :: b :: w).
Definition json_string (w : list byte) : Prop := exists s, string_body s /\ w = 34%N :: s ++ [34%N].

(** the bytes of numbers, true, false and null *)
Definition scalar_byte (b : byte) : Prop :=
  b <> 34%N /\ b <> 123%N /\ b <> 125%N /\ b <> 91%N /\ b <> 93%N /\ b <> 44%N /\ b <> 58%N.

(** [json_value d w]: [w] is the text of a JSON value whose objects nest at most [d] deep *)
Inductive json_value : nat -> list byte -> Prop :=
| jv_string : forall d w, json_string w -> json_value d w
| jv_scalar : forall d w, Forall scalar_byte w -> json_value d w
| jv_array : forall d w, json_elements d w -> json_value d (91%N :: w ++ [93%N])
| jv_object : forall d w, json_members d w -> json_value (S d) (123%N :: w ++ [125%N])
with json_elements : nat -> list byte -> Prop :=
| je_empty : forall d w, ws w -> json_elements d w
| je_last : forall d a v b, ws a -> ws b -> json_value d v -> json_elements d (a ++ v ++ b)
| je_more : forall d a v b r, ws a -> ws b -> json_value d v -> json_elements d r -> json_elements d (a ++ v ++ b ++ 44%N :: r)
with json_members : nat -> list byte -> Prop :=
| jm_empty : forall d w, ws w -> json_members d w
| jm_last : forall d a k b c v e, ws a -> ws b -> ws c -> ws e -> json_string k -> json_value d v ->
    json_members d (a ++ k ++ b ++ 58%N :: c ++ v ++ e)
| jm_more : forall d a k b c v e r, ws a -> ws b -> ws c -> ws e -> json_string k -> json_value d v -> json_members d r ->
    json_members d (a ++ k ++ b ++ 58%N :: c ++ v ++ e ++ 44%N :: r).
(** the text of a JSON object nested at most [d] deep (1: no objects inside) *)
Definition json_object (d : nat) (w : list byte) : Prop := exists m e, d = S e /\ json_members e m /\ w = 123%N :: m ++ [125%N].

(** the text of a comma separated list of objects *)
Inductive object_list (d : nat) : list (list byte) -> list byte -> Prop :=
| ol_empty : forall w, ws w -> object_list d [] w
| ol_last : forall a o b, ws a -> ws b -> json_object d o -> object_list d [o] (a ++ o ++ b)
| ol_more : forall a o b os w, ws a -> ws b -> json_object d o -> os <> [] -> object_list d os w ->
    object_list d (o :: os) (a ++ o ++ b ++ 44%N :: w).

(** no string and no bracket of any kind (what stands between the parts of a result document) *)
Definition plain (b : byte) : Prop := b <> 123%N /\ b <> 125%N /\ b <> 91%N /\ b <> 93%N.

(** A SPARQL JSON result document, [{"head": head, "results": {"bindings": [objects]}, "meta": meta}]:
    [head] the text of the head object, which contains no further objects (vars and link are arrays);
    then some text without brackets, an opening brace, some text without brackets ("bindings":), the
    list of binding objects, and after it either nothing more of interest or a meta object.
    [before] is the text up to and including the head object. *)
Record document := mkdocument {
  doc_key : list byte;          (* {"head": *)
  doc_head : list byte;
  doc_between : list byte;      (* ,"results":{"bindings": *)
  doc_objects : list (list byte);
  doc_list : list byte;
  doc_after : list byte;        (* }  or  },"meta": *)
  doc_meta : option (list byte);
  doc_end : list byte
}.
Record well_formed (D : document) : Prop := {
  wf_key : exists a k b c, ws a /\ json_string k /\ ws b /\ ws c /\ doc_key D = 123%N :: a ++ k ++ b ++ 58%N :: c;
  wf_head : json_object 1 (doc_head D);
  wf_between : Forall (fun b => b <> 91%N) (doc_between D);
  wf_list : object_list 255 (doc_objects D) (doc_list D);
  wf_after : Forall (fun b => b <> 123%N) (doc_after D);
  wf_meta : forall m, doc_meta D = Some m -> exists t, Forall (fun b => b <> 125%N) t /\ m = 123%N :: t ++ [125%N];
  wf_end : doc_meta D = None -> Forall (fun b => b <> 123%N) (doc_end D)
}.
Definition text_of_document (D : document) : list byte :=
  doc_key D ++ doc_head D ++ doc_between D ++ [91%N] ++ doc_list D ++ [93%N] ++ doc_after D
  ++ match doc_meta D with Some m => m | None => [] end ++ doc_end D.

(** the requested window: [limit] items after the first [offset] *)
Definition window {A} (limit : option nat) (offset : nat) (l : list A) : list A :=
  match limit with Some n => firstn n (skipn offset l) | None => skipn offset l end.
