(** JSON values and the parts of serde used to read messages.  Parsing JSON text into a value and
    printing it are serde_json's business and not modelled. *)
From Coq Require Import String Ascii List Arith NArith ZArith Bool.
Import ListNotations.
From Verif Require Import TextModel.

(** numbers are integers or something else ([JFloat]); object members keep their order *)
Inductive json :=
| JNull
| JBool (b : bool)
| JInt (z : Z)
| JFloat (repr : text)
| JStr (s : text)
| JArr (l : list json)
| JObj (fields : list (text * json)).

Definition str (s : string) : text := map N_of_ascii (list_ascii_of_string s).
Fixpoint text_eqb (a b : text) : bool :=
  match a, b with
  | [], [] => true
  | x :: a, y :: b => N.eqb x y && text_eqb a b
  | _, _ => false
  end.

(** all values of a key, in order *)
Definition values (k : text) (fs : list (text * json)) : list json :=
  map snd (filter (fun f => text_eqb (fst f) k) fs).
(** serde_json's [Value]/[HashMap]: a repeated key overwrites the earlier one *)
Definition member (k : text) (fs : list (text * json)) : option json := last (map Some (values k fs)) None.
(** a derived struct visitor refuses a repeated field *)
Definition once (k : text) (fs : list (text * json)) : option (option json) :=
  match values k fs with [] => Some None | [v] => Some (Some v) | _ => None end.

Definition u32_bound : Z := 4294967296.
(** u32: an integer in range (serde_json) *)
Definition as_u32 (j : json) : option N :=
  match j with JInt z => if ((0 <=? z) && (z <? u32_bound))%Z then Some (Z.to_N z) else None | _ => None end.
Definition as_str (j : json) : option text := match j with JStr s => Some s | _ => None end.
Definition as_bool (j : json) : option bool := match j with JBool b => Some b | _ => None end.
(** [Option<T>] as a field: absent and null are [None] *)
Definition as_opt {A} (f : json -> option A) (j : option json) : option (option A) :=
  match j with None => Some None | Some JNull => Some None | Some v => option_map Some (f v) end.

(** the fields of a derived struct without [flatten]: by name from an object, by position from an
    array of exactly that many elements *)
Definition struct_fields (names : list text) (j : json) : option (list (option json)) :=
  match j with
  | JObj fs => Some (map (fun k => member k fs) names)
  | JArr l => if length l =? length names then Some (map Some l) else None
  | _ => None
  end.
Definition req {A} (f : json -> option A) (j : option json) : option A :=
  match j with Some v => f v | None => None end.
