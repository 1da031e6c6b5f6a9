(** changeSettings: /repo/src/server/message_handler/settings/mod.rs *)
From Coq Require Import String List Arith NArith ZArith Bool.
Import ListNotations.
From Verif Require Import TextModel JsonModel ServerModel.

(** replacing the value of a key that is present *)
Definition set_member (k : text) (v : json) (fs : list (text * json)) : list (text * json) :=
  map (fun e => if text_eqb (fst e) k then (fst e, v) else e) fs.
(** settings/mod.rs:79-92  merge_value; a serde_json object is a map, here a list of members with
    different keys (the order in which the patch's keys are visited is not observable by lookup) *)
Fixpoint merge_value (t p : json) {struct p} : json :=
  match t, p with
  | JObj ts, JObj ps =>
    JObj ((fix go (ps : list (text * json)) (ts : list (text * json)) : list (text * json) :=
      match ps with
      | [] => ts
      | (k, v) :: r => go r (match member k ts with
                             | Some tv => set_member k (merge_value tv v) ts
                             | None => ts ++ [(k, v)]
                             end)
      end) ps ts)
  | _, _ => p
  end.
(** settings/mod.rs:45-71  merge_settings: [ser]/[de] are serde on [Settings], [valid] is
    [Replacements::validate] *)
Section Merge.
Context {settings : Type} (ser : settings -> json) (de : json -> option settings) (valid : settings -> bool).
Definition merge_settings (s : settings) (patch : json) : error_code + settings :=
  match de (merge_value (ser s) patch) with
  | None => inl InvalidParams
  | Some m => if valid m then inr m else inl InvalidParams
  end.
End Merge.
