(** What the English of C07, C08, C10, C11, C28–C31 means: messages and replies as JSON-RPC defines
    them, read off the JSON; the document a history of messages leaves behind; lifecycle phases. *)
From Coq Require Import String List Arith NArith ZArith Bool.
Import ListNotations.
From Verif Require Import TextModel JsonModel ServerModel.

(** ** JSON objects *)
Definition has (fs : list (text * json)) (k : string) (v : json) : Prop := In (str k, v) fs.
Definition lacks (fs : list (text * json)) (k : string) : Prop := forall v, ~ has fs k v.

(** ** messages to the server *)
Definition structured (p : json) : Prop := (exists l, p = JArr l) \/ (exists fs, p = JObj fs).
Definition has_params (fs : list (text * json)) (p : option json) : Prop :=
  match p with Some v => has fs "params" v /\ structured v | None => lacks fs "params" end.
(** integer ids are u32 *)
Definition valid_id (i : request_id) : Prop :=
  match i with IdStr _ => True | IdInt n => (n < 4294967296)%N end.
Definition request_message (j : json) (i : request_id) (m : text) (p : option json) : Prop :=
  exists fs, j = JObj fs /\ NoDup (map fst fs) /\ has fs "jsonrpc" (JStr (str "2.0")) /\
             valid_id i /\ has fs "id" (id_json i) /\ has fs "method" (JStr m) /\ has_params fs p.
Definition notification_message (j : json) (m : text) (p : option json) : Prop :=
  exists fs, j = JObj fs /\ NoDup (map fst fs) /\ has fs "jsonrpc" (JStr (str "2.0")) /\
             lacks fs "id" /\ has fs "method" (JStr m) /\ has_params fs p.

(** ** messages from the server *)
Definition is_response (o : json) : Prop :=
  exists fs, o = JObj fs /\ (exists v, has fs "id" v) /\ lacks fs "method".
Definition response_to (i : request_id) (o : json) : Prop :=
  exists fs, o = JObj fs /\ (forall v, has fs "id" v <-> v = id_json i) /\ lacks fs "method".
(** the error object of a response, if it has one *)
Definition reports (c : error_code) (o : json) : Prop :=
  exists fs es, o = JObj fs /\ has fs "error" (JObj es) /\ has es "code" (JStr (code_name c)).
Definition successful (o : json) : Prop :=
  exists fs, o = JObj fs /\ (exists r, has fs "result" r) /\ forall e, has fs "error" e -> e = JNull.
Definition exactly_one_response (i : request_id) (out : list json) : Prop :=
  exists l1 o l2, out = l1 ++ o :: l2 /\ response_to i o /\ forall x, In x (l1 ++ l2) -> ~ is_response x.
Definition no_response (out : list json) : Prop := forall x, In x out -> ~ is_response x.

(** the methods this server knows *)
Definition request_methods : list string := [
  "initialize"; "shutdown"; "textDocument/formatting"; "textDocument/onTypeFormatting"; "textDocument/diagnostic";
  "textDocument/codeAction"; "textDocument/hover"; "textDocument/completion"; "textDocument/foldingRange";
  "textDocument/semanticTokens/full"; "textDocument/semanticTokens/range"; "textDocument/rename";
  "textDocument/references"; "textDocument/documentHighlight"; "qlueLs/getBackend"; "qlueLs/listBackends";
  "qlueLs/pingBackend"; "qlueLs/jump"; "qlueLs/parseTree"; "qlueLs/identifyOperationType";
  "qlueLs/defaultSettings"; "qlueLs/executeOperation"]%string.
Definition notification_methods : list string := [
  "initialized"; "exit"; "textDocument/didOpen"; "textDocument/didChange"; "textDocument/didSave";
  "qlueLs/changeSettings"; "qlueLs/cancelQuery"; "qlueLs/addBackend"; "qlueLs/updateDefaultBackend";
  "$/cancelRequest"; "$/setTrace"; "response"]%string.
(** requests handled in a task of their own *)
Definition task_methods : list string :=
  ["textDocument/hover"; "textDocument/completion"; "qlueLs/pingBackend"; "qlueLs/executeOperation"]%string.
(** requests about a document and its syntax tree *)
Definition tree_methods : list string := [
  "textDocument/formatting"; "textDocument/onTypeFormatting"; "textDocument/diagnostic";
  "textDocument/codeAction"; "textDocument/hover"; "textDocument/completion"; "textDocument/foldingRange";
  "textDocument/semanticTokens/full"; "textDocument/semanticTokens/range"; "textDocument/rename";
  "textDocument/references"; "textDocument/documentHighlight"; "qlueLs/jump"; "qlueLs/parseTree"]%string.

(** ** the document a history leaves behind *)
Inductive doc_event := Opens (u : text) (d : document) | Edits (u : text) (chs : list change).
Definition doc_event_of (j : option json) : option doc_event :=
  match match j with Some j => decode_rpc j | None => None end with
  | Some (Request _ m (Some p)) | Some (Notification m (Some p)) =>
    if text_eqb m (str "textDocument/didOpen") then
      option_map (fun x => Opens (fst x) (snd x)) (did_open_params p)
    else if text_eqb m (str "textDocument/didChange") then
      option_map (fun x => Edits (fst x) (snd x)) (did_change_params p)
    else None
  | _ => None
  end.
(** what one message means for document [u]: messages naming another document mean nothing *)
Definition doc_step (u : text) (d : option document) (j : option json) : option document :=
  match doc_event_of j with
  | Some (Opens u' d') => if text_eqb u' u then Some d' else d
  | Some (Edits u' chs) =>
    if text_eqb u' u then
      match d with
      | Some d => match apply_content_changes (d_text d) chs with
                  | Done t => Some (mkdoc t ((d_version d + 1) mod 4294967296)%N)
                  | _ => Some d
                  end
      | None => None
      end
    else d
  | None => d
  end.
Definition current (u : text) (h : list (option json)) : option document := fold_left (doc_step u) h None.

(** no two different texts of one document carry the same version number *)
Definition versions_determine_text (h : list (option json)) : Prop :=
  forall h1 h1' h2 h2' u d1 d2, h = h1 ++ h1' -> h = h2 ++ h2' ->
    current u h1 = Some d1 -> current u h2 = Some d2 -> d_version d1 = d_version d2 -> d_text d1 = d_text d2.
(** reopening raises the version; versions stay below 2^32 - 1 *)
Definition versions_grow (h : list (option json)) : Prop :=
  forall h1 j h2 u d, h = h1 ++ j :: h2 -> current u h1 = Some d ->
    (forall d', doc_event_of j = Some (Opens u d') -> (d_version d < d_version d')%N) /\
    (d_version d + 1 < 4294967296)%N.

(** ** lifecycle *)
(** the message is a request or notification of this method / a request of this method *)
Definition names (m : string) (j : option json) : bool :=
  match match j with Some j => decode_rpc j | None => None end with
  | Some (Request _ m' _) | Some (Notification m' _) => text_eqb m' (str m)
  | _ => false
  end.
Definition asks (m : string) (j : option json) : bool :=
  match match j with Some j => decode_rpc j | None => None end with
  | Some (Request _ m' _) => text_eqb m' (str m)
  | _ => false
  end.
(** of the [initialized] notifications and [shutdown] requests so far, the last is an [initialized] *)
Definition running (h : list (option json)) : bool :=
  fold_left (fun r j => if names "initialized" j then true else if asks "shutdown" j then false else r) h false.

(** ** a server without the parse tree cache: it forgets it before every message *)
Section Uncached.
Context {tree aux : Type} (F : features tree aux).
Fixpoint run_uncached (js : list (option json)) (s : server tree aux) : option (server tree aux) * list (list json) :=
  match js with
  | [] => (Some s, [])
  | j :: r =>
    match handle_message F j (with_cache None s) with
    | Next s' out => let (e, outs) := run_uncached r s' in (e, out :: outs)
    | Crash out => (None, [out])
    | Exit _ out => (None, [out])
    end
  end.
(** equal but for the cache *)
Definition same_but_cache (s1 s2 : server tree aux) : Prop := with_cache None s1 = with_cache None s2.
Definition same_outcome (o1 o2 : outcome tree aux) : Prop :=
  match o1, o2 with
  | Next s1 out1, Next s2 out2 => same_but_cache s1 s2 /\ out1 = out2
  | Crash out1, Crash out2 => out1 = out2
  | Exit c1 out1, Exit c2 out2 => c1 = c2 /\ out1 = out2
  | _, _ => False
  end.
(** the syntax tree features never panic *)
Definition never_panics : Prop :=
  (forall t, f_parse F t <> None) /\ (forall m v t tr p, f_body F m v t tr p <> Panics) /\
  (forall v b q p, f_run F v b q p <> Panics).
(** the parameters of a request handled in a task can be read *)
Definition readable (m : text) (p : option json) : Prop :=
  exists v, p = Some v /\
    ((m = str "textDocument/hover" \/ m = str "textDocument/completion") -> f_target F m v <> None) /\
    (m = str "qlueLs/pingBackend" -> opt_name_param "backendName" v <> None) /\
    (m = str "qlueLs/executeOperation" -> f_execute F v <> None).
(** a change that names an open document but a place it does not have (see C02) *)
Definition bad_change (m : rpc) (s : server tree aux) : Prop :=
  exists p u chs d, match m with Request _ me p' | Notification me p' => me = str "textDocument/didChange" /\ p' = Some p | _ => False end /\
    did_change_params p = Some (u, chs) /\ get u (documents s) = Some d /\
    forall t, apply_content_changes (d_text d) chs <> Done t.
(** a message handled in a task whose content cannot be read *)
Definition unreadable_task (m : rpc) : Prop :=
  match m with
  | Request _ me p =>
      (In me (map str task_methods) /\ ~ readable me p) \/
      (me = str "qlueLs/cancelQuery" /\ forall fs q, p = Some (JObj fs) -> member (str "queryId") fs <> Some (JStr q))
  | Notification me p =>
      In me (map str task_methods) \/
      (me = str "qlueLs/cancelQuery" /\ forall fs q, p = Some (JObj fs) -> member (str "queryId") fs <> Some (JStr q))
  | Response _ _ => False
  end.
End Uncached.

(** ** requests the server sends: objects with a method and an id *)
Definition sent_id (o : json) : option json :=
  match o with
  | JObj fs => match member (str "method") fs, member (str "id") fs with Some _, Some i => Some i | _, _ => None end
  | _ => None
  end.
Definition sent_ids (outs : list (list json)) : list json :=
  flat_map (fun o => match sent_id o with Some i => [i] | None => [] end) (concat outs).

(** ** what JSON-RPC 2.0 asks of a response: either a result or an error, whose code is an integer *)
Definition json_rpc_response (o : json) : Prop :=
  exists fs, o = JObj fs /\
    ((exists r, has fs "result" r) <-> lacks fs "error") /\
    (forall e, has fs "error" e -> exists es c, e = JObj es /\ has es "code" (JInt c)).
