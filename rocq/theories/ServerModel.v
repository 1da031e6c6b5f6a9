(** The language server as a state machine over messages: document store and parse tree cache
    (/repo/src/server/state.rs), JSON-RPC envelope (lsp/rpc.rs), dispatch (message_handler/mod.rs),
    error replies (server/mod.rs), lifecycle, document synchronisation and backend handlers.

    Native build (stdin/stdout): one message is handled to completion before the next is read
    (main.rs:118-120; message_handler/mod.rs:139-140 awaits the spawned task), so a history is a list
    of messages.  The bodies of the language features are parameters ([features]): a feature gets
    everything but the cache and answers, fails or panics. *)
From Coq Require Import String List Arith NArith ZArith Bool.
Import ListNotations.
From Verif Require Import TextModel JsonModel.

(** rpc.rs:114-119  enum RequestId *)
Inductive request_id := IdStr (s : text) | IdInt (n : N).
Definition as_id (j : json) : option request_id :=
  match j with
  | JStr s => Some (IdStr s)
  | _ => option_map IdInt (as_u32 j)
  end.
Definition id_json (i : request_id) : json :=
  match i with IdStr s => JStr s | IdInt n => JInt (Z.of_N n) end.

(** lsp/errors.rs:48-130; derived [Serialize]/[Deserialize]: a unit variant is its name as a string *)
Inductive error_code :=
| ParseError | InvalidRequest | MethodNotFound | InvalidParams | InternalError
| ServerNotInitialized | Unknown | RequestFailed | ServerCancelled | ContentModified | RequestCancelled.
Definition code_name (c : error_code) : text :=
  str match c with
  | ParseError => "ParseError" | InvalidRequest => "InvalidRequest" | MethodNotFound => "MethodNotFound"
  | InvalidParams => "InvalidParams" | InternalError => "InternalError"
  | ServerNotInitialized => "ServerNotInitialized" | Unknown => "Unknown" | RequestFailed => "RequestFailed"
  | ServerCancelled => "ServerCancelled" | ContentModified => "ContentModified" | RequestCancelled => "RequestCancelled"
  end.
Definition codes := [ParseError; InvalidRequest; MethodNotFound; InvalidParams; InternalError;
  ServerNotInitialized; Unknown; RequestFailed; ServerCancelled; ContentModified; RequestCancelled].
(** an [LSPError]; the message text is not modelled *)
Definition as_error (j : json) : option unit :=
  match struct_fields [str "code"; str "message"; str "data"] j with
  | Some [c; m; _] =>
    match req as_str c, req as_str m with
    | Some c, Some _ => if existsb (fun k => text_eqb (code_name k) c) codes then Some tt else None
    | _, _ => None
    end
  | _ => None
  end.

(** rpc.rs:13-19  enum RPCMessage (untagged: tried in this order) *)
Inductive rpc :=
| Request (i : request_id) (method : text) (params : option json)
| Response (i : option request_id) (result : option json)
| Notification (method : text) (params : option json).
(** rpc.rs:130-135  enum Params: array or object; [Option]: absent or null is None *)
Definition as_params (j : json) : option json :=
  match j with JArr _ | JObj _ => Some j | _ => None end.
Definition decode_rpc (j : json) : option rpc :=
  match j with
  | JObj fs =>
    let jsonrpc := match once (str "jsonrpc") fs with Some v => req as_str v | None => None end in
    let method := match once (str "method") fs with Some v => req as_str v | None => None end in
    let params := match once (str "params") fs with Some v => as_opt as_params v | None => None end in
    match jsonrpc with
    | None => None
    | Some _ =>
      let request :=                                                        (* rpc.rs:73-89 *)
        match once (str "id") fs with
        | Some (Some i) =>
          match as_id i, method, params with
          | Some i, Some m, Some p => Some (Request i m p)
          | _, _, _ => None
          end
        | _ => None
        end in
      let response :=                                                       (* rpc.rs:137-155 *)
        match once (str "id") fs, once (str "result") fs, once (str "error") fs with
        | Some (Some i), Some r, Some e =>
          let i := match i with JNull => Some None | _ => option_map Some (as_id i) end in
          match i, as_opt Some r, as_opt as_error e with
          | Some i, Some r, Some _ => Some (Response i r)
          | _, _, _ => None
          end
        | _, _, _ => None
        end in
      let notification :=                                                   (* rpc.rs:200-212 *)
        match method, params with
        | Some m, Some p => Some (Notification m p)
        | _, _ => None
        end in
      match request with Some r => Some r | None =>
      match response with Some r => Some r | None => notification end end
    end
  | _ => None
  end.
(** rpc.rs:66-71  struct RecoverId, read from the raw message (server/mod.rs:177) *)
Definition recover_id (j : option json) : option request_id :=
  match j with
  | Some (JObj fs) => match once (str "id") fs with Some (Some i) => as_id i | _ => None end
  | Some (JArr [i]) => as_id i
  | _ => None
  end.

(** outgoing messages *)
Definition k_jsonrpc := (str "jsonrpc", JStr (str "2.0")).
(** rpc.rs:159-168 ResponseMessage::error as serialised: [result] is written as null *)
Definition error_response (i : request_id) (c : error_code) (msg : text) : json :=
  JObj [k_jsonrpc; (str "id", id_json i); (str "result", JNull);
        (str "error", JObj [(str "code", JStr (code_name c)); (str "message", JStr msg); (str "data", JNull)])].
(** ResponseMessageBase::success plus the members of the particular response struct *)
Definition response (i : request_id) (result error : option json) : json :=
  JObj ([k_jsonrpc; (str "id", id_json i)]
        ++ match result with Some r => [(str "result", r)] | None => [] end
        ++ match error with Some e => [(str "error", e)] | None => [] end).
Definition notification (method : text) (params : json) : json :=
  JObj [k_jsonrpc; (str "method", JStr method); (str "params", params)].
Definition server_request (i : N) (method : text) (params : json) : json :=
  JObj [k_jsonrpc; (str "id", JInt (Z.of_N i)); (str "method", JStr method); (str "params", params)].

(** ** state *)
(** textdocument.rs:8-15; language_id is never read *)
Record document := mkdoc { d_text : text; d_version : N }.
Inductive server_status := Initializing | Running | ShuttingDown.      (* state.rs:41-46 *)
(** configuration.rs:47-62; fields that no modelled handler reads are in [bk_rest] *)
Record backend := mkbackend { bk_name : text; bk_url : text; bk_default : bool; bk_prefixes : list (text * text);
                              bk_queries : list (text * text); bk_rest : json }.

(** a HashMap: an association list, newest first *)
Definition map_ (A : Type) := list (text * A).
Definition get {A} (k : text) (m : map_ A) : option A :=
  option_map snd (find (fun e => text_eqb (fst e) k) m).
Definition del {A} (k : text) (m : map_ A) : map_ A := filter (fun e => negb (text_eqb (fst e) k)) m.
Definition put {A} (k : text) (v : A) (m : map_ A) : map_ A := (k, v) :: del k m.

Section Server.
(** [tree] the syntax trees; [aux] everything else a feature may read or write: settings, client
    capabilities, label memory, templates *)
Variables (tree aux : Type).

(** state.rs:54-60; the parse time is not modelled *)
Record cached := mkcached { c_uri : text; c_version : N; c_tree : tree }.
(** state.rs:62-73 and server/mod.rs:59-67 *)
Record server := mkserver {
  status : server_status;
  documents : map_ document;
  backends : map_ backend;
  converters : map_ (list (text * text));   (* uri_converter: the prefix map it was built from *)
  default_backend : option text;
  cache : option cached;
  counter : N;
  rest : aux
}.

(** what a feature's handler may do after it has its document and tree: answer (possibly after
    asking the client to apply edits, message_handler/diagnostic/auto_fix_prefixes.rs), fail with an
    LSPError, panic.  A wrong parameter value is an [LSPError] too. *)
Inductive reply :=
| Answer (edit : option json) (result error : option json) (a : aux)
| Fail (c : error_code) (a : aux)
| Panics.
(** what a feature can see *)
Record view := mkview { v_backends : map_ backend; v_converters : map_ (list (text * text)); v_default : option text;
                        v_aux : aux }.
Record features := mkfeatures {
  f_parse : text -> option tree;                     (* the parser; None: panics *)
  f_error_positions : text -> option json;           (* didSave diagnostics; None: panics *)
  f_target : text -> json -> option text;            (* method, params: the document addressed; None: params do not parse *)
  f_early : text -> text -> json -> option error_code; (* method, text, params: errors before the tree is fetched *)
  f_body : text -> view -> text -> tree -> json -> reply;
  f_optype : text -> json;
  f_execute : json -> option (text + text);          (* params: document or inline query *)
  f_run : view -> backend -> text -> json -> reply;
  f_backend : json -> option backend;                (* BackendConfiguration::deserialize *)
  f_prefixes_ok : list (text * text) -> bool;        (* load_prefix_map succeeds *)
  f_templates : list (text * text) -> aux -> aux * bool;  (* load_templates: may stop half way *)
  f_init : json -> option (bool * (aux -> aux));     (* InitializeParams: has a workDoneToken; effect *)
  f_config : aux -> list backend;                    (* backends of the settings file *)
  f_initialize_result : aux -> json;
  f_ping : backend -> bool;
  f_settings : aux -> json -> error_code + aux;      (* merge_settings *)
  f_default_settings : json;
  f_item : backend -> json;                          (* a backend in a reply *)
  f_version_text : json                              (* parameters of the progress notifications *)
}.
Variable F : features.

Definition init (a : aux) : server := mkserver Initializing [] [] [] None None 0 a.   (* state.rs:76-89 *)

Definition view_of (s : server) : view := mkview (backends s) (converters s) (default_backend s) (rest s).
Definition with_status st s := mkserver st (documents s) (backends s) (converters s) (default_backend s) (cache s) (counter s) (rest s).
Definition with_docs d s := mkserver (status s) d (backends s) (converters s) (default_backend s) (cache s) (counter s) (rest s).
Definition with_cache c s := mkserver (status s) (documents s) (backends s) (converters s) (default_backend s) c (counter s) (rest s).
Definition with_rest a s := mkserver (status s) (documents s) (backends s) (converters s) (default_backend s) (cache s) (counter s) a.
Definition with_counter n s := mkserver (status s) (documents s) (backends s) (converters s) (default_backend s) (cache s) n (rest s).
Definition with_backends b c d s := mkserver (status s) (documents s) b c d (cache s) (counter s) (rest s).

(** the outcome of handling a message: messages sent and the new state; a panic takes the process
    down; [exit] ends it *)
Inductive outcome := Next (s : server) (out : list json) | Crash (out : list json) | Exit (code : N) (out : list json).
(** a handler's result: [Ok(())], [Err(LSPError)] (the error text is not modelled), panic, process exit *)
Inductive hres := Ok_ (s : server) (out : list json) | Err_ (s : server) (out : list json) (c : error_code)
               | Panic_ (out : list json) | Exit_ (out : list json).

(** state.rs:176-179 *)
Definition add_document (u : text) (d : document) (s : server) : server := with_docs (put u d (documents s)) s.
(** state.rs:181-193; textdocument.rs:102-104 [version += 1] on u32 (release build: wraps) *)
Definition bump (v : N) : N := ((v + 1) mod 4294967296)%N.
Inductive changed := Changed (s : server) | ChangeErr (c : error_code) | ChangePanic.
Definition change_document (u : text) (chs : list change) (s : server) : changed :=
  match get u (documents s) with
  | None => ChangeErr InvalidParams
  | Some d =>
    match apply_content_changes (d_text d) chs with
    | Done t => Changed (with_docs (put u (mkdoc t (bump (d_version d))) (documents s)) s)
    | _ => ChangePanic
    end
  end.
(** state.rs:203-234 *)
Inductive fetched := Tree (t : tree) (s : server) | NoDocument | ParsePanic.
Definition get_cached_parse_tree (u : text) (s : server) : fetched :=
  match get u (documents s) with
  | None => NoDocument
  | Some d =>
    let parse_and_store :=
      match f_parse F (d_text d) with
      | None => ParsePanic
      | Some t => Tree t (with_cache (Some (mkcached u (d_version d) t)) s)
      end in
    match cache s with
    | Some c => if text_eqb u (c_uri c) && N.eqb (c_version c) (d_version d) then Tree (c_tree c) s else parse_and_store
    | None => parse_and_store
    end
  end.

(** parsing a message as a request / a notification (rpc.rs:30-50: re-serialised, then read as the
    handler's type).  A request type needs an [id]; a notification type ignores one.  [params] that
    were absent come back as null, which no params type accepts except where noted. *)
Definition as_request (m : rpc) : option (request_id * option json) :=
  match m with Request i _ p => Some (i, p) | _ => None end.
Definition as_notification (m : rpc) : option (option json) :=
  match m with Request _ _ p => Some p | Notification _ p => Some p | Response _ _ => None end.
Definition method_of (m : rpc) : text :=
  match m with Request _ m _ => m | Notification m _ => m | Response _ _ => str "response" end.   (* mod.rs:120 *)

(** rpc types of document synchronisation *)
Definition as_position (j : json) : option pos :=                        (* textdocument.rs:213-217 *)
  match struct_fields [str "line"; str "character"] j with
  | Some [l; c] => match req as_u32 l, req as_u32 c with
                   | Some l, Some c => Some (mkpos (N.to_nat l) (N.to_nat c)) | _, _ => None end
  | _ => None
  end.
Definition as_range (j : json) : option range :=                         (* textdocument.rs:357-362 *)
  match struct_fields [str "start"; str "end"] j with
  | Some [a; b] => match req as_position a, req as_position b with
                   | Some a, Some b => Some (mkrange a b) | _, _ => None end
  | _ => None
  end.
Definition as_change (j : json) : option change :=                       (* textdocument_didchange.rs:30-35 *)
  match struct_fields [str "range"; str "text"] j with
  | Some [r; t] => match as_opt as_range r, req as_str t with
                   | Some r, Some t => Some (mkchange r t) | _, _ => None end
  | _ => None
  end.
Fixpoint as_list {A} (f : json -> option A) (l : list json) : option (list A) :=
  match l with
  | [] => Some []
  | x :: r => match f x, as_list f r with Some a, Some b => Some (a :: b) | _, _ => None end
  end.
Definition as_changes (j : json) : option (list change) :=
  match j with JArr l => as_list as_change l | _ => None end.
Definition as_item (j : json) : option (text * document) :=              (* textdocument.rs:8-15 *)
  match struct_fields [str "uri"; str "languageId"; str "version"; str "text"] j with
  | Some [u; l; v; t] =>
    match req as_str u, req as_str l, req as_u32 v, req as_str t with
    | Some u, Some _, Some v, Some t => Some (u, mkdoc t v)
    | _, _, _, _ => None
    end
  | _ => None
  end.
Definition did_open_params (p : json) : option (text * document) :=      (* textdocument_didopen.rs:22-26 *)
  match struct_fields [str "textDocument"] p with Some [d] => req as_item d | _ => None end.
Definition as_identifier (j : json) : option text :=                     (* textdocument.rs:206-209 *)
  match struct_fields [str "uri"] j with Some [u] => req as_str u | _ => None end.
Definition as_versioned (j : json) : option text :=                      (* textdocument.rs:198-204 (flatten: objects only) *)
  match j with
  | JObj fs => match req as_str (member (str "uri") fs), req as_u32 (member (str "version") fs) with
               | Some u, Some _ => Some u | _, _ => None end
  | _ => None
  end.
Definition did_change_params (p : json) : option (text * list change) := (* textdocument_didchange.rs:20-25 *)
  match struct_fields [str "textDocument"; str "contentChanges"] p with
  | Some [d; c] => match req as_versioned d, req as_changes c with
                   | Some u, Some c => Some (u, c) | _, _ => None end
  | _ => None
  end.
Definition did_save_params (p : json) : option text :=                   (* textdocument_didsave.rs:17-23 *)
  match struct_fields [str "textDocument"; str "text"] p with
  | Some [d; t] => match req as_identifier d, as_opt as_str t with Some u, Some _ => Some u | _, _ => None end
  | _ => None
  end.
(** qluels_updatebackenddefault.rs:14-18, qluels_getbackend.rs:19-22, qluels_pingbackend.rs:24-28 *)
Definition name_param (p : json) : option text :=
  match struct_fields [str "backendName"] p with Some [n] => req as_str n | _ => None end.
Definition opt_name_param (key : string) (p : json) : option (option text) :=
  match struct_fields [str key] p with Some [n] => as_opt as_str n | _ => None end.
(** workspace_applyedit.rs:42-57 *)
Definition edit_result (r : option json) : option unit :=
  match r with
  | None => Some tt
  | Some j => match struct_fields [str "applied"; str "failure_reason"] j with
              | Some [a; f] => match req as_bool a, as_opt as_str f with Some _, Some _ => Some tt | _, _ => None end
              | _ => None
              end
  end.

(** ** handlers *)
(** lifecycle.rs:17-37 *)
Definition h_shutdown (i : request_id) (s : server) : hres :=
  match status s with
  | Running => Ok_ (with_status ShuttingDown s) [response i (Some JNull) None]
  | _ => Err_ s [] InvalidRequest
  end.
(** registering one backend: lifecycle.rs:93-102 and backend/mod.rs:76-85.  The prefix map is stored
    before the templates are loaded, so a failure there leaves it behind. *)
Inductive added := Added (s : server) | AddErr (s : server).
Definition add_backend (b : backend) (s : server) : added :=
  if f_prefixes_ok F (bk_prefixes b) then
    let s1 := with_backends (backends s) (put (bk_name b) (bk_prefixes b) (converters s)) (default_backend s) s in
    let (a, ok) := f_templates F (bk_queries b) (rest s1) in
    let s2 := with_rest a s1 in
    if ok then
      let s3 := with_backends (put (bk_name b) b (backends s2)) (converters s2) (default_backend s2) s2 in
      Added (if bk_default b then with_backends (backends s3) (converters s3) (Some (bk_name b)) s3 else s3)
    else AddErr s2
  else AddErr s.
Fixpoint add_all (bs : list backend) (s : server) : added :=
  match bs with
  | [] => Added s
  | b :: r => match add_backend b s with Added s' => add_all r s' | AddErr s' => AddErr s' end
  end.
(** lifecycle.rs:40-139 *)
Definition progress (what : string) : json := notification (str "$/progress") (JArr [JStr (str what); f_version_text F]).
Definition h_initialize (i : request_id) (token : bool) (effect : aux -> aux) (s : server) : hres :=
  match status s with
  | Initializing =>
    let s := with_rest (effect (rest s)) s in
    if token then
      match add_all (f_config F (rest s)) s with
      | AddErr s' => Err_ s' [progress "begin"] InvalidParams
      | Added s' => Ok_ s' [progress "begin"; progress "report"; progress "report"; progress "end";
                            response i (Some (f_initialize_result F (rest s'))) None]
      end
    else Ok_ s [response i (Some (f_initialize_result F (rest s))) None]
  | _ => Err_ s [] InvalidRequest
  end.
(** backend/mod.rs:17-38 *)
Definition h_update_default (n : text) (s : server) : hres :=
  match get n (backends s) with
  | None => Err_ s [] InvalidParams
  | Some _ => Ok_ (with_backends (backends s) (converters s) (Some n) s) []
  end.
(** state.rs:113-115 *)
Definition get_default_backend (s : server) : option backend :=
  match default_backend s with None => None | Some n => get n (backends s) end.
(** backend/mod.rs:41-67 *)
Definition h_ping (i : request_id) (n : option text) (s : server) : hres :=
  match (match n with Some n => get n (backends s) | None => get_default_backend s end) with
  | None => Err_ s [] InvalidParams
  | Some b => Ok_ s [response i (Some (JObj [(str "available", JBool (f_ping F b))])) None]
  end.
(** backend/mod.rs:70-87 *)
Definition h_add_backend (b : backend) (s : server) : hres :=
  match add_backend b s with Added s' => Ok_ s' [] | AddErr s' => Err_ s' [] InvalidParams end.
(** backend/mod.rs:90-110, qluels_getbackend.rs:40-65: both members are always written *)
Definition h_get_backend (i : request_id) (n : option text) (s : server) : hres :=
  match (match n with Some n => get n (backends s) | None => get_default_backend s end) with
  | Some b => Ok_ s [response i (Some (f_item F b)) (Some JNull)]
  | None => Ok_ s [response i (Some JNull) (Some (JObj [(str "code", JStr (code_name InvalidParams)); (str "message", JStr []); (str "data", JNull)]))]
  end.
(** backend/mod.rs:113-122, qluels_listbackends.rs:34-51: [default] is the configuration's flag *)
Definition list_item (b : backend) : json :=
  JObj [(str "name", JStr (bk_name b)); (str "url", JStr (bk_url b)); (str "default", JBool (bk_default b))].
Definition h_list_backends (i : request_id) (s : server) : hres :=
  Ok_ s [response i (Some (JArr (map (fun e => list_item (snd e)) (backends s)))) None].
(** turning a feature's reply into messages; the client-edit request takes the next id
    (auto_fix_prefixes.rs:65-69, state.rs:91-95) *)
Definition conclude (i : request_id) (r : reply) (s : server) : hres :=
  match r with
  | Panics => Panic_ []
  | Fail c a => Err_ (with_rest a s) [] c
  | Answer None res err a => Ok_ (with_rest a s) [response i res err]
  | Answer (Some e) res err a =>
    Ok_ (with_counter (bump (counter s)) (with_rest a s)) [server_request (counter s) (str "workspace/applyEdit") e; response i res err]
  end.
(** requests on a document and its tree: formatting/mod.rs:20-37, on_type_formatting/mod.rs:22-38,
    diagnostic/mod.rs:22-61, code_action/mod.rs:27-65, hover/mod.rs:20-34, completion/environment/mod.rs:318-360,
    folding_range/mod.rs:20-34, semantic_tokens/mod.rs:26-59, rename/mod.rs:15-29, references/mod.rs:17-26,
    document_highlight/mod.rs:18-27, jump/mod.rs:23-31, parse_tree.rs:16-31 *)
Definition h_document (m : text) (i : request_id) (u : text) (p : json) (s : server) : hres :=
  match get u (documents s) with
  | None => Err_ s [] InvalidRequest
  | Some d =>
    match f_early F m (d_text d) p with
    | Some c => Err_ s [] c
    | None =>
      match get_cached_parse_tree u s with
      | NoDocument => Err_ s [] InvalidRequest
      | ParsePanic => Panic_ []
      | Tree t s' => conclude i (f_body F m (view_of s') (d_text d) t p) s'
      end
    end
  end.
(** identification/mod.rs:16-34 *)
Definition h_identify (i : request_id) (u : text) (s : server) : hres :=
  match get u (documents s) with
  | None => Err_ s [] InvalidRequest
  | Some d => Ok_ s [response i (Some (f_optype F (d_text d))) None]
  end.
(** execute/mod.rs:20-51 *)
Definition h_execute (i : request_id) (src : text + text) (p : json) (s : server) : hres :=
  match (match src with inl u => option_map d_text (get u (documents s)) | inr q => Some q end) with
  | None => Err_ s [] InvalidRequest
  | Some q =>
    match get_default_backend s with
    | None => Err_ s [] InvalidRequest
    | Some b => conclude i (f_run F (view_of s) b q p) s
    end
  end.
(** textdocument_synchronization.rs:19-69 *)
Definition h_did_change (u : text) (chs : list change) (s : server) : hres :=
  match change_document u chs s with
  | Changed s' => Ok_ s' []
  | ChangeErr c => Err_ s [] c
  | ChangePanic => Panic_ []
  end.
Definition h_did_save (u : text) (s : server) : hres :=
  match get u (documents s) with
  | None => Err_ s [] InvalidRequest
  | Some d => match f_error_positions F (d_text d) with
              | None => Panic_ []
              | Some ds => Ok_ s [notification (str "textDocument/publishDiagnostics") ds]
              end
  end.
(** settings/mod.rs:35-42 *)
Definition h_change_settings (p : json) (s : server) : hres :=
  match f_settings F (rest s) p with inl c => Err_ s [] c | inr a => Ok_ (with_rest a s) [] end.

(** ** dispatch: message_handler/mod.rs:145-205 *)
Inductive route :=
| R_initialize | R_shutdown | R_document (async : bool) | R_identify | R_execute
| R_add_backend | R_get_backend | R_list_backends | R_update_default | R_ping | R_default_settings
| R_initialized | R_exit | R_did_open | R_did_change | R_did_save | R_change_settings | R_cancel
| R_response | R_ignore.
Definition routes : list (string * route) := [
  ("initialize", R_initialize); ("shutdown", R_shutdown);
  ("textDocument/formatting", R_document false); ("textDocument/onTypeFormatting", R_document false);
  ("textDocument/diagnostic", R_document false); ("textDocument/codeAction", R_document false);
  ("textDocument/hover", R_document true); ("textDocument/completion", R_document true);
  ("textDocument/foldingRange", R_document false); ("textDocument/semanticTokens/full", R_document false);
  ("textDocument/semanticTokens/range", R_document false); ("textDocument/rename", R_document false);
  ("textDocument/references", R_document false); ("textDocument/documentHighlight", R_document false);
  ("qlueLs/addBackend", R_add_backend); ("qlueLs/getBackend", R_get_backend);
  ("qlueLs/listBackends", R_list_backends); ("qlueLs/updateDefaultBackend", R_update_default);
  ("qlueLs/pingBackend", R_ping); ("qlueLs/jump", R_document false); ("qlueLs/parseTree", R_document false);
  ("qlueLs/identifyOperationType", R_identify); ("qlueLs/defaultSettings", R_default_settings);
  ("qlueLs/executeOperation", R_execute);
  ("initialized", R_initialized); ("exit", R_exit);
  ("textDocument/didOpen", R_did_open); ("textDocument/didChange", R_did_change); ("textDocument/didSave", R_did_save);
  ("qlueLs/changeSettings", R_change_settings); ("qlueLs/cancelQuery", R_cancel);
  ("response", R_response); ("$/cancelRequest", R_ignore); ("$/setTrace", R_ignore)]%string.
Definition route_of (m : text) : option route :=
  option_map snd (find (fun e => text_eqb (str (fst e)) m) routes).

(** [call!]: a message that does not parse is an error; [call_async!]: [message.parse().unwrap()]
    inside the task panics and [_task.await.expect] takes the server down (mod.rs:122-143) *)
Definition unparsable (async : bool) (s : server) : hres := if async then Panic_ [] else Err_ s [] ParseError.
(** a request type with parameters read by [f] *)
Definition with_params {A} (async : bool) (m : rpc) (f : json -> option A) (s : server) (k : request_id -> json -> A -> hres) : hres :=
  match as_request m with
  | Some (i, Some p) => match f p with Some a => k i p a | None => unparsable async s end
  | _ => unparsable async s
  end.
Definition with_id (m : rpc) (s : server) (k : request_id -> hres) : hres :=
  match as_request m with Some (i, _) => k i | None => Err_ s [] ParseError end.
Definition with_note {A} (async : bool) (m : rpc) (f : json -> option A) (s : server) (k : A -> hres) : hres :=
  match as_notification m with
  | Some (Some p) => match f p with Some a => k a | None => unparsable async s end
  | _ => unparsable async s
  end.
(** notification types without parameters accept any request or notification *)
Definition with_bare (m : rpc) (s : server) (k : hres) : hres :=
  match as_notification m with Some _ => k | None => Err_ s [] ParseError end.

Definition dispatch (m : rpc) (s : server) : hres :=
  match route_of (method_of m) with
  | None => Err_ s [] MethodNotFound
  | Some R_initialize => with_params false m (f_init F) s (fun i _ x => h_initialize i (fst x) (snd x) s)
  | Some R_shutdown => with_id m s (fun i => h_shutdown i s)
  | Some (R_document async) => with_params async m (f_target F (method_of m)) s (fun i p u => h_document (method_of m) i u p s)
  | Some R_identify => with_params false m (f_target F (method_of m)) s (fun i _ u => h_identify i u s)
  | Some R_execute => with_params true m (f_execute F) s (fun i p x => h_execute i x p s)
  | Some R_add_backend => with_note false m (f_backend F) s (fun b => h_add_backend b s)
  | Some R_get_backend => with_params false m (opt_name_param "backend") s (fun i _ n => h_get_backend i n s)
  | Some R_list_backends => with_id m s (fun i => h_list_backends i s)
  | Some R_update_default => with_note false m name_param s (fun n => h_update_default n s)
  | Some R_ping => with_params true m (opt_name_param "backendName") s (fun i _ n => h_ping i n s)
  | Some R_default_settings => with_id m s (fun i => Ok_ s [response i (Some (f_default_settings F)) None])
  | Some R_initialized => with_bare m s (Ok_ (with_status Running s) [])                    (* lifecycle.rs:142-149 *)
  | Some R_exit => with_bare m s (Exit_ [])                                                 (* lifecycle.rs:152-158 *)
  | Some R_did_open => with_note false m did_open_params s (fun x => Ok_ (add_document (fst x) (snd x) s) [])
  | Some R_did_change => with_note false m did_change_params s (fun x => h_did_change (fst x) (snd x) s)
  | Some R_did_save => with_note false m did_save_params s (fun u => h_did_save u s)
  | Some R_change_settings =>
    (* the payload is any JSON value, null included *)
    match as_notification m with
    | Some p => h_change_settings (match p with Some p => p | None => JNull end) s
    | None => Err_ s [] ParseError
    end
  | Some R_cancel =>
    (* cancel/mod.rs:10-28: only logs when the id is unknown; on the native build no request is
       ever registered (state.rs:248-251 is wasm only) *)
    with_note true m (fun p => match struct_fields [str "queryId"] p with Some [n] => req as_str n | _ => None end) s (fun _ => Ok_ s [])
  | Some R_response =>
    (* workspace.rs:10-21; also reached by a message whose method is the string "response" *)
    match m with
    | Response _ r => match edit_result r with Some _ => Ok_ s [] | None => Err_ s [] ParseError end
    | Request _ _ _ => Ok_ s []     (* re-serialised it has id and no result *)
    | Notification _ _ => Err_ s [] ParseError  (* no id *)
    end
  | Some R_ignore => Ok_ s []
  end.

(** server/mod.rs:170-194: errors are answered when an id can be recovered from the raw message *)
Definition error_text : text := [].
Definition handle_message (j : option json) (s : server) : outcome :=
  let failed s out c :=
    match recover_id j with
    | Some i => Next s (out ++ [error_response i c error_text])
    | None => Next s out
    end in
  match match j with Some j => decode_rpc j | None => None end with
  | None => failed s [] ParseError
  | Some m =>
    match dispatch m s with
    | Ok_ s' out => Next s' out
    | Err_ s' out c => failed s' out c
    | Panic_ out => Crash out
    | Exit_ out => Exit 0 out
    end
  end.

(** a whole session; [None] when it ended before all messages were handled *)
Fixpoint run (js : list (option json)) (s : server) : option server * list (list json) :=
  match js with
  | [] => (Some s, [])
  | j :: r =>
    match handle_message j s with
    | Next s' out => let (e, outs) := run r s' in (e, out :: outs)
    | Crash out => (None, [out])
    | Exit _ out => (None, [out])
    end
  end.
End Server.
Arguments mkcached {tree}. Arguments c_uri {tree}. Arguments c_version {tree}. Arguments c_tree {tree}.
Arguments mkserver {tree aux}. Arguments status {tree aux}. Arguments documents {tree aux}.
Arguments backends {tree aux}. Arguments converters {tree aux}. Arguments default_backend {tree aux}.
Arguments cache {tree aux}. Arguments counter {tree aux}. Arguments rest {tree aux}.
Arguments Answer {aux}. Arguments Fail {aux}. Arguments Panics {aux}.
Arguments mkview {aux}. Arguments v_backends {aux}. Arguments v_converters {aux}. Arguments v_default {aux}. Arguments v_aux {aux}.
Arguments mkfeatures {tree aux}.
Arguments f_parse {tree aux}. Arguments f_error_positions {tree aux}. Arguments f_target {tree aux}.
Arguments f_early {tree aux}. Arguments f_body {tree aux}. Arguments f_optype {tree aux}.
Arguments f_execute {tree aux}. Arguments f_run {tree aux}. Arguments f_backend {tree aux}.
Arguments f_prefixes_ok {tree aux}. Arguments f_templates {tree aux}. Arguments f_init {tree aux}.
Arguments f_config {tree aux}. Arguments f_initialize_result {tree aux}. Arguments f_ping {tree aux}.
Arguments f_settings {tree aux}. Arguments f_default_settings {tree aux}. Arguments f_item {tree aux}.
Arguments f_version_text {tree aux}.
Arguments init {tree aux}. Arguments view_of {tree aux}. Arguments with_status {tree aux}. Arguments with_docs {tree aux}.
Arguments with_cache {tree aux}. Arguments with_rest {tree aux}. Arguments with_counter {tree aux}. Arguments with_backends {tree aux}.
Arguments Next {tree aux}. Arguments Crash {tree aux}. Arguments Exit {tree aux}.
Arguments Ok_ {tree aux}. Arguments Err_ {tree aux}. Arguments Panic_ {tree aux}. Arguments Exit_ {tree aux}.
Arguments add_document {tree aux}. Arguments Changed {tree aux}. Arguments ChangeErr {tree aux}. Arguments ChangePanic {tree aux}.
Arguments change_document {tree aux}. Arguments Tree {tree aux}. Arguments NoDocument {tree aux}. Arguments ParsePanic {tree aux}.
Arguments get_cached_parse_tree {tree aux}. Arguments h_shutdown {tree aux}. Arguments Added {tree aux}. Arguments AddErr {tree aux}.
Arguments add_backend {tree aux}. Arguments add_all {tree aux}. Arguments progress {tree aux}. Arguments h_initialize {tree aux}.
Arguments h_update_default {tree aux}. Arguments get_default_backend {tree aux}. Arguments h_ping {tree aux}.
Arguments h_add_backend {tree aux}. Arguments h_get_backend {tree aux}. Arguments h_list_backends {tree aux}.
Arguments conclude {tree aux}. Arguments h_document {tree aux}. Arguments h_identify {tree aux}. Arguments h_execute {tree aux}.
Arguments h_did_change {tree aux}. Arguments h_did_save {tree aux}. Arguments h_change_settings {tree aux}.
Arguments unparsable {tree aux}. Arguments with_params {tree aux A}. Arguments with_id {tree aux}. Arguments with_note {tree aux A}.
Arguments with_bare {tree aux}. Arguments dispatch {tree aux}. Arguments handle_message {tree aux}. Arguments run {tree aux}.
