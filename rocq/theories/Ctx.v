(** Model of KF/kuadrant/context.rs ([ReqRespCtx]), KF/kuadrant/cache.rs and the host
    interface KF/kuadrant/resolver/mod.rs:17-58.

    Everything the filter observes or does is appended to [c_log] (newest first).  The
    host and the external libraries are oracles collected in [env]; the host oracles
    receive the log, so that they may answer differently after every event or effect. *)
From Coq Require Import String List NArith ZArith Bool.
From Verif Require Import Base Value Headers AttrPath.
Import ListNotations.
Open Scope list_scope.

(** CEL syntax trees (crate cel, [Expr]); shape as matched in KF/data/cel.rs:834-912.
    [test] is set for the [has()] form of a selection; [AStruct] is a message literal. *)
Inductive ast :=
| ALit (v : value)
| AIdent (n : text)
| ASelect (operand : ast) (field : text) (test : bool)
| ACall (target : option ast) (fn : text) (args : list ast)
| AList (l : list ast)
| AMap (l : list (ast * ast))
| AStruct (name : text) (l : list (text * ast))
| AComp (iter_range accu_init loop_cond loop_step result : ast) (iter_var accu_var : text)
| AUnspec.

(** JSON documents (crate serde_json, [Value]). *)
Inductive jnum := JPos (n : N) | JNeg (z : Z) | JFloat (bits : N).
Inductive json :=
| JNull | JBool (b : bool) | JNum (n : jnum) | JStr (s : text)
| JArr (l : list json) | JObj (l : list (text * json)).

(** resolver/mod.rs:11-15 *)
Inductive maptype := MReq | MResp.

(** Result of a host read/write: [Ok], [Err(NotAvailable)], any other [Err]
    (KF/data/attribute.rs:26-32). *)
Inductive hres (A : Type) := HOk (a : A) | HNotAvail | HErr.
Arguments HOk {A}. Arguments HNotAvail {A}. Arguments HErr {A}.

(** Arguments of [dispatch_grpc_call] (resolver/mod.rs:42-50). *)
Record call := mkCall {
  cl_upstream : text; cl_service : text; cl_method : text;
  cl_headers : list (text * text); cl_msg : text; cl_timeout : N }.

(** KF/metrics/mod.rs: counters *)
Inductive metric := MConfigs | MHits | MMisses | MAllowed | MDenied | MErrors.

(** Events of a request, inputs and outputs.  [EvRet b] is the value returned to the
    host by a header or body callback ([true] for Pause).  [EvEval]..[EvTeardown] are ghost events
    recorded by the executor model; they have no counterpart in the code's effects and
    are never read by the model except as part of the history given to oracles. *)
Inductive ev :=
(* inputs *)
| EvReqHeaders
| EvReqBody (size : N) (eos : bool)
| EvRespHeaders
| EvRespBody (size : N) (eos : bool)
| EvGrpcResp (tok status size : N)
(* effects on the host *)
| EvDispatch (action : text) (c : call) (tok : option N)
| EvExport (c : call) (tok : option N)
| EvReply (status : N) (h : headers) (body : option text) (ok : bool)
| EvSetMap (m : maptype) (h : headers) (ok : bool)
| EvSetProp (p : path) (v : text) (ok : bool)
| EvResumeReq
| EvResumeResp
| EvMetric (m : metric)
| EvRet (pause : bool)
(* ghost *)
| EvEval (id : text)
| EvDone (id : text)
| EvFailed (id : text)
| EvTerminate (id : text)
| EvHandle (tok : N) (id : text)
| EvTeardown.

Definition log := list ev.

(** KF/services/dynamic.rs:18-25 [DynamicService] (without the shared descriptor
    manager, which is behind [o_encode]/[o_decode]). *)
Record svc := mkSvc {
  sv_upstream : text; sv_service : text; sv_method : text; sv_timeout : N; sv_deny : bool }.

(** Streaming JSON parser verdicts (crate acutejson). *)
Inductive jstatus := JDone | JMore | JError.

(** Oracles: the proxy host and external crates. *)
Record env := mkEnv {
  (* host: resolver/mod.rs:17-58 *)
  h_prop : log -> path -> hres (option text);
  h_map : log -> maptype -> hres headers;
  h_reqheader : log -> text -> option text;
  h_setprop : log -> path -> text -> hres unit;
  h_setmap : log -> maptype -> headers -> hres unit;
  h_reqbody : log -> N -> N -> hres (option text);
  h_respbody : log -> N -> N -> hres (option text);
  h_dispatch : log -> call -> option N;
  h_grpcresp : log -> N -> option text;
  h_reply : log -> N -> headers -> option text -> bool;
  (* crate cel: parser, and interpreter on a variable environment (first match wins) *)
  o_parse : text -> option ast;
  o_cel : log -> ast -> list (text * value) -> option value;
  (* serde_json *)
  o_json : text -> option json;
  o_pointer : json -> text -> option json;
  o_jshow : json -> text;
  o_f64 : text -> option N;
  (* acutejson: verdict and raw text of the matched fields after the given bytes *)
  o_jnew : list text -> bool;
  o_jfeed : list text -> text -> jstatus;
  o_jraw : list text -> text -> list (text * text);
  o_jfinish : list text -> text -> bool;
  (* protobuf: encode a message for / decode a reply of a service *)
  o_encode : log -> svc -> value -> option text;
  o_decode : log -> svc -> text -> option value;
  (* uuid, opentelemetry *)
  o_uuid : log -> text;
  o_trace : log -> list (text * text);
  o_span_on : log -> bool;
  o_spans : log -> option text;
  (* std: [char::is_alphabetic] *)
  o_alpha : N -> bool }.

(** cache.rs:8-12 *)
Inductive cached := CBytes (b : option text) | CHeaders (h : headers).

(** context.rs:461-466 [BodyContext] *)
Record body := mkBody { b_size : N; b_eos : bool; b_vals : list (text * value) }.

(** context.rs:21-34 [ReqRespCtx].  [c_rid] is [Tracker::id] (a OnceCell), [c_track]
    [Tracker::downstream_identifier], [c_vals]/[c_res] the [ValueStore] (the reference
    counts are kept as a multiset of reserved paths), [c_bar] the barrier count,
    [c_binds] [CelScope::bindings] (sorted by scope id as the BTreeMap is).
    Not represented: tracing context, registered CEL struct types, request_data. *)
Record ctx := mkCtx {
  c_log : log;
  c_cache : list (text * cached);
  c_reqb : body;
  c_respb : body;
  c_grpc : option (N * N);
  c_rid : option text;
  c_track : option text;
  c_vals : list (text * value);
  c_res : list text;
  c_bar : N;
  c_binds : list (text * list (text * value)) }.

(** context.rs:37-51 [ReqRespCtx::new] *)
Definition ctx0 (l : log) : ctx :=
  mkCtx l [] (mkBody 0 false []) (mkBody 0 false []) None None None [] [] 0 [].

(* field updates *)
Definition with_log (c : ctx) l := mkCtx l (c_cache c) (c_reqb c) (c_respb c) (c_grpc c) (c_rid c) (c_track c) (c_vals c) (c_res c) (c_bar c) (c_binds c).
Definition with_cache (c : ctx) x := mkCtx (c_log c) x (c_reqb c) (c_respb c) (c_grpc c) (c_rid c) (c_track c) (c_vals c) (c_res c) (c_bar c) (c_binds c).
Definition with_reqb (c : ctx) x := mkCtx (c_log c) (c_cache c) x (c_respb c) (c_grpc c) (c_rid c) (c_track c) (c_vals c) (c_res c) (c_bar c) (c_binds c).
Definition with_respb (c : ctx) x := mkCtx (c_log c) (c_cache c) (c_reqb c) x (c_grpc c) (c_rid c) (c_track c) (c_vals c) (c_res c) (c_bar c) (c_binds c).
Definition with_grpc (c : ctx) x := mkCtx (c_log c) (c_cache c) (c_reqb c) (c_respb c) x (c_rid c) (c_track c) (c_vals c) (c_res c) (c_bar c) (c_binds c).
Definition with_rid (c : ctx) x := mkCtx (c_log c) (c_cache c) (c_reqb c) (c_respb c) (c_grpc c) x (c_track c) (c_vals c) (c_res c) (c_bar c) (c_binds c).
Definition with_track (c : ctx) x := mkCtx (c_log c) (c_cache c) (c_reqb c) (c_respb c) (c_grpc c) (c_rid c) x (c_vals c) (c_res c) (c_bar c) (c_binds c).
Definition with_vals (c : ctx) x := mkCtx (c_log c) (c_cache c) (c_reqb c) (c_respb c) (c_grpc c) (c_rid c) (c_track c) x (c_res c) (c_bar c) (c_binds c).
Definition with_res (c : ctx) x := mkCtx (c_log c) (c_cache c) (c_reqb c) (c_respb c) (c_grpc c) (c_rid c) (c_track c) (c_vals c) x (c_bar c) (c_binds c).
Definition with_bar (c : ctx) x := mkCtx (c_log c) (c_cache c) (c_reqb c) (c_respb c) (c_grpc c) (c_rid c) (c_track c) (c_vals c) (c_res c) x (c_binds c).
Definition with_binds (c : ctx) x := mkCtx (c_log c) (c_cache c) (c_reqb c) (c_respb c) (c_grpc c) (c_rid c) (c_track c) (c_vals c) (c_res c) (c_bar c) x.

Definition emit (e : ev) (c : ctx) : ctx := with_log c (e :: c_log c).

(** Outcome of reading: [Ok(Pending)], [Ok(Available(_))], [Err]. *)
Inductive rd (A : Type) := RPending | RAvail (a : A) | RErr.
Arguments RPending {A}. Arguments RAvail {A}. Arguments RErr {A}.

(** context.rs:234-253 [remote_address] *)
Definition remote_address (E : env) (l : log) : hres (option text) :=
  match h_prop E l [tx "source"; tx "address"] with
  | HOk (Some a) => if utf8_valid a then HOk (Some (strip_port a)) else HErr
  | HOk None => HOk None
  | HNotAvail => HNotAvail
  | HErr => HErr
  end.

Definition p_req_headers : path := [tx "request"; tx "headers"].
Definition p_resp_headers : path := [tx "response"; tx "headers"].
Definition path_eqb (a b : path) : bool :=
  Nat.eqb (length a) (length b) && forallb (fun xy => text_eqb (fst xy) (snd xy)) (combine a b).

(** context.rs:153-184 [fetch_attribute] *)
Definition fetch (E : env) (l : log) (p : path) : hres cached :=
  if path_eqb p p_req_headers then
    match h_map E l MReq with
    | HOk h => HOk (CHeaders h)
    | HNotAvail => HErr
    | HErr => HErr
    end
  else if path_eqb p p_resp_headers then
    match h_map E l MResp with
    | HOk h => HOk (CHeaders h)
    | HNotAvail => HNotAvail
    | HErr => HErr
    end
  else if path_eqb p [tx "source"; tx "remote_address"] then
    match remote_address E l with
    | HOk b => HOk (CBytes b)
    | HNotAvail => HNotAvail
    | HErr => HErr
    end
  else
    match h_prop E l (match p with
                      | r :: _ => if text_eqb r (tx "auth") then wasm_prop p else p
                      | [] => p
                      end) with
    | HOk b => HOk (CBytes b)
    | HNotAvail => HNotAvail
    | HErr => HErr
    end.

(** cache.rs:25-31 [get]: the key is the printed path *)
Definition cache_get (p : path) (c : ctx) : option cached := tget (path_show p) (c_cache c).
(** cache.rs:57-64 [insert] *)
Definition cache_put (p : path) (v : cached) (c : ctx) : ctx :=
  with_cache c (tset (path_show p) v (c_cache c)).

(** cache.rs:33-55 [get_or_insert_with] composed with context.rs:145-151
    [get_attribute_ref]; the typed conversion [from_cached] is applied by the caller. *)
Definition read_attr (E : env) (p : path) (c : ctx) : rd cached * ctx :=
  match cache_get p c with
  | Some v => (RAvail v, c)
  | None =>
      match fetch E (c_log c) p with
      | HOk v => (RAvail v, cache_put p v c)
      | HNotAvail => (RPending, c)
      | HErr => (RErr, c)
      end
  end.

(** cache.rs:75-88 [populate] and context.rs:226-232 [ensure_attributes]: errors are
    only logged. *)
Definition populate (E : env) (c : ctx) (p : path) : ctx :=
  match cache_get p c with
  | Some _ => c
  | None => match fetch E (c_log c) p with
            | HOk v => cache_put p v c
            | HNotAvail | HErr => c
            end
  end.
Definition ensure_attributes (E : env) (ps : list path) (c : ctx) : ctx := fold_left (populate E) ps c.

(** attribute.rs:160-168 [Headers::from_cached] *)
Definition read_headers (E : env) (p : path) (c : ctx) : rd headers * ctx :=
  match read_attr E p c with
  | (RAvail (CHeaders h), c') => (RAvail h, c')
  | (RAvail (CBytes _), c') => (RErr, c')
  | (RPending, c') => (RPending, c')
  | (RErr, c') => (RErr, c')
  end.

(** attribute.rs:60-71 with [String::parse] (74-82) *)
Definition read_string (E : env) (p : path) (c : ctx) : rd (option text) * ctx :=
  match read_attr E p c with
  | (RAvail (CBytes (Some b)), c') => (match parse_string b with Some s => RAvail (Some s) | None => RErr end, c')
  | (RAvail (CBytes None), c') => (RAvail None, c')
  | (RAvail (CHeaders _), c') => (RErr, c')
  | (RPending, c') => (RPending, c')
  | (RErr, c') => (RErr, c')
  end.

Definition hok {A} (r : hres A) : bool := match r with HOk _ => true | _ => false end.

(** context.rs:186-198 [store_attribute_bytes] and 255-265 [set_attribute]:
    [RAvail tt] written, [RPending] host says not available, [RErr] error. *)
Definition set_attribute (E : env) (p : path) (v : text) (c : ctx) : rd unit * ctx :=
  let r := h_setprop E (c_log c) (kuadrant_host_path p) v in
  let c1 := emit (EvSetProp (kuadrant_host_path p) v (hok r)) c in
  match r with
  | HOk _ => (RAvail tt, cache_put p (CBytes (Some v)) c1)
  | HNotAvail => (RPending, c1)
  | HErr => (RErr, c1)
  end.

(** tasks/headers.rs:23-30: the path of a header target *)
Definition target_path (m : maptype) : path := match m with MReq => p_req_headers | MResp => p_resp_headers end.

(** context.rs:200-224 [store_attribute_headers] and 268-278 [set_attribute_map],
    called with the path of [m] *)
Definition set_headers (E : env) (m : maptype) (h : headers) (c : ctx) : rd unit * ctx :=
  let r := h_setmap E (c_log c) m h in
  let c1 := emit (EvSetMap m h (hok r)) c in
  match r, m with
  | HOk _, _ => (RAvail tt, cache_put (target_path m) (CHeaders h) c1)
  | HNotAvail, MReq => (RErr, c1)
  | HNotAvail, MResp => (RPending, c1)
  | HErr, _ => (RErr, c1)
  end.

(** context.rs:390-410 [Tracker::get_id] *)
Definition request_id (E : env) (c : ctx) : text * ctx :=
  match c_rid c with
  | Some id => (id, c)
  | None =>
      match read_headers E p_req_headers c with
      | (RAvail h, c1) =>
          match h_get (tx "x-request-id") h with
          | Some id => (id, with_rid c1 (Some id))
          | None => let id := o_uuid E (c_log c1) in (id, with_rid c1 (Some id))
          end
      | (_, c1) => let id := o_uuid E (c_log c1) in (id, with_rid c1 (Some id))
      end
  end.

(** context.rs:304-328 [dispatch_grpc_call].  [mk] wraps the logged effect. *)
Definition dispatch (E : env) (mk : call -> option N -> ev)
    (upstream service method : text) (msg : text) (timeout : N) (c : ctx) : option N * ctx :=
  let tr := o_trace E (c_log c) in
  let (rid, c1) := request_id E c in
  let cl := mkCall upstream service method (tr ++ [(tx "x-request-id", rid)]) msg timeout in
  let r := h_dispatch E (c_log c1) cl in
  (r, emit (mk cl r) c1).

(** context.rs:334-341 [send_http_reply] *)
Definition send_reply (E : env) (status : N) (h : headers) (b : option text) (c : ctx) : bool * ctx :=
  let ok := h_reply E (c_log c) status h b in
  (ok, emit (EvReply status h b ok) c).

(** context.rs:368-373 [tracker] *)
Definition tracker (E : env) (c : ctx) : option (text * text) * ctx :=
  match c_track c with
  | None => (None, c)
  | Some name => let (rid, c1) := request_id E c in (Some (name, rid), c1)
  end.

(** context.rs:436-438, 440-449 [Barrier::raise]/[lower] (u32 overflow not modelled:
    the count never exceeds the number of calls in flight) *)
Definition raise (c : ctx) : ctx := with_bar c (c_bar c + 1)%N.
Definition lower (c : ctx) : ctx := with_bar c (c_bar c - 1)%N.
(** context.rs:451-453 *)
Definition tripped (c : ctx) : bool := (0 <? c_bar c)%N.

(** context.rs:105-117 [set_grpc_response_data]: an error (already set) is ignored by
    the caller (executor.rs:173-176) *)
Definition set_grpc (status size : N) (c : ctx) : ctx :=
  match c_grpc c with
  | Some _ => c
  | None => with_grpc c (Some (status, size))
  end.
(** context.rs:119-123 [get_grpc_response_data] *)
Definition take_grpc (c : ctx) : option (N * N) * ctx := (c_grpc c, with_grpc c None).

(** context.rs:477-480, 482-484 *)
Definition set_size (n : N) (eos : bool) (b : body) : body := mkBody n eos (b_vals b).
Definition set_value (k : text) (v : value) (b : body) : body := mkBody (b_size b) (b_eos b) (tset k v (b_vals b)).

(** context.rs:544-546 [is_ancestor] *)
Definition is_ancestor (scope task : text) : bool :=
  text_eqb task scope || starts_with (scope ++ [dot]) task.

(** context.rs:536-541 [add_scoped_binding]; insertion in a BTreeMap keeps keys sorted *)
Fixpoint bind_insert (scope name : text) (v : value) (b : list (text * list (text * value)))
  : list (text * list (text * value)) :=
  match b with
  | [] => [(scope, [(name, v)])]
  | (s, l) :: b' =>
      if text_eqb scope s then (s, l ++ [(name, v)]) :: b'
      else if text_leb scope s then (scope, [(name, v)]) :: b
      else (s, l) :: bind_insert scope name v b'
  end.
Definition add_binding (scope name : text) (v : value) (c : ctx) : ctx :=
  with_binds c (bind_insert scope name v (c_binds c)).

(** context.rs:525-533 [CelScope::new_ctx]: variables visible to a task.  In the
    result the binding added last comes first, as [add_variable] overrides. *)
Definition scope_vars (task : text) (c : ctx) : list (text * value) :=
  rev (flat_map (fun sl => if is_ancestor (fst sl) task then snd sl else []) (c_binds c)).

(** context.rs:594-626 [ValueStore] *)
Definition val_get (p : text) (c : ctx) : option value := tget p (c_vals c).
Definition val_pending (p : text) (c : ctx) : bool :=
  match val_get p c with Some _ => false | None => mem_text p (c_res c) end.
(** context.rs:607-618: the BTreeMap range query finds a stored path with the prefix iff
    there is one, since all strings with a prefix are contiguous in the order *)
Definition val_has_prefix (p : text) (c : ctx) : bool :=
  existsb (fun kv => starts_with p (fst kv)) (c_vals c) || existsb (starts_with p) (c_res c).
Definition val_store (p : text) (v : value) (c : ctx) : ctx := with_vals c (tset p v (c_vals c)).
(** context.rs:553-565, 567-585: reservation and its [Drop] *)
Definition reserve (p : text) (c : ctx) : ctx := with_res c (p :: c_res c).
Definition release (ps : list text) (c : ctx) : ctx := with_res c (remove_all ps (c_res c)).
