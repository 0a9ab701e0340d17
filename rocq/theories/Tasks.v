(** Model of the tasks: KF/kuadrant/pipeline/tasks/*.rs. *)
From Coq Require Import String List NArith ZArith Bool.
From Verif Require Import Base Value Headers AttrPath Ctx CelProps CelEval Sse Body ValueBytes.
Import ListNotations.
Open Scope list_scope.

(** store.rs:18-22 [BodySource] *)
Inductive source := SrcReq | SrcResp.
(** store.rs:24-28 [BodyParseState] *)
Inductive bstate := BSNone | BSPending (s : source) (fields : list text) | BSActive (s : source) (p : bparser).

(** The task objects.  [TPending] is the [PendingTask] built by dynamic.rs:147-166 with
    its closure's captured variables, [TPendNoop] the one with [noop_response_processor]
    (mod.rs:94-122).  The span, action and sources of the tracing decorator are not
    represented: they only reach the tracing library. *)
Inductive task :=
| TDynamic (id : text) (s : svc) (var : text) (msg : expr) (on_reply : list task)
           (pred : expr) (deps : list text) (guard : bool)
| TPending (id : text) (s : svc) (var : text) (on_reply : list task) (guard : bool)
| TPendNoop (id : text) (guard : bool)
| TFailureMode (t : task) (abort : bool)
| TTracing (t : task)
| TFail (id : text) (pred : expr) (terminal : bool)
| THeaders (id : text) (pred hexpr : expr) (target : maptype) (terminal : bool)
| TReply (id : text) (pred deny : expr) (terminal : bool)
| TStore (id : text) (pred ex : expr) (path : text) (export terminal : bool) (bs : bstate)
| TToken (strat : option strategy) (fields : list text)
| TNoop.

(** mod.rs:71-80 [TaskOutcome] *)
Inductive outcome :=
| ODone
| ODeferred (tok : N) (t : task)
| ORequeued (ts : list task)
| OFailed
| OTerminate (t : task).

(** [Task::id] of every task *)
Fixpoint t_id (t : task) : text :=
  match t with
  | TDynamic id _ _ _ _ _ _ _ | TPending id _ _ _ _ | TPendNoop id _ | TFail id _ _
  | THeaders id _ _ _ _ | TReply id _ _ _ | TStore id _ _ _ _ _ _ => id
  | TFailureMode t _ | TTracing t => t_id t
  | TToken _ _ => tx "token_usage"
  | TNoop => tx "noop"
  end.
(** [Task::dependencies]: the default is none (mod.rs:32-34); dynamic.rs:65-67 has them
    and the two wrappers forward (failure_mode.rs:46-48, tracing_decorator.rs:85-87) *)
Fixpoint t_deps (t : task) : list text :=
  match t with
  | TDynamic _ _ _ _ _ _ deps _ => deps
  | TFailureMode t _ | TTracing t => t_deps t
  | _ => []
  end.
(** [Task::is_guard]: the default is [false] (mod.rs:36-38), overridden by dynamic.rs:69-71
    and mod.rs:66-68 only; the wrappers do not forward it *)
Definition t_guard (t : task) : bool :=
  match t with
  | TDynamic _ _ _ _ _ _ _ g | TPending _ _ _ _ g | TPendNoop _ g => g
  | _ => false
  end.

(** Paths reserved by the store tasks inside a task (store.rs:38, context.rs:548-585) *)
Fixpoint t_paths (t : task) : list text :=
  match t with
  | TDynamic _ _ _ _ rs _ _ _ | TPending _ _ _ rs _ =>
      (fix go l := match l with [] => [] | r :: l' => t_paths r ++ go l' end) rs
  | TFailureMode t _ | TTracing t => t_paths t
  | TStore _ _ _ p _ _ _ => [p]
  | _ => []
  end.
Definition ts_paths (l : list task) : list text := flat_map t_paths l.
Definition o_paths (o : outcome) : list text :=
  match o with
  | ODone | OFailed => []
  | ODeferred _ t | OTerminate t => t_paths t
  | ORequeued ts => ts_paths ts
  end.

(** send_reply.rs:34-47 [SendReplyTask::default] *)
Definition true_expr : expr := expr_of (ALit (VBool true)).
Definition ise_body : text := tx "Internal Server Error." ++ [LF].
Definition default_deny : ast :=
  AStruct (tx "DenyResponse")
    [(tx "status", ALit (VUInt 500)); (tx "headers", AList []); (tx "body", ALit (VString ise_body))].
Definition default_reply : task := TReply (tx "default") true_expr (expr_of default_deny) false.

(** dynamic.rs:90-99, 129-138, fail.rs:46-55: data still missing at the end of a body *)
Definition body_over (ex : expr) (c : ctx) : bool :=
  (has_req ex && b_eos (c_reqb c)) || (has_resp ex && b_eos (c_respb c)).

(** dynamic.rs:86-173 [DynamicTask::apply] with services/dynamic.rs:60-84 [dispatch_value] *)
Definition apply_dynamic (E : env) (id : text) (s : svc) (var : text) (msg : expr) (on_reply : list task)
    (pred : expr) (deps : list text) (guard : bool) (c : ctx) : outcome * ctx :=
  let self := TDynamic id s var msg on_reply pred deps guard in
  let '(r, _, c1) := test_in E pred (scope_vars id c) c in
  match r with
  | RPending => (if body_over pred c1 then OFailed else ORequeued [self], c1)
  | RErr => (OFailed, c1)
  | RAvail false => (ODone, c1)
  | RAvail true =>
      let '(r2, _, c2) := eval_in E msg (scope_vars id c1) c1 in
      match r2 with
      | RPending => (if body_over msg c2 then OFailed else ORequeued [self], c2)
      | RErr => (OFailed, c2)
      | RAvail v =>
          match o_encode E (c_log c2) s v with
          | None => (OFailed, c2)
          | Some bytes =>
              let (r3, c3) := dispatch E (EvDispatch id) (sv_upstream s) (sv_service s) (sv_method s)
                                bytes (sv_timeout s) c2 in
              match r3 with
              | None => (OFailed, c3)
              | Some tok => (ODeferred tok (TPending id s var on_reply guard), if guard then raise c3 else c3)
              end
          end
      end
  end.

(** dynamic.rs:175-227 [process_dynamic_response] *)
Definition process_response (E : env) (id : text) (s : svc) (var : text) (on_reply : list task) (c : ctx)
  : outcome * ctx :=
  let (g, c1) := take_grpc c in
  match g with
  | None => (OFailed, c1)
  | Some (status, size) =>
      if negb (N.eqb status 0) then (OFailed, c1)
      else match on_reply with
           | [] => (ODone, c1)
           | _ => match h_grpcresp E (c_log c1) size with
                  | None => (OFailed, c1)
                  | Some b => match o_decode E (c_log c1) s b with
                              | None => (OFailed, c1)
                              | Some v => (ORequeued on_reply, add_binding id var v c1)
                              end
                  end
           end
  end.

(** dynamic.rs:155-163: the response closure *)
Definition apply_pending (E : env) (id : text) (s : svc) (var : text) (on_reply : list task) (guard : bool)
    (c : ctx) : outcome * ctx :=
  let (o, c1) := process_response E id s var on_reply c in
  (o, if guard then lower c1 else c1).

(** mod.rs:94-122 [noop_response_processor] *)
Definition apply_noop (guard : bool) (c : ctx) : outcome * ctx :=
  let c1 := if guard then lower c else c in
  (ODone, snd (take_grpc c1)).

(** fail.rs:32-60 [FailTask::apply] *)
Definition apply_fail (E : env) (id : text) (pred : expr) (terminal : bool) (c : ctx) : outcome * ctx :=
  let '(r, _, c1) := test_in E pred (scope_vars id c) c in
  match r with
  | RAvail true => if terminal then (OTerminate default_reply, emit (EvMetric MErrors) c1) else (ODone, c1)
  | RAvail false => (ODone, c1)
  | RPending => (if body_over pred c1 then OFailed else ORequeued [TFail id pred terminal], c1)
  | RErr => (OFailed, c1)
  end.

(** headers.rs:64-148 [ModifyHeadersTask::apply]; only the [Set] operation is ever built *)
Definition apply_headers (E : env) (id : text) (pred hexpr : expr) (target : maptype) (terminal : bool)
    (c : ctx) : outcome * ctx :=
  let self := THeaders id pred hexpr target terminal in
  let '(r, vs, c1) := test_in E pred (scope_vars id c) c in
  match r with
  | RAvail false => (ODone, c1)
  | RPending => (ORequeued [self], c1)
  | RErr => (OFailed, c1)
  | RAvail true =>
      let '(r2, _, c2) := eval_in E hexpr vs c1 in
      match r2 with
      | RPending => (ORequeued [self], c2)
      | RErr => (OFailed, c2)
      | RAvail v =>
          match header_pairs v with
          | [] => (ODone, c2)
          | pairs =>
              let (r3, c3) := read_headers E (target_path target) c2 in
              match r3 with
              | RPending => (ORequeued [self], c3)
              | RErr => (OFailed, c3)
              | RAvail h =>
                  let (r4, c4) := set_headers E target (h_set_all pairs h) c3 in
                  match r4 with
                  | RAvail _ => (if terminal then OTerminate default_reply else ODone, c4)
                  | RPending => (ORequeued [self], c4)
                  | RErr => (OFailed, c4)
                  end
              end
          end
      end
  end.

(** send_reply.rs:85-108: status, headers and body of a [DenyResponse] *)
Definition deny_status (fs : list (text * value)) : N :=
  match tget (tx "status") fs with
  | Some (VUInt n) => N.modulo n 4294967296
  | _ => 500
  end.
Definition deny_body (fs : list (text * value)) : option text :=
  match tget (tx "body") fs with
  | Some (VString []) => None
  | Some (VString b) => Some b
  | _ => None
  end.
Definition deny_headers (fs : list (text * value)) : headers :=
  match tget (tx "headers") fs with
  | Some v => header_pairs v
  | None => []
  end.

(** send_reply.rs:59-146 [SendReplyTask::apply] *)
Definition apply_reply (E : env) (id : text) (pred deny : expr) (terminal : bool) (c : ctx) : outcome * ctx :=
  let '(r, vs, c1) := test_in E pred (scope_vars id c) c in
  match r with
  | RAvail false => (ODone, c1)
  | RPending => (ORequeued [TReply id pred deny terminal], c1)
  | RErr => (OFailed, c1)
  | RAvail true =>
      let '(r2, _, c2) := eval_in E deny vs c1 in
      match r2 with
      | RAvail (VStruct _ fs) =>
          let (tr, c3) := tracker E c2 in
          let h := deny_headers fs ++ (match tr with Some kv => [kv] | None => [] end) in
          let c4 := emit (EvMetric MDenied) c3 in
          let (ok, c5) := send_reply E (deny_status fs) h (deny_body fs) c4 in
          (if ok then (if terminal then OTerminate TNoop else ODone) else OFailed, c5)
      | RAvail _ => (OFailed, c2)
      | RPending => (OFailed, c2)
      | RErr => (OFailed, c2)
      end
  end.

(** store.rs:83-122 [create_parser]: [Ok(Some)], [Ok(None)] (pending), [Err] *)
Definition create_parser (E : env) (src : source) (fields : list text) (c : ctx) : rd bparser * ctx :=
  match src with
  | SrcReq => (match jp_new E fields with Some p => RAvail (BJson p) | None => RErr end, c)
  | SrcResp =>
      let json := match jp_new E fields with Some p => RAvail (BJson p) | None => RErr end in
      match read_headers E p_resp_headers c with
      | (RAvail h, c1) => (if is_sse_type h then RAvail (BSse (sb_new fields)) else json, c1)
      | (RPending, c1) => (RPending, c1)
      | (RErr, c1) => (json, c1)
      end
  end.

Definition src_body (src : source) (c : ctx) : body := match src with SrcReq => c_reqb c | SrcResp => c_respb c end.
Definition src_set (src : source) (b : body) (c : ctx) : ctx :=
  match src with SrcReq => with_reqb c b | SrcResp => with_respb c b end.
Definition src_read (E : env) (src : source) (start len : N) (c : ctx) : hres (option text) :=
  match src with SrcReq => h_reqbody E (c_log c) start len | SrcResp => h_respbody E (c_log c) start len end.

(** store.rs:145-207: feed the parser.  [RAvail (p, c)]: go on with the expressions;
    [RPending]: requeue with the parser as it is; [RErr]: the task fails. *)
Definition feed_parser (E : env) (src : source) (p : bparser) (c : ctx) : rd (bparser * ctx) :=
  let b := src_body src c in
  if N.eqb (b_size b) 0 && negb (b_eos b) then RPending
  else
    let fed : rd bparser :=
      if (bp_consumed p <? b_size b)%N then
        match src_read E src (bp_consumed p) (b_size b - bp_consumed p) c with
        | HOk (Some chunk) => match bp_feed E chunk p with Some p' => RAvail p' | None => RErr end
        | HOk None => RErr
        | HNotAvail => RPending
        | HErr => RErr
        end
      else RAvail p in
    match fed with
    | RPending => RPending
    | RErr => RErr
    | RAvail p1 =>
        let fin : option bparser :=
          if b_eos b then
            match bp_finalize E p1 with
            | Some p2 => match bp_remaining p2 with [] => Some p2 | _ => None end
            | None => None
            end
          else Some p1 in
        match fin with
        | None => RErr
        | Some p2 => RAvail (p2, src_set src (bp_populate p2 b) c)
        end
    end.

(** store.rs:209-265: predicate, expression, export, store *)
Definition store_value (E : env) (self : task) (id : text) (pred ex : expr) (path : text)
    (export terminal : bool) (c : ctx) : outcome * ctx :=
  let '(r, vs, c1) := test_in E pred (scope_vars id c) c in
  match r with
  | RAvail false => (ODone, c1)
  | RPending => (ORequeued [self], c1)
  | RErr => (OFailed, c1)
  | RAvail true =>
      let '(r2, _, c2) := eval_in E ex vs c1 in
      match r2 with
      | RPending => (ORequeued [self], c2)
      | RErr => (OFailed, c2)
      | RAvail v =>
          let exported : bool * ctx :=
            if export then
              match value_bytes v with
              | Some bytes =>
                  match set_attribute E (path_parse path) bytes c2 with
                  | (RErr, c3) => (false, c3)
                  | (_, c3) => (true, c3)
                  end
              | None => (false, c2)
              end
            else (true, c2) in
          let (ok, c3) := exported in
          if ok then (if terminal then OTerminate default_reply else ODone, val_store path v c3)
          else (OFailed, c3)
      end
  end.

(** store.rs:130-268 [StoreTask::apply] *)
Definition apply_store (E : env) (id : text) (pred ex : expr) (path : text) (export terminal : bool)
    (bs : bstate) (c : ctx) : outcome * ctx :=
  let self bs := TStore id pred ex path export terminal bs in
  let run (src : source) (p : bparser) (c : ctx) : outcome * ctx :=
    match feed_parser E src p c with
    | RPending => (ORequeued [self (BSActive src p)], c)
    | RErr => (OFailed, c)
    | RAvail (p', c') => store_value E (self (BSActive src p')) id pred ex path export terminal c'
    end in
  match bs with
  | BSNone => store_value E (self BSNone) id pred ex path export terminal c
  | BSPending src fields =>
      match create_parser E src fields c with
      | (RAvail p, c1) => run src p c1
      | (RPending, c1) => (ORequeued [self bs], c1)
      | (RErr, c1) => (OFailed, c1)
      end
  | BSActive src p => run src p c
  end.

(** token_usage.rs:44-114 [TokenUsageTask::apply] *)
Definition apply_token (E : env) (strat : option strategy) (fields : list text) (c : ctx) : outcome * ctx :=
  let go (s : strategy) (c : ctx) : outcome * ctx :=
    let fed : rd strategy :=
      if (0 <? b_size (c_respb c))%N then
        match h_respbody E (c_log c) 0 (b_size (c_respb c)) with
        | HOk (Some bytes) => RAvail (st_feed bytes s)
        | HOk None => RAvail s
        | HNotAvail => RPending
        | HErr => RErr
        end
      else RAvail s in
    match fed with
    | RPending => (ORequeued [TToken (Some s) fields], c)
    | RErr => (OFailed, c)
    | RAvail s' =>
        if b_eos (c_respb c) then (ODone, with_respb c (st_populate E fields s' (c_respb c)))
        else (ORequeued [TToken (Some s') fields], c)
    end in
  match strat with
  | Some s => go s c
  | None =>
      match read_headers E p_resp_headers c with
      | (RAvail h, c1) => go (select_strategy h) c1
      | (RPending, c1) => (ORequeued [TToken None fields], c1)
      | (RErr, c1) => (OFailed, c1)
      end
  end.

(** [Task::apply] *)
Fixpoint apply (E : env) (t : task) (c : ctx) {struct t} : outcome * ctx :=
  match t with
  | TDynamic id s var msg rs pred deps g => apply_dynamic E id s var msg rs pred deps g c
  | TPending id s var rs g => apply_pending E id s var rs g c
  | TPendNoop _ g => apply_noop g c
  | TFailureMode t' abort =>
      (* failure_mode.rs:18-39 *)
      match apply E t' c with
      | (OFailed, c1) =>
          let c2 := emit (EvMetric MErrors) c1 in
          (if abort then OTerminate default_reply else ODone, c2)
      | (ODeferred tok p, c1) => (ODeferred tok (TFailureMode p abort), c1)
      | (o, c1) => (o, c1)
      end
  | TTracing t' =>
      (* tracing_decorator.rs:39-80 *)
      match apply E t' c with
      | (ODeferred tok p, c1) => (ODeferred tok (TTracing p), c1)
      | (ORequeued ts, c1) => (ORequeued (map TTracing ts), c1)
      | (OTerminate t1, c1) => (OTerminate (TTracing t1), c1)
      | (o, c1) => (o, c1)
      end
  | TFail id pred term => apply_fail E id pred term c
  | THeaders id pred hx tg term => apply_headers E id pred hx tg term c
  | TReply id pred deny term => apply_reply E id pred deny term c
  | TStore id pred ex path export term bs => apply_store E id pred ex path export term bs c
  | TToken st fs => apply_token E st fs c
  | TNoop => (ODone, c)
  end.

(** export_traces.rs:11-13 [ExportTracesTask] (its [TracingService]) *)
Record td := mkTd { td_upstream : text; td_timeout : N }.

(** export_traces.rs:22-44 [execute] with services/tracing.rs:75-107; [None] is
    [TeardownOutcome::Done] *)
Definition td_exec (E : env) (t : td) (c : ctx) : option N * ctx :=
  match o_spans E (c_log c) with
  | None => (None, c)
  | Some msg => dispatch E EvExport (td_upstream t)
                  (tx "opentelemetry.proto.collector.trace.v1.TraceService") (tx "Export")
                  msg (td_timeout t) c
  end.
