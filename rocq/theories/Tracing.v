(** Model of KF/kuadrant/context.rs (CX) [extract_trace_context], [enter_request_span],
    [end_request_span], [get_tracing_headers], of KF/kuadrant/pipeline/tasks/tracing_decorator.rs (TD)
    and export_traces.rs (ET), of KF/tracing/propagation.rs, and of [init_observability] and
    [set_log_level] in KF/tracing/mod.rs (OB): which trace context the calls of a request carry.
    The requests of an instance share one thread, and so one stack of entered
    spans; this is why the model is about all of them together.

    The crates tracing, tracing-subscriber, tracing-opentelemetry and opentelemetry are taken
    from their documentation: the stack of entered spans (tracing_subscriber::registry), the
    contextual parent of a new span, filters per layer, and the composite propagator of
    root_context.rs:105-110. *)
From Coq Require Import String List NArith Bool Ascii.
From Verif Require Import Base Headers.
Import ListNotations.
Open Scope list_scope.

(** An OpenTelemetry context: the trace and span ids of the active span, and the baggage *)
Record ocx := mkOcx { oc_trace : option (N * N); oc_bag : text }.
Definition root_cx : ocx := mkOcx None [].

(** The propagators' parsers, the id generator (by the number of the span), and whether entering a
    span makes its context the current one of the opentelemetry crate *)
Record tparams := mkTp {
  tp_parent : list (text * text) -> option (N * N);
  tp_baggage : list (text * text) -> option text;
  tp_trace_id : nat -> N;
  tp_span_id : nat -> N;
  tp_activate : bool
}.

(** CX:20-33, 440-446: what a request keeps ([TracingContext]), and the spans of its decorated tasks
    (TD:4-9; [None]: the span is disabled) *)
Record treq := mkTreq { tq_otel : ocx; tq_guard : option nat; tq_spans : list (text * option nat) }.

(** The filters, once there are any (OB:33-34, 56-80): the most verbose level of spans recorded for
    export, and of what is logged; the contexts of the spans made so far (by number; empty if
    not recorded), the entered spans (newest first, with the mark the registry gives to one entered
    again), the requests, and the calls made (newest first): request, and context injected into the
    headers *)
Record tworld := mkTw { tw_filters : option (nat * nat); tw_spans : list ocx; tw_stack : list (nat * bool); tw_reqs : list (N * treq); tw_calls : list (N * ocx) }.
Definition tw0 : tworld := mkTw None [] [] [] [].
(** The levels: off 0, error 1, warn 2, info 3, debug 4, trace 5 *)
Definition L_info : nat := 3.
Definition L_debug : nat := 4.
(** OB:38-50: what the filter of the export layer lets pass; if tracing is not configured there is no
    filter, which lets everything pass *)
Definition export_level (use : bool) (level : option text) : nat :=
  if use then
    match level with
    | Some l => if text_eqb l (tx "TRACE") then 5 else if text_eqb l (tx "DEBUG") then 4 else if text_eqb l (tx "INFO") then 3
                else if text_eqb l (tx "WARN") then 2 else if text_eqb l (tx "ERROR") then 1 else if text_eqb l (tx "OFF") then 0 else 2
    | None => 2
    end
  else 5.
(** a span of level [L] is recorded, is made at all *)
Definition records (L : nat) (w : tworld) : bool := match tw_filters w with Some (r, _) => Nat.leb L r | None => false end.
Definition enabled (L : nat) (w : tworld) : bool := match tw_filters w with Some (r, l) => Nat.leb L r || Nat.leb L l | None => false end.

(** the current span: the newest not marked *)
Definition current (w : tworld) : option nat := option_map fst (find (fun s => negb (snd s)) (tw_stack w)).
(** [Span::current().context()] *)
Definition current_cx (w : tworld) : ocx :=
  match current w with Some s => nth s (tw_spans w) root_cx | None => root_cx end.
(** the parent of a span made now: the newest recorded one *)
Definition recorded (cx : ocx) : bool := match oc_trace cx with Some _ => true | None => false end.
Definition parent_cx (w : tworld) : ocx :=
  match find (fun s => negb (snd s) && recorded (nth (fst s) (tw_spans w) root_cx)) (tw_stack w) with
  | Some s => nth (fst s) (tw_spans w) root_cx
  | None => root_cx
  end.
Definition enter (s : nat) (w : tworld) : tworld :=
  mkTw (tw_filters w) (tw_spans w) ((s, existsb (fun x => Nat.eqb s (fst x)) (tw_stack w)) :: tw_stack w) (tw_reqs w) (tw_calls w).
(** the newest entry of the span is removed *)
Fixpoint pop (s : nat) (l : list (nat * bool)) : list (nat * bool) :=
  match l with [] => [] | x :: l' => if Nat.eqb s (fst x) then l' else x :: pop s l' end.
Definition leave (s : nat) (w : tworld) : tworld := mkTw (tw_filters w) (tw_spans w) (pop s (tw_stack w)) (tw_reqs w) (tw_calls w).
(** a new span below [parent] *)
Definition child (P : tparams) (n : nat) (parent : ocx) : ocx :=
  mkOcx (Some (match oc_trace parent with Some (t, _) => t | None => tp_trace_id P n end, tp_span_id P n)) (oc_bag parent).
Definition new_span (P : tparams) (L : nat) (parent : ocx) (w : tworld) : nat * tworld :=
  let n := length (tw_spans w) in (n, mkTw (tw_filters w) (tw_spans w ++ [if records L w then child P n parent else root_cx]) (tw_stack w) (tw_reqs w) (tw_calls w)).
(** a span below the current one, if such spans are made *)
Definition make_span (P : tparams) (L : nat) (w : tworld) : option nat * tworld :=
  if enabled L w then let '(n, w1) := new_span P L (parent_cx w) w in (Some n, w1) else (None, w).
Definition enter_opt (s : option nat) (w : tworld) : tworld := match s with Some n => enter n w | None => w end.
Definition leave_opt (s : option nat) (w : tworld) : tworld := match s with Some n => leave n w | None => w end.
(** [TextMapCompositePropagator::extract] on the map of the headers (propagation.rs:5-27) *)
Definition extract (P : tparams) (cx : ocx) (m : list (text * text)) : ocx :=
  mkOcx (match tp_parent P m with Some t => Some t | None => oc_trace cx end)
        (match tp_baggage P m with Some b => b | None => oc_bag cx end).

Definition nget_req (r : N) (w : tworld) : option treq := aget N.eqb r (tw_reqs w).
Definition set_req (r : N) (q : treq) (w : tworld) : tworld := mkTw (tw_filters w) (tw_spans w) (tw_stack w) (aset N.eqb r q (tw_reqs w)) (tw_calls w).
Definition del_req (r : N) (w : tworld) : tworld :=
  mkTw (tw_filters w) (tw_spans w) (tw_stack w) (adel N.eqb r (tw_reqs w)) (tw_calls w).
(** CX:343-358: the context of a call made now *)
Definition call_cx (q : treq) (w : tworld) : ocx := match tq_guard q with Some _ => current_cx w | None => tq_otel q end.
Definition add_call (r : N) (cx : ocx) (w : tworld) : tworld := mkTw (tw_filters w) (tw_spans w) (tw_stack w) (tw_reqs w) ((r, cx) :: tw_calls w).
(** KF/kuadrant/pipeline/tasks/dynamic.rs:108-143: calls are made within a span of level debug *)
Definition call_in (P : tparams) (r : N) (q : treq) (w : tworld) : tworld :=
  let '(s, w1) := make_span P L_debug w in
  let w2 := enter_opt s w1 in
  leave_opt s (add_call r (call_cx q w2) w2).

(** What happens, in any order:
    - [TConfig use level log]: a configuration is read (root_context.rs:143-150): whether tracing is
      configured, the default level, and the log level of the host;
    - [TLog log]: the log level of the host is read (root_context.rs:121-123);
    - [TBegin r m on]: the pipeline of [r] is built (factory.rs:144-176); [m] are the request headers if
      available, [on] whether its action set exports traces;
    - [TApply r t calls]: a decorated task is applied (TD:40-77), and makes a call or not;
    - [TReplies r t us]: its reply actions become decorated tasks with the same span (TD:54-68);
    - [TCall r]: a task that is not decorated makes a call;
    - [TEnd r sends]: the teardown (ET:22-44) ends the span and sends the spans, if there are any;
    - [TDrop r]: the request is gone *)
Inductive top :=
| TConfig (use : bool) (level : option text) (log : nat)
| TLog (log : nat)
| TBegin (r : N) (m : option headers) (on : bool)
| TApply (r : N) (t : text) (calls : bool)
| TReplies (r : N) (t : text) (us : list text)
| TCall (r : N)
| TEnd (r : N) (sends : bool)
| TDrop (r : N).

(** CX:58-69 [extract_trace_context]; [extract] starts from the current context *)
Definition begin_otel (P : tparams) (m : option headers) (w : tworld) : ocx :=
  match m with
  | Some h => extract P (if tp_activate P then parent_cx w else root_cx) (h_to_map h)
  | None => root_cx
  end.
(** TD:22-37 [ensure_span] *)
Definition ensure_span (P : tparams) (r : N) (q : treq) (t : text) (w : tworld) : option nat * tworld :=
  match aget text_eqb t (tq_spans q) with
  | Some s => (s, w)
  | None =>
      let '(s, w1) := make_span P L_info w in
      (s, set_req r (mkTreq (tq_otel q) (tq_guard q) ((t, s) :: tq_spans q)) w1)
  end.
Definition drop_guard (q : treq) (w : tworld) : tworld := match tq_guard q with Some s => leave s w | None => w end.

Definition tstep (P : tparams) (w : tworld) (o : top) : tworld :=
  match o with
  | TConfig use level log => mkTw (Some (export_level use level, log)) (tw_spans w) (tw_stack w) (tw_reqs w) (tw_calls w)
  | TLog log => mkTw (option_map (fun f => (fst f, log)) (tw_filters w)) (tw_spans w) (tw_stack w) (tw_reqs w) (tw_calls w)
  | TBegin r m on =>
      let cx := begin_otel P m w in
      if on && enabled L_info w then
        (* CX:71-91: the parent is set to the extracted context *)
        let '(s, w1) := new_span P L_info cx w in
        enter s (set_req r (mkTreq cx (Some s) []) w1)
      else set_req r (mkTreq cx None []) w
  | TApply r t calls =>
      match nget_req r w with
      | None => w
      | Some q =>
          let '(s, w1) := ensure_span P r q t w in
          let w2 := enter_opt s w1 in
          leave_opt s (if calls then call_in P r q w2 else w2)
      end
  | TReplies r t us =>
      match nget_req r w with
      | None => w
      | Some q => match aget text_eqb t (tq_spans q) with
                  | Some s => set_req r (mkTreq (tq_otel q) (tq_guard q) (map (fun u => (u, s)) us ++ tq_spans q)) w
                  | None => w
                  end
      end
  | TCall r => match nget_req r w with Some q => call_in P r q w | None => w end
  | TEnd r sends =>
      match nget_req r w with
      | None => w
      | Some q =>
          let q' := mkTreq (tq_otel q) None (tq_spans q) in
          let w1 := set_req r q' (drop_guard q w) in
          if sends then add_call r (call_cx q' w1) w1 else w1
      end
  | TDrop r => match nget_req r w with Some q => del_req r (drop_guard q w) | None => w end
  end.
Definition trun (P : tparams) (l : list top) : tworld := fold_left (tstep P) l tw0.
