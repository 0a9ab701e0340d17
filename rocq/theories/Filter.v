(** Model of the HTTP filter: WS/filter/kuadrant_filter.rs (KFI). *)
From Coq Require Import String List NArith Bool.
From Verif Require Import Base Value Headers AttrPath Ctx CelProps CelEval Sse Body Tasks Exec Config Legacy Blueprint Factory.
Import ListNotations.
Open Scope list_scope.

(** KFI:10-16 [KuadrantFilter].  [f_log] is the history of the request; the context
    of the pipeline carries the same history while it exists.  [f_dead]: a callback
    panicked, the wasm instance is gone. *)
Record flt := mkFlt { f_pipe : option pipe; f_resp : bool; f_force : bool; f_dead : bool; f_log : log }.
(** KFI:19-27 *)
Definition flt0 : flt := mkFlt None false false false [].

(** Callbacks made by the host *)
Inductive fin :=
| InReqHeaders | InReqBody (size : N) (eos : bool) | InRespHeaders | InRespBody (size : N) (eos : bool)
| InGrpc (tok status size : N).

Definition f_emit (e : ev) (f : flt) : flt := mkFlt (f_pipe f) (f_resp f) (f_force f) (f_dead f) (e :: f_log f).

(** KFI:29-31 [should_pause] *)
Definition should_pause (f : flt) : bool := match f_pipe f with Some p => requires_pause p | None => false end.

(** KFI:34-42 [should_resume], with the pipeline present *)
Definition should_resume (f : flt) (p : pipe) : bool :=
  if p_term p && f_resp f then negb (should_pause f)
  else negb (p_term p) && negb (should_pause f).

(** Keep the state returned by [eval]/[digest] *)
Definition f_state (s : pstate) (f : flt) : flt :=
  match s with
  | InProgress p => mkFlt (Some p) (f_resp f) (f_force f) (f_dead f) (c_log (p_ctx p))
  | Completed _ c => mkFlt None (f_resp f) (f_force f) (f_dead f) (c_log c)
  end.
(** The pipeline with the history brought up to date *)
Definition f_take (f : flt) (p : pipe) : pipe := p_with_ctx p (with_log (p_ctx p) (f_log f)).

Definition f_ret (f : flt) : flt := f_emit (EvRet (should_pause f)) f.

(** KFI:45-86 [on_grpc_call_response]; failures to resume are only logged *)
Definition on_grpc (E : env) (tok status size : N) (f : flt) : flt :=
  match f_pipe f with
  | None => f
  | Some p =>
      let s := digest E tok status size (f_take f p) in
      let f1 := f_state s f in
      let resume := match s with
                    | InProgress p' => should_resume f1 p'
                    | Completed sr _ => sr || f_force f || f_resp f
                    end in
      if resume then f_emit (if f_resp f then EvResumeResp else EvResumeReq) f1 else f1
  end.

(** KFI:90-134 [on_http_request_headers] *)
Definition on_req_headers (E : env) (fa : factory) (f : flt) : flt :=
  let drop f l := mkFlt (f_pipe f) (f_resp f) (f_force f) (f_dead f) l in
  match build E fa (ctx0 (f_log f)) with
  | BOk p =>
      let p1 := p_with_ctx p (emit (EvMetric MHits) (p_ctx p)) in
      f_ret (f_state (eval E p1) f)
  | BNone c => f_emit (EvRet false) (f_emit (EvMetric MMisses) (drop f (c_log c)))
  | BErr c =>
      let f1 := f_emit (EvMetric MErrors) (drop f (c_log c)) in
      let ok := h_reply E (f_log f1) 500 [] (Some ise_body) in
      let f2 := f_emit (EvReply 500 [] (Some ise_body) ok) f1 in
      if ok then f_emit (EvRet false) f2
      else mkFlt (f_pipe f2) (f_resp f2) (f_force f2) true (f_log f2)
  | BPanic c => mkFlt (f_pipe f) (f_resp f) (f_force f) true (c_log c)
  end.

Definition f_eval (E : env) (upd : ctx -> ctx) (f : flt) : flt :=
  match f_pipe f with
  | None => f
  | Some p => let p1 := f_take f p in f_state (eval E (p_with_ctx p1 (upd (p_ctx p1)))) f
  end.

(** KFI:136-161 [on_http_request_body] *)
Definition on_req_body (E : env) (n : N) (eos : bool) (f : flt) : flt :=
  f_ret (f_eval E (fun c => with_reqb c (set_size n eos (c_reqb c))) f).

(** KFI:163-187 [on_http_response_headers] *)
Definition on_resp_headers (E : env) (f : flt) : flt :=
  let f1 := f_emit (EvMetric MAllowed) f in
  let f2 := mkFlt (f_pipe f1) true (f_force f1) (f_dead f1) (f_log f1) in
  f_ret (f_eval E (fun c => c) f2).

(** KFI:189-219 [on_http_response_body] *)
Definition on_resp_body (E : env) (n : N) (eos : bool) (f : flt) : flt :=
  let f1 := f_eval E (fun c => with_respb c (set_size n eos (c_respb c))) f in
  if should_pause f1 then f_emit (EvRet true) f1
  else if (match f_pipe f1 with Some _ => true | None => false end) && eos then
    f_emit (EvRet true) (mkFlt (f_pipe f1) (f_resp f1) true (f_dead f1) (f_log f1))
  else f_emit (EvRet false) f1.

Definition ev_of (i : fin) : ev :=
  match i with
  | InReqHeaders => EvReqHeaders
  | InReqBody n e => EvReqBody n e
  | InRespHeaders => EvRespHeaders
  | InRespBody n e => EvRespBody n e
  | InGrpc t s z => EvGrpcResp t s z
  end.

(** One callback *)
Definition fstep (E : env) (fa : factory) (f : flt) (i : fin) : flt :=
  if f_dead f then f
  else
    let f := f_emit (ev_of i) f in
    match i with
    | InReqHeaders => on_req_headers E fa f
    | InReqBody n e => on_req_body E n e f
    | InRespHeaders => on_resp_headers E f
    | InRespBody n e => on_resp_body E n e f
    | InGrpc t s z => on_grpc E t s z f
    end.
Definition frun (E : env) (fa : factory) (l : list fin) : flt := fold_left (fstep E fa) l flt0.
