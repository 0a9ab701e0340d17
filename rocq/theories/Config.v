(** Configuration data types: KF/configuration.rs:19-240.  How they are read is in
    Serde.v.  [label], [sources] and [default_level] only reach the tracing library and
    are left out. *)
From Coq Require Import String List NArith Bool.
From Verif Require Import Base Ctx.
Import ListNotations.
Open Scope list_scope.

(** configuration.rs:149-172 [DataType], [DataItem] *)
Inductive data_item := DStatic (key value : text) | DExpr (key value : text).
(** configuration.rs:19-25 [ConditionalData] *)
Record cond_data := mkCd { cd_preds : list text; cd_data : list data_item }.
(** configuration.rs:27-38 [Action] (legacy) *)
Record laction := mkLaction { la_service : text; la_scope : text; la_preds : list text; la_cond : list cond_data }.

(** configuration.rs:52-119 [TypedAction] and [Operation]; [seq] is
    [execution == Sequential] *)
Inductive taction := mkT (predicate : text) (terminal is_guard seq : bool) (op : toper)
with toper :=
| OpGrpc (var service message : text) (on_reply : list taction)
| OpDeny (deny_with : text)
| OpHeaders (target : maptype) (headers : text)
| OpStore (path value : text) (export : bool)
| OpFail (msg : text).

Definition ta_seq (t : taction) : bool := match t with mkT _ _ _ s _ => s end.

(** configuration.rs:121-126 [ActionConfig] *)
Inductive action_cfg := CTyped (t : taction) | CLegacy (l : laction).

(** configuration.rs:128-142 [ActionSet] *)
Record action_set := mkSet {
  as_name : text; as_hosts : list text; as_preds : list text; as_actions : list action_cfg }.

(** configuration.rs:182-196 [ServiceType] *)
Inductive stype := SAuth | SRateLimit | SRateLimitCheck | SRateLimitReport | STracing | SDynamic.
(** configuration.rs:232-243 [Service]; [sc_deny] is [failure_mode == Deny], the timeout
    in milliseconds *)
Record svc_cfg := mkSvcCfg {
  sc_type : stype; sc_endpoint : text; sc_deny : bool; sc_timeout : N;
  sc_grpc_service : option text; sc_grpc_method : option text }.

(** configuration.rs:198-222 [PluginConfiguration]; the two maps are association lists in
    iteration order *)
Record plugin_cfg := mkPlugin {
  pc_request_data : list (text * text);
  pc_services : list (text * svc_cfg);
  pc_sets : list action_set;
  pc_identifier : option text;       (* observability.http_header_identifier *)
  pc_tracing : option text;          (* observability.tracing.service *)
  pc_descriptor_service : text }.
