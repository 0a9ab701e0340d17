(** The deployed environment: WS/wasm_host.rs (WH), which turns the proxy-wasm host calls into
    the resolver interface, and KF/services/dynamic.rs (DY), which turns CEL values into service
    messages and back.  [deployed K D E] is the environment of the model that they make of a host
    [K], descriptors and wire format [D], and the other libraries as in [E].  Log texts are left
    out; of the statuses of host calls only BadArgument is told apart, as in the code. *)
From Coq Require Import String List NArith Bool.
From Verif Require Import Conv.
From Verif Require Import Base Value Headers AttrPath Ctx.
Import ListNotations.
Open Scope list_scope.

(** * The host *)
Inductive hstatus := BadArgument | OtherStatus.
Inductive hc (A : Type) := HcOk (a : A) | HcErr (s : hstatus).
Arguments HcOk {A}. Arguments HcErr {A}.
Inductive buffer := BReqBody | BRespBody | BGrpc.
(** [proxy_wasm::hostcalls], as far as used for requests *)
Record host := mkHost {
  k_property : log -> path -> hc (option text);
  k_map : log -> maptype -> hc headers;
  k_value : log -> maptype -> text -> hc (option text);
  k_setproperty : log -> path -> text -> hc unit;
  k_setmap : log -> maptype -> headers -> hc unit;
  k_buffer : log -> buffer -> N -> N -> hc (option text);
  k_call : log -> call -> hc N;
  k_send : log -> N -> headers -> option text -> hc unit }.

(** the match that all the getters share *)
Definition of_status {A} (r : hc A) : hres A :=
  match r with HcOk a => HOk a | HcErr BadArgument => HNotAvail | HcErr OtherStatus => HErr end.
(** WH:46-57 [get_attribute] *)
Definition get_attribute (K : host) (l : log) (p : path) : hres (option text) := of_status (k_property K l p).
(** WH:59-74 [get_attribute_map] *)
Definition get_attribute_map (K : host) (l : log) (m : maptype) : hres headers :=
  match k_map K l m with
  | HcOk [] => HNotAvail
  | HcOk h => HOk h
  | HcErr _ => HErr
  end.
(** WH:76-91 [get_attribute_map_value], whose errors its only caller takes for absence *)
Definition get_attribute_map_value (K : host) (l : log) (n : text) : option text :=
  match k_value K l MReq n with HcOk v => v | HcErr _ => None end.
(** WH:93-102 [set_attribute] *)
Definition set_attribute (K : host) (l : log) (p : path) (v : text) : hres unit :=
  match k_setproperty K l p v with HcOk _ => HOk tt | HcErr _ => HErr end.
(** WH:104-116 [set_attribute_map] *)
Definition set_attribute_map (K : host) (l : log) (m : maptype) (h : headers) : hres unit := of_status (k_setmap K l m h).
(** WH:118-136, 138-156 [get_http_request_body], [get_http_response_body] *)
Definition get_body (K : host) (b : buffer) (l : log) (start size : N) : hres (option text) := of_status (k_buffer K l b start size).
(** WH:158-191 [dispatch_grpc_call] *)
Definition dispatch_grpc_call (K : host) (l : log) (c : call) : option N := match k_call K l c with HcOk t => Some t | HcErr _ => None end.
(** WH:193-207 [get_grpc_response] *)
Definition get_grpc_response (K : host) (l : log) (size : N) : option text :=
  if N.eqb size 0 then None
  else match k_buffer K l BGrpc 0 size with HcOk b => b | HcErr _ => None end.
(** WH:209-218 [send_http_reply] *)
Definition send_http_reply (K : host) (l : log) (status : N) (h : headers) (b : option text) : bool :=
  match k_send K l status h b with HcOk _ => true | HcErr _ => false end.

(** * Services *)
(** a descriptor pool: its messages, and the input and output types of its methods by service *)
Record dpool := mkPool { dp_schema : schema; dp_services : list (text * list (text * (text * text))) }.
(** [DescriptorManager::get_pool] (Root.v), and of prost and prost_reflect the conversions of
    Conv.v and the wire format of messages *)
Record protos := mkProtos {
  d_pool : log -> text -> text -> option dpool;
  d_conv : cenv;
  d_write : schema -> text -> list (text * Conv.pval) -> text;
  d_read : schema -> text -> text -> option (list (text * Conv.pval)) }.

(** DY:86-108 [method_descriptor], DY:134-157 *)
Definition method_descriptor (D : protos) (l : log) (s : svc) : option (schema * (text * text)) :=
  match d_pool D l (sv_upstream s) (sv_service s) with
  | None => None
  | Some p =>
      match tget (sv_service s) (dp_services p) with
      | None => None
      | Some ms => match tget (sv_method s) ms with None => None | Some io => Some (dp_schema p, io) end
      end
  end.
(** DY:60-75 [dispatch_value], up to the call; encoding into a vector cannot fail *)
Definition encode_value (D : protos) (l : log) (s : svc) (v : value) : option text :=
  match method_descriptor D l s with
  | None => None
  | Some (p, (input, _)) => option_map (d_write D p input) (cel_to_message (d_conv D) p input v)
  end.
(** DY:118-126 [get_response_cel_value], DY:132-162 [parse_message] *)
Definition decode_value (D : protos) (l : log) (s : svc) (b : text) : option value :=
  match method_descriptor D l s with
  | None => None
  | Some (p, (_, output)) =>
      match d_read D p output b with None => None | Some m => message_to_cel (d_conv D) p output m end
  end.

Definition deployed (K : host) (D : protos) (E : env) : env := {|
  h_prop := get_attribute K; h_map := get_attribute_map K; h_reqheader := get_attribute_map_value K;
  h_setprop := set_attribute K; h_setmap := set_attribute_map K;
  h_reqbody := get_body K BReqBody; h_respbody := get_body K BRespBody;
  h_dispatch := dispatch_grpc_call K; h_grpcresp := get_grpc_response K; h_reply := send_http_reply K;
  o_parse := o_parse E; o_cel := o_cel E; o_json := o_json E; o_pointer := o_pointer E; o_jshow := o_jshow E;
  o_f64 := o_f64 E; o_jnew := o_jnew E; o_jfeed := o_jfeed E; o_jraw := o_jraw E; o_jfinish := o_jfinish E;
  o_encode := encode_value D; o_decode := decode_value D;
  o_uuid := o_uuid E; o_trace := o_trace E; o_span_on := o_span_on E; o_spans := o_spans E; o_alpha := o_alpha E |}.
