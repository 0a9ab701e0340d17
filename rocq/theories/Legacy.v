(** Model of KF/configuration/legacy_translation.rs (LT): legacy actions are turned into
    typed ones by building CEL source text. *)
From Coq Require Import String List NArith Bool Ascii.
From Verif Require Import Base Ctx Config.
Import ListNotations.
Open Scope list_scope.

Definition chr (n : N) : ascii := Ascii.ascii_of_N n.
Definition DQ : ascii := chr 34.
Definition BSL : ascii := chr 92.

(** [str::replace(c, r)] for a character [c] *)
Definition repl (c : ascii) (r : text) (s : text) : text :=
  flat_map (fun x => if Ascii.eqb x c then r else [x]) s.

(** LT:6-12 [escape_cel_string] *)
Definition escape_cel (s : text) : text :=
  repl (chr 9) [BSL; "t"%char]
  (repl (chr 13) [BSL; "r"%char]
  (repl (chr 10) [BSL; "n"%char]
  (repl DQ [BSL; DQ]
  (repl BSL [BSL; BSL] s)))).

(** ["..."] around an escaped text *)
Definition quoted (s : text) : text := DQ :: escape_cel s ++ [DQ].

(** LT:14-24 [join_predicates] *)
Definition paren (p : text) : text := tx "(" ++ p ++ tx ")".
Definition join_predicates (ps : list text) (op : text) : text :=
  match ps with
  | [] => tx "true"
  | [p] => p
  | _ => join (tx " " ++ op ++ tx " ") (map paren ps)
  end.
(** LT:26-28 *)
Definition build_action_predicate (ps : list text) : text := join_predicates ps (tx "&&").

(** LT:33-41 *)
Definition item_key (i : data_item) : text := match i with DStatic k _ | DExpr k _ => k end.
Definition known_rl_attr (i : data_item) : bool :=
  mem_text (item_key i) [tx "ratelimit.domain"; tx "ratelimit.hits_addend"].

(** LT:43-68 [find_ratelimit_known_attr_cel] *)
Definition known_attr_cel (k : text) (i : data_item) : option text :=
  if text_eqb (item_key i) k then
    Some (match i with
          | DStatic _ v => if text_eqb k (tx "ratelimit.hits_addend") then tx "uint(" ++ v ++ tx ")" else quoted v
          | DExpr _ v => if text_eqb k (tx "ratelimit.hits_addend") then tx "uint(" ++ v ++ tx ")" else v
          end)
  else None.
Fixpoint find_some {A B} (f : A -> option B) (l : list A) : option B :=
  match l with
  | [] => None
  | a :: l' => match f a with Some b => Some b | None => find_some f l' end
  end.
Definition find_known_attr (cds : list cond_data) (k : text) : option text :=
  find_some (fun cd => find_some (known_attr_cel k) (cd_data cd)) cds.

(** LT:70-85 [build_ratelimit_descriptor_entry_cel] *)
Definition entry_cel (k v : text) : text :=
  tx "envoy.extensions.common.ratelimit.v3.RateLimitDescriptor.Entry { key: " ++ quoted k ++
  tx ", value: " ++ v ++ tx " }".
Definition item_entry (i : data_item) : text :=
  match i with
  | DStatic k v => entry_cel k (quoted v)
  | DExpr k v => entry_cel k (tx "string(" ++ v ++ tx ")")
  end.

(** LT:87-107 [build_ratelimit_entry_list_cel] *)
Definition entry_list (cd : cond_data) : option text :=
  match map item_entry (filter (fun i => negb (known_rl_attr i)) (cd_data cd)) with
  | [] => None
  | es =>
      let l := tx "[" ++ join (tx ", ") es ++ tx "]" in
      Some (match cd_preds cd with
            | [] => l
            | ps => tx "((" ++ join_predicates ps (tx "&&") ++ tx ") ? " ++ l ++ tx " : [])"
            end)
  end.

Fixpoint filter_map {A B} (f : A -> option B) (l : list A) : list B :=
  match l with
  | [] => []
  | a :: l' => match f a with Some b => b :: filter_map f l' | None => filter_map f l' end
  end.

(** LT:109-124 [build_ratelimit_descriptors_cel] *)
Definition descriptor_cel (entries : text) : text :=
  tx "envoy.extensions.common.ratelimit.v3.RateLimitDescriptor { entries: " ++ entries ++ tx " }".
Definition descriptors_of (cds : list cond_data) : option text :=
  match filter_map entry_list cds with
  | [] => None
  | ps => Some (descriptor_cel (join (tx " + ") ps))
  end.

(** [(domain, field), expression source] *)
Definition rdata := list ((text * text) * text).

(** LT:126-181 [build_ratelimit_message_builder] *)
Definition request_entry (r : (text * text) * text) : text :=
  let '((domain, field), v) := r in
  let key := if text_eqb domain [] || text_eqb domain (tx "metrics.labels") then field
             else domain ++ tx "." ++ field in
  entry_cel key (tx "string(" ++ v ++ tx ")").
Definition rl_message (scope : text) (cds : list cond_data) (rd : rdata) : text :=
  let domain := match find_known_attr cds (tx "ratelimit.domain") with Some d => d | None => quoted scope end in
  let hits := match find_known_attr cds (tx "ratelimit.hits_addend") with Some h => h | None => tx "1u" end in
  let ds := (match descriptors_of cds with Some d => [d] | None => [] end) ++
            (match rd with
             | [] => []
             | _ => [descriptor_cel (tx "[" ++ join (tx ", ") (map request_entry rd) ++ tx "]")]
             end) in
  let dl := match ds with [] => tx "[]" | _ => tx "[" ++ join (tx ", ") ds ++ tx "]" end in
  tx "envoy.service.ratelimit.v3.RateLimitRequest {
    domain: " ++ domain ++ tx ",
    hits_addend: " ++ hits ++ tx ",
    descriptors: " ++ dl ++ tx "
}".

(** LT:183-206 [build_descriptor_predicate] *)
Definition block_predicate (cd : cond_data) : text :=
  match cd_preds cd with
  | [p] => p
  | ps => paren (join_predicates ps (tx "&&"))
  end.
Definition no_preds (cd : cond_data) : bool := match cd_preds cd with [] => true | _ => false end.
Definition build_descriptor_predicate (cds : list cond_data) : text :=
  match cds with
  | [] => tx "true"
  | _ => if existsb no_preds cds then tx "true"
         else match map block_predicate cds with
              | [b] => b
              | bs => join (tx " || ") bs
              end
  end.

(** LT:208-224 [build_ratelimit_predicate] *)
Definition build_ratelimit_predicate (aps : list text) (cds : list cond_data) : text :=
  let a := build_action_predicate aps in
  let d := build_descriptor_predicate cds in
  let isT := text_eqb (tx "true") in
  if isT a && isT d then tx "true"
  else if isT a then d
  else if isT d then a
  else tx "(" ++ a ++ tx ") && (" ++ d ++ tx ")".

(** LT:226-264 [build_ratelimit_on_reply] *)
Definition rl_on_reply (n : text) : list taction :=
  [ mkT (n ++ tx ".overall_code == 2") true true false
      (OpDeny (tx "DenyResponse{status: 429u, headers: " ++ n ++
               tx ".response_headers_to_add, body: ""Too Many Requests\n""}"));
    mkT (n ++ tx ".overall_code == 1") false true false
      (OpHeaders MResp (n ++ tx ".response_headers_to_add"));
    mkT (n ++ tx ".overall_code != 1 && " ++ n ++ tx ".overall_code != 2") true true false
      (OpFail (tx "Unknown rate limit response code from " ++ n)) ].

(** LT:274-278, LT:865-869: data that needs the response is left out *)
Definition request_only (rd : rdata) : rdata :=
  filter (fun r => negb (contains_sub (tx "responseBodyJSON(") (snd r))) rd.

(** LT:266-303 [translate_legacy_ratelimit_to_typed] *)
Definition translate_ratelimit (a : laction) (rd : rdata) : taction :=
  let v := tx "ratelimit_response" in
  mkT (build_ratelimit_predicate (la_preds a) (la_cond a)) false true false
    (OpGrpc v (la_service a) (rl_message (la_scope a) (la_cond a) (request_only rd)) (rl_on_reply v)).

(** LT:305-343 [translate_legacy_report_to_typed] *)
Definition translate_report (a : laction) (rd : rdata) : taction :=
  let v := tx "report_response" in
  mkT (build_ratelimit_predicate (la_preds a) (la_cond a)) false false false
    (OpGrpc v (la_service a) (rl_message (la_scope a) (la_cond a) rd)
       [ mkT (tx "!has(" ++ v ++ tx ".overall_code)") false false false
           (OpFail (tx "Rate limit report failed: invalid gRPC response")) ]).

(** LT:798-810 [build_request_data_value_cel] *)
Definition request_data_value (e : text) : text :=
  if contains_sub (tx "auth.") e then
    tx "google.protobuf.Value{struct_value: google.protobuf.Struct{fields: {""cel_expr"": google.protobuf.Value{string_value: " ++
    quoted e ++ tx "}}}}"
  else tx "google.protobuf.Value{string_value: string(" ++ e ++ tx ")}".

(** LT:812-859 [build_metadata_context_cel]: grouped by domain key, groups sorted *)
Definition md_key (domain : text) : text :=
  match domain with [] => tx "io.kuadrant" | _ => tx "io.kuadrant." ++ domain end.
Definition group_add (g : list (text * list (text * text))) (r : (text * text) * text)
  : list (text * list (text * text)) :=
  let '((d, f), e) := r in
  let k := md_key d in
  tset k (match tget k g with Some l => l ++ [(f, e)] | None => [(f, e)] end) g.
Fixpoint ins_key (x : text * list (text * text)) (l : list (text * list (text * text))) :=
  match l with
  | [] => [x]
  | y :: l' => if text_leb (fst x) (fst y) then x :: l else y :: ins_key x l'
  end.
Definition sort_groups (g : list (text * list (text * text))) := fold_right ins_key [] g.
Definition md_group (g : text * list (text * text)) : text :=
  quoted (fst g) ++ tx ": google.protobuf.Struct{fields: {" ++
  join (tx ", ") (map (fun fe => quoted (fst fe) ++ tx ": " ++ request_data_value (snd fe)) (snd g)) ++ tx "}}".
Definition metadata_context (rd : rdata) : text :=
  match rd with
  | [] => tx "envoy.config.core.v3.Metadata{}"
  | _ => tx "envoy.config.core.v3.Metadata{filter_metadata: {" ++
         join (tx ", ") (map md_group (sort_groups (fold_left group_add rd []))) ++ tx "}}"
  end.

(** LT:861-907 [build_auth_message_builder] *)
Definition auth_message (scope : text) (rd : rdata) : text :=
  tx "envoy.service.auth.v3.CheckRequest {
  attributes: envoy.service.auth.v3.AttributeContext {
    request: envoy.service.auth.v3.AttributeContext.Request {
      time: request.time,
      http: envoy.service.auth.v3.AttributeContext.HttpRequest {
        host: request.host,
        method: request.method,
        scheme: request.scheme,
        path: request.path,
        protocol: request.protocol,
        headers: request.headers
      }
    },
    destination: envoy.service.auth.v3.AttributeContext.Peer {
      address: envoy.config.core.v3.Address {
        socket_address: envoy.config.core.v3.SocketAddress {
          address: destination.address,
          port_value: uint(destination.port)
        }
      }
    },
    source: envoy.service.auth.v3.AttributeContext.Peer {
      address: envoy.config.core.v3.Address {
        socket_address: envoy.config.core.v3.SocketAddress {
          address: source.address,
          port_value: uint(source.port)
        }
      }
    },
    context_extensions: {""host"": " ++ quoted scope ++ tx "},
    metadata_context: " ++ metadata_context (request_only rd) ++ tx "
  }
}".

(** LT:938-1012 [build_auth_on_reply] *)
Definition auth_on_reply (n : text) : list taction :=
  [ mkT (tx "has(" ++ n ++ tx ".denied_response)") true true false
      (OpDeny (tx "DenyResponse{status: (" ++ n ++ tx ".denied_response.status.code != 0) ? uint(" ++ n ++
               tx ".denied_response.status.code) : 403u, headers: " ++ n ++
               tx ".denied_response.headers, body: " ++ n ++ tx ".denied_response.body}"));
    mkT (tx "has(" ++ n ++ tx ".ok_response) && (" ++
         n ++ tx ".ok_response.response_headers_to_add.size() > 0 || " ++
         n ++ tx ".ok_response.headers_to_remove.size() > 0 || " ++
         n ++ tx ".ok_response.query_parameters_to_set.size() > 0 || " ++
         n ++ tx ".ok_response.query_parameters_to_remove.size() > 0)") true true false
      (OpFail (tx "Unsupported field in OkHttpResponse"));
    mkT (tx "has(" ++ n ++ tx ".ok_response) && has(" ++ n ++ tx ".dynamic_metadata)") false true false
      (OpStore (tx "auth") (n ++ tx ".dynamic_metadata") true);
    mkT (tx "has(" ++ n ++ tx ".ok_response)") false true false
      (OpHeaders MReq (n ++ tx ".ok_response.headers"));
    mkT (tx "!has(" ++ n ++ tx ".denied_response) && !has(" ++ n ++ tx ".ok_response)") true true false
      (OpFail (tx "Auth response contained no http_response from " ++ n)) ].

(** LT:909-936 [translate_legacy_auth_to_typed] *)
Definition translate_auth (a : laction) (rd : rdata) : taction :=
  let v := tx "auth_response" in
  mkT (build_action_predicate (la_preds a)) false true false
    (OpGrpc v (la_service a) (auth_message (la_scope a) rd) (auth_on_reply v)).
