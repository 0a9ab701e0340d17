(** Generated by tools/replay.py from the integration tests of the repository
    (crates/wasm-shim/tests) and its vendored protobuf files: the model, given the configuration and
    the host's answers of each test, has the effects which the test expects.  These are tests of the
    model, not proofs about it. *)
From Coq Require Import String Ascii List NArith ZArith Bool.
From Verif Require Import Base Value Conv Proto Headers Ctx Deploy Filter ReplayLib.
Import ListNotations.
Open Scope list_scope.
Open Scope string_scope.

Definition the_schema : schema := [
    mkM (tx "envoy.service.auth.v3.CheckRequest") [mkF (tx "attributes") (FMsg (tx "envoy.service.auth.v3.AttributeContext")) false false None] false;
    mkM (tx "envoy.service.auth.v3.CheckResponse") [mkF (tx "status") (FMsg (tx "google.rpc.Status")) false false None; mkF (tx "denied_response") (FMsg (tx "envoy.service.auth.v3.DeniedHttpResponse")) false true (Some 0%N); mkF (tx "ok_response") (FMsg (tx "envoy.service.auth.v3.OkHttpResponse")) false true (Some 0%N); mkF (tx "dynamic_metadata") (FMsg (tx "google.protobuf.Struct")) false false None] false;
    mkM (tx "envoy.service.ratelimit.v3.RateLimitRequest") [mkF (tx "domain") FString false false None; mkF (tx "descriptors") (FMsg (tx "envoy.extensions.common.ratelimit.v3.RateLimitDescriptor")) true false None; mkF (tx "hits_addend") FUint32 false false None] false;
    mkM (tx "envoy.service.ratelimit.v3.RateLimitResponse") [mkF (tx "overall_code") (FEnum [0; 1; 2]) false false None; mkF (tx "statuses") (FMsg (tx "envoy.service.ratelimit.v3.RateLimitResponse.DescriptorStatus")) true false None; mkF (tx "response_headers_to_add") (FMsg (tx "envoy.config.core.v3.HeaderValue")) true false None; mkF (tx "request_headers_to_add") (FMsg (tx "envoy.config.core.v3.HeaderValue")) true false None; mkF (tx "raw_body") FBytes false false None; mkF (tx "dynamic_metadata") (FMsg (tx "google.protobuf.Struct")) false false None; mkF (tx "quota") (FMsg (tx "envoy.service.ratelimit.v3.RateLimitResponse.Quota")) false false None] false;
    mkM (tx "test.TestRequest") [mkF (tx "message") FString false false None] false;
    mkM (tx "test.TestResponse") [mkF (tx "result") FString false false None] false;
    mkM (tx "envoy.service.auth.v3.AttributeContext") [mkF (tx "source") (FMsg (tx "envoy.service.auth.v3.AttributeContext.Peer")) false false None; mkF (tx "destination") (FMsg (tx "envoy.service.auth.v3.AttributeContext.Peer")) false false None; mkF (tx "request") (FMsg (tx "envoy.service.auth.v3.AttributeContext.Request")) false false None; mkF (tx "context_extensions") (FMsg (tx "envoy.service.auth.v3.AttributeContext.ContextExtensionsEntry")) true false None; mkF (tx "metadata_context") (FMsg (tx "envoy.config.core.v3.Metadata")) false false None] false;
    mkM (tx "google.rpc.Status") [mkF (tx "code") FInt32 false false None; mkF (tx "message") FString false false None; mkF (tx "details") (FMsg (tx "google.protobuf.Any")) true false None] false;
    mkM (tx "envoy.service.auth.v3.DeniedHttpResponse") [mkF (tx "status") (FMsg (tx "envoy.type.v3.HttpStatus")) false false None; mkF (tx "headers") (FMsg (tx "envoy.config.core.v3.HeaderValueOption")) true false None; mkF (tx "body") FString false false None] false;
    mkM (tx "envoy.service.auth.v3.OkHttpResponse") [mkF (tx "headers") (FMsg (tx "envoy.config.core.v3.HeaderValueOption")) true false None; mkF (tx "headers_to_remove") FString true false None; mkF (tx "dynamic_metadata") (FMsg (tx "google.protobuf.Struct")) false false None; mkF (tx "response_headers_to_add") (FMsg (tx "envoy.config.core.v3.HeaderValueOption")) true false None; mkF (tx "query_parameters_to_set") (FMsg (tx "envoy.config.core.v3.QueryParameter")) true false None; mkF (tx "query_parameters_to_remove") FString true false None] false;
    mkM (tx "google.protobuf.Struct") [mkF (tx "fields") (FMsg (tx "google.protobuf.Struct.FieldsEntry")) true false None] false;
    mkM (tx "envoy.extensions.common.ratelimit.v3.RateLimitDescriptor") [mkF (tx "entries") (FMsg (tx "envoy.extensions.common.ratelimit.v3.RateLimitDescriptor.Entry")) true false None; mkF (tx "limit") (FMsg (tx "envoy.extensions.common.ratelimit.v3.RateLimitDescriptor.RateLimitOverride")) false false None] false;
    mkM (tx "envoy.service.ratelimit.v3.RateLimitResponse.DescriptorStatus") [mkF (tx "code") (FEnum [0; 1; 2]) false false None; mkF (tx "current_limit") (FMsg (tx "envoy.service.ratelimit.v3.RateLimitResponse.RateLimit")) false false None; mkF (tx "limit_remaining") FUint32 false false None; mkF (tx "duration_until_reset") (FMsg (tx "google.protobuf.Duration")) false false None; mkF (tx "quota") (FMsg (tx "envoy.service.ratelimit.v3.RateLimitResponse.Quota")) false false None] false;
    mkM (tx "envoy.config.core.v3.HeaderValue") [mkF (tx "key") FString false false None; mkF (tx "value") FString false false None] false;
    mkM (tx "envoy.service.ratelimit.v3.RateLimitResponse.Quota") [mkF (tx "requests") FUint32 false false None; mkF (tx "valid_until") (FMsg (tx "google.protobuf.Timestamp")) false true (Some 0%N); mkF (tx "id") FString false false None] false;
    mkM (tx "envoy.service.auth.v3.AttributeContext.Peer") [mkF (tx "address") (FMsg (tx "envoy.config.core.v3.Address")) false false None; mkF (tx "service") FString false false None; mkF (tx "labels") (FMsg (tx "envoy.service.auth.v3.AttributeContext.Peer.LabelsEntry")) true false None; mkF (tx "principal") FString false false None; mkF (tx "certificate") FString false false None] false;
    mkM (tx "envoy.service.auth.v3.AttributeContext.Request") [mkF (tx "time") (FMsg (tx "google.protobuf.Timestamp")) false false None; mkF (tx "http") (FMsg (tx "envoy.service.auth.v3.AttributeContext.HttpRequest")) false false None] false;
    mkM (tx "envoy.service.auth.v3.AttributeContext.ContextExtensionsEntry") [mkF (tx "key") FString false false None; mkF (tx "value") FString false false None] true;
    mkM (tx "envoy.config.core.v3.Metadata") [mkF (tx "filter_metadata") (FMsg (tx "envoy.config.core.v3.Metadata.FilterMetadataEntry")) true false None; mkF (tx "typed_filter_metadata") (FMsg (tx "envoy.config.core.v3.Metadata.TypedFilterMetadataEntry")) true false None] false;
    mkM (tx "google.protobuf.Any") [mkF (tx "type_url") FString false false None; mkF (tx "value") FBytes false false None] false;
    mkM (tx "envoy.type.v3.HttpStatus") [mkF (tx "code") (FEnum [0; 100; 200; 201; 202; 203; 204; 205; 206; 207; 208; 226; 300; 301; 302; 303; 304; 305; 307; 308; 400; 401; 402; 403; 404; 405; 406; 407; 408; 409; 410; 411; 412; 413; 414; 415; 416; 417; 421; 422; 423; 424; 426; 428; 429; 431; 500; 501; 502; 503; 504; 505; 506; 507; 508; 510; 511]) false false None] false;
    mkM (tx "envoy.config.core.v3.HeaderValueOption") [mkF (tx "header") (FMsg (tx "envoy.config.core.v3.HeaderValue")) false false None; mkF (tx "append") (FMsg (tx "google.protobuf.BoolValue")) false false None; mkF (tx "append_action") (FEnum [0; 1; 2]) false false None] false;
    mkM (tx "envoy.config.core.v3.QueryParameter") [mkF (tx "key") FString false false None; mkF (tx "value") FString false false None] false;
    mkM (tx "google.protobuf.Struct.FieldsEntry") [mkF (tx "key") FString false false None; mkF (tx "value") (FMsg (tx "google.protobuf.Value")) false false None] true;
    mkM (tx "envoy.extensions.common.ratelimit.v3.RateLimitDescriptor.Entry") [mkF (tx "key") FString false false None; mkF (tx "value") FString false false None] false;
    mkM (tx "envoy.extensions.common.ratelimit.v3.RateLimitDescriptor.RateLimitOverride") [mkF (tx "requests_per_unit") FUint32 false false None; mkF (tx "unit") (FEnum [0; 1; 2; 3; 4]) false false None] false;
    mkM (tx "envoy.service.ratelimit.v3.RateLimitResponse.RateLimit") [mkF (tx "name") FString false false None; mkF (tx "requests_per_unit") FUint32 false false None; mkF (tx "unit") (FEnum [0; 1; 2; 3; 4]) false false None] false;
    mkM (tx "google.protobuf.Duration") [mkF (tx "seconds") FInt64 false false None; mkF (tx "nanos") FInt32 false false None] false;
    mkM (tx "google.protobuf.Timestamp") [mkF (tx "seconds") FInt64 false false None; mkF (tx "nanos") FInt32 false false None] false;
    mkM (tx "envoy.config.core.v3.Address") [mkF (tx "socket_address") (FMsg (tx "envoy.config.core.v3.SocketAddress")) false true (Some 0%N); mkF (tx "pipe") (FMsg (tx "envoy.config.core.v3.Pipe")) false true (Some 0%N); mkF (tx "envoy_internal_address") (FMsg (tx "envoy.config.core.v3.EnvoyInternalAddress")) false true (Some 0%N)] false;
    mkM (tx "envoy.service.auth.v3.AttributeContext.Peer.LabelsEntry") [mkF (tx "key") FString false false None; mkF (tx "value") FString false false None] true;
    mkM (tx "envoy.service.auth.v3.AttributeContext.HttpRequest") [mkF (tx "id") FString false false None; mkF (tx "method") FString false false None; mkF (tx "headers") (FMsg (tx "envoy.service.auth.v3.AttributeContext.HttpRequest.HeadersEntry")) true false None; mkF (tx "path") FString false false None; mkF (tx "host") FString false false None; mkF (tx "scheme") FString false false None; mkF (tx "query") FString false false None; mkF (tx "fragment") FString false false None; mkF (tx "size") FInt64 false false None; mkF (tx "protocol") FString false false None; mkF (tx "body") FString false false None; mkF (tx "raw_body") FBytes false false None] false;
    mkM (tx "envoy.config.core.v3.Metadata.FilterMetadataEntry") [mkF (tx "key") FString false false None; mkF (tx "value") (FMsg (tx "google.protobuf.Struct")) false false None] true;
    mkM (tx "envoy.config.core.v3.Metadata.TypedFilterMetadataEntry") [mkF (tx "key") FString false false None; mkF (tx "value") (FMsg (tx "google.protobuf.Any")) false false None] true;
    mkM (tx "google.protobuf.BoolValue") [mkF (tx "value") FBool false false None] false;
    mkM (tx "google.protobuf.Value") [mkF (tx "null_value") (FEnum [0]) false true (Some 0%N); mkF (tx "number_value") FDouble false true (Some 0%N); mkF (tx "string_value") FString false true (Some 0%N); mkF (tx "bool_value") FBool false true (Some 0%N); mkF (tx "struct_value") (FMsg (tx "google.protobuf.Struct")) false true (Some 0%N); mkF (tx "list_value") (FMsg (tx "google.protobuf.ListValue")) false true (Some 0%N)] false;
    mkM (tx "envoy.config.core.v3.SocketAddress") [mkF (tx "protocol") (FEnum [0; 1]) false false None; mkF (tx "address") FString false false None; mkF (tx "port_value") FUint32 false true (Some 0%N); mkF (tx "named_port") FString false true (Some 0%N); mkF (tx "resolver_name") FString false false None; mkF (tx "ipv4_compat") FBool false false None] false;
    mkM (tx "envoy.config.core.v3.Pipe") [mkF (tx "path") FString false false None; mkF (tx "mode") FUint32 false false None] false;
    mkM (tx "envoy.config.core.v3.EnvoyInternalAddress") [mkF (tx "server_listener_name") FString false true (Some 0%N)] false;
    mkM (tx "envoy.service.auth.v3.AttributeContext.HttpRequest.HeadersEntry") [mkF (tx "key") FString false false None; mkF (tx "value") FString false false None] true;
    mkM (tx "google.protobuf.ListValue") [mkF (tx "values") (FMsg (tx "google.protobuf.Value")) true false None] false]%Z.
Definition the_numbers : list (text * list (text * N)) := [
    (tx "envoy.service.auth.v3.CheckRequest", [(tx "attributes", 1%N)]);
    (tx "envoy.service.auth.v3.CheckResponse", [(tx "status", 1%N); (tx "denied_response", 2%N); (tx "ok_response", 3%N); (tx "dynamic_metadata", 4%N)]);
    (tx "envoy.service.ratelimit.v3.RateLimitRequest", [(tx "domain", 1%N); (tx "descriptors", 2%N); (tx "hits_addend", 3%N)]);
    (tx "envoy.service.ratelimit.v3.RateLimitResponse", [(tx "overall_code", 1%N); (tx "statuses", 2%N); (tx "response_headers_to_add", 3%N); (tx "request_headers_to_add", 4%N); (tx "raw_body", 5%N); (tx "dynamic_metadata", 6%N); (tx "quota", 7%N)]);
    (tx "test.TestRequest", [(tx "message", 1%N)]);
    (tx "test.TestResponse", [(tx "result", 1%N)]);
    (tx "envoy.service.auth.v3.AttributeContext", [(tx "source", 1%N); (tx "destination", 2%N); (tx "request", 4%N); (tx "context_extensions", 10%N); (tx "metadata_context", 11%N)]);
    (tx "google.rpc.Status", [(tx "code", 1%N); (tx "message", 2%N); (tx "details", 3%N)]);
    (tx "envoy.service.auth.v3.DeniedHttpResponse", [(tx "status", 1%N); (tx "headers", 2%N); (tx "body", 3%N)]);
    (tx "envoy.service.auth.v3.OkHttpResponse", [(tx "headers", 2%N); (tx "headers_to_remove", 5%N); (tx "dynamic_metadata", 3%N); (tx "response_headers_to_add", 6%N); (tx "query_parameters_to_set", 7%N); (tx "query_parameters_to_remove", 8%N)]);
    (tx "google.protobuf.Struct", [(tx "fields", 1%N)]);
    (tx "envoy.extensions.common.ratelimit.v3.RateLimitDescriptor", [(tx "entries", 1%N); (tx "limit", 2%N)]);
    (tx "envoy.service.ratelimit.v3.RateLimitResponse.DescriptorStatus", [(tx "code", 1%N); (tx "current_limit", 2%N); (tx "limit_remaining", 3%N); (tx "duration_until_reset", 4%N); (tx "quota", 5%N)]);
    (tx "envoy.config.core.v3.HeaderValue", [(tx "key", 1%N); (tx "value", 2%N)]);
    (tx "envoy.service.ratelimit.v3.RateLimitResponse.Quota", [(tx "requests", 1%N); (tx "valid_until", 2%N); (tx "id", 3%N)]);
    (tx "envoy.service.auth.v3.AttributeContext.Peer", [(tx "address", 1%N); (tx "service", 2%N); (tx "labels", 3%N); (tx "principal", 4%N); (tx "certificate", 5%N)]);
    (tx "envoy.service.auth.v3.AttributeContext.Request", [(tx "time", 1%N); (tx "http", 2%N)]);
    (tx "envoy.service.auth.v3.AttributeContext.ContextExtensionsEntry", [(tx "key", 1%N); (tx "value", 2%N)]);
    (tx "envoy.config.core.v3.Metadata", [(tx "filter_metadata", 1%N); (tx "typed_filter_metadata", 2%N)]);
    (tx "google.protobuf.Any", [(tx "type_url", 1%N); (tx "value", 2%N)]);
    (tx "envoy.type.v3.HttpStatus", [(tx "code", 1%N)]);
    (tx "envoy.config.core.v3.HeaderValueOption", [(tx "header", 1%N); (tx "append", 2%N); (tx "append_action", 3%N)]);
    (tx "envoy.config.core.v3.QueryParameter", [(tx "key", 1%N); (tx "value", 2%N)]);
    (tx "google.protobuf.Struct.FieldsEntry", [(tx "key", 1%N); (tx "value", 2%N)]);
    (tx "envoy.extensions.common.ratelimit.v3.RateLimitDescriptor.Entry", [(tx "key", 1%N); (tx "value", 2%N)]);
    (tx "envoy.extensions.common.ratelimit.v3.RateLimitDescriptor.RateLimitOverride", [(tx "requests_per_unit", 1%N); (tx "unit", 2%N)]);
    (tx "envoy.service.ratelimit.v3.RateLimitResponse.RateLimit", [(tx "name", 3%N); (tx "requests_per_unit", 1%N); (tx "unit", 2%N)]);
    (tx "google.protobuf.Duration", [(tx "seconds", 1%N); (tx "nanos", 2%N)]);
    (tx "google.protobuf.Timestamp", [(tx "seconds", 1%N); (tx "nanos", 2%N)]);
    (tx "envoy.config.core.v3.Address", [(tx "socket_address", 1%N); (tx "pipe", 2%N); (tx "envoy_internal_address", 3%N)]);
    (tx "envoy.service.auth.v3.AttributeContext.Peer.LabelsEntry", [(tx "key", 1%N); (tx "value", 2%N)]);
    (tx "envoy.service.auth.v3.AttributeContext.HttpRequest", [(tx "id", 1%N); (tx "method", 2%N); (tx "headers", 3%N); (tx "path", 4%N); (tx "host", 5%N); (tx "scheme", 6%N); (tx "query", 7%N); (tx "fragment", 8%N); (tx "size", 9%N); (tx "protocol", 10%N); (tx "body", 11%N); (tx "raw_body", 12%N)]);
    (tx "envoy.config.core.v3.Metadata.FilterMetadataEntry", [(tx "key", 1%N); (tx "value", 2%N)]);
    (tx "envoy.config.core.v3.Metadata.TypedFilterMetadataEntry", [(tx "key", 1%N); (tx "value", 2%N)]);
    (tx "google.protobuf.BoolValue", [(tx "value", 1%N)]);
    (tx "google.protobuf.Value", [(tx "null_value", 1%N); (tx "number_value", 2%N); (tx "string_value", 3%N); (tx "bool_value", 4%N); (tx "struct_value", 5%N); (tx "list_value", 6%N)]);
    (tx "envoy.config.core.v3.SocketAddress", [(tx "protocol", 1%N); (tx "address", 2%N); (tx "port_value", 3%N); (tx "named_port", 4%N); (tx "resolver_name", 5%N); (tx "ipv4_compat", 6%N)]);
    (tx "envoy.config.core.v3.Pipe", [(tx "path", 1%N); (tx "mode", 2%N)]);
    (tx "envoy.config.core.v3.EnvoyInternalAddress", [(tx "server_listener_name", 1%N)]);
    (tx "envoy.service.auth.v3.AttributeContext.HttpRequest.HeadersEntry", [(tx "key", 1%N); (tx "value", 2%N)]);
    (tx "google.protobuf.ListValue", [(tx "values", 1%N)])].
Definition the_services : list (text * list (text * (text * text))) := [
    (tx "envoy.service.auth.v3.Authorization", [(tx "Check", (tx "envoy.service.auth.v3.CheckRequest", tx "envoy.service.auth.v3.CheckResponse"))]);
    (tx "envoy.service.ratelimit.v3.RateLimitService", [(tx "ShouldRateLimit", (tx "envoy.service.ratelimit.v3.RateLimitRequest", tx "envoy.service.ratelimit.v3.RateLimitResponse"))]);
    (tx "kuadrant.service.ratelimit.v1.RateLimitService", [(tx "CheckRateLimit", (tx "envoy.service.ratelimit.v3.RateLimitRequest", tx "envoy.service.ratelimit.v3.RateLimitResponse")); (tx "Report", (tx "envoy.service.ratelimit.v3.RateLimitRequest", tx "envoy.service.ratelimit.v3.RateLimitResponse"))]);
    (tx "test.TestService", [(tx "TestMethod", (tx "test.TestRequest", tx "test.TestResponse"))])].
Definition replay := replay_with the_schema the_numbers the_services.

(** tests/auth.rs:41 *)
Definition cfg_auth_it_auths : text := tx "{
    ""services"": {
        ""authorino"": {
            ""type"": ""auth"",
            ""endpoint"": ""authorino-cluster"",
            ""failureMode"": ""deny"",
            ""timeout"": ""5s""
        }
    },
    ""actionSets"": [
    {
        ""name"": ""some-name"",
        ""routeRuleConditions"": {
            ""hostnames"": [""*.toystore.com"", ""example.com""],
            ""predicates"" : [
                ""request.url_path.startsWith('/admin/toy')"",
                ""request.host == 'cars.toystore.com'"",
                ""request.method == 'POST'""
            ]
        },
        ""actions"": [
        {
            ""service"": ""authorino"",
            ""scope"": ""authconfig-A""
        }]
    }]
}".
Definition steps_auth_it_auths : list step := [
    mkStep InReqHeaders
        [([(tx "request"); (tx "host")], (Some (tx "cars.toystore.com"))); ([(tx "request"); (tx "url_path")], (Some (tx "/admin/toy"))); ([(tx "request"); (tx "method")], (Some (tx "POST"))); ([(tx "request"); (tx "time")], (Some (bytes [240; 158; 152; 213; 254; 179; 5; 24]%N))); ([(tx "request"); (tx "scheme")], (Some (tx "http"))); ([(tx "request"); (tx "path")], (Some (tx "/admin/toy"))); ([(tx "request"); (tx "protocol")], (Some (tx "HTTP/1.1"))); ([(tx "destination"); (tx "address")], (Some (tx "127.0.0.1:8000"))); ([(tx "destination"); (tx "port")], (Some (bytes [64; 31; 0; 0; 0; 0; 0; 0]%N))); ([(tx "source"); (tx "address")], (Some (tx "127.0.0.1:45000"))); ([(tx "source"); (tx "port")], (Some (bytes [200; 175; 0; 0; 0; 0; 0; 0]%N)))]
        [(MReq, [((tx "x-request-id"), (tx "e1fc297a-a8a3-4360-8f41-af57b4a861e1"))])]
        []
        [Some 42%N]
        (mkWant [MHits] [((tx "authorino-cluster"), (tx "envoy.service.auth.v3.Authorization"), (tx "Check"), None, 5000%N)] [] [] [] (Some true));
    mkStep (InGrpc 42 0 41)
        []
        []
        [(BGrpc, (bytes [10; 0; 26; 0; 34; 35; 10; 33; 10; 8; 105; 100; 101; 110; 116; 105; 116; 121; 18; 21; 42; 19; 10; 17; 10; 6; 117; 115; 101; 114; 105; 100; 18; 7; 26; 5; 97; 108; 105; 99; 101]%N))]
        []
        (mkWant [] [] [] [] [([(tx "kuadrant.auth")], (bytes [10; 33; 10; 8; 105; 100; 101; 110; 116; 105; 116; 121; 18; 21; 42; 19; 10; 17; 10; 6; 117; 115; 101; 114; 105; 100; 18; 7; 26; 5; 97; 108; 105; 99; 101]%N))] None);
    mkStep InRespHeaders
        []
        []
        []
        []
        (mkWant [MAllowed] [] [] [] [] (Some false))].
Example replay_auth_it_auths : replay cfg_auth_it_auths steps_auth_it_auths = true.
Proof. vm_compute. reflexivity. Qed.

(** tests/auth.rs:158 *)
Definition cfg_auth_it_passes_request_data : text := tx "{
        ""requestData"": {
            ""foo"": ""string(2 + 3)"",
            ""bar"": ""auth.identity.name""
        },
        ""services"": {
            ""authorino"": {
                ""type"": ""auth"",
                ""endpoint"": ""authorino-cluster"",
                ""failureMode"": ""deny"",
                ""timeout"": ""5s""
            }
        },
        ""actionSets"": [
        {
            ""name"": ""some-name"",
            ""routeRuleConditions"": {
                ""hostnames"": [""*.toystore.com"", ""example.com""],
                ""predicates"" : [
                    ""request.url_path.startsWith('/admin/toy')"",
                    ""request.host == 'cars.toystore.com'"",
                    ""request.method == 'POST'""
                ]
            },
            ""actions"": [
            {
                ""service"": ""authorino"",
                ""scope"": ""authconfig-A""
            }]
        }]
    }".
Definition steps_auth_it_passes_request_data : list step := [
    mkStep InReqHeaders
        [([(tx "request"); (tx "host")], (Some (tx "cars.toystore.com"))); ([(tx "request"); (tx "url_path")], (Some (tx "/admin/toy"))); ([(tx "request"); (tx "method")], (Some (tx "POST"))); ([(tx "request"); (tx "time")], (Some (bytes [240; 158; 152; 213; 254; 179; 5; 24]%N))); ([(tx "request"); (tx "scheme")], (Some (tx "http"))); ([(tx "request"); (tx "path")], (Some (tx "/admin/toy"))); ([(tx "request"); (tx "protocol")], (Some (tx "HTTP/1.1"))); ([(tx "destination"); (tx "address")], (Some (tx "127.0.0.1:8000"))); ([(tx "destination"); (tx "port")], (Some (bytes [64; 31; 0; 0; 0; 0; 0; 0]%N))); ([(tx "source"); (tx "address")], (Some (tx "127.0.0.1:45000"))); ([(tx "source"); (tx "port")], (Some (bytes [200; 175; 0; 0; 0; 0; 0; 0]%N)))]
        [(MReq, [((tx ":authority"), (tx "abi_test_harness")); ((tx ":method"), (tx "GET")); ((tx ":path"), (tx "/default/request/headers/path"))])]
        []
        [Some 42%N]
        (mkWant [MHits] [((tx "authorino-cluster"), (tx "envoy.service.auth.v3.Authorization"), (tx "Check"), None, 5000%N)] [] [] [] (Some true));
    mkStep (InGrpc 42 0 4)
        []
        []
        [(BGrpc, (bytes [10; 0; 26; 0]%N))]
        []
        (mkWant [] [] [] [] [] None);
    mkStep InRespHeaders
        []
        []
        []
        []
        (mkWant [MAllowed] [] [] [] [] (Some false))].
Example replay_auth_it_passes_request_data : replay cfg_auth_it_passes_request_data steps_auth_it_passes_request_data = true.
Proof. vm_compute. reflexivity. Qed.

(** tests/auth.rs:300 *)
Definition cfg_auth_it_denies : text := tx "{
    ""services"": {
        ""authorino"": {
            ""type"": ""auth"",
            ""endpoint"": ""authorino-cluster"",
            ""failureMode"": ""deny"",
            ""timeout"": ""5s""
        }
    },
    ""actionSets"": [
    {
        ""name"": ""some-name"",
        ""routeRuleConditions"": {
            ""hostnames"": [""*.toystore.com"", ""example.com""],
            ""predicates"" : [
                ""request.url_path.startsWith('/admin/toy')"",
                ""request.host == 'cars.toystore.com'"",
                ""request.method == 'POST'""
            ]
        },
        ""actions"": [
        {
            ""service"": ""authorino"",
            ""scope"": ""authconfig-A""
        }]
    }]
}".
Definition steps_auth_it_denies : list step := [
    mkStep InReqHeaders
        [([(tx "request"); (tx "host")], (Some (tx "cars.toystore.com"))); ([(tx "request"); (tx "url_path")], (Some (tx "/admin/toy"))); ([(tx "request"); (tx "method")], (Some (tx "POST"))); ([(tx "request"); (tx "time")], (Some (bytes [240; 158; 152; 213; 254; 179; 5; 24]%N))); ([(tx "request"); (tx "scheme")], (Some (tx "http"))); ([(tx "request"); (tx "path")], (Some (tx "/admin/toy"))); ([(tx "request"); (tx "protocol")], (Some (tx "HTTP/1.1"))); ([(tx "destination"); (tx "address")], (Some (tx "127.0.0.1:8000"))); ([(tx "destination"); (tx "port")], (Some (bytes [64; 31; 0; 0; 0; 0; 0; 0]%N))); ([(tx "source"); (tx "address")], (Some (tx "127.0.0.1:45000"))); ([(tx "source"); (tx "port")], (Some (bytes [200; 175; 0; 0; 0; 0; 0; 0]%N)))]
        [(MReq, [((tx ":authority"), (tx "abi_test_harness")); ((tx ":method"), (tx "GET")); ((tx ":path"), (tx "/default/request/headers/path"))])]
        []
        [Some 42%N]
        (mkWant [MHits] [((tx "authorino-cluster"), (tx "envoy.service.auth.v3.Authorization"), (tx "Check"), None, 5000%N)] [] [] [] (Some true));
    mkStep (InGrpc 42 0 108)
        []
        []
        [(BGrpc, (bytes [10; 2; 8; 16; 18; 102; 10; 3; 8; 145; 3; 18; 50; 10; 48; 10; 16; 87; 87; 87; 45; 65; 117; 116; 104; 101; 110; 116; 105; 99; 97; 116; 101; 18; 28; 65; 80; 73; 75; 69; 89; 32; 114; 101; 97; 108; 109; 61; 34; 97; 112; 105; 45; 107; 101; 121; 45; 117; 115; 101; 114; 115; 34; 18; 43; 10; 41; 10; 17; 88; 45; 69; 120; 116; 45; 65; 117; 116; 104; 45; 82; 101; 97; 115; 111; 110; 18; 20; 99; 114; 101; 100; 101; 110; 116; 105; 97; 108; 32; 110; 111; 116; 32; 102; 111; 117; 110; 100]%N))]
        []
        (mkWant [MDenied] [] [(401%N, None, (Some [((tx "WWW-Authenticate"), (tx "APIKEY realm=""api-key-users""")); ((tx "X-Ext-Auth-Reason"), (tx "credential not found"))]))] [] [] None)].
Example replay_auth_it_denies : replay cfg_auth_it_denies steps_auth_it_denies = true.
Proof. vm_compute. reflexivity. Qed.

(** tests/auth.rs:421 *)
Definition cfg_auth_it_does_not_fold_auth_actions : text := tx "{
        ""services"": {
            ""auth"": {
                ""type"": ""auth"",
                ""endpoint"": ""authorino-cluster"",
                ""failureMode"": ""deny"",
                ""timeout"": ""5s""
            }
        },
        ""actionSets"": [
        {
            ""name"": ""some-name"",
            ""routeRuleConditions"": {
                ""hostnames"": [""*.com""]
            },
            ""actions"": [
            {
                ""service"": ""auth"",
                ""scope"": ""auth-scope"",
                ""conditionalData"" : []
            },
            {
                ""service"": ""auth"",
                ""scope"": ""auth-scope"",
                ""conditionalData"" : []
            }]
        }]
    }".
Definition steps_auth_it_does_not_fold_auth_actions : list step := [
    mkStep InReqHeaders
        [([(tx "request"); (tx "host")], (Some (tx "cars.toystore.com"))); ([(tx "request"); (tx "time")], (Some (bytes [240; 158; 152; 213; 254; 179; 5; 24]%N))); ([(tx "request"); (tx "method")], (Some (tx "GET"))); ([(tx "request"); (tx "scheme")], (Some (tx "http"))); ([(tx "request"); (tx "path")], (Some (tx "/admin/toy"))); ([(tx "request"); (tx "protocol")], (Some (tx "HTTP/1.1"))); ([(tx "destination"); (tx "address")], (Some (tx "127.0.0.1:8000"))); ([(tx "destination"); (tx "port")], (Some (bytes [64; 31; 0; 0; 0; 0; 0; 0]%N))); ([(tx "source"); (tx "address")], (Some (tx "127.0.0.1:45000"))); ([(tx "source"); (tx "port")], (Some (bytes [200; 175; 0; 0; 0; 0; 0; 0]%N)))]
        [(MReq, [((tx ":authority"), (tx "abi_test_harness")); ((tx ":method"), (tx "GET")); ((tx ":path"), (tx "/default/request/headers/path"))])]
        []
        [Some 42%N]
        (mkWant [MHits] [((tx "authorino-cluster"), (tx "envoy.service.auth.v3.Authorization"), (tx "Check"), None, 5000%N)] [] [] [] (Some true));
    mkStep (InGrpc 42 0 4)
        []
        []
        [(BGrpc, (bytes [10; 0; 26; 0]%N))]
        [Some 43%N]
        (mkWant [] [((tx "authorino-cluster"), (tx "envoy.service.auth.v3.Authorization"), (tx "Check"), None, 5000%N)] [] [] [] None);
    mkStep (InGrpc 43 0 4)
        []
        []
        [(BGrpc, (bytes [10; 0; 26; 0]%N))]
        []
        (mkWant [] [] [] [] [] None);
    mkStep InRespHeaders
        []
        []
        []
        []
        (mkWant [MAllowed] [] [] [] [] (Some false))].
Example replay_auth_it_does_not_fold_auth_actions : replay cfg_auth_it_does_not_fold_auth_actions steps_auth_it_does_not_fold_auth_actions = true.
Proof. vm_compute. reflexivity. Qed.

(** tests/auth.rs:573 *)
Definition cfg_auth_it_replaces_headers : text := tx "{
    ""services"": {
        ""authorino"": {
            ""type"": ""auth"",
            ""endpoint"": ""authorino-cluster"",
            ""failureMode"": ""deny"",
            ""timeout"": ""5s""
        }
    },
    ""actionSets"": [
    {
        ""name"": ""some-name"",
        ""routeRuleConditions"": {
            ""hostnames"": [""*.toystore.com"", ""example.com""],
            ""predicates"" : [
                ""request.url_path.startsWith('/admin/toy')"",
                ""request.host == 'cars.toystore.com'"",
                ""request.method == 'POST'""
            ]
        },
        ""actions"": [
        {
            ""service"": ""authorino"",
            ""scope"": ""authconfig-A""
        }]
    }]
}".
Definition steps_auth_it_replaces_headers : list step := [
    mkStep InReqHeaders
        [([(tx "request"); (tx "host")], (Some (tx "cars.toystore.com"))); ([(tx "request"); (tx "url_path")], (Some (tx "/admin/toy"))); ([(tx "request"); (tx "method")], (Some (tx "POST"))); ([(tx "request"); (tx "time")], (Some (bytes [240; 158; 152; 213; 254; 179; 5; 24]%N))); ([(tx "request"); (tx "scheme")], (Some (tx "http"))); ([(tx "request"); (tx "path")], (Some (tx "/admin/toy"))); ([(tx "request"); (tx "protocol")], (Some (tx "HTTP/1.1"))); ([(tx "destination"); (tx "address")], (Some (tx "127.0.0.1:8000"))); ([(tx "destination"); (tx "port")], (Some (bytes [64; 31; 0; 0; 0; 0; 0; 0]%N))); ([(tx "source"); (tx "address")], (Some (tx "127.0.0.1:45000"))); ([(tx "source"); (tx "port")], (Some (bytes [200; 175; 0; 0; 0; 0; 0; 0]%N)))]
        [(MReq, [((tx "x-request-id"), (tx "e1fc297a-a8a3-4360-8f41-af57b4a861e1")); ((tx "authorization"), (tx "Bearer initial-token"))])]
        []
        [Some 42%N]
        (mkWant [MHits] [((tx "authorino-cluster"), (tx "envoy.service.auth.v3.Authorization"), (tx "Check"), None, 5000%N)] [] [] [] (Some true));
    mkStep (InGrpc 42 0 46)
        []
        []
        [(BGrpc, (bytes [10; 0; 26; 42; 18; 40; 10; 38; 10; 13; 97; 117; 116; 104; 111; 114; 105; 122; 97; 116; 105; 111; 110; 18; 21; 66; 101; 97; 114; 101; 114; 32; 114; 101; 112; 108; 97; 99; 101; 100; 45; 116; 111; 107; 101; 110]%N))]
        []
        (mkWant [] [] [] [((Some MReq), (Some [((tx "x-request-id"), (tx "e1fc297a-a8a3-4360-8f41-af57b4a861e1")); ((tx "authorization"), (tx "Bearer replaced-token"))]))] [] None);
    mkStep InRespHeaders
        []
        []
        []
        []
        (mkWant [MAllowed] [] [] [] [] (Some false))].
Example replay_auth_it_replaces_headers : replay cfg_auth_it_replaces_headers steps_auth_it_replaces_headers = true.
Proof. vm_compute. reflexivity. Qed.

(** tests/dynamic.rs:144 *)
Definition cfg_dynamic_it_allows_when_deny_predicate_is_false : text := tx "{
    ""descriptorService"": ""descriptor-service-cluster"",
    ""services"": {
        ""my-service"": {
            ""type"": ""dynamic"",
            ""endpoint"": ""limitador-cluster"",
            ""failureMode"": ""deny"",
            ""timeout"": ""5s"",
            ""grpcService"": ""test.TestService"",
            ""grpcMethod"": ""TestMethod""
        }
    },
    ""actionSets"": [{
        ""name"": ""deny-test"",
        ""routeRuleConditions"": {
            ""hostnames"": [""*.toystore.com""]
        },
        ""actions"": [{
            ""type"": ""grpc"",
            ""var"": ""my_check"",
            ""service"": ""my-service"",
            ""predicate"": ""true"",
            ""terminal"": false,
            ""messageBuilder"": ""test.TestRequest{message: 'hello'}"",
            ""onReply"": [{
                ""type"": ""deny"",
                ""predicate"": ""my_check.result == 'denied'"",
                ""denyWith"": ""DenyResponse{status: 429u, body: 'Too Many Requests', headers: [['x-ratelimit-reason', my_check.result]]}"",
                ""terminal"": true
            }, {
                ""type"": ""fail"",
                ""predicate"": ""my_check.result != 'allowed' && my_check.result != 'denied'"",
                ""terminal"": true,
                ""logMessage"": ""Invalid result from service""
            }]
        }]
    }]
}".
Definition steps_dynamic_it_allows_when_deny_predicate_is_false : list step := [
    mkStep InReqHeaders
        [([(tx "request"); (tx "host")], (Some (tx "cars.toystore.com")))]
        [(MReq, [((tx ":authority"), (tx "abi_test_harness")); ((tx ":method"), (tx "GET")); ((tx ":path"), (tx "/default/request/headers/path"))])]
        []
        [Some 43%N]
        (mkWant [MHits] [((tx "limitador-cluster"), (tx "test.TestService"), (tx "TestMethod"), None, 5000%N)] [] [] [] (Some true));
    mkStep (InGrpc 43 0 9)
        []
        []
        [(BGrpc, (bytes [10; 7; 97; 108; 108; 111; 119; 101; 100]%N))]
        []
        (mkWant [] [] [] [] [] None);
    mkStep InRespHeaders
        []
        []
        []
        []
        (mkWant [MAllowed] [] [] [] [] (Some false))].
Example replay_dynamic_it_allows_when_deny_predicate_is_false : replay cfg_dynamic_it_allows_when_deny_predicate_is_false steps_dynamic_it_allows_when_deny_predicate_is_false = true.
Proof. vm_compute. reflexivity. Qed.

(** tests/dynamic.rs:204 *)
Definition cfg_dynamic_it_denies_when_deny_predicate_is_true : text := tx "{
    ""descriptorService"": ""descriptor-service-cluster"",
    ""services"": {
        ""my-service"": {
            ""type"": ""dynamic"",
            ""endpoint"": ""limitador-cluster"",
            ""failureMode"": ""deny"",
            ""timeout"": ""5s"",
            ""grpcService"": ""test.TestService"",
            ""grpcMethod"": ""TestMethod""
        }
    },
    ""actionSets"": [{
        ""name"": ""deny-test"",
        ""routeRuleConditions"": {
            ""hostnames"": [""*.toystore.com""]
        },
        ""actions"": [{
            ""type"": ""grpc"",
            ""var"": ""my_check"",
            ""service"": ""my-service"",
            ""predicate"": ""true"",
            ""terminal"": false,
            ""messageBuilder"": ""test.TestRequest{message: 'hello'}"",
            ""onReply"": [{
                ""type"": ""deny"",
                ""predicate"": ""my_check.result == 'denied'"",
                ""denyWith"": ""DenyResponse{status: 429u, body: 'Too Many Requests', headers: [['x-ratelimit-reason', my_check.result]]}"",
                ""terminal"": true
            }, {
                ""type"": ""fail"",
                ""predicate"": ""my_check.result != 'allowed' && my_check.result != 'denied'"",
                ""terminal"": true,
                ""logMessage"": ""Invalid result from service""
            }]
        }]
    }]
}".
Definition steps_dynamic_it_denies_when_deny_predicate_is_true : list step := [
    mkStep InReqHeaders
        [([(tx "request"); (tx "host")], (Some (tx "cars.toystore.com")))]
        [(MReq, [((tx ":authority"), (tx "abi_test_harness")); ((tx ":method"), (tx "GET")); ((tx ":path"), (tx "/default/request/headers/path"))])]
        []
        [Some 43%N]
        (mkWant [MHits] [((tx "limitador-cluster"), (tx "test.TestService"), (tx "TestMethod"), None, 5000%N)] [] [] [] (Some true));
    mkStep (InGrpc 43 0 8)
        []
        []
        [(BGrpc, (bytes [10; 6; 100; 101; 110; 105; 101; 100]%N))]
        []
        (mkWant [MDenied] [] [(429%N, (Some (tx "Too Many Requests")), (Some [((tx "x-ratelimit-reason"), (tx "denied"))]))] [] [] None)].
Example replay_dynamic_it_denies_when_deny_predicate_is_true : replay cfg_dynamic_it_denies_when_deny_predicate_is_true steps_dynamic_it_denies_when_deny_predicate_is_true = true.
Proof. vm_compute. reflexivity. Qed.

(** tests/dynamic.rs:265 *)
Definition cfg_dynamic_it_fails_when_fail_predicate_is_true : text := tx "{
        ""descriptorService"": ""descriptor-service-cluster"",
        ""services"": {
            ""my-service"": {
                ""type"": ""dynamic"",
                ""endpoint"": ""limitador-cluster"",
                ""failureMode"": ""deny"",
                ""timeout"": ""5s"",
                ""grpcService"": ""test.TestService"",
                ""grpcMethod"": ""TestMethod""
            }
        },
        ""actionSets"": [{
            ""name"": ""predicate-test"",
            ""routeRuleConditions"": {
                ""hostnames"": [""*.toystore.com""]
            },
            ""actions"": [{
                ""type"": ""grpc"",
                ""var"": ""my_check"",
                ""service"": ""my-service"",
                ""predicate"": ""request.method == 'POST'"",
                ""terminal"": false,
                ""messageBuilder"": ""test.TestRequest{message: 'hello'}"",
                ""onReply"": [{
                    ""type"": ""deny"",
                    ""predicate"": ""my_check.result == 'denied'"",
                    ""denyWith"": ""DenyResponse{status: 403u}"",
                    ""terminal"": true
                }, {
                    ""type"": ""fail"",
                    ""predicate"": ""my_check.result != 'allowed' && my_check.result != 'denied'"",
                    ""terminal"": true,
                    ""logMessage"": ""Invalid result from service""
                }]
            }]
        }]
    }".
Definition steps_dynamic_it_fails_when_fail_predicate_is_true : list step := [
    mkStep InReqHeaders
        [([(tx "request"); (tx "host")], (Some (tx "cars.toystore.com"))); ([(tx "request"); (tx "method")], (Some (tx "POST")))]
        [(MReq, [((tx ":authority"), (tx "abi_test_harness")); ((tx ":method"), (tx "GET")); ((tx ":path"), (tx "/default/request/headers/path"))])]
        []
        [Some 43%N]
        (mkWant [MHits] [((tx "limitador-cluster"), (tx "test.TestService"), (tx "TestMethod"), None, 5000%N)] [] [] [] (Some true));
    mkStep (InGrpc 43 0 14)
        []
        []
        [(BGrpc, (bytes [10; 12; 99; 104; 101; 99; 107; 45; 112; 97; 115; 115; 101; 100]%N))]
        []
        (mkWant [MErrors; MDenied] [] [(500%N, (Some (bytes [73; 110; 116; 101; 114; 110; 97; 108; 32; 83; 101; 114; 118; 101; 114; 32; 69; 114; 114; 111; 114; 46; 10]%N)), (Some []))] [] [] None)].
Example replay_dynamic_it_fails_when_fail_predicate_is_true : replay cfg_dynamic_it_fails_when_fail_predicate_is_true steps_dynamic_it_fails_when_fail_predicate_is_true = true.
Proof. vm_compute. reflexivity. Qed.

(** tests/dynamic.rs:371 *)
Definition cfg_dynamic_it_skips_grpc_action_when_predicate_is_false : text := tx "{
        ""descriptorService"": ""descriptor-service-cluster"",
        ""services"": {
            ""my-service"": {
                ""type"": ""dynamic"",
                ""endpoint"": ""limitador-cluster"",
                ""failureMode"": ""deny"",
                ""timeout"": ""5s"",
                ""grpcService"": ""test.TestService"",
                ""grpcMethod"": ""TestMethod""
            }
        },
        ""actionSets"": [{
            ""name"": ""predicate-test"",
            ""routeRuleConditions"": {
                ""hostnames"": [""*.toystore.com""]
            },
            ""actions"": [{
                ""type"": ""grpc"",
                ""var"": ""my_check"",
                ""service"": ""my-service"",
                ""predicate"": ""request.method == 'DELETE'"",
                ""terminal"": false,
                ""messageBuilder"": ""test.TestRequest{message: 'hello'}"",
                ""onReply"": [{
                    ""type"": ""deny"",
                    ""predicate"": ""true"",
                    ""denyWith"": ""DenyResponse{status: 403u}"",
                    ""terminal"": true
                }]
            }]
        }]
    }".
Definition steps_dynamic_it_skips_grpc_action_when_predicate_is_false : list step := [
    mkStep InReqHeaders
        [([(tx "request"); (tx "host")], (Some (tx "cars.toystore.com"))); ([(tx "request"); (tx "method")], (Some (tx "GET")))]
        [(MReq, [((tx ":authority"), (tx "abi_test_harness")); ((tx ":method"), (tx "GET")); ((tx ":path"), (tx "/default/request/headers/path"))])]
        []
        []
        (mkWant [MHits] [] [] [] [] (Some false));
    mkStep InRespHeaders
        []
        []
        []
        []
        (mkWant [MAllowed] [] [] [] [] (Some false))].
Example replay_dynamic_it_skips_grpc_action_when_predicate_is_false : replay cfg_dynamic_it_skips_grpc_action_when_predicate_is_false steps_dynamic_it_skips_grpc_action_when_predicate_is_false = true.
Proof. vm_compute. reflexivity. Qed.

(** tests/dynamic.rs:449 *)
Definition cfg_dynamic_it_sets_headers_from_grpc_response : text := tx "{
        ""descriptorService"": ""descriptor-service-cluster"",
        ""services"": {
            ""my-service"": {
                ""type"": ""dynamic"",
                ""endpoint"": ""limitador-cluster"",
                ""failureMode"": ""deny"",
                ""timeout"": ""5s"",
                ""grpcService"": ""test.TestService"",
                ""grpcMethod"": ""TestMethod""
            }
        },
        ""actionSets"": [{
            ""name"": ""headers-test"",
            ""routeRuleConditions"": {
                ""hostnames"": [""*.toystore.com""]
            },
            ""actions"": [{
                ""type"": ""grpc"",
                ""var"": ""my_check"",
                ""service"": ""my-service"",
                ""predicate"": ""true"",
                ""terminal"": false,
                ""messageBuilder"": ""test.TestRequest{message: 'hello'}"",
                ""onReply"": [{
                    ""type"": ""headers"",
                    ""predicate"": ""true"",
                    ""terminal"": false,
                    ""target"": ""request"",
                    ""headers"": ""[['x-result', my_check.result], ['x-custom', 'static-value']]""
                }]
            }]
        }]
    }".
Definition steps_dynamic_it_sets_headers_from_grpc_response : list step := [
    mkStep InReqHeaders
        [([(tx "request"); (tx "host")], (Some (tx "cars.toystore.com")))]
        [(MReq, [((tx ":authority"), (tx "abi_test_harness")); ((tx ":method"), (tx "GET")); ((tx ":path"), (tx "/default/request/headers/path"))])]
        []
        [Some 43%N]
        (mkWant [MHits] [((tx "limitador-cluster"), (tx "test.TestService"), (tx "TestMethod"), None, 5000%N)] [] [] [] (Some true));
    mkStep (InGrpc 43 0 14)
        []
        []
        [(BGrpc, (bytes [10; 12; 99; 104; 101; 99; 107; 45; 112; 97; 115; 115; 101; 100]%N))]
        []
        (mkWant [] [] [] [(None, None)] [] None);
    mkStep InRespHeaders
        []
        []
        []
        []
        (mkWant [MAllowed] [] [] [] [] (Some false))].
Example replay_dynamic_it_sets_headers_from_grpc_response : replay cfg_dynamic_it_sets_headers_from_grpc_response steps_dynamic_it_sets_headers_from_grpc_response = true.
Proof. vm_compute. reflexivity. Qed.

(** tests/dynamic.rs:544 *)
Definition cfg_dynamic_it_stores_data_from_grpc_response : text := tx "{
        ""descriptorService"": ""descriptor-service-cluster"",
        ""services"": {
            ""my-service"": {
                ""type"": ""dynamic"",
                ""endpoint"": ""limitador-cluster"",
                ""failureMode"": ""deny"",
                ""timeout"": ""5s"",
                ""grpcService"": ""test.TestService"",
                ""grpcMethod"": ""TestMethod""
            }
        },
        ""actionSets"": [{
            ""name"": ""store-test"",
            ""routeRuleConditions"": {
                ""hostnames"": [""*.toystore.com""]
            },
            ""actions"": [{
                ""type"": ""grpc"",
                ""var"": ""my_check"",
                ""service"": ""my-service"",
                ""predicate"": ""true"",
                ""terminal"": false,
                ""messageBuilder"": ""test.TestRequest{message: 'hello'}"",
                ""onReply"": [{
                    ""type"": ""store"",
                    ""predicate"": ""true"",
                    ""terminal"": false,
                    ""path"": ""check.result"",
                    ""value"": ""my_check.result"",
                    ""exportToHost"": true
                }]
            }]
        }]
    }".
Definition steps_dynamic_it_stores_data_from_grpc_response : list step := [
    mkStep InReqHeaders
        [([(tx "request"); (tx "host")], (Some (tx "cars.toystore.com")))]
        [(MReq, [((tx ":authority"), (tx "abi_test_harness")); ((tx ":method"), (tx "GET")); ((tx ":path"), (tx "/default/request/headers/path"))])]
        []
        [Some 43%N]
        (mkWant [MHits] [((tx "limitador-cluster"), (tx "test.TestService"), (tx "TestMethod"), None, 5000%N)] [] [] [] (Some true));
    mkStep (InGrpc 43 0 14)
        []
        []
        [(BGrpc, (bytes [10; 12; 115; 116; 111; 114; 101; 100; 95; 118; 97; 108; 117; 101]%N))]
        []
        (mkWant [] [] [] [] [([(tx "kuadrant.check.result")], (bytes [26; 12; 115; 116; 111; 114; 101; 100; 95; 118; 97; 108; 117; 101]%N))] None);
    mkStep InRespHeaders
        []
        []
        []
        []
        (mkWant [MAllowed] [] [] [] [] (Some false))].
Example replay_dynamic_it_stores_data_from_grpc_response : replay cfg_dynamic_it_stores_data_from_grpc_response steps_dynamic_it_stores_data_from_grpc_response = true.
Proof. vm_compute. reflexivity. Qed.

(** tests/failuremode.rs:13 *)
Definition cfg_failuremode_it_runs_next_action_on_failure_when_failuremode_is_allow : text := tx "{
        ""services"": {
            ""limitador"": {
                ""type"": ""ratelimit"",
                ""endpoint"": ""limitador-cluster"",
                ""failureMode"": ""deny"",
                ""timeout"": ""5s""
            },
            ""limitador-unreachable"": {
                ""type"": ""ratelimit"",
                ""endpoint"": ""unreachable-cluster"",
                ""failureMode"": ""allow"",
                ""timeout"": ""5s""
            }
        },
        ""actionSets"": [
        {
            ""name"": ""some-name"",
            ""routeRuleConditions"": {
                ""hostnames"": [""cars.toystore.com""]
            },
            ""actions"": [
            {
                ""service"": ""limitador-unreachable"",
                ""scope"": ""a"",
                ""conditionalData"": [
                {
                    ""data"": [
                        {
                            ""expression"": {
                                ""key"": ""l"",
                                ""value"": ""1""
                            }
                        }
                    ]
                }]
            },
            {
                ""service"": ""limitador"",
                ""scope"": ""a"",
                ""conditionalData"": [
                {
                    ""data"": [
                        {
                            ""expression"": {
                                ""key"": ""l"",
                                ""value"": ""1""
                            }
                        }
                    ]
                }]
            }]
        }]
    }".
Definition steps_failuremode_it_runs_next_action_on_failure_when_failuremode_is_allow : list step := [
    mkStep InReqHeaders
        [([(tx "request"); (tx "host")], (Some (tx "cars.toystore.com")))]
        [(MReq, [((tx "x-request-id"), (tx "e1fc297a-a8a3-4360-8f41-af57b4a861e1"))])]
        []
        [Some 42%N]
        (mkWant [MHits] [((tx "unreachable-cluster"), (tx "envoy.service.ratelimit.v3.RateLimitService"), (tx "ShouldRateLimit"), None, 5000%N)] [] [] [] (Some true));
    mkStep (InGrpc 42 14 0)
        []
        []
        []
        [Some 43%N]
        (mkWant [MErrors] [((tx "limitador-cluster"), (tx "envoy.service.ratelimit.v3.RateLimitService"), (tx "ShouldRateLimit"), None, 5000%N)] [] [] [] None);
    mkStep (InGrpc 43 0 2)
        []
        []
        [(BGrpc, (bytes [8; 1]%N))]
        []
        (mkWant [] [] [] [] [] None);
    mkStep InRespHeaders
        []
        []
        []
        []
        (mkWant [MAllowed] [] [] [] [] (Some false))].
Example replay_failuremode_it_runs_next_action_on_failure_when_failuremode_is_allow : replay cfg_failuremode_it_runs_next_action_on_failure_when_failuremode_is_allow steps_failuremode_it_runs_next_action_on_failure_when_failuremode_is_allow = true.
Proof. vm_compute. reflexivity. Qed.

(** tests/failuremode.rs:180 *)
Definition cfg_failuremode_it_stops_on_failure_when_failuremode_is_deny : text := tx "{
        ""services"": {
            ""limitador"": {
                ""type"": ""ratelimit"",
                ""endpoint"": ""limitador-cluster"",
                ""failureMode"": ""deny"",
                ""timeout"": ""5s""
            },
            ""limitador-unreachable"": {
                ""type"": ""ratelimit"",
                ""endpoint"": ""unreachable-cluster"",
                ""failureMode"": ""deny"",
                ""timeout"": ""5s""
            }
        },
        ""actionSets"": [
        {
            ""name"": ""some-name"",
            ""routeRuleConditions"": {
                ""hostnames"": [""cars.toystore.com""]
            },
            ""actions"": [
            {
                ""service"": ""limitador-unreachable"",
                ""scope"": ""a"",
                ""conditionalData"": [
                {
                    ""data"": [
                        {
                            ""expression"": {
                                ""key"": ""l"",
                                ""value"": ""1""
                            }
                        }
                    ]
                }]
            },
            {
                ""service"": ""limitador"",
                ""scope"": ""a"",
                ""conditionalData"": [
                {
                    ""data"": [
                        {
                            ""expression"": {
                                ""key"": ""l"",
                                ""value"": ""1""
                            }
                        }
                    ]
                }]
            }]
        }]
    }".
Definition steps_failuremode_it_stops_on_failure_when_failuremode_is_deny : list step := [
    mkStep InReqHeaders
        [([(tx "request"); (tx "host")], (Some (tx "cars.toystore.com")))]
        [(MReq, [((tx ":authority"), (tx "abi_test_harness")); ((tx ":method"), (tx "GET")); ((tx ":path"), (tx "/default/request/headers/path"))])]
        []
        [Some 42%N]
        (mkWant [MHits] [((tx "unreachable-cluster"), (tx "envoy.service.ratelimit.v3.RateLimitService"), (tx "ShouldRateLimit"), None, 5000%N)] [] [] [] (Some true));
    mkStep (InGrpc 42 14 0)
        []
        []
        []
        []
        (mkWant [MErrors; MDenied] [] [(500%N, None, None)] [] [] None)].
Example replay_failuremode_it_stops_on_failure_when_failuremode_is_deny : replay cfg_failuremode_it_stops_on_failure_when_failuremode_is_deny steps_failuremode_it_stops_on_failure_when_failuremode_is_deny = true.
Proof. vm_compute. reflexivity. Qed.

(** tests/failures.rs:12 *)
Definition cfg_failures_it_fails_on_first_action_grpc_call : text := tx "{
        ""services"": {
            ""mistyped-service"": {
                ""type"": ""ratelimit"",
                ""endpoint"": ""does-not-exist"",
                ""failureMode"": ""deny"",
                ""timeout"": ""5s""
            }
        },
        ""actionSets"": [
        {
            ""name"": ""some-name"",
            ""routeRuleConditions"": {
                ""hostnames"": [""cars.toystore.com""]
            },
            ""actions"": [
            {
                ""service"": ""mistyped-service"",
                ""scope"": ""a"",
                ""conditionalData"": [
                {
                    ""data"": [
                        {
                            ""expression"": {
                                ""key"": ""limit_to_be_activated"",
                                ""value"": ""1""
                            }
                        }
                    ]
                }]
            }]
        }]
    }".
Definition steps_failures_it_fails_on_first_action_grpc_call : list step := [
    mkStep InReqHeaders
        [([(tx "request"); (tx "host")], (Some (tx "cars.toystore.com")))]
        [(MReq, [((tx "x-request-id"), (tx "e1fc297a-a8a3-4360-8f41-af57b4a861e1"))])]
        []
        [None]
        (mkWant [MHits; MErrors; MDenied] [((tx "does-not-exist"), (tx "envoy.service.ratelimit.v3.RateLimitService"), (tx "ShouldRateLimit"), (Some (bytes [10; 1; 97; 18; 28; 10; 26; 10; 21; 108; 105; 109; 105; 116; 95; 116; 111; 95; 98; 101; 95; 97; 99; 116; 105; 118; 97; 116; 101; 100; 18; 1; 49; 24; 1]%N)), 5000%N)] [(500%N, (Some (bytes [73; 110; 116; 101; 114; 110; 97; 108; 32; 83; 101; 114; 118; 101; 114; 32; 69; 114; 114; 111; 114; 46; 10]%N)), (Some []))] [] [] (Some false))].
Example replay_failures_it_fails_on_first_action_grpc_call : replay cfg_failures_it_fails_on_first_action_grpc_call steps_failures_it_fails_on_first_action_grpc_call = true.
Proof. vm_compute. reflexivity. Qed.

(** tests/failures.rs:138 *)
Definition cfg_failures_it_fails_on_second_action_grpc_call : text := tx "{
        ""services"": {
            ""limitador"": {
                ""type"": ""ratelimit"",
                ""endpoint"": ""limitador-cluster"",
                ""failureMode"": ""deny"",
                ""timeout"": ""5s""
            },
            ""mistyped-service"": {
                ""type"": ""ratelimit"",
                ""endpoint"": ""does-not-exist"",
                ""failureMode"": ""deny"",
                ""timeout"": ""5s""
            }
        },
        ""actionSets"": [
        {
            ""name"": ""some-name"",
            ""routeRuleConditions"": {
                ""hostnames"": [""cars.toystore.com""]
            },
            ""actions"": [
            {
                ""service"": ""limitador"",
                ""scope"": ""a"",
                ""conditionalData"": [
                {
                    ""data"": [
                        {
                            ""expression"": {
                                ""key"": ""limit_to_be_activated"",
                                ""value"": ""1""
                            }
                        }
                    ]
                }]
            },
            {
                ""service"": ""mistyped-service"",
                ""scope"": ""a"",
                ""conditionalData"": [
                {
                    ""data"": [
                        {
                            ""expression"": {
                                ""key"": ""limit_to_be_activated"",
                                ""value"": ""1""
                            }
                        }
                    ]
                }]
            }]
        }]
    }".
Definition steps_failures_it_fails_on_second_action_grpc_call : list step := [
    mkStep InReqHeaders
        [([(tx "request"); (tx "host")], (Some (tx "cars.toystore.com")))]
        [(MReq, [((tx ":authority"), (tx "abi_test_harness")); ((tx ":method"), (tx "GET")); ((tx ":path"), (tx "/default/request/headers/path"))])]
        []
        [Some 42%N]
        (mkWant [MHits] [((tx "limitador-cluster"), (tx "envoy.service.ratelimit.v3.RateLimitService"), (tx "ShouldRateLimit"), (Some (bytes [10; 1; 97; 18; 28; 10; 26; 10; 21; 108; 105; 109; 105; 116; 95; 116; 111; 95; 98; 101; 95; 97; 99; 116; 105; 118; 97; 116; 101; 100; 18; 1; 49; 24; 1]%N)), 5000%N)] [] [] [] (Some true));
    mkStep (InGrpc 42 0 2)
        []
        []
        [(BGrpc, (bytes [8; 1]%N))]
        [None]
        (mkWant [MErrors; MDenied] [((tx "does-not-exist"), (tx "envoy.service.ratelimit.v3.RateLimitService"), (tx "ShouldRateLimit"), (Some (bytes [10; 1; 97; 18; 28; 10; 26; 10; 21; 108; 105; 109; 105; 116; 95; 116; 111; 95; 98; 101; 95; 97; 99; 116; 105; 118; 97; 116; 101; 100; 18; 1; 49; 24; 1]%N)), 5000%N)] [(500%N, (Some (bytes [73; 110; 116; 101; 114; 110; 97; 108; 32; 83; 101; 114; 118; 101; 114; 32; 69; 114; 114; 111; 114; 46; 10]%N)), (Some []))] [] [] None)].
Example replay_failures_it_fails_on_second_action_grpc_call : replay cfg_failures_it_fails_on_second_action_grpc_call steps_failures_it_fails_on_second_action_grpc_call = true.
Proof. vm_compute. reflexivity. Qed.

(** tests/failures.rs:308 *)
Definition cfg_failures_it_fails_on_first_action_grpc_response : text := tx "{
        ""services"": {
            ""limitador-unreachable"": {
                ""type"": ""ratelimit"",
                ""endpoint"": ""unreachable-cluster"",
                ""failureMode"": ""deny"",
                ""timeout"": ""5s""
            }
        },
        ""actionSets"": [
        {
            ""name"": ""some-name"",
            ""routeRuleConditions"": {
                ""hostnames"": [""cars.toystore.com""]
            },
            ""actions"": [
            {
                ""service"": ""limitador-unreachable"",
                ""scope"": ""a"",
                ""conditionalData"": [
                {
                    ""data"": [
                        {
                            ""expression"": {
                                ""key"": ""limit_to_be_activated"",
                                ""value"": ""1""
                            }
                        }
                    ]
                }]
            }]
        }]
    }".
Definition steps_failures_it_fails_on_first_action_grpc_response : list step := [
    mkStep InReqHeaders
        [([(tx "request"); (tx "host")], (Some (tx "cars.toystore.com")))]
        [(MReq, [((tx ":authority"), (tx "abi_test_harness")); ((tx ":method"), (tx "GET")); ((tx ":path"), (tx "/default/request/headers/path"))])]
        []
        [Some 42%N]
        (mkWant [MHits] [((tx "unreachable-cluster"), (tx "envoy.service.ratelimit.v3.RateLimitService"), (tx "ShouldRateLimit"), (Some (bytes [10; 1; 97; 18; 28; 10; 26; 10; 21; 108; 105; 109; 105; 116; 95; 116; 111; 95; 98; 101; 95; 97; 99; 116; 105; 118; 97; 116; 101; 100; 18; 1; 49; 24; 1]%N)), 5000%N)] [] [] [] (Some true));
    mkStep (InGrpc 42 14 0)
        []
        []
        []
        []
        (mkWant [MErrors; MDenied] [] [(500%N, (Some (bytes [73; 110; 116; 101; 114; 110; 97; 108; 32; 83; 101; 114; 118; 101; 114; 32; 69; 114; 114; 111; 114; 46; 10]%N)), (Some []))] [] [] None)].
Example replay_failures_it_fails_on_first_action_grpc_response : replay cfg_failures_it_fails_on_first_action_grpc_response steps_failures_it_fails_on_first_action_grpc_response = true.
Proof. vm_compute. reflexivity. Qed.

(** tests/failures.rs:434 *)
Definition cfg_failures_it_fails_on_second_action_grpc_response : text := tx "{
        ""services"": {
            ""limitador"": {
               ""type"": ""ratelimit"",
               ""endpoint"": ""limitador-cluster"",
               ""failureMode"": ""deny"",
               ""timeout"": ""5s""
            },
            ""limitador-unreachable"": {
                ""type"": ""ratelimit"",
                ""endpoint"": ""unreachable-cluster"",
                ""failureMode"": ""deny"",
                ""timeout"": ""5s""
            }
        },
        ""actionSets"": [
        {
            ""name"": ""some-name"",
            ""routeRuleConditions"": {
                ""hostnames"": [""cars.toystore.com""]
            },
            ""actions"": [
            {
                ""service"": ""limitador"",
                ""scope"": ""a"",
                ""conditionalData"": [
                {
                    ""data"": [
                        {
                            ""expression"": {
                                ""key"": ""limit_to_be_activated"",
                                ""value"": ""1""
                            }
                        }
                    ]
                }]
            },
            {
                ""service"": ""limitador-unreachable"",
                ""scope"": ""a"",
                ""conditionalData"": [
                {
                    ""data"": [
                        {
                            ""expression"": {
                                ""key"": ""limit_to_be_activated"",
                                ""value"": ""1""
                            }
                        }
                    ]
                }]
            }]
        }]
    }".
Definition steps_failures_it_fails_on_second_action_grpc_response : list step := [
    mkStep InReqHeaders
        [([(tx "request"); (tx "host")], (Some (tx "cars.toystore.com")))]
        [(MReq, [((tx ":authority"), (tx "abi_test_harness")); ((tx ":method"), (tx "GET")); ((tx ":path"), (tx "/default/request/headers/path"))])]
        []
        [Some 42%N]
        (mkWant [MHits] [((tx "limitador-cluster"), (tx "envoy.service.ratelimit.v3.RateLimitService"), (tx "ShouldRateLimit"), (Some (bytes [10; 1; 97; 18; 28; 10; 26; 10; 21; 108; 105; 109; 105; 116; 95; 116; 111; 95; 98; 101; 95; 97; 99; 116; 105; 118; 97; 116; 101; 100; 18; 1; 49; 24; 1]%N)), 5000%N)] [] [] [] (Some true));
    mkStep (InGrpc 42 0 2)
        []
        []
        [(BGrpc, (bytes [8; 1]%N))]
        [Some 43%N]
        (mkWant [] [((tx "unreachable-cluster"), (tx "envoy.service.ratelimit.v3.RateLimitService"), (tx "ShouldRateLimit"), (Some (bytes [10; 1; 97; 18; 28; 10; 26; 10; 21; 108; 105; 109; 105; 116; 95; 116; 111; 95; 98; 101; 95; 97; 99; 116; 105; 118; 97; 116; 101; 100; 18; 1; 49; 24; 1]%N)), 5000%N)] [] [] [] None);
    mkStep (InGrpc 43 14 0)
        []
        []
        []
        []
        (mkWant [MErrors; MDenied] [] [(500%N, (Some (bytes [73; 110; 116; 101; 114; 110; 97; 108; 32; 83; 101; 114; 118; 101; 114; 32; 69; 114; 114; 111; 114; 46; 10]%N)), (Some []))] [] [] None)].
Example replay_failures_it_fails_on_second_action_grpc_response : replay cfg_failures_it_fails_on_second_action_grpc_response steps_failures_it_fails_on_second_action_grpc_response = true.
Proof. vm_compute. reflexivity. Qed.

(** tests/multi.rs:64 *)
Definition cfg_multi_it_performs_authenticated_rate_limiting : text := tx "{
    ""services"": {
        ""authorino"": {
            ""type"": ""auth"",
            ""endpoint"": ""authorino-cluster"",
            ""failureMode"": ""deny"",
            ""timeout"": ""5s""
        },
        ""limitador"": {
            ""type"": ""ratelimit"",
            ""endpoint"": ""limitador-cluster"",
            ""failureMode"": ""deny"",
            ""timeout"": ""5s""
        }
    },
    ""actionSets"": [
    {
        ""name"": ""some-name"",
        ""routeRuleConditions"": {
            ""hostnames"": [""*.toystore.com"", ""example.com""],
            ""predicates"" : [
                ""request.url_path.startsWith('/admin/toy')"",
                ""request.host == 'cars.toystore.com'"",
                ""request.method == 'POST'""
            ]
        },
        ""actions"": [
        {
            ""service"": ""authorino"",
            ""scope"": ""authconfig-A""
        },
        {
            ""service"": ""limitador"",
            ""scope"": ""RLS-domain"",
            ""conditionalData"": [
            {
                ""predicates"": [
                    ""auth.identity.userid == 'alice'""
                ],
                ""data"": [
                {
                    ""static"": {
                        ""key"": ""limit.alice_limit"",
                        ""value"": ""1""
                    }
                }]
            }]
        }]
    }]
}".
Definition steps_multi_it_performs_authenticated_rate_limiting : list step := [
    mkStep InReqHeaders
        [([(tx "request"); (tx "host")], (Some (tx "cars.toystore.com"))); ([(tx "request"); (tx "url_path")], (Some (tx "/admin/toy"))); ([(tx "request"); (tx "method")], (Some (tx "POST"))); ([(tx "request"); (tx "time")], (Some (bytes [240; 158; 152; 213; 254; 179; 5; 24]%N))); ([(tx "request"); (tx "scheme")], (Some (tx "http"))); ([(tx "request"); (tx "path")], (Some (tx "/admin/toy"))); ([(tx "request"); (tx "protocol")], (Some (tx "HTTP/1.1"))); ([(tx "destination"); (tx "address")], (Some (tx "127.0.0.1:8000"))); ([(tx "destination"); (tx "port")], (Some (bytes [64; 31; 0; 0; 0; 0; 0; 0]%N))); ([(tx "source"); (tx "address")], (Some (tx "127.0.0.1:45000"))); ([(tx "source"); (tx "port")], (Some (bytes [200; 175; 0; 0; 0; 0; 0; 0]%N)))]
        [(MReq, [((tx ":authority"), (tx "abi_test_harness")); ((tx ":method"), (tx "GET")); ((tx ":path"), (tx "/default/request/headers/path"))])]
        []
        [Some 42%N]
        (mkWant [MHits] [((tx "authorino-cluster"), (tx "envoy.service.auth.v3.Authorization"), (tx "Check"), None, 5000%N)] [] [] [] (Some true));
    mkStep (InGrpc 42 0 41)
        []
        []
        [(BGrpc, (bytes [10; 0; 26; 0; 34; 35; 10; 33; 10; 8; 105; 100; 101; 110; 116; 105; 116; 121; 18; 21; 42; 19; 10; 17; 10; 6; 117; 115; 101; 114; 105; 100; 18; 7; 26; 5; 97; 108; 105; 99; 101]%N))]
        [Some 43%N]
        (mkWant [] [((tx "limitador-cluster"), (tx "envoy.service.ratelimit.v3.RateLimitService"), (tx "ShouldRateLimit"), None, 5000%N)] [] [] [([(tx "kuadrant.auth")], (bytes [10; 33; 10; 8; 105; 100; 101; 110; 116; 105; 116; 121; 18; 21; 42; 19; 10; 17; 10; 6; 117; 115; 101; 114; 105; 100; 18; 7; 26; 5; 97; 108; 105; 99; 101]%N))] None);
    mkStep (InGrpc 43 0 2)
        []
        []
        [(BGrpc, (bytes [8; 1]%N))]
        []
        (mkWant [] [] [] [] [] None);
    mkStep InRespHeaders
        []
        []
        []
        []
        (mkWant [MAllowed] [] [] [] [] (Some false))].
Example replay_multi_it_performs_authenticated_rate_limiting : replay cfg_multi_it_performs_authenticated_rate_limiting steps_multi_it_performs_authenticated_rate_limiting = true.
Proof. vm_compute. reflexivity. Qed.

(** tests/multi.rs:195 *)
Definition cfg_multi_unauthenticated_does_not_ratelimit : text := tx "{
    ""services"": {
        ""authorino"": {
            ""type"": ""auth"",
            ""endpoint"": ""authorino-cluster"",
            ""failureMode"": ""deny"",
            ""timeout"": ""5s""
        },
        ""limitador"": {
            ""type"": ""ratelimit"",
            ""endpoint"": ""limitador-cluster"",
            ""failureMode"": ""deny"",
            ""timeout"": ""5s""
        }
    },
    ""actionSets"": [
    {
        ""name"": ""some-name"",
        ""routeRuleConditions"": {
            ""hostnames"": [""*.toystore.com"", ""example.com""],
            ""predicates"" : [
                ""request.url_path.startsWith('/admin/toy')"",
                ""request.host == 'cars.toystore.com'"",
                ""request.method == 'POST'""
            ]
        },
        ""actions"": [
        {
            ""service"": ""authorino"",
            ""scope"": ""authconfig-A""
        },
        {
            ""service"": ""limitador"",
            ""scope"": ""RLS-domain"",
            ""conditionalData"": [
            {
                ""predicates"": [
                    ""auth.identity.userid == 'alice'""
                ],
                ""data"": [
                {
                    ""static"": {
                        ""key"": ""limit.alice_limit"",
                        ""value"": ""1""
                    }
                }]
            }]
        }]
    }]
}".
Definition steps_multi_unauthenticated_does_not_ratelimit : list step := [
    mkStep InReqHeaders
        [([(tx "request"); (tx "host")], (Some (tx "cars.toystore.com"))); ([(tx "request"); (tx "url_path")], (Some (tx "/admin/toy"))); ([(tx "request"); (tx "method")], (Some (tx "POST"))); ([(tx "request"); (tx "time")], (Some (bytes [240; 158; 152; 213; 254; 179; 5; 24]%N))); ([(tx "request"); (tx "scheme")], (Some (tx "http"))); ([(tx "request"); (tx "path")], (Some (tx "/admin/toy"))); ([(tx "request"); (tx "protocol")], (Some (tx "HTTP/1.1"))); ([(tx "destination"); (tx "address")], (Some (tx "127.0.0.1:8000"))); ([(tx "destination"); (tx "port")], (Some (bytes [64; 31; 0; 0; 0; 0; 0; 0]%N))); ([(tx "source"); (tx "address")], (Some (tx "127.0.0.1:45000"))); ([(tx "source"); (tx "port")], (Some (bytes [200; 175; 0; 0; 0; 0; 0; 0]%N)))]
        [(MReq, [((tx ":authority"), (tx "abi_test_harness")); ((tx ":method"), (tx "GET")); ((tx ":path"), (tx "/default/request/headers/path"))])]
        []
        [Some 42%N]
        (mkWant [MHits] [((tx "authorino-cluster"), (tx "envoy.service.auth.v3.Authorization"), (tx "Check"), None, 5000%N)] [] [] [] (Some true));
    mkStep (InGrpc 42 0 108)
        []
        []
        [(BGrpc, (bytes [10; 2; 8; 16; 18; 102; 10; 3; 8; 145; 3; 18; 50; 10; 48; 10; 16; 87; 87; 87; 45; 65; 117; 116; 104; 101; 110; 116; 105; 99; 97; 116; 101; 18; 28; 65; 80; 73; 75; 69; 89; 32; 114; 101; 97; 108; 109; 61; 34; 97; 112; 105; 45; 107; 101; 121; 45; 117; 115; 101; 114; 115; 34; 18; 43; 10; 41; 10; 17; 88; 45; 69; 120; 116; 45; 65; 117; 116; 104; 45; 82; 101; 97; 115; 111; 110; 18; 20; 99; 114; 101; 100; 101; 110; 116; 105; 97; 108; 32; 110; 111; 116; 32; 102; 111; 117; 110; 100]%N))]
        []
        (mkWant [MDenied] [] [(401%N, None, (Some [((tx "WWW-Authenticate"), (tx "APIKEY realm=""api-key-users""")); ((tx "X-Ext-Auth-Reason"), (tx "credential not found"))]))] [] [] None)].
Example replay_multi_unauthenticated_does_not_ratelimit : replay cfg_multi_unauthenticated_does_not_ratelimit steps_multi_unauthenticated_does_not_ratelimit = true.
Proof. vm_compute. reflexivity. Qed.

(** tests/multi.rs:316 *)
Definition cfg_multi_authenticated_one_ratelimit_action_matches : text := tx "{
        ""services"": {
            ""authorino"": {
                ""type"": ""auth"",
                ""endpoint"": ""authorino-cluster"",
                ""failureMode"": ""deny"",
                ""timeout"": ""5s""
            },
            ""limitador"": {
                ""type"": ""ratelimit"",
                ""endpoint"": ""limitador-cluster"",
                ""failureMode"": ""deny"",
                ""timeout"": ""5s""
            }
        },
        ""actionSets"": [
        {
            ""name"": ""some-name"",
            ""routeRuleConditions"": {
                ""hostnames"": [""*.toystore.com"", ""example.com""],
                ""predicates"" : [
                    ""request.url_path.startsWith('/admin/toy')"",
                    ""request.host == 'cars.toystore.com'"",
                    ""request.method == 'POST'""
                ]
            },
            ""actions"": [
            {
                ""service"": ""authorino"",
                ""scope"": ""authconfig-A""
            },
            {
                ""service"": ""limitador"",
                ""scope"": ""RLS-domain"",
                ""conditionalData"": [
                {
                    ""predicates"": [
                        ""source.address == '127.0.0.1:80'""
                    ],
                    ""data"": [
                    {
                        ""static"": {
                            ""key"": ""me"",
                            ""value"": ""1""
                        }
                    }]
                },
                {
                    ""predicates"": [
                        ""source.address != '127.0.0.1:80'""
                    ],
                    ""data"": [
                    {
                        ""static"": {
                            ""key"": ""other"",
                            ""value"": ""1""
                        }
                    }]
                }]
            }]
        }]
    }".
Definition steps_multi_authenticated_one_ratelimit_action_matches : list step := [
    mkStep InReqHeaders
        [([(tx "request"); (tx "host")], (Some (tx "cars.toystore.com"))); ([(tx "request"); (tx "url_path")], (Some (tx "/admin/toy"))); ([(tx "request"); (tx "method")], (Some (tx "POST"))); ([(tx "request"); (tx "time")], (Some (bytes [240; 158; 152; 213; 254; 179; 5; 24]%N))); ([(tx "request"); (tx "scheme")], (Some (tx "http"))); ([(tx "request"); (tx "path")], (Some (tx "/admin/toy"))); ([(tx "request"); (tx "protocol")], (Some (tx "HTTP/1.1"))); ([(tx "destination"); (tx "address")], (Some (tx "127.0.0.1:8000"))); ([(tx "destination"); (tx "port")], (Some (bytes [64; 31; 0; 0; 0; 0; 0; 0]%N))); ([(tx "source"); (tx "address")], (Some (tx "127.0.0.1:45000"))); ([(tx "source"); (tx "port")], (Some (bytes [200; 175; 0; 0; 0; 0; 0; 0]%N)))]
        [(MReq, [((tx "x-request-id"), (tx "e1fc297a-a8a3-4360-8f41-af57b4a861e1"))])]
        []
        [Some 42%N]
        (mkWant [MHits] [((tx "authorino-cluster"), (tx "envoy.service.auth.v3.Authorization"), (tx "Check"), None, 5000%N)] [] [] [] (Some true));
    mkStep (InGrpc 42 0 4)
        []
        []
        [(BGrpc, (bytes [10; 0; 26; 0]%N))]
        [Some 43%N]
        (mkWant [] [((tx "limitador-cluster"), (tx "envoy.service.ratelimit.v3.RateLimitService"), (tx "ShouldRateLimit"), None, 5000%N)] [] [] [] None);
    mkStep (InGrpc 43 0 2)
        []
        []
        [(BGrpc, (bytes [8; 1]%N))]
        []
        (mkWant [] [] [] [] [] None);
    mkStep InRespHeaders
        []
        []
        []
        []
        (mkWant [MAllowed] [] [] [] [] (Some false))].
Example replay_multi_authenticated_one_ratelimit_action_matches : replay cfg_multi_authenticated_one_ratelimit_action_matches steps_multi_authenticated_one_ratelimit_action_matches = true.
Proof. vm_compute. reflexivity. Qed.

(** tests/multi.rs:514 *)
Definition cfg_multi_it_handles_array_metadata_in_predicates : text := tx "{
        ""services"": {
            ""authorino"": {
                ""type"": ""auth"",
                ""endpoint"": ""authorino-cluster"",
                ""failureMode"": ""deny"",
                ""timeout"": ""5s""
            },
            ""limitador"": {
                ""type"": ""ratelimit"",
                ""endpoint"": ""limitador-cluster"",
                ""failureMode"": ""deny"",
                ""timeout"": ""5s""
            }
        },
        ""actionSets"": [
        {
            ""name"": ""test-groups"",
            ""routeRuleConditions"": {
                ""hostnames"": [""*.toystore.com"", ""example.com""],
                ""predicates"" : [
                    ""request.url_path.startsWith('/admin/toy')"",
                    ""request.host == 'cars.toystore.com'"",
                    ""request.method == 'POST'""
                ]
            },
            ""actions"": [
            {
                ""service"": ""authorino"",
                ""scope"": ""authconfig-A""
            },
            {
                ""service"": ""limitador"",
                ""scope"": ""RLS-domain"",
                ""conditionalData"": [
                {
                    ""predicates"": [
                        ""auth.identity.groups.exists(g, g == 'basic')""
                    ],
                    ""data"": [
                    {
                        ""static"": {
                            ""key"": ""limit.basic_limit"",
                            ""value"": ""10""
                        }
                    }]
                }]
            }]
        }]
    }".
Definition steps_multi_it_handles_array_metadata_in_predicates : list step := [
    mkStep InReqHeaders
        [([(tx "request"); (tx "host")], (Some (tx "cars.toystore.com"))); ([(tx "request"); (tx "url_path")], (Some (tx "/admin/toy"))); ([(tx "request"); (tx "method")], (Some (tx "POST"))); ([(tx "request"); (tx "time")], (Some (bytes [240; 158; 152; 213; 254; 179; 5; 24]%N))); ([(tx "request"); (tx "scheme")], (Some (tx "http"))); ([(tx "request"); (tx "path")], (Some (tx "/admin/toy"))); ([(tx "request"); (tx "protocol")], (Some (tx "HTTP/1.1"))); ([(tx "destination"); (tx "address")], (Some (tx "127.0.0.1:8000"))); ([(tx "destination"); (tx "port")], (Some (bytes [64; 31; 0; 0; 0; 0; 0; 0]%N))); ([(tx "source"); (tx "address")], (Some (tx "127.0.0.1:45000"))); ([(tx "source"); (tx "port")], (Some (bytes [200; 175; 0; 0; 0; 0; 0; 0]%N)))]
        [(MReq, [((tx ":authority"), (tx "abi_test_harness")); ((tx ":method"), (tx "GET")); ((tx ":path"), (tx "/default/request/headers/path"))])]
        []
        [Some 42%N]
        (mkWant [MHits] [((tx "authorino-cluster"), (tx "envoy.service.auth.v3.Authorization"), (tx "Check"), None, 5000%N)] [] [] [] (Some true));
    mkStep (InGrpc 42 0 75)
        []
        []
        [(BGrpc, (bytes [10; 0; 26; 0; 34; 69; 10; 67; 10; 8; 105; 100; 101; 110; 116; 105; 116; 121; 18; 55; 42; 53; 10; 32; 10; 6; 103; 114; 111; 117; 112; 115; 18; 22; 50; 20; 10; 7; 26; 5; 98; 97; 115; 105; 99; 10; 9; 26; 7; 112; 114; 101; 109; 105; 117; 109; 10; 17; 10; 6; 117; 115; 101; 114; 105; 100; 18; 7; 26; 5; 97; 108; 105; 99; 101]%N))]
        [Some 43%N]
        (mkWant [] [((tx "limitador-cluster"), (tx "envoy.service.ratelimit.v3.RateLimitService"), (tx "ShouldRateLimit"), None, 5000%N)] [] [] [([(tx "kuadrant.auth")], (bytes [10; 67; 10; 8; 105; 100; 101; 110; 116; 105; 116; 121; 18; 55; 42; 53; 10; 32; 10; 6; 103; 114; 111; 117; 112; 115; 18; 22; 50; 20; 10; 7; 26; 5; 98; 97; 115; 105; 99; 10; 9; 26; 7; 112; 114; 101; 109; 105; 117; 109; 10; 17; 10; 6; 117; 115; 101; 114; 105; 100; 18; 7; 26; 5; 97; 108; 105; 99; 101]%N))] None);
    mkStep (InGrpc 43 0 2)
        []
        []
        [(BGrpc, (bytes [8; 1]%N))]
        []
        (mkWant [] [] [] [] [] None);
    mkStep InRespHeaders
        []
        []
        []
        []
        (mkWant [MAllowed] [] [] [] [] (Some false))].
Example replay_multi_it_handles_array_metadata_in_predicates : replay cfg_multi_it_handles_array_metadata_in_predicates steps_multi_it_handles_array_metadata_in_predicates = true.
Proof. vm_compute. reflexivity. Qed.

(** tests/rate_limited.rs:13 *)
Definition cfg_rate_limited_it_loads : text := tx "{
        ""services"": {},
        ""actionSets"": []
    }".
Definition steps_rate_limited_it_loads : list step := [
    mkStep InReqHeaders
        [([(tx "request"); (tx "host")], (Some (tx "cars.toystore.com")))]
        []
        []
        []
        (mkWant [MMisses] [] [] [] [] (Some false));
    mkStep InRespHeaders
        []
        []
        []
        []
        (mkWant [MAllowed] [] [] [] [] (Some false))].
Example replay_rate_limited_it_loads : replay cfg_rate_limited_it_loads steps_rate_limited_it_loads = true.
Proof. vm_compute. reflexivity. Qed.

(** tests/rate_limited.rs:85 *)
Definition cfg_rate_limited_it_limits : text := tx "{
        ""services"": {
            ""limitador"": {
                ""type"": ""ratelimit"",
                ""endpoint"": ""limitador-cluster"",
                ""failureMode"": ""deny"",
                ""timeout"": ""5s""
            }
        },
        ""actionSets"": [
        {
            ""name"": ""some-name"",
            ""routeRuleConditions"": {
                ""hostnames"": [""*.toystore.com"", ""example.com""],
                ""predicates"" : [
                    ""request.url_path.startsWith('/admin/toy')"",
                    ""request.host == 'cars.toystore.com'"",
                    ""request.method == 'POST'""
                ]
            },
            ""actions"": [
            {
                ""service"": ""limitador"",
                ""scope"": ""RLS-domain"",
                ""conditionalData"": [
                {
                    ""data"": [
                        {
                            ""static"": {
                                ""key"": ""admin"",
                                ""value"": ""1""
                            }
                        }
                    ]
                }]
            }]
        }]
    }".
Definition steps_rate_limited_it_limits : list step := [
    mkStep InReqHeaders
        [([(tx "request"); (tx "host")], (Some (tx "cars.toystore.com"))); ([(tx "request"); (tx "url_path")], (Some (tx "/admin/toy"))); ([(tx "request"); (tx "method")], (Some (tx "POST")))]
        [(MReq, [((tx "x-request-id"), (tx "e1fc297a-a8a3-4360-8f41-af57b4a861e1"))])]
        []
        [Some 42%N]
        (mkWant [MHits] [((tx "limitador-cluster"), (tx "envoy.service.ratelimit.v3.RateLimitService"), (tx "ShouldRateLimit"), None, 5000%N)] [] [] [] (Some true));
    mkStep (InGrpc 42 0 2)
        []
        []
        [(BGrpc, (bytes [8; 1]%N))]
        []
        (mkWant [] [] [] [] [] None);
    mkStep InRespHeaders
        []
        []
        []
        []
        (mkWant [MAllowed] [] [] [] [] (Some false))].
Example replay_rate_limited_it_limits : replay cfg_rate_limited_it_limits steps_rate_limited_it_limits = true.
Proof. vm_compute. reflexivity. Qed.

(** tests/rate_limited.rs:218 *)
Definition cfg_rate_limited_it_resolved_and_passes_request_data : text := tx "{
        ""requestData"": {
            ""bar"": ""string(3 + 2)""
        },
        ""services"": {
            ""limitador"": {
                ""type"": ""ratelimit"",
                ""endpoint"": ""limitador-cluster"",
                ""failureMode"": ""deny"",
                ""timeout"": ""5s""
            }
        },
        ""actionSets"": [
        {
            ""name"": ""some-name"",
            ""routeRuleConditions"": {
                ""hostnames"": [""*.toystore.com"", ""example.com""],
                ""predicates"" : [
                    ""request.url_path.startsWith('/admin/toy')"",
                    ""request.host == 'cars.toystore.com'"",
                    ""request.method == 'POST'""
                ]
            },
            ""actions"": [
            {
                ""service"": ""limitador"",
                ""scope"": ""RLS-domain"",
                ""conditionalData"": [
                {
                    ""data"": [
                        {
                            ""static"": {
                                ""key"": ""admin"",
                                ""value"": ""1""
                            }
                        }
                    ]
                }]
            }]
        }]
    }".
Definition steps_rate_limited_it_resolved_and_passes_request_data : list step := [
    mkStep InReqHeaders
        [([(tx "request"); (tx "host")], (Some (tx "cars.toystore.com"))); ([(tx "request"); (tx "url_path")], (Some (tx "/admin/toy"))); ([(tx "request"); (tx "method")], (Some (tx "POST")))]
        [(MReq, [((tx ":authority"), (tx "abi_test_harness")); ((tx ":method"), (tx "GET")); ((tx ":path"), (tx "/default/request/headers/path"))])]
        []
        [Some 42%N]
        (mkWant [MHits] [((tx "limitador-cluster"), (tx "envoy.service.ratelimit.v3.RateLimitService"), (tx "ShouldRateLimit"), (Some (bytes [10; 10; 82; 76; 83; 45; 100; 111; 109; 97; 105; 110; 18; 12; 10; 10; 10; 5; 97; 100; 109; 105; 110; 18; 1; 49; 18; 10; 10; 8; 10; 3; 98; 97; 114; 18; 1; 53; 24; 1]%N)), 5000%N)] [] [] [] (Some true));
    mkStep (InGrpc 42 0 2)
        []
        []
        [(BGrpc, (bytes [8; 1]%N))]
        []
        (mkWant [] [] [] [] [] None);
    mkStep InRespHeaders
        []
        []
        []
        []
        (mkWant [MAllowed] [] [] [] [] (Some false))].
Example replay_rate_limited_it_resolved_and_passes_request_data : replay cfg_rate_limited_it_resolved_and_passes_request_data steps_rate_limited_it_resolved_and_passes_request_data = true.
Proof. vm_compute. reflexivity. Qed.

(** tests/rate_limited.rs:356 *)
Definition cfg_rate_limited_it_passes_additional_headers : text := tx "{
        ""services"": {
            ""limitador"": {
                ""type"": ""ratelimit"",
                ""endpoint"": ""limitador-cluster"",
                ""failureMode"": ""deny"",
                ""timeout"": ""5s""
            }
        },
        ""actionSets"": [
        {
            ""name"": ""some-name"",
            ""routeRuleConditions"": {
                ""hostnames"": [""*.toystore.com"", ""example.com""],
                ""predicates"": [
                    ""request.url_path.startsWith('/admin/toy')"",
                    ""request.host == 'cars.toystore.com'"",
                    ""request.method == 'POST'""
                ]
            },
            ""actions"": [
            {
                ""service"": ""limitador"",
                ""scope"": ""RLS-domain"",
                ""conditionalData"": [
                {
                    ""data"": [
                        {
                            ""static"": {
                                ""key"": ""admin"",
                                ""value"": ""1""
                            }
                        }
                    ]
                }]
            }]
        }]
    }".
Definition steps_rate_limited_it_passes_additional_headers : list step := [
    mkStep InReqHeaders
        [([(tx "request"); (tx "host")], (Some (tx "cars.toystore.com"))); ([(tx "request"); (tx "url_path")], (Some (tx "/admin/toy"))); ([(tx "request"); (tx "method")], (Some (tx "POST")))]
        [(MReq, [((tx ":authority"), (tx "abi_test_harness")); ((tx ":method"), (tx "GET")); ((tx ":path"), (tx "/default/request/headers/path"))])]
        []
        [Some 42%N]
        (mkWant [MHits] [((tx "limitador-cluster"), (tx "envoy.service.ratelimit.v3.RateLimitService"), (tx "ShouldRateLimit"), None, 5000%N)] [] [] [] (Some true));
    mkStep (InGrpc 42 0 45)
        []
        [(MResp, [])]
        [(BGrpc, (bytes [8; 1; 26; 18; 10; 4; 116; 101; 115; 116; 18; 10; 115; 111; 109; 101; 32; 118; 97; 108; 117; 101; 26; 21; 10; 5; 111; 116; 104; 101; 114; 18; 12; 104; 101; 97; 100; 101; 114; 32; 118; 97; 108; 117; 101]%N))]
        []
        (mkWant [] [] [] [] [] None);
    mkStep InRespHeaders
        []
        [(MResp, [((tx ":status"), (tx "200"))])]
        []
        []
        (mkWant [MAllowed] [] [] [(None, None)] [] (Some false))].
Example replay_rate_limited_it_passes_additional_headers : replay cfg_rate_limited_it_passes_additional_headers steps_rate_limited_it_passes_additional_headers = true.
Proof. vm_compute. reflexivity. Qed.

(** tests/rate_limited.rs:496 *)
Definition cfg_rate_limited_it_rate_limits_with_empty_predicates : text := tx "{
        ""services"": {
            ""limitador"": {
                ""type"": ""ratelimit"",
                ""endpoint"": ""limitador-cluster"",
                ""failureMode"": ""deny"",
                ""timeout"": ""5s""
            }
        },
        ""actionSets"": [
        {
            ""name"": ""some-name"",
            ""routeRuleConditions"": {
                ""hostnames"": [""*.com""]
            },
            ""actions"": [
            {
                ""service"": ""limitador"",
                ""scope"": ""RLS-domain"",
                ""conditionalData"": [
                {
                    ""data"": [
                        {
                            ""static"": {
                                ""key"": ""admin"",
                                ""value"": ""1""
                            }
                        }
                    ]
                }]
            }]
        }]
    }".
Definition steps_rate_limited_it_rate_limits_with_empty_predicates : list step := [
    mkStep InReqHeaders
        [([(tx "request"); (tx "host")], (Some (tx "cars.toystore.com")))]
        [(MReq, [((tx ":authority"), (tx "abi_test_harness")); ((tx ":method"), (tx "GET")); ((tx ":path"), (tx "/default/request/headers/path"))])]
        []
        [Some 42%N]
        (mkWant [MHits] [((tx "limitador-cluster"), (tx "envoy.service.ratelimit.v3.RateLimitService"), (tx "ShouldRateLimit"), None, 5000%N)] [] [] [] (Some true));
    mkStep (InGrpc 42 0 2)
        []
        []
        [(BGrpc, (bytes [8; 1]%N))]
        []
        (mkWant [] [] [] [] [] None);
    mkStep InRespHeaders
        []
        []
        []
        []
        (mkWant [MAllowed] [] [] [] [] (Some false))].
Example replay_rate_limited_it_rate_limits_with_empty_predicates : replay cfg_rate_limited_it_rate_limits_with_empty_predicates steps_rate_limited_it_rate_limits_with_empty_predicates = true.
Proof. vm_compute. reflexivity. Qed.

(** tests/rate_limited.rs:616 *)
Definition cfg_rate_limited_it_does_not_rate_limits_when_predicates_does_not_match : text := tx "{
        ""services"": {
            ""limitador"": {
                ""type"": ""ratelimit"",
                ""endpoint"": ""limitador-cluster"",
                ""failureMode"": ""deny"",
                ""timeout"": ""5s""
            }
        },
        ""actionSets"": [
        {
            ""name"": ""some-name"",
            ""routeRuleConditions"": {
                ""hostnames"": [""*.com""]
            },
            ""actions"": [
            {
                ""service"": ""limitador"",
                ""scope"": ""RLS-domain"",
                ""conditionalData"": [
                {
                    ""predicates"" : [
                        ""request.url_path.startsWith('/admin/toy')""
                    ]
                }]
            }]
        }]
    }".
Definition steps_rate_limited_it_does_not_rate_limits_when_predicates_does_not_match : list step := [
    mkStep InReqHeaders
        [([(tx "request"); (tx "host")], (Some (tx "cars.toystore.com"))); ([(tx "request"); (tx "url_path")], (Some (tx "/admin")))]
        [(MReq, [((tx ":authority"), (tx "abi_test_harness")); ((tx ":method"), (tx "GET")); ((tx ":path"), (tx "/default/request/headers/path"))])]
        []
        []
        (mkWant [MHits] [] [] [] [] (Some false));
    mkStep InRespHeaders
        []
        []
        []
        []
        (mkWant [MAllowed] [] [] [] [] (Some false))].
Example replay_rate_limited_it_does_not_rate_limits_when_predicates_does_not_match : replay cfg_rate_limited_it_does_not_rate_limits_when_predicates_does_not_match steps_rate_limited_it_does_not_rate_limits_when_predicates_does_not_match = true.
Proof. vm_compute. reflexivity. Qed.

(** tests/remote_address.rs:13 *)
Definition cfg_remote_address_it_limits_based_on_source_address : text := tx "{
        ""services"": {
            ""limitador"": {
                ""type"": ""ratelimit"",
                ""endpoint"": ""limitador-cluster"",
                ""failureMode"": ""deny"",
                ""timeout"": ""5s""
            }
        },
        ""actionSets"": [
            {
                ""name"": ""some-name"",
                ""routeRuleConditions"": {
                    ""hostnames"": [""cars.toystore.com""],
                    ""predicates"" : [
                        ""source.remote_address != '50.0.0.1'""
                    ]
                },
                ""actions"": [
                    {
                        ""service"": ""limitador"",
                        ""scope"": ""RLS-domain"",
                        ""conditionalData"": [
                        {
                            ""data"": [
                                {
                                    ""expression"": {
                                        ""key"": ""source.remote_address"",
                                        ""value"": ""source.remote_address""
                                    }
                                }
                            ]
                        }]
                    }
                ]
            }
        ]
    }".
Definition steps_remote_address_it_limits_based_on_source_address : list step := [
    mkStep InReqHeaders
        [([(tx "request"); (tx "host")], (Some (tx "cars.toystore.com"))); ([(tx "source"); (tx "address")], (Some (tx "127.0.0.1:45000")))]
        [(MReq, [((tx ":authority"), (tx "abi_test_harness")); ((tx ":method"), (tx "GET")); ((tx ":path"), (tx "/default/request/headers/path"))])]
        []
        [Some 42%N]
        (mkWant [MHits] [((tx "limitador-cluster"), (tx "envoy.service.ratelimit.v3.RateLimitService"), (tx "ShouldRateLimit"), (Some (bytes [10; 10; 82; 76; 83; 45; 100; 111; 109; 97; 105; 110; 18; 36; 10; 34; 10; 21; 115; 111; 117; 114; 99; 101; 46; 114; 101; 109; 111; 116; 101; 95; 97; 100; 100; 114; 101; 115; 115; 18; 9; 49; 50; 55; 46; 48; 46; 48; 46; 49; 24; 1]%N)), 5000%N)] [] [] [] (Some true));
    mkStep (InGrpc 42 0 2)
        []
        []
        [(BGrpc, (bytes [8; 1]%N))]
        []
        (mkWant [] [] [] [] [] None);
    mkStep InRespHeaders
        []
        []
        []
        []
        (mkWant [MAllowed] [] [] [] [] (Some false))].
Example replay_remote_address_it_limits_based_on_source_address : replay cfg_remote_address_it_limits_based_on_source_address steps_remote_address_it_limits_based_on_source_address = true.
Proof. vm_compute. reflexivity. Qed.

(** tests/response_body.rs:13 *)
Definition cfg_response_body_it_checks_and_reports : text := tx "{
        ""services"": {
            ""limitador-check"": {
                ""type"": ""ratelimit-check"",
                ""endpoint"": ""limitador-cluster"",
                ""failureMode"": ""deny"",
                ""timeout"": ""5s""
            },
            ""limitador-report"": {
                ""type"": ""ratelimit-report"",
                ""endpoint"": ""limitador-cluster"",
                ""failureMode"": ""deny"",
                ""timeout"": ""5s""
            }
        },
        ""actionSets"": [
        {
            ""name"": ""some-name"",
            ""routeRuleConditions"": {
                ""hostnames"": [""*.toystore.com"", ""example.com""],
                ""predicates"" : [
                    ""request.url_path.startsWith('/admin/toy')""
                ]
            },
            ""actions"": [
            {
                ""service"": ""limitador-check"",
                ""scope"": ""RLS-domain-A"",
                ""conditionalData"": [
                {
                    ""predicates"": [
                        ""request.method == 'POST'""
                    ],
                    ""data"": [
                        {
                            ""expression"": {
                                ""key"": ""request.method"",
                                ""value"": ""request.method""
                            }
                        }
                    ]
                }]
            },
            {
                ""service"": ""limitador-report"",
                ""scope"": ""RLS-domain-B"",
                ""conditionalData"": [
                {
                    ""predicates"": [
                        ""request.method == 'POST'""
                    ],
                    ""data"": [
                        {
                            ""expression"": {
                                ""key"": ""model"",
                                ""value"": ""responseBodyJSON('/usage/total_tokens')""
                            }
                        }
                    ]
                }]
            }
            ]
        }]
    }".
Definition steps_response_body_it_checks_and_reports : list step := [
    mkStep InReqHeaders
        [([(tx "request"); (tx "host")], (Some (tx "cars.toystore.com"))); ([(tx "request"); (tx "url_path")], (Some (tx "/admin/toy"))); ([(tx "request"); (tx "method")], (Some (tx "POST")))]
        [(MReq, [((tx ":authority"), (tx "abi_test_harness")); ((tx ":method"), (tx "GET")); ((tx ":path"), (tx "/default/request/headers/path"))]); (MResp, [])]
        []
        [Some 42%N]
        (mkWant [MHits] [((tx "limitador-cluster"), (tx "kuadrant.service.ratelimit.v1.RateLimitService"), (tx "CheckRateLimit"), None, 5000%N)] [] [] [] (Some true));
    mkStep (InGrpc 42 0 2)
        []
        [(MResp, [])]
        [(BGrpc, (bytes [8; 1]%N))]
        []
        (mkWant [] [] [] [] [] None);
    mkStep (InReqBody 25 false)
        []
        [(MResp, [])]
        []
        []
        (mkWant [] [] [] [] [] (Some false));
    mkStep InRespHeaders
        []
        [(MResp, [((tx ":status"), (tx "200"))])]
        []
        []
        (mkWant [MAllowed] [] [] [] [] (Some false));
    mkStep (InRespBody 298 true)
        []
        []
        [(BRespBody, (bytes [10; 32; 32; 32; 32; 32; 32; 32; 32; 123; 10; 32; 32; 32; 32; 32; 32; 32; 32; 32; 32; 34; 105; 100; 34; 58; 32; 34; 99; 104; 97; 116; 99; 109; 112; 108; 45; 50; 101; 101; 55; 52; 50; 55; 102; 45; 56; 98; 53; 49; 45; 52; 102; 55; 52; 45; 97; 53; 100; 102; 45; 101; 54; 52; 56; 52; 100; 102; 52; 50; 53; 52; 55; 34; 44; 10; 32; 32; 32; 32; 32; 32; 32; 32; 32; 32; 34; 109; 111; 100; 101; 108; 34; 58; 32; 34; 109; 101; 116; 97; 45; 108; 108; 97; 109; 97; 47; 76; 108; 97; 109; 97; 45; 51; 46; 49; 45; 56; 66; 45; 73; 110; 115; 116; 114; 117; 99; 116; 34; 44; 10; 32; 32; 32; 32; 32; 32; 32; 32; 32; 32; 34; 117; 115; 97; 103; 101; 34; 58; 32; 123; 10; 32; 32; 32; 32; 32; 32; 32; 32; 32; 32; 32; 32; 34; 112; 114; 111; 109; 112; 116; 95; 116; 111; 107; 101; 110; 115; 34; 58; 32; 48; 44; 10; 32; 32; 32; 32; 32; 32; 32; 32; 32; 32; 32; 32; 34; 99; 111; 109; 112; 108; 101; 116; 105; 111; 110; 95; 116; 111; 107; 101; 110; 115; 34; 58; 32; 49; 49; 44; 10; 32; 32; 32; 32; 32; 32; 32; 32; 32; 32; 32; 32; 34; 116; 111; 116; 97; 108; 95; 116; 111; 107; 101; 110; 115; 34; 58; 32; 49; 49; 10; 32; 32; 32; 32; 32; 32; 32; 32; 32; 32; 125; 44; 10; 32; 32; 32; 32; 32; 32; 32; 32; 32; 32; 34; 99; 104; 111; 105; 99; 101; 115; 34; 58; 32; 91; 93; 10; 32; 32; 32; 32; 32; 32; 32; 32; 125]%N))]
        [Some 43%N]
        (mkWant [] [((tx "limitador-cluster"), (tx "kuadrant.service.ratelimit.v1.RateLimitService"), (tx "Report"), None, 5000%N)] [] [] [] (Some true));
    mkStep (InGrpc 43 0 2)
        []
        []
        [(BGrpc, (bytes [8; 1]%N))]
        []
        (mkWant [] [] [] [] [] None)].
Example replay_response_body_it_checks_and_reports : replay cfg_response_body_it_checks_and_reports steps_response_body_it_checks_and_reports = true.
Proof. vm_compute. reflexivity. Qed.

(** tests/response_body.rs:221 *)
Definition cfg_response_body_it_reads_request_attr_in_advance_when_response_body : text := tx "{
        ""services"": {
            ""limitador"": {
                ""type"": ""ratelimit-report"",
                ""endpoint"": ""limitador-cluster"",
                ""failureMode"": ""deny"",
                ""timeout"": ""5s""
            }
        },
        ""actionSets"": [
        {
            ""name"": ""some-name"",
            ""routeRuleConditions"": {
                ""hostnames"": [""*.toystore.com"", ""example.com""]
            },
            ""actions"": [
            {
                ""service"": ""limitador"",
                ""scope"": ""RLS-domain"",
                ""conditionalData"": [
                {
                    ""predicates"": [
                        ""responseBodyJSON('/usage/total_tokens') == 11"",
                        ""request.url_path.startsWith('/admin/toy')""
                    ],
                    ""data"": [
                        {
                            ""expression"": {
                                ""key"": ""request.method"",
                                ""value"": ""request.method""
                            }
                        }
                    ]
                }]
            }
            ]
        }]
    }".
Definition steps_response_body_it_reads_request_attr_in_advance_when_response_body : list step := [
    mkStep InReqHeaders
        [([(tx "request"); (tx "host")], (Some (tx "cars.toystore.com"))); ([(tx "request"); (tx "url_path")], (Some (tx "/admin/toy"))); ([(tx "request"); (tx "method")], (Some (tx "POST")))]
        [(MReq, [((tx ":authority"), (tx "abi_test_harness")); ((tx ":method"), (tx "GET")); ((tx ":path"), (tx "/default/request/headers/path"))]); (MResp, [])]
        []
        []
        (mkWant [MHits] [] [] [] [] (Some false));
    mkStep (InReqBody 25 false)
        []
        [(MResp, [])]
        []
        []
        (mkWant [] [] [] [] [] (Some false));
    mkStep InRespHeaders
        []
        [(MResp, [((tx ":status"), (tx "200"))])]
        []
        []
        (mkWant [MAllowed] [] [] [] [] (Some false));
    mkStep (InRespBody 298 true)
        []
        []
        [(BRespBody, (bytes [10; 32; 32; 32; 32; 32; 32; 32; 32; 123; 10; 32; 32; 32; 32; 32; 32; 32; 32; 32; 32; 34; 105; 100; 34; 58; 32; 34; 99; 104; 97; 116; 99; 109; 112; 108; 45; 50; 101; 101; 55; 52; 50; 55; 102; 45; 56; 98; 53; 49; 45; 52; 102; 55; 52; 45; 97; 53; 100; 102; 45; 101; 54; 52; 56; 52; 100; 102; 52; 50; 53; 52; 55; 34; 44; 10; 32; 32; 32; 32; 32; 32; 32; 32; 32; 32; 34; 109; 111; 100; 101; 108; 34; 58; 32; 34; 109; 101; 116; 97; 45; 108; 108; 97; 109; 97; 47; 76; 108; 97; 109; 97; 45; 51; 46; 49; 45; 56; 66; 45; 73; 110; 115; 116; 114; 117; 99; 116; 34; 44; 10; 32; 32; 32; 32; 32; 32; 32; 32; 32; 32; 34; 117; 115; 97; 103; 101; 34; 58; 32; 123; 10; 32; 32; 32; 32; 32; 32; 32; 32; 32; 32; 32; 32; 34; 112; 114; 111; 109; 112; 116; 95; 116; 111; 107; 101; 110; 115; 34; 58; 32; 48; 44; 10; 32; 32; 32; 32; 32; 32; 32; 32; 32; 32; 32; 32; 34; 99; 111; 109; 112; 108; 101; 116; 105; 111; 110; 95; 116; 111; 107; 101; 110; 115; 34; 58; 32; 49; 49; 44; 10; 32; 32; 32; 32; 32; 32; 32; 32; 32; 32; 32; 32; 34; 116; 111; 116; 97; 108; 95; 116; 111; 107; 101; 110; 115; 34; 58; 32; 49; 49; 10; 32; 32; 32; 32; 32; 32; 32; 32; 32; 32; 125; 44; 10; 32; 32; 32; 32; 32; 32; 32; 32; 32; 32; 34; 99; 104; 111; 105; 99; 101; 115; 34; 58; 32; 91; 93; 10; 32; 32; 32; 32; 32; 32; 32; 32; 125]%N))]
        [Some 42%N]
        (mkWant [] [((tx "limitador-cluster"), (tx "kuadrant.service.ratelimit.v1.RateLimitService"), (tx "Report"), None, 5000%N)] [] [] [] (Some true));
    mkStep (InGrpc 42 0 2)
        []
        []
        [(BGrpc, (bytes [8; 1]%N))]
        []
        (mkWant [] [] [] [] [] None)].
Example replay_response_body_it_reads_request_attr_in_advance_when_response_body : replay cfg_response_body_it_reads_request_attr_in_advance_when_response_body steps_response_body_it_reads_request_attr_in_advance_when_response_body = true.
Proof. vm_compute. reflexivity. Qed.

(** tests/response_body.rs:384 *)
Definition cfg_response_body_it_handles_errors_on_response_body : text := tx "{
        ""services"": {
            ""limitador"": {
                ""type"": ""ratelimit-report"",
                ""endpoint"": ""limitador-cluster"",
                ""failureMode"": ""deny"",
                ""timeout"": ""5s""
            }
        },
        ""actionSets"": [
        {
            ""name"": ""some-name"",
            ""routeRuleConditions"": {
                ""hostnames"": [""*.toystore.com"", ""example.com""]
            },
            ""actions"": [
            {
                ""service"": ""limitador"",
                ""scope"": ""RLS-domain"",
                ""conditionalData"": [
                {
                    ""data"": [
                        {
                            ""expression"": {
                                ""key"": ""a"",
                                ""value"": ""'1'""
                            }
                        },
                        {
                            ""expression"": {
                                ""key"": ""ratelimit.hits_addend"",
                                ""value"": ""responseBodyJSON('/usage/total_tokens')""
                            }
                        }
                    ]
                }]
            }
            ]
        }]
    }".
Definition steps_response_body_it_handles_errors_on_response_body : list step := [
    mkStep InReqHeaders
        [([(tx "request"); (tx "host")], (Some (tx "cars.toystore.com")))]
        [(MReq, [((tx ":authority"), (tx "abi_test_harness")); ((tx ":method"), (tx "GET")); ((tx ":path"), (tx "/default/request/headers/path"))]); (MResp, [])]
        []
        []
        (mkWant [MHits] [] [] [] [] (Some false));
    mkStep (InReqBody 25 false)
        []
        [(MResp, [])]
        []
        []
        (mkWant [] [] [] [] [] (Some false));
    mkStep InRespHeaders
        []
        [(MResp, [((tx ":status"), (tx "200"))])]
        []
        []
        (mkWant [MAllowed] [] [] [] [] (Some false));
    mkStep (InRespBody 36 true)
        []
        []
        [(BRespBody, (tx "some crap that cannot be JSON parsed"))]
        []
        (mkWant [] [] [] [] [] (Some false))].
Example replay_response_body_it_handles_errors_on_response_body : replay cfg_response_body_it_handles_errors_on_response_body steps_response_body_it_handles_errors_on_response_body = true.
Proof. vm_compute. reflexivity. Qed.

(** tests/streaming.rs:12 *)
Definition cfg_streaming_it_processes_usage_event_across_chunks_until_done : text := tx "{
        ""services"": {
            ""limitador"": {
                ""type"": ""ratelimit-report"",
                ""endpoint"": ""limitador-cluster"",
                ""failureMode"": ""deny"",
                ""timeout"": ""5s""
            }
        },
        ""actionSets"": [
        {
            ""name"": ""some-name"",
            ""routeRuleConditions"": {
                ""hostnames"": [""*.toystore.com"", ""example.com""]
            },
            ""actions"": [
            {
                ""service"": ""limitador"",
                ""scope"": ""RLS-domain"",
                ""conditionalData"": [
                {
                    ""predicates"": [
                        ""responseBodyJSON('/usage/total_tokens') == 11""
                    ],
                    ""data"": [
                        {
                            ""expression"": {
                                ""key"": ""request.method"",
                                ""value"": ""request.method""
                            }
                        }
                    ]
                }]
            }
            ]
        }]
    }".
Definition steps_streaming_it_processes_usage_event_across_chunks_until_done : list step := [
    mkStep InReqHeaders
        [([(tx "request"); (tx "host")], (Some (tx "cars.toystore.com"))); ([(tx "request"); (tx "method")], (Some (tx "POST")))]
        [(MReq, [((tx ":authority"), (tx "abi_test_harness")); ((tx ":method"), (tx "GET")); ((tx ":path"), (tx "/default/request/headers/path"))]); (MResp, [])]
        []
        []
        (mkWant [MHits] [] [] [] [] (Some false));
    mkStep InRespHeaders
        []
        [(MResp, [((tx "content-type"), (tx "text/event-stream"))])]
        []
        []
        (mkWant [MAllowed] [] [] [] [] (Some false));
    mkStep (InRespBody 37 false)
        []
        []
        [(BRespBody, (bytes [100; 97; 116; 97; 58; 32; 123; 34; 117; 115; 97; 103; 101; 34; 58; 123; 34; 116; 111; 116; 97; 108; 95; 116; 111; 107; 101; 110; 115; 34; 58; 49; 49; 125; 125; 10; 10]%N))]
        []
        (mkWant [] [] [] [] [] (Some false));
    mkStep (InRespBody 51 true)
        []
        []
        [(BRespBody, (bytes [100; 97; 116; 97; 58; 32; 91; 68; 79; 78; 69; 93; 10; 10]%N))]
        [Some 42%N]
        (mkWant [] [((tx "limitador-cluster"), (tx "kuadrant.service.ratelimit.v1.RateLimitService"), (tx "Report"), None, 5000%N)] [] [] [] (Some true));
    mkStep (InGrpc 42 0 2)
        []
        []
        [(BGrpc, (bytes [8; 1]%N))]
        []
        (mkWant [] [] [] [] [] None)].
Example replay_streaming_it_processes_usage_event_across_chunks_until_done : replay cfg_streaming_it_processes_usage_event_across_chunks_until_done steps_streaming_it_processes_usage_event_across_chunks_until_done = true.
Proof. vm_compute. reflexivity. Qed.

(** tests/streaming.rs:164 *)
Definition cfg_streaming_it_streams_chunks_without_pausing_until_end_of_stream : text := tx "{
        ""services"": {
            ""limitador"": {
                ""type"": ""ratelimit-report"",
                ""endpoint"": ""limitador-cluster"",
                ""failureMode"": ""deny"",
                ""timeout"": ""5s""
            }
        },
        ""actionSets"": [
        {
            ""name"": ""some-name"",
            ""routeRuleConditions"": {
                ""hostnames"": [""*.toystore.com"", ""example.com""]
            },
            ""actions"": [
            {
                ""service"": ""limitador"",
                ""scope"": ""RLS-domain"",
                ""conditionalData"": [
                {
                    ""predicates"": [
                        ""responseBodyJSON('/usage/total_tokens') == 42""
                    ],
                    ""data"": [
                        {
                            ""expression"": {
                                ""key"": ""request.method"",
                                ""value"": ""request.method""
                            }
                        }
                    ]
                }]
            }
            ]
        }]
    }".
Definition steps_streaming_it_streams_chunks_without_pausing_until_end_of_stream : list step := [
    mkStep InReqHeaders
        [([(tx "request"); (tx "host")], (Some (tx "cars.toystore.com"))); ([(tx "request"); (tx "method")], (Some (tx "POST")))]
        [(MReq, [((tx ":authority"), (tx "abi_test_harness")); ((tx ":method"), (tx "GET")); ((tx ":path"), (tx "/default/request/headers/path"))]); (MResp, [])]
        []
        []
        (mkWant [MHits] [] [] [] [] (Some false));
    mkStep InRespHeaders
        []
        [(MResp, [((tx "content-type"), (tx "text/event-stream"))])]
        []
        []
        (mkWant [MAllowed] [] [] [] [] (Some false));
    mkStep (InRespBody 36 false)
        []
        []
        [(BRespBody, (bytes [100; 97; 116; 97; 58; 32; 123; 34; 105; 100; 34; 58; 34; 49; 34; 44; 34; 99; 111; 110; 116; 101; 110; 116; 34; 58; 34; 72; 101; 108; 108; 111; 34; 125; 10; 10]%N))]
        []
        (mkWant [] [] [] [] [] (Some false));
    mkStep (InRespBody 36 false)
        []
        []
        [(BRespBody, (bytes [100; 97; 116; 97; 58; 32; 123; 34; 105; 100; 34; 58; 34; 50; 34; 44; 34; 99; 111; 110; 116; 101; 110; 116; 34; 58; 34; 87; 111; 114; 108; 100; 34; 125; 10; 10]%N))]
        []
        (mkWant [] [] [] [] [] (Some false));
    mkStep (InRespBody 37 false)
        []
        []
        [(BRespBody, (bytes [100; 97; 116; 97; 58; 32; 123; 34; 117; 115; 97; 103; 101; 34; 58; 123; 34; 116; 111; 116; 97; 108; 95; 116; 111; 107; 101; 110; 115; 34; 58; 52; 50; 125; 125; 10; 10]%N))]
        []
        (mkWant [] [] [] [] [] (Some false));
    mkStep (InRespBody 14 false)
        []
        []
        [(BRespBody, (bytes [100; 97; 116; 97; 58; 32; 91; 68; 79; 78; 69; 93; 10; 10]%N))]
        []
        (mkWant [] [] [] [] [] (Some false));
    mkStep (InRespBody 0 true)
        []
        []
        []
        [Some 99%N]
        (mkWant [] [((tx "limitador-cluster"), (tx "kuadrant.service.ratelimit.v1.RateLimitService"), (tx "Report"), None, 5000%N)] [] [] [] (Some true));
    mkStep (InGrpc 99 0 2)
        []
        []
        [(BGrpc, (bytes [8; 1]%N))]
        []
        (mkWant [] [] [] [] [] None)].
Example replay_streaming_it_streams_chunks_without_pausing_until_end_of_stream : replay cfg_streaming_it_streams_chunks_without_pausing_until_end_of_stream steps_streaming_it_streams_chunks_without_pausing_until_end_of_stream = true.
Proof. vm_compute. reflexivity. Qed.
