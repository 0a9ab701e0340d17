(** How the configuration file is read: KF/configuration.rs:19-297 as compiled by serde_derive 1.0.228, from the
    document parsed by serde_json (WS/filter/root_context.rs:143).  A JSON document is a [json]; objects keep
    repeated keys.  [None] stands for every error.  Simplified: serde_json's own limits (nesting depth 128) are
    not modelled, and a unit variant written as an object with an empty object in it is not read. *)
From Coq Require Import String List NArith ZArith Bool.
From Verif Require Import Base Ctx Config Blueprint.
Import ListNotations.
Open Scope list_scope.

Definition dec (A : Type) : Type := json -> option A.
Definition de_text : dec text := fun j => match j with JStr s => Some s | _ => None end.
Definition de_bool : dec bool := fun j => match j with JBool b => Some b | _ => None end.
(** [Option<T>] *)
Definition de_opt {A} (d : dec A) : dec (option A) := fun j => match j with JNull => Some None | _ => option_map Some (d j) end.
(** [Vec<T>] *)
Definition de_vec {A} (d : dec A) : dec (list A) := fun j => match j with JArr l => map_opt d l | _ => None end.
(** [HashMap<String, T>]: a repeated key replaces the value *)
Definition de_map {A} (d : dec A) : dec (list (text * A)) := fun j =>
  match j with
  | JObj o => option_map (fun kvs => fold_left (fun m kv => tset (fst kv) (snd kv) m) kvs [])
                (map_opt (fun kv => option_map (pair (fst kv)) (d (snd kv))) o)
  | _ => None
  end.
(** an enum of variants without content: its name, or an object with that name and null *)
Definition de_enum {A} (vs : list (text * A)) : dec A := fun j =>
  match j with JStr s | JObj [(s, JNull)] => tget s vs | _ => None end.

(** ** Structs *)
(** the values of the fields named [k]; two are an error (duplicate field) *)
Definition get {A} (k : text) (o : list (text * A)) : option (option A) :=
  match filter (fun kv => text_eqb k (fst kv)) o with
  | [] => Some None
  | [(_, v)] => Some (Some v)
  | _ => None
  end.
Definition need {A B} (d : B -> option A) (k : string) (o : list (text * B)) : option A :=
  match get (tx k) o with Some (Some v) => d v | _ => None end.
(** [#[serde(default)]], and fields of type [Option] *)
Definition need_or {A B} (d : B -> option A) (x : A) (k : string) (o : list (text * B)) : option A :=
  match get (tx k) o with Some (Some v) => d v | Some None => Some x | None => None end.
(** The derived [Visitor] of a struct accepts a map and a sequence.  In a sequence the fields come in order; those
    after the first [least] have a default and may be left out at the end. *)
Definition fields (least : nat) (names : list string) (j : json) : option (list (text * json)) :=
  match j with
  | JObj o => Some o
  | JArr l => if Nat.leb least (length l) && Nat.leb (length l) (length names) then Some (combine (map tx names) l) else None
  | _ => None
  end.
Definition bind {A B} (x : option A) (f : A -> option B) : option B := match x with Some a => f a | None => None end.
Notation "'let*' x := a 'in' b" := (bind a (fun x => b)) (at level 200, x name, a at level 100, b at level 200).

(** configuration.rs:19-25 [ConditionalData], 144-172 [DataItem]: one entry, because of deny_unknown_fields *)
Definition de_item : dec data_item := fun j =>
  match j with
  | JObj [(k, v)] =>
      if text_eqb k (tx "static") then
        let* o := fields 2 ["value"; "key"]%string v in
        let* x := need de_text "value" o in let* y := need de_text "key" o in Some (DStatic y x)
      else if text_eqb k (tx "expression") then
        let* o := fields 2 ["key"; "value"]%string v in
        let* y := need de_text "key" o in let* x := need de_text "value" o in Some (DExpr y x)
      else None
  | _ => None
  end.
Definition de_cond : dec cond_data := fun j =>
  let* o := fields 0 ["predicates"; "data"]%string j in
  let* ps := need_or (de_vec de_text) [] "predicates" o in
  let* ds := need_or (de_vec de_item) [] "data" o in Some (mkCd ps ds).
(** configuration.rs:27-38 [Action] *)
Definition de_legacy : dec laction := fun j =>
  let* o := fields 2 ["service"; "scope"; "predicates"; "conditionalData"; "sources"]%string j in
  let* sv := need de_text "service" o in
  let* sc := need de_text "scope" o in
  let* ps := need_or (de_vec de_text) [] "predicates" o in
  let* cd := need_or (de_vec de_cond) [] "conditionalData" o in
  let* _ := need_or (de_vec de_text) [] "sources" o in
  Some (mkLaction sv sc ps cd).

(** configuration.rs:44-50 [Execution], 91-96 [HeadersTarget] *)
Definition de_exec : dec bool := de_enum [(tx "parallel", false); (tx "sequential", true)].
Definition de_target : dec maptype := de_enum [(tx "request", MReq); (tx "response", MResp)].
(** configuration.rs:67-75 [Operation]: the tag, by name or by number *)
Inductive optag := GGrpc | GDeny | GHeaders | GStore | GFail.
Definition de_tag : dec optag := fun j =>
  match j with
  | JStr s => tget s [(tx "grpc", GGrpc); (tx "deny", GDeny); (tx "headers", GHeaders); (tx "store", GStore); (tx "fail", GFail)]
  | JNum (JPos n) => nth_error [GGrpc; GDeny; GHeaders; GStore; GFail] (N.to_nat n)
  | _ => None
  end.
(** configuration.rs:52-119 [TypedAction].  The flattened [Operation] gets the fields that [TypedAction] does not
    have itself; the names are different, so both are looked up in the same list. [replies] are the entries of the
    object read as lists of actions. *)
Definition de_oper (o : list (text * json)) (replies : list (text * option (list taction))) : option toper :=
  let* tag := need de_tag "type" o in
  match tag with
  | GGrpc =>
      let* v := need de_text "var" o in
      let* s := need de_text "service" o in
      let* m := need de_text "messageBuilder" o in
      let* rs := need_or (fun r => r) [] "onReply" replies in
      let* _ := need_or de_text [] "label" o in Some (OpGrpc v s m rs)
  | GDeny => let* d := need de_text "denyWith" o in Some (OpDeny d)
  | GHeaders => let* t := need de_target "target" o in let* h := need de_text "headers" o in Some (OpHeaders t h)
  | GStore =>
      let* p := need de_text "path" o in
      let* v := need de_text "value" o in
      let* e := need_or de_bool false "exportToHost" o in Some (OpStore p v e)
  | GFail => let* m := need de_text "logMessage" o in Some (OpFail m)
  end.
Definition de_taction_with (o : list (text * json)) (replies : list (text * option (list taction))) : option taction :=
  let* p := need de_text "predicate" o in
  let* t := need de_bool "terminal" o in
  let* g := need_or de_bool true "isGuard" o in
  let* s := need_or de_exec false "execution" o in
  let* _ := need_or (de_vec de_text) [] "sources" o in
  let* op := de_oper o replies in
  Some (mkT p t g s op).
Fixpoint de_typed (j : json) : option taction :=
  match j with
  | JObj o =>
      de_taction_with o
        ((fix entries (o : list (text * json)) : list (text * option (list taction)) :=
            match o with
            | [] => []
            | (k, v) :: o' =>
                (k, match v with
                    | JArr l => (fix all (l : list json) : option (list taction) :=
                                   match l with
                                   | [] => Some []
                                   | a :: l' => match de_typed a, all l' with Some t, Some ts => Some (t :: ts) | _, _ => None end
                                   end) l
                    | _ => None
                    end) :: entries o'
            end) o)
  | _ => None
  end.
(** configuration.rs:121-126 [ActionConfig], untagged: the first that can be read *)
Definition de_action : dec action_cfg := fun j =>
  match de_typed j with
  | Some t => Some (CTyped t)
  | None => option_map CLegacy (de_legacy j)
  end.
(** configuration.rs:128-142 [RouteRuleConditions], [ActionSet] *)
Definition de_routes : dec (list text * list text) := fun j =>
  let* o := fields 1 ["hostnames"; "predicates"]%string j in
  let* hs := need (de_vec de_text) "hostnames" o in
  let* ps := need_or (de_vec de_text) [] "predicates" o in Some (hs, ps).
Definition de_set : dec action_set := fun j =>
  let* o := fields 3 ["name"; "routeRuleConditions"; "actions"]%string j in
  let* n := need de_text "name" o in
  let* r := need de_routes "routeRuleConditions" o in
  let* acts := need (de_vec de_action) "actions" o in
  Some (mkSet n (fst r) (snd r) acts).
(** configuration.rs:174-243 [FailureMode], [ServiceType], [Service] *)
Definition de_mode : dec bool := de_enum [(tx "deny", true); (tx "allow", false)].
Definition de_stype : dec stype :=
  de_enum [(tx "auth", SAuth); (tx "ratelimit", SRateLimit); (tx "ratelimit-check", SRateLimitCheck);
           (tx "ratelimit-report", SRateLimitReport); (tx "tracing", STracing); (tx "dynamic", SDynamic)].
(** configuration.rs:245-297 [Timeout]: [dur] is cel::functions::time::duration, in nanoseconds.  A negative one is
    an error ([to_std]).  The host is given whole milliseconds (proxy-wasm's [dispatch_grpc_call]). *)
Definition de_timeout (dur : text -> option Z) : dec N := fun j =>
  match j with
  | JStr s => match dur s with Some z => if Z.ltb z 0 then None else Some (N.div (Z.to_N z) 1000000) | None => None end
  | _ => None
  end.
Definition de_service (dur : text -> option Z) : dec svc_cfg := fun j =>
  let* o := fields 6 ["type"; "endpoint"; "failureMode"; "timeout"; "grpcService"; "grpcMethod"]%string j in
  let* ty := need de_stype "type" o in
  let* ep := need de_text "endpoint" o in
  let* fm := need de_mode "failureMode" o in
  let* to := need_or (de_timeout dur) 20%N "timeout" o in
  let* gs := need_or (de_opt de_text) None "grpcService" o in
  let* gm := need_or (de_opt de_text) None "grpcMethod" o in
  Some (mkSvcCfg ty ep fm to gs gm).
(** configuration.rs:198-209 [Observability], [Tracing]: the header name and the name of the tracing service *)
Definition de_tracing : dec text := fun j => let* o := fields 1 ["service"]%string j in need de_text "service" o.
Definition de_observability : dec (option text * option text) := fun j =>
  let* o := fields 3 ["httpHeaderIdentifier"; "defaultLevel"; "tracing"]%string j in
  let* h := need_or (de_opt de_text) None "httpHeaderIdentifier" o in
  let* _ := need_or (de_opt de_text) None "defaultLevel" o in
  let* t := need_or (de_opt de_tracing) None "tracing" o in Some (h, t).
(** configuration.rs:211-222 [PluginConfiguration] *)
Definition de_config (dur : text -> option Z) : dec plugin_cfg := fun j =>
  let* o := fields 3 ["requestData"; "services"; "actionSets"; "observability"; "descriptorService"]%string j in
  let* rd := need_or (de_map de_text) [] "requestData" o in
  let* sv := need (de_map (de_service dur)) "services" o in
  let* sets := need (de_vec de_set) "actionSets" o in
  let* ob := need_or de_observability (None, None) "observability" o in
  let* ds := need_or de_text (tx "kuadrant-operator-grpc") "descriptorService" o in
  Some (mkPlugin rd sv sets (fst ob) (snd ob) ds).
(** WS/filter/root_context.rs:130-165: what [on_configure] gets of the configuration bytes *)
Definition read_config (parse : text -> option json) (dur : text -> option Z) (bytes : option text) : option plugin_cfg :=
  let* b := bytes in let* j := parse b in de_config dur j.
