(** Model of KF/kuadrant/pipeline/blueprint.rs (BP) and KF/services/mod.rs (SM). *)
From Coq Require Import String List NArith Bool.
From Verif Require Import Base Value Headers AttrPath Ctx CelProps CelEval Sse Body Tasks Config Legacy.
Import ListNotations.
Open Scope list_scope.

(** SM:15-23 [ServiceInstance] *)
Inductive sinst := IDyn (k : stype) (s : svc) | ITrace (t : option td).

(** SM:26-35 [failure_mode]: [true] for deny *)
Definition inst_deny (i : sinst) : bool := match i with IDyn _ s => sv_deny s | ITrace _ => false end.

(** SM:37-101 [from_config] *)
Definition inst_of (c : svc_cfg) : option sinst :=
  let mk k service method := Some (IDyn k (mkSvc (sc_endpoint c) service method (sc_timeout c) (sc_deny c))) in
  match sc_type c with
  | SAuth => mk SAuth (tx "envoy.service.auth.v3.Authorization") (tx "Check")
  | SRateLimit => mk SRateLimit (tx "envoy.service.ratelimit.v3.RateLimitService") (tx "ShouldRateLimit")
  | SRateLimitCheck => mk SRateLimitCheck (tx "kuadrant.service.ratelimit.v1.RateLimitService") (tx "CheckRateLimit")
  | SRateLimitReport => mk SRateLimitReport (tx "kuadrant.service.ratelimit.v1.RateLimitService") (tx "Report")
  | STracing => Some (ITrace (Some (mkTd (sc_endpoint c) (sc_timeout c))))
  | SDynamic =>
      match sc_grpc_service c, sc_grpc_method c with
      | Some gs, Some gm => mk SDynamic gs gm
      | _, _ => None
      end
  end.

(** BP:27-61 [Action], [Operation] *)
Inductive action := mkAct (id : text) (pred : expr) (terminal : bool) (op : oper) (deps : list text) (guard : bool)
with oper :=
| BGrpc (s : sinst) (var : text) (msg : expr) (on_reply : list action)
| BDeny (deny : expr)
| BHeaders (target : maptype) (h : expr)
| BStore (path : text) (ex : expr) (export : bool)
| BFail.

Definition a_id (a : action) := match a with mkAct id _ _ _ _ _ => id end.
Definition a_op (a : action) := match a with mkAct _ _ _ op _ _ => op end.
Definition a_deps (a : action) := match a with mkAct _ _ _ _ d _ => d end.
Definition a_guard (a : action) := match a with mkAct _ _ _ _ _ g => g end.
Definition set_deps (d : list text) (a : action) := match a with mkAct i p t o _ g => mkAct i p t o d g end.

(** BP:21-25 [Blueprint] *)
Record blueprint := mkBp { bp_name : text; bp_preds : list expr; bp_actions : list action }.

(** [collect::<Result<_, _>>()] *)
Fixpoint map_opt {A B} (f : A -> option B) (l : list A) : option (list B) :=
  match l with
  | [] => Some []
  | a :: l' => match f a, map_opt f l' with Some b, Some bs => Some (b :: bs) | _, _ => None end
  end.

(** BP:475-577 [compile_typed]; the kind of compile error is not represented *)
Fixpoint compile_typed (E : env) (svs : list (text * sinst)) (t : taction) (id : text) {struct t} : option action :=
  match t with
  | mkT pred terminal guard _ op =>
      match parse_expr E pred with
      | None => None
      | Some p =>
          let fin o := Some (mkAct id p terminal o [] guard) in
          match op with
          | OpGrpc var service message on_reply =>
              match tget service svs with
              | Some (IDyn k s) =>
                  match (fix go (i : nat) (l : list taction) : option (list action) :=
                           match l with
                           | [] => Some []
                           | r :: l' =>
                               if ta_seq r then None
                               else match compile_typed E svs r (id ++ dot :: nat_text i), go (S i) l' with
                                    | Some a, Some l'' => Some (a :: l'')
                                    | _, _ => None
                                    end
                           end) O on_reply with
                  | None => None
                  | Some rs =>
                      match parse_expr E message with
                      | None => None
                      | Some m => fin (BGrpc (IDyn k s) var m rs)
                      end
                  end
              | _ => None
              end
          | OpDeny d => match parse_expr E d with Some d' => fin (BDeny d') | None => None end
          | OpHeaders m h => match parse_expr E h with Some h' => fin (BHeaders m h') | None => None end
          | OpStore path v ex => match parse_expr E v with Some v' => fin (BStore path v' ex) | None => None end
          | OpFail _ => fin BFail
          end
      end
  end.

(** BP:442-473 [Action::compile] *)
Definition compile_legacy (E : env) (svs : list (text * sinst)) (l : laction) (id : text) (deps : list text)
    (rd : rdata) : option action :=
  let fin t := option_map (set_deps deps) (compile_typed E svs t id) in
  match tget (la_service l) svs with
  | Some (IDyn SAuth _) => fin (translate_auth l rd)
  | Some (IDyn SRateLimit _) | Some (IDyn SRateLimitCheck _) => fin (translate_ratelimit l rd)
  | Some (IDyn SRateLimitReport _) => fin (translate_report l rd)
  | _ => None
  end.

(** BP:328-363 [compute_dependencies], from action number [i] on *)
Fixpoint deps_from (i : nat) (fence pend : list text) (l : list action_cfg) : list (list text) :=
  match l with
  | [] => []
  | CLegacy _ :: l' =>
      (match i with O => [] | S j => [nat_text j] end) :: deps_from (S i) fence (pend ++ [nat_text i]) l'
  | CTyped t :: l' =>
      if ta_seq t then (fence ++ pend) :: deps_from (S i) [nat_text i] [] l'
      else fence :: deps_from (S i) fence (pend ++ [nat_text i]) l'
  end.
Definition compute_dependencies (l : list action_cfg) : list (list text) := deps_from 0 [] [] l.

(** BP:298-318: one configured action *)
Definition compile_action (E : env) (svs : list (text * sinst)) (rd : rdata)
    (x : nat * (action_cfg * list text)) : option action :=
  let '(i, (a, deps)) := x in
  match a with
  | CLegacy l => compile_legacy E svs l (nat_text i) deps rd
  | CTyped t => option_map (set_deps deps) (compile_typed E svs t (nat_text i))
  end.
Definition enumerate {A} (l : list A) : list (nat * A) := combine (seq 0 (length l)) l.

(** BP:281-325 [Blueprint::compile] *)
Definition compile_set (E : env) (svs : list (text * sinst)) (rd : rdata) (s : action_set) : option blueprint :=
  match map_opt (parse_expr E) (as_preds s) with
  | None => None
  | Some preds =>
      match map_opt (compile_action E svs rd)
              (enumerate (combine (as_actions s) (compute_dependencies (as_actions s)))) with
      | None => None
      | Some acts => Some (mkBp (as_name s) preds acts)
      end
  end.

(** tasks/dynamic.rs:50-54 [warm] *)
Definition warm (E : env) (id : text) (pred msg : expr) (c : ctx) : ctx :=
  let '(_, vs, c1) := test_in E pred (scope_vars id c) c in
  let '(_, _, c2) := eval_in E msg vs c1 in c2.

(** [sort(); dedup()] (store.rs:71-80) *)
Fixpoint ins_text (x : text) (l : list text) : list text :=
  match l with
  | [] => [x]
  | y :: l' => if text_leb x y then x :: l else y :: ins_text x l'
  end.
Definition sort_text (l : list text) : list text := fold_right ins_text [] l.
Fixpoint dedup (l : list text) : list text :=
  match l with
  | x :: ((y :: _) as l') => if text_eqb x y then dedup l' else x :: dedup l'
  | _ => l
  end.

(** store.rs:64-85 [initial_body_state] *)
Definition initial_body (pred ex : expr) : bstate :=
  match ex_req pred ++ ex_req ex with
  | (_ :: _) as l => BSPending SrcReq (dedup (sort_text l))
  | [] => match ex_resp pred ++ ex_resp ex with
          | (_ :: _) as l => BSPending SrcResp (dedup (sort_text l))
          | [] => BSNone
          end
  end.

(** BP:96-111: source of the headers expression of a tracing action *)
Definition tracker_src (var rid : text) : text :=
  tx "[['" ++ var ++ tx "', '" ++ rid ++ tx "']]".

(** BP:64-167 [to_core_task].  [None] is the panic of BP:104 on text that does not parse.
    BP:99-100 parses the constant "true": taken as the literal [true]. *)
Fixpoint to_core (E : env) (a : action) (c : ctx) {struct a} : option (task * ctx) :=
  match a with
  | mkAct id pred terminal op deps guard =>
      match op with
      | BGrpc s var msg rs =>
          match (fix go (l : list action) (c : ctx) : option (list task * ctx) :=
                   match l with
                   | [] => Some ([], c)
                   | r :: l' => match to_core E r c with
                                | Some (t, c1) => match go l' c1 with
                                                  | Some (ts, c2) => Some (t :: ts, c2)
                                                  | None => None
                                                  end
                                | None => None
                                end
                   end) rs c with
          | None => None
          | Some (ts, c1) =>
              match s with
              | IDyn _ sv => Some (TDynamic id sv var msg ts pred deps guard, warm E id pred msg c1)
              | ITrace _ =>
                  let c2 := with_track c1 (Some var) in
                  let (rid, c3) := request_id E c2 in
                  match parse_expr E (tracker_src var rid) with
                  | None => None
                  | Some h => Some (THeaders id true_expr h MResp false, c3)
                  end
              end
          end
      | BDeny d => Some (TReply id pred d terminal, c)
      | BHeaders m h => Some (THeaders id pred h m terminal, c)
      | BStore path ex export =>
          Some (TStore id pred ex path export terminal (initial_body pred ex), reserve path c)
      | BFail => Some (TFail id pred terminal, c)
      end
  end.

(** BP:169-234 [collect_body_values].  The inlined treatment of reply actions (BP:190-220)
    gathers the same fields as the recursive call without request data. *)
Fixpoint body_values (a : action) : list text :=
  match a with
  | mkAct _ pred _ op _ _ =>
      ex_resp pred ++
      match op with
      | BGrpc _ _ msg rs =>
          ex_resp msg ++ (fix go l := match l with [] => [] | r :: l' => body_values r ++ go l' end) rs
      | BDeny e | BHeaders _ e | BStore _ e _ => ex_resp e
      | BFail => []
      end
  end.
(** the set is a HashSet: its order is arbitrary in the code *)
Definition collect_body_values (rd : list expr) (a : action) : list text :=
  nodup text_eq_dec (body_values a ++ flat_map ex_resp rd).

(** BP:378-383 *)
Definition is_exporter (a : action) : bool :=
  match a_op a with BGrpc (ITrace (Some _)) _ _ _ => true | _ => false end.

(** BP:385-437: tasks of one action *)
Definition action_tasks (E : env) (rd : list expr) (tracing : bool) (a : action) (c : ctx)
  : option (list task * list td * ctx) :=
  match a_op a with
  | BGrpc (ITrace t) _ _ _ =>
      match to_core E a c with
      | None => None
      | Some (tk, c1) =>
          match t with
          | None => Some ([tk], [], c1)
          | Some s =>
              (* export_traces.rs:16-19, context.rs:71-91 *)
              let c2 := if o_span_on E (c_log c1) then snd (request_id E c1) else c1 in
              Some ([tk], [s], c2)
          end
      end
  | BGrpc (IDyn k s) _ _ _ =>
      let pre := match collect_body_values rd a with [] => [] | fs => [TToken None fs] end in
      match to_core E a c with
      | None => None
      | Some (tk, c1) =>
          let tk1 := TFailureMode tk (inst_deny (IDyn k s)) in
          Some (pre ++ [if tracing then TTracing tk1 else tk1], [], c1)
      end
  | _ => match to_core E a c with
         | None => None
         | Some (tk, c1) => Some ([tk], [], c1)
         end
  end.
Fixpoint actions_tasks (E : env) (rd : list expr) (tracing : bool) (l : list action) (c : ctx)
  : option (list task * list td * ctx) :=
  match l with
  | [] => Some ([], [], c)
  | a :: l' =>
      match action_tasks E rd tracing a c with
      | None => None
      | Some (ts, tds, c1) =>
          match actions_tasks E rd tracing l' c1 with
          | None => None
          | Some (ts', tds', c2) => Some (ts ++ ts', tds ++ tds', c2)
          end
      end
  end.
(** BP:369-439 [to_tasks] *)
Definition to_tasks (E : env) (rd : list expr) (b : blueprint) (c : ctx) : option (list task * list td * ctx) :=
  actions_tasks E rd (existsb is_exporter (bp_actions b)) (bp_actions b) c.
