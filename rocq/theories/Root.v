(** Model of KF/filter/descriptor_manager.rs (DM), WS/filter/root_context.rs (RC) and
    of one wasm instance: the root context with the HTTP contexts it creates.
    Not modelled: [DescriptorManager::insert_pool] (used by tests only), the logging and
    tracing set up by [on_configure], mutex poisoning. *)
From Coq Require Import String List NArith Bool Ascii.
From Verif Require Import Base Value Headers AttrPath Ctx CelProps CelEval Sse Body Tasks Exec Config Legacy Blueprint Factory Filter.
Import ListNotations.
Open Scope list_scope.

(** DM:18-27 [DescriptorKey]: cluster, service *)
Definition dkey : Type := text * text.
Definition dkey_eqb (a b : dkey) : bool := text_eqb (fst a) (fst b) && text_eqb (snd a) (snd b).

(** DM:56-61 [DescriptorState] *)
Inductive dstate := DEmbedded (h : N) | DMissing | DPending (tok : N) | DResolved (h : N).

(** DM:63-68 [DescriptorManager].  A pool is represented by the bytes it was built from;
    the hash maps are association lists. *)
Record dman := mkDm {
  dm_pools : list (N * text); dm_embedded : list (text * N);
  dm_desc : list (dkey * dstate); dm_service : option text }.

(** What the root context does and sees, newest first; [None]: no configuration, or one
    serde rejects *)
Inductive rev_ :=
| RvConfigure (c : option plugin_cfg) | RvTick | RvAnswer (tok status size : N)
| RvConfigs                                             (* RC:132 the metric *)
| RvFetch (cluster : text) (keys : list dkey) (tok : option N)
| RvSetTick (on ok : bool).
Definition rlog := list rev_.

(** The host as the root context sees it, and the libraries behind the manager *)
Record renv := mkRenv {
  r_hash : text -> N;                                   (* DM:50-54 [hash_bytes] *)
  r_ratelimit : text; r_auth : text;                    (* DM:392-395, the embedded bytes *)
  r_pool : text -> bool;                                (* the bytes decode and form a pool *)
  r_has : text -> text -> bool;                         (* that pool has a service of the name *)
  r_response : text -> option (list (dkey * text));     (* [GetServiceDescriptorsResponse::decode] *)
  r_dispatch : rlog -> text -> list dkey -> option N;
  r_body : rlog -> N -> option text;                    (* [get_grpc_call_response_body] *)
  r_settick : rlog -> bool -> bool }.

Notation dget := (aget dkey_eqb).
Notation dset := (aset dkey_eqb).

(** [HashMap::entry(k).or_insert(v)] *)
Definition or_insert {K V} (eqb : K -> K -> bool) (k : K) (v : V) (m : list (K * V)) : list (K * V) :=
  match aget eqb k m with Some _ => m | None => aset eqb k v m end.

(** DM:397-399 *)
Definition ratelimit_service : text := tx "envoy.service.ratelimit.v3.RateLimitService".
Definition kuadrant_ratelimit_service : text := tx "kuadrant.service.ratelimit.v1.RateLimitService".
Definition auth_service : text := tx "envoy.service.auth.v3.Authorization".

(** DM:175-188 [register_embedded] *)
Definition register_embedded (R : renv) (service bytes : text) (m : dman) : dman :=
  let h := r_hash R bytes in
  mkDm (or_insert N.eqb h bytes (dm_pools m)) (tset service h (dm_embedded m)) (dm_desc m) (dm_service m).

(** DM:70-108 [default] *)
Definition dman0 (R : renv) : dman :=
  let m0 := mkDm [] [] [] None in
  let m1 := if r_pool R (r_ratelimit R)
            then register_embedded R kuadrant_ratelimit_service (r_ratelimit R)
                   (register_embedded R ratelimit_service (r_ratelimit R) m0)
            else m0 in
  if r_pool R (r_auth R) then register_embedded R auth_service (r_auth R) m1 else m1.

Definition with_desc (m : dman) d : dman := mkDm (dm_pools m) (dm_embedded m) d (dm_service m).

(** DM:111-119 [set_descriptor_service] *)
Definition set_descriptor_service (s : text) (m : dman) : dman :=
  mkDm (dm_pools m) (dm_embedded m) (dm_desc m) (Some s).

(** DM:121-135 [add_expected] *)
Definition add_expected (k : dkey) (m : dman) : dman :=
  let st := match tget (snd k) (dm_embedded m) with Some h => DEmbedded h | None => DMissing end in
  with_desc m (or_insert dkey_eqb k st (dm_desc m)).

(** DM:137-143 [has_expected] *)
Definition is_embedded (s : dstate) : bool := match s with DEmbedded _ => true | _ => false end.
Definition has_expected (m : dman) : bool := existsb (fun ks => negb (is_embedded (snd ks))) (dm_desc m).

(** DM:149-173 [get_pool] *)
Definition get_pool (k : dkey) (m : dman) : option text :=
  match dget k (dm_desc m) with
  | Some (DEmbedded h) | Some (DResolved h) => aget N.eqb h (dm_pools m)
  | _ => None
  end.

(** DM:204-227 [insert_pool_from_bytes] *)
Definition insert_pool_from_bytes (R : renv) (k : dkey) (bytes : text) (m : dman) : dman :=
  match dget k (dm_desc m) with
  | Some (DEmbedded _) => m
  | _ => let h := r_hash R bytes in
         mkDm (or_insert N.eqb h bytes (dm_pools m)) (dm_embedded m) (dset k (DResolved h) (dm_desc m)) (dm_service m)
  end.

(** DM:229-242 [get_missing], in iteration order *)
Definition is_missing (s : dstate) : bool := match s with DMissing => true | _ => false end.
Definition get_missing (m : dman) : list dkey :=
  map fst (filter (fun ks => is_missing (snd ks)) (dm_desc m)).

(** DM:244-303 [fetch_missing]; encoding the request cannot fail (prost fails only for
    want of space, and a [Vec] grows) *)
Definition fetch_missing (R : renv) (m : dman) (l : rlog) : dman * rlog :=
  match get_missing m with
  | [] => (m, l)
  | keys =>
      match dm_service m with
      | None => (m, l)
      | Some cluster =>
          match r_dispatch R l cluster keys with
          | None => (m, RvFetch cluster keys None :: l)
          | Some tok =>
              (with_desc m (fold_left (fun d k => dset k (DPending tok) d) keys (dm_desc m)),
               RvFetch cluster keys (Some tok) :: l)
          end
      end
  end.

(** DM:305-315 [reset_pending] *)
Definition reset_state (tok : N) (s : dstate) : dstate :=
  match s with DPending t => if N.eqb t tok then DMissing else s | _ => s end.
Definition reset_pending (tok : N) (m : dman) : dman :=
  with_desc m (map (fun ks => (fst ks, reset_state tok (snd ks))) (dm_desc m)).

(** DM:344-377: one descriptor of a response *)
Definition take_descriptor (R : renv) (m : dman) (d : dkey * text) : dman :=
  if r_pool R (snd d) && r_has R (snd d) (snd (fst d)) then insert_pool_from_bytes R (fst d) (snd d) m else m.

(** DM:317-384 [handle_response]; the error is only logged *)
Definition is_pending (tok : N) (s : dstate) : bool := match s with DPending t => N.eqb t tok | _ => false end.
Definition handle_response (R : renv) (tok : N) (bytes : text) (m : dman) : dman :=
  if existsb (fun ks => is_pending tok (snd ks)) (dm_desc m) then
    match r_response R bytes with
    | None => m
    | Some ds => fold_left (take_descriptor R) ds m
    end
  else m.

(** RC:16-21 [FilterRoot] *)
Record root := mkRoot { ro_factory : factory; ro_dm : dman; ro_tick : bool; ro_log : rlog }.
(** RC:24-31 *)
Definition root0 (R : renv) : root := mkRoot factory0 (dman0 R) false [].

(** RC:33-47 [set_tick_enabled] *)
Definition set_tick_enabled (R : renv) (on : bool) (r : root) : root :=
  if Bool.eqb on (ro_tick r) then r
  else let ok := r_settick R (ro_log r) on in
       mkRoot (ro_factory r) (ro_dm r) (if ok then on else ro_tick r) (RvSetTick on ok :: ro_log r).

(** SM:37-101, DD:36: the services made by [try_from], in iteration order up to the first
    that fails, are registered with the manager (tracing services are not) *)
Fixpoint expected (svs : list (text * svc_cfg)) : list dkey :=
  match svs with
  | [] => []
  | (_, c) :: svs' =>
      match inst_of c with
      | None => []
      | Some (IDyn _ s) => (sv_upstream s, sv_service s) :: expected svs'
      | Some (ITrace _) => expected svs'
      end
  end.

(** RC:49-77 [process_config] *)
Definition process_config (R : renv) (E : env) (cfg : plugin_cfg) (r : root) : root :=
  let m := fold_left (fun m k => add_expected k m) (expected (pc_services cfg)) (ro_dm r) in
  match try_from E cfg with
  | None => mkRoot (ro_factory r) m (ro_tick r) (ro_log r)
  | Some fa =>
      let m1 := set_descriptor_service (pc_descriptor_service cfg) m in
      let dynamic := has_expected m1 in
      let '(m2, l) := if dynamic then fetch_missing R m1 (ro_log r) else (m1, ro_log r) in
      set_tick_enabled R dynamic (mkRoot fa m2 (ro_tick r) l)
  end.

Definition r_emit (e : rev_) (r : root) : root := mkRoot (ro_factory r) (ro_dm r) (ro_tick r) (e :: ro_log r).
Definition with_dm (r : root) (m : dman) : root := mkRoot (ro_factory r) m (ro_tick r) (ro_log r).

(** RC:130-160 [on_configure]; [None]: no configuration, or one serde rejects *)
Definition on_configure (R : renv) (E : env) (c : option plugin_cfg) (r : root) : root :=
  let r1 := r_emit RvConfigs (r_emit (RvConfigure c) r) in
  match c with None => r1 | Some cfg => process_config R E cfg r1 end.

(** RC:166-173 [on_tick] *)
Definition on_tick (R : renv) (r : root) : root :=
  let r1 := r_emit RvTick r in
  let '(m, l) := fetch_missing R (ro_dm r1) (ro_log r1) in
  mkRoot (ro_factory r1) m (ro_tick r1) l.

(** RC:79-97 [handle_descriptor_response], RC:177-182 [on_grpc_call_response] *)
Definition on_answer (R : renv) (tok status size : N) (r : root) : root :=
  let r1 := r_emit (RvAnswer tok status size) r in
  let m := if N.eqb status 0 then
             match r_body R (ro_log r1) size with
             | Some b => handle_response R tok b (ro_dm r1)
             | None => ro_dm r1
             end
           else ro_dm r1 in
  with_dm r1 (reset_pending tok m).

(** One wasm instance: the contexts with the factory they hold (RC:121-128), and whether
    a callback panicked, after which the instance is gone *)
Record vm := mkVm { v_root : root; v_ctxs : list (N * (factory * flt)); v_dead : bool }.

(** Callbacks made by the host, on the root or on one HTTP context *)
Inductive vin :=
| VConfigure (c : option plugin_cfg) | VTick | VAnswer (tok status size : N)
| VCreate (id : N) | VHttp (id : N) (i : fin).

(** The HTTP contexts see the host through environments of their own; [E] is used for
    compiling configurations. *)
Definition vstep (R : renv) (E : env) (Es : N -> env) (v : vm) (i : vin) : vm :=
  if v_dead v then v
  else
    match i with
    | VConfigure c => mkVm (on_configure R E c (v_root v)) (v_ctxs v) false
    | VTick => mkVm (on_tick R (v_root v)) (v_ctxs v) false
    | VAnswer t s z => mkVm (on_answer R t s z (v_root v)) (v_ctxs v) false
    | VCreate id => mkVm (v_root v) (aset N.eqb id (ro_factory (v_root v), flt0) (v_ctxs v)) false
    | VHttp id j =>
        match aget N.eqb id (v_ctxs v) with
        | None => v
        | Some (fa, f) =>
            let f' := fstep (Es id) fa f j in
            mkVm (v_root v) (aset N.eqb id (fa, f') (v_ctxs v)) (f_dead f')
        end
    end.
Definition vm0 (R : renv) : vm := mkVm (root0 R) [] false.
Definition vrun (R : renv) (E : env) (Es : N -> env) (l : list vin) : vm := fold_left (vstep R E Es) l (vm0 R).
