(** Model of expression and predicate evaluation: KF/data/cel.rs:210-371, 530-619,
    654-743, 919-1028.  The CEL interpreter itself is the oracle [o_cel]. *)
From Coq Require Import String List NArith ZArith Bool.
From Verif Require Import Base Value Headers AttrPath Ctx CelProps.
Import ListNotations.
Open Scope list_scope.

(** cel.rs:716-743 [json_value_to_cel] *)
Fixpoint json_cel (j : json) : value :=
  match j with
  | JNull => VNull
  | JBool b => VBool b
  | JNum (JPos n) => VUInt n
  | JNum (JNeg z) => VInt z
  | JNum (JFloat b) => VFloat b
  | JStr s => VString s
  | JArr l => VList (map json_cel l)
  | JObj l => VMap (map (fun kv => (KStr (fst kv), json_cel (snd kv))) l)
  end.
(** cel.rs:708-714 [json_to_cel] *)
Definition json_to_cel (E : env) (s : text) : value :=
  match o_json E s with Some j => json_cel j | None => VString s end.

Definition opt_val {A} (f : A -> value) (o : option A) : value :=
  match o with Some a => f a | None => VNull end.

(** attribute.rs:60-71 [from_cached] with a parser, then [map(unwrap_or Null)] *)
Definition decode_with {A} (parse : text -> option A) (f : A -> value) (v : cached) : option value :=
  match v with
  | CBytes (Some b) => option_map f (parse b)
  | CBytes None => Some VNull
  | CHeaders _ => None
  end.

(** cel.rs:655-695 [Attribute::get], on a cached value *)
Definition decode (E : env) (t : option ctype) (v : cached) : option value :=
  match t with
  | Some TString => decode_with parse_string VString v
  | Some TInt => decode_with parse_i64 VInt v
  | Some TUInt => decode_with parse_u64 VUInt v
  | Some TFloat => decode_with parse_f64 VFloat v
  | Some TBool => decode_with parse_bool VBool v
  | Some TBytes => decode_with (fun b => Some b) VBytes v
  | Some TTimestamp => decode_with parse_timestamp VTimestamp v
  | Some TMap =>
      match v with
      | CHeaders h => Some (VMap (map (fun kv => (KStr (fst kv), VString (snd kv))) (h_to_map h)))
      | CBytes _ => None
      end
  | None => decode_with parse_string (json_to_cel E) v
  end.

Definition attr_get (E : env) (a : attr) (c : ctx) : rd value * ctx :=
  match read_attr E (at_path a) c with
  | (RAvail v, c') => (match decode E (at_type a) v with Some x => RAvail x | None => RErr end, c')
  | (RPending, c') => (RPending, c')
  | (RErr, c') => (RErr, c')
  end.

(** cel.rs:940-943 [Token] *)
Inductive token := TokNode (l : list (text * token)) | TokVal (a : attr).

(** cel.rs:952-971: insert one attribute.  A shorter attribute already stored on the
    way stops the insertion; the last token replaces whatever was there. *)
Fixpoint tok_insert (ts : list text) (a : attr) (m : list (text * token)) : list (text * token) :=
  match ts with
  | [] => m
  | [t] => tset t (TokVal a) m
  | t :: ts' =>
      match tget t m with
      | Some (TokVal _) => m
      | Some (TokNode sub) => tset t (TokNode (tok_insert ts' a sub)) m
      | None => tset t (TokNode (tok_insert ts' a [])) m
      end
  end.
(** cel.rs:949-973 [AttributeMap::new] *)
Definition attr_map (l : list attr) : list (text * token) :=
  fold_left (fun m a => tok_insert (at_path a) a m) l [].

(** cel.rs:981-1028 [map_to_value].  Map iteration order is the list order.
    [tok_go] is the loop over the entries of a node. *)
Definition tok_go (val : text -> token -> ctx -> rd value * ctx) (prefix : text) :=
  fix go (l : list (text * token)) (out : list (mkey * value)) (c : ctx) {struct l} : rd value * ctx :=
    match l with
    | [] => (RAvail (VMap out), c)
    | (key, tk) :: l' =>
        let cur := match prefix with [] => key | _ => prefix ++ dot :: key end in
        match val_get cur c with
        | Some v => go l' (out ++ [(KStr key, v)]) c
        | None =>
            if val_pending cur c then (RPending, c)
            else if (match prefix with [] => true | _ => false end)
                      && negb (is_host_root key) && negb (val_has_prefix (key ++ [dot]) c)
            then go l' out c
            else match val cur tk c with
                 | (RAvail v, c') => go l' (out ++ [(KStr key, v)]) c'
                 | (RPending, c') => (RPending, c')
                 | (RErr, c') => (RErr, c')
                 end
        end
    end.
Fixpoint tok_value (E : env) (prefix : text) (t : token) (c : ctx) {struct t} : rd value * ctx :=
  match t with
  | TokVal a => attr_get E a c
  | TokNode l => tok_go (fun p t c => tok_value E p t c) prefix l [] c
  end.

(** cel.rs:317-319 [build_data_map] *)
Definition data_map (E : env) (ex : expr) (c : ctx) : rd (list (mkey * value)) * ctx :=
  match tok_value E [] (TokNode (attr_map (ex_attrs ex))) c with
  | (RAvail (VMap m), c') => (RAvail m, c')
  | (RAvail _, c') => (RErr, c')
  | (RPending, c') => (RPending, c')
  | (RErr, c') => (RErr, c')
  end.

Definition mget (k : text) (m : list (mkey * value)) : option value := aget mkey_eqb (KStr k) m.
Definition vars := list (text * value).

(** cel.rs:342-371 [resolve_grpc] *)
Definition resolve_grpc (E : env) (c : ctx) : option value * ctx :=
  match h_reqheader E (c_log c) (tx "content-type") with
  | Some ct =>
      if is_grpc_content_type ct then
        match read_string E [tx "request"; tx "url_path"] c with
        | (RAvail (Some p), c') =>
            (match parse_grpc_path p with
             | Some (s, m) => Some (VMap [(KStr (tx "service"), VString s); (KStr (tx "method"), VString m)])
             | None => None
             end, c')
        | (_, c') => (None, c')
        end
      else (None, c)
  | None => (None, c)
  end.

(** cel.rs:235-247: the value bound to [request] *)
Definition request_value (E : env) (ex : expr) (m : list (mkey * value)) (c : ctx) : value * ctx :=
  let rv := match mget (tx "request") m with Some v => v | None => VNull end in
  if ex_grpc ex then
    let base := match rv with VMap l => l | _ => [] end in
    let (g, c') := resolve_grpc E c in
    (VMap (match g with Some gm => aset mkey_eqb (KStr (tx "grpc")) gm base | None => base end), c')
  else (rv, c).

(** cel.rs:249-252 *)
Definition fixed_vars (m : list (mkey * value)) : vars :=
  map (fun b => (b, match mget b m with Some v => v | None => VNull end))
      [tx "metadata"; tx "source"; tx "destination"; tx "auth"].
(** cel.rs:254-260 *)
Definition other_vars (m : list (mkey * value)) : vars :=
  flat_map (fun kv => match fst kv with
                      | KStr n => if text_eqb n (tx "request") || is_host_root n then [] else [(n, snd kv)]
                      | _ => []
                      end) m.
(** cel.rs:262-272: stored values whose path has no dot *)
Definition stored_vars (m : list (mkey * value)) (c : ctx) : vars :=
  flat_map (fun kv => if text_eqb (before_char dot (fst kv)) (fst kv)
                      then match mget (fst kv) m with Some _ => [] | None => [kv] end
                      else []) (c_vals c).

(** cel.rs:275-283, 292-300: [None] = a body field is not known yet *)
Fixpoint body_map (fields : list text) (b : body) (acc : list (mkey * value)) : option (list (mkey * value)) :=
  match fields with
  | [] => Some acc
  | f :: fs => match tget f (b_vals b) with
               | Some v => body_map fs b (aset mkey_eqb (KStr f) v acc)
               | None => None
               end
  end.

(** cel.rs:217-228: host attributes fetched eagerly *)
Definition host_paths (ex : expr) : list path :=
  filter (fun p => match p with r :: _ => is_host_root r | [] => false end) (map at_path (ex_attrs ex)).

Definition resp_json_var : text := tx "@responseBodyJSON".
Definition req_json_var : text := tx "@requestBodyJSON".

(** cel.rs:210-307 [Expression::eval] up to the call of the interpreter: the variable
    environment (latest binding first).  [vs] is the incoming CEL context, which keeps
    bindings made for an earlier expression on the same context. *)
Definition eval_vars (E : env) (ex : expr) (vs : vars) (c : ctx) : rd vars * ctx :=
  let c1 := ensure_attributes E (host_paths ex) c in
  match data_map E ex c1 with
  | (RPending, c2) => (RPending, c2)
  | (RErr, c2) => (RErr, c2)
  | (RAvail m, c2) =>
      let (rv, c3) := request_value E ex m c2 in
      let vs1 := rev (other_vars m ++ stored_vars m c3) ++ rev (fixed_vars m) ++ (tx "request", rv) :: vs in
      match body_map (ex_resp ex) (c_respb c3) [] with
      | None => (RPending, c3)
      | Some rj =>
          match body_map (ex_req ex) (c_reqb c3) [] with
          | None => (RPending, c3)
          | Some qj => (RAvail ((req_json_var, VMap qj) :: (resp_json_var, VMap rj) :: vs1), c3)
          end
      end
  end.

(** cel.rs:308-309: resolve.  The CEL context after the call is returned too. *)
Definition eval_in (E : env) (ex : expr) (vs : vars) (c : ctx) : rd value * vars * ctx :=
  match eval_vars E ex vs c with
  | (RAvail vs', c') =>
      (match o_cel E (c_log c') (ex_ast ex) vs' with Some v => RAvail v | None => RErr end, vs', c')
  | (RPending, c') => (RPending, vs, c')
  | (RErr, c') => (RErr, vs, c')
  end.

(** cel.rs:547-562 [Predicate::test] *)
Definition test_in (E : env) (ex : expr) (vs : vars) (c : ctx) : rd bool * vars * ctx :=
  let '(r, vs', c') := eval_in E ex vs c in
  (match r with
   | RAvail (VBool b) => RAvail b
   | RAvail _ => RErr
   | RPending => RPending
   | RErr => RErr
   end, vs', c').

(** cel.rs:585-619 [PredicateVec::apply] *)
Fixpoint route_loop (E : env) (ps : list expr) (vs : vars) (c : ctx) : rd bool * ctx :=
  match ps with
  | [] => (RAvail true, c)
  | p :: ps' =>
      let '(r, vs', c') := test_in E p vs c in
      match r with
      | RAvail true => route_loop E ps' vs' c'
      | RAvail false => (RAvail false, c')
      | RPending => (RPending, c')
      | RErr => (RErr, c')
      end
  end.
Definition route_match (E : env) (ps : list expr) (c : ctx) : rd bool * ctx :=
  match ps with
  | [] => (RAvail true, c)
  | _ => route_loop E ps [] (ensure_attributes E (flat_map host_paths ps) c)
  end.
