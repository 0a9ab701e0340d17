(** Model of how an expression's needs are collected: KF/data/cel.rs:139-199, 697-912. *)
From Coq Require Import String List NArith ZArith Bool Ascii.
From Verif Require Import Base Value Headers AttrPath Ctx.
Import ListNotations.
Open Scope list_scope.

(** cel.rs:374-378 *)
Definition resp_json_fn : text := tx "responseBodyJSON".
Definition req_json_fn : text := tx "requestBodyJSON".

(** The three output vectors of [properties] and its [path] accumulator. *)
Record pstate := mkPs { ps_all : list path; ps_req : list text; ps_resp : list text; ps_path : list text }.

(** cel.rs:842-857: literal argument of the body functions, recorded only for calls
    without target with exactly one argument which is a string literal *)
Definition note_body (target : option ast) (fn : text) (args : list ast) (s : pstate) : pstate :=
  match target, args with
  | None, [a] =>
      if text_eqb fn resp_json_fn then
        match a with
        | ALit (VString p) => mkPs (ps_all s) (ps_req s) (ps_resp s ++ [p]) (ps_path s)
        | _ => s
        end
      else if text_eqb fn req_json_fn then
        match a with
        | ALit (VString p) => mkPs (ps_all s) (ps_req s ++ [p]) (ps_resp s) (ps_path s)
        | _ => s
        end
      else s
  | _, _ => s
  end.

Definition set_path (p : list text) (s : pstate) : pstate := mkPs (ps_all s) (ps_req s) (ps_resp s) p.

(** cel.rs:834-912 [properties] *)
Fixpoint props (e : ast) (s : pstate) {struct e} : pstate :=
  let fix props_list (l : list ast) (s : pstate) {struct l} : pstate :=
    match l with
    | [] => s
    | a :: l' => props_list l' (props a s)
    end in
  let fix props_entries (l : list (ast * ast)) (s : pstate) {struct l} : pstate :=
    match l with
    | [] => s
    | (k, v) :: l' => props_entries l' (props v (props k s))
    end in
  let fix props_fields (l : list (text * ast)) (s : pstate) {struct l} : pstate :=
    match l with
    | [] => s
    | (_, v) :: l' => props_fields l' (props v s)
    end in
  match e with
  | ACall target fn args =>
      let s1 := note_body target fn args s in
      let s2 := match target with
                | Some t => props t s1
                | None => set_path [] s1
                end in
      props_list args s2
  | ASelect operand field _ => props operand (set_path (field :: ps_path s) s)
  | AIdent n =>
      match ps_path s with
      | [] => s
      | p => mkPs (ps_all s ++ [n :: p]) (ps_req s) (ps_resp s) []
      end
  | AList l => props_list l s
  | AMap l => props_entries l s
  | AStruct _ l => props_fields l s
  | AComp ir ai lc ls r _ _ => props r (props ls (props lc (props ai (props ir s))))
  | ALit _ | AUnspec => s
  end.

(** [cel::objects::ValueType] as used by cel.rs:764-832 *)
Inductive ctype := TString | TInt | TUInt | TFloat | TBool | TBytes | TTimestamp | TMap.

(** cel.rs:621-624 [Attribute] *)
Record attr := mkAttr { at_path : path; at_type : option ctype }.

(** cel.rs:764-832 [new_well_known_attribute_map] *)
Definition known_attributes : list (path * ctype) :=
  map (fun nt => (path_parse (fst nt), snd nt))
  [ (tx "request.time", TTimestamp); (tx "request.id", TString);
    (tx "request.protocol", TString); (tx "request.scheme", TString);
    (tx "request.host", TString); (tx "request.method", TString);
    (tx "request.path", TString); (tx "request.url_path", TString);
    (tx "request.query", TString); (tx "request.referer", TString);
    (tx "request.size", TInt); (tx "request.useragent", TString);
    (tx "request.body", TString); (tx "source.address", TString);
    (tx "source.remote_address", TString); (tx "source.port", TInt);
    (tx "source.service", TString); (tx "source.principal", TString);
    (tx "source.certificate", TString); (tx "destination.address", TString);
    (tx "destination.port", TInt); (tx "destination.service", TString);
    (tx "destination.principal", TString); (tx "destination.certificate", TString);
    (tx "connection.requested_server_name", TString);
    (tx "connection.tls_session.sni", TString); (tx "connection.tls_version", TString);
    (tx "connection.subject_local_certificate", TString);
    (tx "connection.subject_peer_certificate", TString);
    (tx "connection.dns_san_local_certificate", TString);
    (tx "connection.dns_san_peer_certificate", TString);
    (tx "connection.uri_san_local_certificate", TString);
    (tx "connection.uri_san_peer_certificate", TString);
    (tx "connection.sha256_peer_certificate_digest", TString);
    (tx "ratelimit.domain", TString); (tx "connection.id", TUInt);
    (tx "ratelimit.hits_addend", TInt); (tx "request.headers", TMap);
    (tx "request.context_extensions", TMap); (tx "source.labels", TMap);
    (tx "destination.labels", TMap); (tx "filter_state", TMap);
    (tx "connection.mtls", TBool); (tx "request.raw_body", TBytes) ].

(** cel.rs:697-706 [known_attribute_for], with the default of 181-184 *)
Definition attr_for (p : path) : attr :=
  mkAttr p (option_map snd (find (fun kt => path_eqb (fst kt) p) known_attributes)).

(** cel.rs:176-179 *)
Definition is_grpc_path (p : path) : bool :=
  match p with
  | a :: b :: _ => text_eqb a (tx "request") && text_eqb b (tx "grpc")
  | _ => false
  end.

(** [sort_by_key(|a| a.path.tokens().len())] (cel.rs:188): stable insertion sort *)
Fixpoint ins_len (a : attr) (l : list attr) : list attr :=
  match l with
  | [] => [a]
  | b :: l' => if Nat.leb (length (at_path a)) (length (at_path b)) then a :: l else b :: ins_len a l'
  end.
Fixpoint sort_len (l : list attr) : list attr :=
  match l with
  | [] => []
  | a :: l' => ins_len a (sort_len l')
  end.

(** cel.rs:105-115 [Expression] (fields [extended] and [source] are kept out: the
    evaluator oracle covers the former, see Legacy.v for the latter) *)
Record expr := mkExpr {
  ex_ast : ast; ex_attrs : list attr; ex_grpc : bool;
  ex_req : list text; ex_resp : list text }.

(** cel.rs:155-199 [new_expression], after parsing *)
Definition expr_of (a : ast) : expr :=
  let s := props a (mkPs [] [] [] []) in
  mkExpr a
    (sort_len (map attr_for (filter (fun p => negb (is_grpc_path p)) (ps_all s))))
    (existsb is_grpc_path (ps_all s))
    (ps_req s) (ps_resp s).

Definition parse_expr (E : env) (src : text) : option expr := option_map expr_of (o_parse E src).

(** cel.rs:329-335 *)
Definition has_req (e : expr) : bool := negb (Nat.eqb (length (ex_req e)) 0).
Definition has_resp (e : expr) : bool := negb (Nat.eqb (length (ex_resp e)) 0).

(** cel.rs:139-152 *)
Definition host_roots : list text :=
  [tx "request"; tx "response"; tx "source"; tx "destination"; tx "connection";
   tx "ratelimit"; tx "filter_state"; tx "metadata"].
Definition is_host_root (r : text) : bool := mem_text r host_roots.
