(** Concrete configurations and hosts for the examples and counterexamples (no repo code). *)
From Coq Require Import String Ascii List NArith ZArith Bool Lia.
From Verif Require Import Base Value Headers AttrPath Ctx CelProps CelEval Sse Body Tasks Exec Config Legacy Blueprint Factory Filter
  Demo P_Run P_Ids.
Import ListNotations.
Open Scope list_scope.

(** A parser for a few words *)
Definition words : list (text * ast) := [
  (tx "true", ALit (VBool true)); (tx "false", ALit (VBool false));
  (tx "msg", ALit (VString (tx "m"))); (tx "err", AIdent (tx "unbound"));
  (tx "deny", AStruct (tx "DenyResponse")
     [(tx "status", ALit (VUInt 403)); (tx "headers", AList []); (tx "body", ALit (VString (tx "no")))]);
  (tx "hdrs", AList [AList [ALit (VString (tx "x-a")); ALit (VString (tx "1"))]]);
  (tx "wait", ASelect (AIdent (tx "request")) (tx "late") false);
  (tx "reqbody", ACall None (tx "requestBodyJSON") [ALit (VString (tx "/a"))]);
  (tx "respbody", ACall None (tx "responseBodyJSON") [ALit (VString (tx "/a"))]);
  (tx "reply", AIdent (tx "r"))].
Definition parse_demo : text -> option ast := fun s => tget s words.

Definition is_resp (e : ev) : bool := match e with EvRespHeaders => true | _ => false end.
(** [request.host] is [h]; [request.late] is known once the response headers came *)
Definition prop_demo : log -> path -> hres (option text) := fun l p =>
  if path_eqb p [tx "request"; tx "host"] then HOk (Some (tx "h"))
  else if path_eqb p [tx "request"; tx "late"] then (if existsb is_resp l then HOk (Some (tx "true")) else HNotAvail)
  else HOk None.
Definition Ed : env := e_prop (e_parse E1 parse_demo) prop_demo.

Definition dsvc (deny : bool) : svc_cfg := mkSvcCfg SDynamic (tx "up") deny 100 (Some (tx "S")) (Some (tx "M")).
Definition dcfg (l : list action_cfg) : plugin_cfg :=
  mkPlugin [] [(tx "soft", dsvc false); (tx "hard", dsvc true); (tx "auth", mkSvcCfg SAuth (tx "authorino") true 100 None None);
               (tx "rl", mkSvcCfg SRateLimit (tx "limitador") true 100 None None)]
    [mkSet (tx "s") [tx "h"] [] l] None None [].
(** guarded call *)
Definition dcall (sv : string) (seq : bool) (rs : list taction) : action_cfg :=
  CTyped (mkT (tx "true") false true seq (OpGrpc (tx "r") (tx sv) (tx "msg") rs)).
Definition ddeny (pred : string) (term seq : bool) : taction := mkT (tx pred) term false seq (OpDeny (tx "deny")).
Definition dhdr (pred : string) (seq : bool) : taction := mkT (tx pred) false false seq (OpHeaders MReq (tx "hdrs")).

Definition dfac (E : env) (l : list action_cfg) : factory :=
  match try_from E (dcfg l) with Some f => f | None => factory0 end.
Definition dlog (E : env) (l : list action_cfg) (is : list fin) : log := f_log (run E (dfac E l) is).

Lemma next_token_above l k : in_flight l k -> (k < next_token l)%N.
Proof.
  intros (l1 & e & l2 & -> & Hc & _). induction l2 as [|x l2 IH]; simpl.
  - destruct e as [| | | | |a cl [k'|]|cl [k'|]| | | | | | | | | | | | |]; simpl in Hc; try easy; subst; lia.
  - destruct x as [| | | | |a cl [k'|]|cl [k'|]| | | | | | | | | | | | |]; lia.
Qed.
Lemma demo_fresh : fresh_tokens Ed.
Proof. intros l c k [= <-] H. apply next_token_above in H. lia. Qed.

(** Dev mode with a tracing service; the identifier expression parses to a header list *)
Definition parse_dev : text -> option ast := fun s =>
  match s with
  | "["%char :: "["%char :: _ => Some (AList [AList [ALit (VString (tx "x-id")); ALit (VString (tx "1"))]])
  | _ => parse_demo s
  end.
Definition Et : env := e_spans (e_parse Ed parse_dev) (fun _ => Some (tx "spans")).
Definition tcfg (l : list action_cfg) : plugin_cfg :=
  mkPlugin [] ((tx "tr", mkSvcCfg STracing (tx "otel") false 100 None None) :: pc_services (dcfg l)) (pc_sets (dcfg l)) (Some (tx "x-id")) (Some (tx "tr")) [].
Definition tfac (l : list action_cfg) : factory := match try_from Et (tcfg l) with Some f => f | None => factory0 end.
Lemma trace_fresh : fresh_tokens Et.
Proof. intros l c k [= <-] H. apply next_token_above in H. lia. Qed.

(** A parser for lists of lists of string literals, on top of [parse_demo]: odd pieces between
    quotes are the strings *)
Fixpoint pieces (acc : text) (s : text) : list text :=
  match s with
  | [] => [rev acc]
  | "'"%char :: s' => rev acc :: pieces [] s'
  | ch :: s' => pieces (ch :: acc) s'
  end.
(** after an opening bracket pair, or a separator: a string follows *)
Fixpoint pairs (cur : list ast) (done : list ast) (l : list text) : option ast :=
  match l with
  | str :: sep :: l' =>
      let cur' := cur ++ [ALit (VString str)] in
      if text_eqb sep (tx ", ") then pairs cur' done l'
      else if text_eqb sep (tx "], [") then pairs [] (done ++ [AList cur']) l'
      else if text_eqb sep (tx "]]") then (match l' with [] => Some (AList (done ++ [AList cur'])) | _ => None end)
      else None
  | _ => None
  end.
Definition parse_pairs : text -> option ast := fun s =>
  match pieces [] s with
  | o :: l => if text_eqb o (tx "[[") then pairs [] [] l else parse_demo s
  | [] => parse_demo s
  end.
(** the client sends the request id [id] *)
Definition Eq (id : string) : env := e_map (e_parse Et parse_pairs) (fun _ m => match m with MReq => HOk [(tx "x-request-id", tx id)] | MResp => HOk [] end).
