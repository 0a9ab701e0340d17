(** What Replay.v needs to run the model on the integration tests of the repository: readers for
    JSON documents, timeouts and CEL expressions, an evaluator for the CEL used in those tests, a
    host that gives the answers a test lists, and the comparison with the effects the test expects.
    Nothing here is part of the model, and no theorem depends on it. *)
From Coq Require Import String Ascii List NArith ZArith Bool.
From Verif Require Import Proto.
From Verif Require CelSyn.
From Verif Require Import Base Value Conv Headers AttrPath Ctx Config Serde Factory Filter Deploy CelEval.
Import ListNotations.
Open Scope list_scope.

Definition bytes (l : list N) : text := map ascii_of_N l.

(** * JSON *)
Definition is_ws (a : ascii) : bool := match bval a with 32%N | 9%N | 10%N | 13%N => true | _ => false end.
Fixpoint skip_ws (s : text) : text := match s with a :: r => if is_ws a then skip_ws r else s | [] => [] end.
Definition qt : ascii := ascii_of_N 34.
Definition bsl : ascii := ascii_of_N 92.
Fixpoint json_string (s : text) (acc : text) : option (text * text) :=
  match s with
  | [] => None
  | a :: r =>
      if Ascii.eqb a qt then Some (rev acc, r)
      else if Ascii.eqb a bsl then
        match r with
        | [] => None
        | b :: r' => json_string r' ((match b with "n" => ascii_of_N 10 | "t" => ascii_of_N 9 | "r" => ascii_of_N 13 | _ => b end)%char :: acc)
        end
      else json_string r (a :: acc)
  end.
Fixpoint take_digits (s acc : text) : text * text :=
  match s with a :: r => if is_digit a then take_digits r (a :: acc) else (rev acc, s) | [] => (rev acc, []) end.
Definition dec (s : text) : N := fold_left (fun n a => 10 * n + (bval a - 48))%N s 0%N.
Definition word (w : string) (j : json) (s : text) : option (json * text) :=
  if starts_with (tx w) s then Some (j, skipn (String.length w) s) else None.
Fixpoint json_value (fuel : nat) (s : text) : option (json * text) :=
  match fuel with
  | O => None
  | S f =>
      match skip_ws s with
      | [] => None
      | a :: r =>
          if Ascii.eqb a qt then match json_string r [] with Some (t, r) => Some (JStr t, r) | None => None end
          else if Ascii.eqb a "["%char then
            match skip_ws r with
            | "]"%char :: r' => Some (JArr [], r')
            | _ =>
              (fix elems (n : nat) (s : text) (acc : list json) : option (json * text) :=
                 match n with
                 | O => None
                 | S n => match json_value f s with
                          | Some (v, s') => match skip_ws s' with
                                            | ","%char :: s2 => elems n s2 (v :: acc)
                                            | "]"%char :: s2 => Some (JArr (rev (v :: acc)), s2)
                                            | _ => None
                                            end
                          | None => None
                          end
                 end) f r []
            end
          else if Ascii.eqb a "{"%char then
            match skip_ws r with
            | "}"%char :: r' => Some (JObj [], r')
            | _ =>
              (fix elems (n : nat) (s : text) (acc : list (text * json)) : option (json * text) :=
                 match n with
                 | O => None
                 | S n => match skip_ws s with
                          | q :: s1 =>
                              if Ascii.eqb q qt then
                                match json_string s1 [] with
                                | Some (k, s2) =>
                                    match skip_ws s2 with
                                    | ":"%char :: s3 =>
                                        match json_value f s3 with
                                        | Some (v, s4) => match skip_ws s4 with
                                                          | ","%char :: s5 => elems n s5 ((k, v) :: acc)
                                                          | "}"%char :: s5 => Some (JObj (rev ((k, v) :: acc)), s5)
                                                          | _ => None
                                                          end
                                        | None => None
                                        end
                                    | _ => None
                                    end
                                | None => None
                                end
                              else None
                          | [] => None
                          end
                 end) f r []
            end
          else if Ascii.eqb a "-"%char then let (d, r') := take_digits r [] in match d with [] => None | _ => Some (JNum (JNeg (- Z.of_N (dec d))), r') end
          else if is_digit a then let (d, r') := take_digits (a :: r) [] in Some (JNum (JPos (dec d)), r')
          else match word "true" (JBool true) (a :: r) with
               | Some x => Some x
               | None => match word "false" (JBool false) (a :: r) with Some x => Some x | None => word "null" JNull (a :: r) end
               end
      end
  end.
Definition read_json (s : text) : option json :=
  match json_value (S (List.length s)) s with
  | Some (j, r) => match skip_ws r with [] => Some j | _ => None end
  | None => None
  end.
Fixpoint split_on (c : ascii) (s cur : text) : list text :=
  match s with [] => [rev cur] | a :: r => if Ascii.eqb a c then rev cur :: split_on c r [] else split_on c r (a :: cur) end.
Definition pointer (j : json) (p : text) : option json :=
  match split_on "/" p [] with
  | _ :: ts => fold_left (fun j t => match j with Some (JObj o) => tget t o | _ => None end) ts (Some j)
  | [] => None
  end.
Definition show_N (n : N) : text := nat_text (N.to_nat n).
Definition show_json (j : json) : text :=
  match j with JNum (JPos n) => show_N n | JBool true => tx "true" | JBool false => tx "false" | JStr s => s | _ => tx "null" end.
(** acutejson, given all the bytes so far *)
Definition jraw (fs : list text) (s : text) : list (text * text) :=
  match read_json s with
  | Some j => flat_map (fun f => match pointer j f with Some v => [(f, show_json v)] | None => [] end) fs
  | None => []
  end.
Definition jfeed (fs : list text) (s : text) : jstatus :=
  match skip_ws s with
  | [] => JMore
  | a :: _ => if Ascii.eqb a "{"%char then match read_json s with Some _ => JDone | None => JMore end else JError
  end.

(** "5s", "20ms" *)
Definition duration (s : text) : option Z :=
  let (d, u) := take_digits s [] in
  if text_eqb u (tx "s") then Some (Z.of_N (dec d) * 1000000000)%Z
  else if text_eqb u (tx "ms") then Some (Z.of_N (dec d) * 1000000)%Z
  else None.

(** * CEL *)
Import CelSyn.
Definition number (s : text) : value :=
  match rev s with
  | "u"%char :: r => VUInt (dec (rev r))
  | _ => VInt (Z.of_N (dec s))
  end.
Definition map_all {A B} (f : A -> option B) : list A -> option (list B) :=
  fix go l := match l with [] => Some [] | a :: l' => match f a, go l' with Some b, Some m => Some (b :: m) | _, _ => None end end.
Fixpoint dotted_name (t : tree) : option text :=
  match t with TrId s => Some s | TrSel x f => option_map (fun s => s ++ "."%char :: f) (dotted_name x) | _ => None end.
Definition bin_name (p : punct) : text :=
  match p with PEq => tx "_==_" | PNe => tx "_!=_" | PGt => tx "_>_" | PPlus => tx "_+_" | _ => tx "?" end.
Definition accu : text := tx "@result".
Fixpoint ast_of (t : tree) : option ast :=
  let two a b k := match ast_of a, ast_of b with Some x, Some y => Some (k x y) | _, _ => None end in
  match t with
  | TrId s => Some (if text_eqb s (tx "true") then ALit (VBool true) else if text_eqb s (tx "false") then ALit (VBool false) else AIdent s)
  | TrNum s => Some (ALit (number s))
  | TrStr s => Some (ALit (VString s))
  | TrSel x f => option_map (fun e => ASelect e f false) (ast_of x)
  | TrCall (Some x) f [TrId v; b] =>
      if text_eqb f (tx "exists") then
        two x b (fun e c => AComp e (ALit (VBool false)) (ACall None (tx "@not_strictly_false") [ACall None (tx "!_") [AIdent accu]])
                                  (ACall None (tx "_||_") [AIdent accu; c]) (AIdent accu) v accu)
      else None
  | TrCall None f [x] =>
      match ast_of x with
      | Some (ASelect e g false) => Some (if text_eqb f (tx "has") then ASelect e g true else ACall None f [ASelect e g false])
      | Some e => if text_eqb f (tx "has") then None else Some (ACall None f [e])
      | None => None
      end
  | TrCall (Some x) f l => match ast_of x, map_all ast_of l with Some e, Some es => Some (ACall (Some e) f es) | _, _ => None end
  | TrNot x => option_map (fun e => ACall None (tx "!_") [e]) (ast_of x)
  | TrAnd a b => two a b (fun x y => ACall None (tx "_&&_") [x; y])
  | TrOr a b => two a b (fun x y => ACall None (tx "_||_") [x; y])
  | TrBin p a b => two a b (fun x y => ACall None (bin_name p) [x; y])
  | TrCond c a b => match ast_of c with Some x => two a b (fun y z => ACall None (tx "_?_:_") [x; y; z]) | None => None end
  | TrMsg n fs => match dotted_name n, map_all (fun kv => option_map (pair (fst kv)) (ast_of (snd kv))) fs with Some s, Some l => Some (AStruct s l) | _, _ => None end
  | TrList l => option_map AList (map_all ast_of l)
  | TrMap l => option_map AMap (map_all (fun kv => match ast_of (fst kv), ast_of (snd kv) with Some x, Some y => Some (x, y) | _, _ => None end) l)
  | _ => None
  end.
Definition read_cel (s : text) : option ast :=
  match lex s with
  | Some ts => match parse (200 + 20 * List.length ts) GExpr ts with Some (t, []) => ast_of t | _ => None end
  | None => None
  end.

Definition same (a b : value) : bool :=
  match a, b with
  | VNull, VNull => true
  | VBool x, VBool y => Bool.eqb x y
  | VInt x, VInt y => Z.eqb x y
  | VUInt x, VUInt y => N.eqb x y
  | VInt x, VUInt y => Z.eqb x (Z.of_N y)
  | VUInt x, VInt y => Z.eqb (Z.of_N x) y
  | VString x, VString y => text_eqb x y
  | _, _ => false
  end.
Definition member (f : text) (v : value) : option value :=
  match v with VStruct _ fs => tget f fs | VMap m => aget mkey_eqb (KStr f) m | _ => None end.
Definition show (v : value) : option value :=
  match v with
  | VString s => Some (VString s)
  | VInt z => Some (VString (show_N (Z.to_N z)))
  | VUInt n => Some (VString (show_N n))
  | _ => None
  end.
Definition call1 (f : text) (vs : list (text * value)) (v : value) : option value :=
  if text_eqb f (tx "!_") then match v with VBool b => Some (VBool (negb b)) | _ => None end
  else if text_eqb f (tx "uint") then match v with VInt z => Some (VUInt (Z.to_N z)) | VUInt n => Some v | _ => None end
  else if text_eqb f (tx "string") then show v
  else if text_eqb f (tx "responseBodyJSON") then match v, tget resp_json_var vs with VString s, Some m => member s m | _, _ => None end
  else if text_eqb f (tx "requestBodyJSON") then match v, tget req_json_var vs with VString s, Some m => member s m | _, _ => None end
  else None.
Definition call2 (f : text) (a b : option value) : option value :=
  if text_eqb f (tx "_&&_") then
    match a with Some (VBool true) => b | Some (VBool false) => a | _ => None end
  else if text_eqb f (tx "_||_") then
    match a with Some (VBool false) => b | Some (VBool true) => a | _ => None end
  else
    match a, b with
    | Some x, Some y =>
        if text_eqb f (tx "_==_") then Some (VBool (same x y))
        else if text_eqb f (tx "_!=_") then Some (VBool (negb (same x y)))
        else if text_eqb f (tx "_>_") then match x, y with VInt i, VInt j => Some (VBool (Z.ltb j i)) | _, _ => None end
        else if text_eqb f (tx "_+_") then
          match x, y with
          | VInt i, VInt j => Some (VInt (i + j))
          | VString s, VString t => Some (VString (s ++ t))
          | VList l, VList m => Some (VList (l ++ m))
          | _, _ => None
          end
        else None
    | _, _ => None
    end.
Definition as_key (v : value) : option mkey :=
  match v with VString s => Some (KStr s) | VInt z => Some (KInt z) | VUInt n => Some (KUInt n) | VBool b => Some (KBool b) | _ => None end.
Fixpoint eval (e : ast) (vs : list (text * value)) {struct e} : option value :=
  match e with
  | ALit v => Some v
  | AIdent n => tget n vs
  | ASelect x f test =>
      match eval x vs with
      | Some v => if test then Some (VBool (match member f v with Some _ => true | None => false end)) else member f v
      | None => None
      end
  | ACall None f [a] => match eval a vs with Some v => call1 f vs v | None => None end
  | ACall None f [a; b] => call2 f (eval a vs) (eval b vs)
  | ACall None f [a; b; c] => match eval a vs with Some (VBool true) => eval b vs | Some (VBool false) => eval c vs | _ => None end
  | ACall (Some a) f [] =>
      match eval a vs with
      | Some (VList l) => if text_eqb f (tx "size") then Some (VInt (Z.of_nat (List.length l))) else None
      | _ => None
      end
  | ACall (Some a) f [b] =>
      match eval a vs, eval b vs with
      | Some (VString s), Some (VString t) => if text_eqb f (tx "startsWith") then Some (VBool (starts_with t s)) else None
      | _, _ => None
      end
  | AList l => option_map VList (map_all (fun x => eval x vs) l)
  | AMap l => option_map VMap (map_all (fun kv => match eval (fst kv) vs, eval (snd kv) vs with Some k, Some v => option_map (fun k => (k, v)) (as_key k) | _, _ => None end) l)
  | AStruct ty l => option_map (VStruct ty) (map_all (fun kv => option_map (pair (fst kv)) (eval (snd kv) vs)) l)
  | AComp range init _ step result v acc =>
      match eval range vs, eval init vs with
      | Some (VList l), Some a =>
          match fold_left (fun a x => match a with Some a => eval step ((v, x) :: (acc, a) :: vs) | None => None end) l (Some a) with
          | Some a => eval result ((acc, a) :: vs)
          | None => None
          end
      | _, _ => None
      end
  | _ => None
  end.

(** * Tests *)
(** the effects a test expects of a callback; [None] where it does not say *)
Record want := mkWant {
  wt_metrics : list metric;
  wt_calls : list (text * text * text * option text * N);
  wt_replies : list (N * option text * option headers);
  wt_maps : list (option maptype * option headers);
  wt_props : list (path * text);
  wt_ret : option bool }.
(** a callback, and the host's answers in it: attributes, header maps, buffers, and the results of calls in turn *)
Record step := mkStep {
  s_in : fin;
  s_props : list (path * option text);
  s_maps : list (maptype * headers);
  s_bufs : list (buffer * text);
  s_calls : list (option N);
  s_want : want }.

Definition is_input (e : ev) : bool :=
  match e with EvReqHeaders | EvReqBody _ _ | EvRespHeaders | EvRespBody _ _ | EvGrpcResp _ _ _ => true | _ => false end.
Definition inputs (l : log) : nat := List.length (filter is_input l).
(** the events since the last input, newest first *)
Fixpoint this_call (l : log) : log := match l with e :: l' => if is_input e then [] else e :: this_call l' | [] => [] end.
Definition current (st : list step) (l : log) : option step := nth_error st (inputs l - 1).
Definition maptype_eqb (a b : maptype) : bool := match a, b with MReq, MReq | MResp, MResp => true | _, _ => false end.
Definition buffer_eqb (a b : buffer) : bool := match a, b with BReqBody, BReqBody | BRespBody, BRespBody | BGrpc, BGrpc => true | _, _ => false end.
Definition of_opt {A} (o : option A) : hc A := match o with Some a => HcOk a | None => HcErr OtherStatus end.
Definition test_host (st : list step) : host := {|
  k_property := fun l p => of_opt (match current st l with Some s => aget path_eqb p (s_props s) | None => None end);
  k_map := fun l m => of_opt (match current st l with Some s => aget maptype_eqb m (s_maps s) | None => None end);
  k_value := fun _ _ _ => HcOk None;
  k_setproperty := fun _ _ _ => HcOk tt;
  k_setmap := fun _ _ _ => HcOk tt;
  k_buffer := fun l b _ _ => match current st l with Some s => HcOk (aget buffer_eqb b (s_bufs s)) | None => HcErr OtherStatus end;
  k_call := fun l _ =>
    let n := List.length (filter (fun e => match e with EvDispatch _ _ _ => true | _ => false end) (this_call l)) in
    of_opt (match current st l with Some s => match nth_error (s_calls s) n with Some r => r | None => None end | None => None end);
  k_send := fun _ _ _ _ => HcOk tt |}.

Definition test_protos (p : schema) (nums : list (text * list (text * N))) (svs : list (text * list (text * (text * text)))) : protos :=
  let W := mkWenv (fun m f => match tget m nums with Some l => match tget f l with Some n => n | None => 0%N end | None => 0%N end) 101 true in
  {| d_pool := fun _ _ _ => Some (mkPool p svs);
     d_conv := mkCenv Some (fun b => b) (fun s n => Some (s * 1000000000 + Z.of_N n)%Z);
     d_write := write_message W; d_read := read_message W |}.

Definition test_base : env := {|
  h_prop := fun _ _ => HErr; h_map := fun _ _ => HErr; h_reqheader := fun _ _ => None; h_setprop := fun _ _ _ => HErr;
  h_setmap := fun _ _ _ => HErr; h_reqbody := fun _ _ _ => HErr; h_respbody := fun _ _ _ => HErr; h_dispatch := fun _ _ => None;
  h_grpcresp := fun _ _ => None; h_reply := fun _ _ _ _ => false;
  o_parse := read_cel; o_cel := fun _ e vs => eval e vs;
  o_json := read_json; o_pointer := pointer; o_jshow := show_json; o_f64 := fun _ => None;
  o_jnew := fun _ => true; o_jfeed := jfeed; o_jraw := jraw; o_jfinish := fun _ s => match read_json s with Some _ => true | None => false end;
  o_encode := fun _ _ _ => None; o_decode := fun _ _ _ => None;
  o_uuid := fun _ => tx "uuid"; o_trace := fun _ => []; o_span_on := fun _ => false; o_spans := fun _ => None;
  o_alpha := fun n => ((65 <=? n) && (n <=? 90) || (97 <=? n) && (n <=? 122))%N |}.

(** ** Comparison *)
Fixpoint all2 {A B} (f : A -> B -> bool) (l : list A) (m : list B) : bool :=
  match l, m with [], [] => true | a :: l, b :: m => f a b && all2 f l m | _, _ => false end.
Definition told {A} (f : A -> A -> bool) (w : option A) (x : A) : bool := match w with Some y => f y x | None => true end.
Definition headers_eqb : headers -> headers -> bool := all2 (fun a b => text_eqb (fst a) (fst b) && text_eqb (snd a) (snd b)).
Definition metric_eqb (a b : metric) : bool :=
  match a, b with
  | MConfigs, MConfigs | MHits, MHits | MMisses, MMisses | MAllowed, MAllowed | MDenied, MDenied | MErrors, MErrors => true
  | _, _ => false
  end.
Definition meets (w : want) (l : log) : bool :=
  let l := rev l in
  all2 metric_eqb (wt_metrics w) (flat_map (fun e => match e with EvMetric m => [m] | _ => [] end) l)
  && all2 (fun x c => let '(u, s, m, b, t) := x in text_eqb u (cl_upstream c) && text_eqb s (cl_service c) && text_eqb m (cl_method c)
                      && told text_eqb b (cl_msg c) && N.eqb t (cl_timeout c))
       (wt_calls w) (flat_map (fun e => match e with EvDispatch _ c _ => [c] | _ => [] end) l)
  && all2 (fun x y => let '(n, b, h) := x in let '(n', b', h') := y in
                      N.eqb n n' && told text_eqb b (match b' with Some t => t | None => [] end) && told headers_eqb h h')
       (wt_replies w) (flat_map (fun e => match e with EvReply n h b _ => [(n, b, h)] | _ => [] end) l)
  && all2 (fun x y => told maptype_eqb (fst x) (fst y) && told headers_eqb (snd x) (snd y))
       (wt_maps w) (flat_map (fun e => match e with EvSetMap m h _ => [(m, h)] | _ => [] end) l)
  && all2 (fun x y => path_eqb (fst x) (fst y) && text_eqb (snd x) (snd y))
       (wt_props w) (flat_map (fun e => match e with EvSetProp p v _ => [(p, v)] | _ => [] end) l)
  && match wt_ret w, flat_map (fun e => match e with EvRet b => [b] | _ => [] end) l with
     | None, [] => true | Some b, [b'] => Bool.eqb b b' | _, _ => false
     end.
(** the events of each callback, oldest callback first *)
Fixpoint calls_of (l : log) (cur : log) : list log :=
  match l with
  | [] => []
  | e :: l' => if is_input e then calls_of l' [] ++ [rev cur] else calls_of l' (e :: cur)
  end.
Definition replay_log (p : schema) nums svs (cfg : text) (st : list step) : option log :=
  let E := deployed (test_host st) (test_protos p nums svs) test_base in
  match read_config read_json duration (Some cfg) with
  | Some c => match try_from E c with Some fa => Some (f_log (frun E fa (map s_in st))) | None => None end
  | None => None
  end.
Definition replay_with (p : schema) nums svs (cfg : text) (st : list step) : bool :=
  match replay_log p nums svs cfg st with
  | Some l => all2 (fun s l => meets (s_want s) l) st (calls_of l [])
  | None => false
  end.
