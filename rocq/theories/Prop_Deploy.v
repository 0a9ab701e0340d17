(** C96, C98, C99 on the deployed environment: the proxy-wasm host and the service descriptors. *)
From Coq Require Import String Ascii List NArith ZArith Bool Lia Arith.
From Verif Require Conv Prop_Conv Prop_Conv2 Prop_Conv3.
From Verif Require Import Base Value Headers AttrPath Ctx CelProps CelEval Sse Body ValueBytes Tasks Exec Config Legacy Blueprint Factory Filter Deploy
  P_Frame P_Apply P_Exec P_Run P_Inv P_Ids P_Plan P_Deps P_Order P_Term P_Bar P_Cfg P_Hist P_Grow P_Wake P_Fail P_Head P_Told P_Eff P_Rid P_Scope Demo DemoCfg
  Prop_Headers Prop_Order Prop_Term Prop_Guard Prop_Wake Prop_Fail Prop_Know Prop_Eff Prop_Scope Prop_Reply Prop_Writes Prop_Call.
Import ListNotations.
Open Scope list_scope.

(** * Specifications *)
(** at the moment [past] the descriptors known for the upstream and service have a method that
    takes messages of type [n] and answers with messages of type [o], types of the schema [p] *)
Definition method_types (D : protos) (past : log) (upstream service method : text) (p : Conv.schema) (n o : text) : Prop :=
  exists pool ms, d_pool D past upstream service = Some pool /\ dp_schema pool = p /\
    tget service (dp_services pool) = Some ms /\ tget method ms = Some (n, o).

Lemma method_spec D l s p n o : method_descriptor D l s = Some (p, (n, o)) <-> method_types D l (sv_upstream s) (sv_service s) (sv_method s) p n o.
Proof.
  unfold method_descriptor, method_types. split.
  - destruct (d_pool D l (sv_upstream s) (sv_service s)) as [pool|]; [|discriminate]. destruct (tget (sv_service s) (dp_services pool)) as [ms|] eqn:H1; [|discriminate].
    destruct (tget (sv_method s) ms) as [[i o']|] eqn:H2; [|discriminate]. intros [= <- <- <-]. exists pool, ms. auto.
  - intros (pool & ms & -> & <- & -> & ->). reflexivity.
Qed.

(** * C96 on the deployed host *)
(** There an export the host does not accept always fails, so completed actions did their job. *)
Theorem C96_completed_actions_did_their_job_deployed : forall K D E0 cfg fa s l a c tm g sq op past,
  let E := deployed K D E0 in
  try_from E cfg = Some fa -> serves E cfg fa s -> later l ->
  has_action E cfg s a (mkT c tm g sq op) -> ~ is_call op ->
  occurs (f_log (run E fa l)) (EvDone a) past ->
  (exists past', past = EvEval a :: past' /\ evaluates E cfg s a c (VBool false) past) \/ accomplished E cfg s a tm op past.
Proof.
  intros K D E0 cfg fa s l a c tm g sq op past E. apply C96_completed_actions_did_their_job_partial.
  intros h p v. cbn. unfold set_attribute. destruct (k_setproperty K h p v); discriminate.
Qed.
Print Assumptions C96_completed_actions_did_their_job_deployed.

(** * C98 *)
Lemma calls_carry : forall K D E0 cfg fa s l a cl r past,
  let E := deployed K D E0 in
  cel_constants E -> try_from E cfg = Some fa -> serves E cfg fa s -> later l ->
  occurs (f_log (run E fa l)) (EvDispatch a cl r) past ->
  exists c tm g sq var name msg rs n' fs p n o m,
    has_action E cfg s a (mkT c tm g sq (OpGrpc var name msg rs)) /\ evaluates E cfg s a msg (VStruct n' fs) past /\
    method_types D past (cl_upstream cl) (cl_service cl) (cl_method cl) p n o /\ cl_msg cl = d_write D p n m /\
    Conv.cel_to_message (d_conv D) p n (VStruct n' fs) = Some m.
Proof.
  intros K D E0 cfg fa s l a cl r past E HC Hf Hs Hl Ho.
  assert (Hx : forall d v, o_encode E past (callee cl d) v = Some (cl_msg cl) -> exists n' fs p n o m, v = VStruct n' fs /\
    method_types D past (cl_upstream cl) (cl_service cl) (cl_method cl) p n o /\ Conv.cel_to_message (d_conv D) p n v = Some m /\ cl_msg cl = d_write D p n m).
  { intros d v He. change (encode_value D past (callee cl d) v = Some (cl_msg cl)) in He. unfold encode_value in He.
    destruct (method_descriptor D past (callee cl d)) as [[p [n o]]|] eqn:Hm; [|discriminate]. apply method_spec in Hm. cbn in Hm.
    destruct (Conv.cel_to_message (d_conv D) p n v) as [m|] eqn:Hc; [|discriminate]. injection He as He.
    assert (exists n' fs, v = VStruct n' fs) as (n' & fs & Hv). { destruct v; try discriminate Hc. eauto. }
    exists n', fs, p, n, o, m. auto. }
  destruct (C97_calls_say_what_was_configured E cfg fa s l a cl r past HC Hf Hs Hl Ho) as (_ & _ & [H|(_ & d & He)]).
  2:{ exfalso. destruct (Hx _ _ He) as (n' & fs & p & n & o & m & Hv & _). discriminate. }
  destruct H as (c & tm & g & sq & var & name & msg & rs & sc & v & Ha & _ & Hv & _ & _ & He).
  destruct (Hx _ _ He) as (n' & fs & p & n & o & m & -> & Hm & Hc & Hw). exists c, tm, g, sq, var, name, msg, rs, n', fs, p, n, o, m. auto.
Qed.
(** Every call carries the wire encoding of a message of the input type of the method called.  The
    value of the action's message is a struct; if it fits the input type, reading the message that
    is encoded gives the same value back. *)
Theorem C98_services_get_the_value : forall K D E0 cfg fa s l a cl r past,
  let E := deployed K D E0 in
  cel_constants E -> try_from E cfg = Some fa -> serves E cfg fa s -> later l ->
  occurs (f_log (run E fa l)) (EvDispatch a cl r) past ->
  exists c tm g sq var name msg rs n' fs p n o m,
    has_action E cfg s a (mkT c tm g sq (OpGrpc var name msg rs)) /\ evaluates E cfg s a msg (VStruct n' fs) past /\
    method_types D past (cl_upstream cl) (cl_service cl) (cl_method cl) p n o /\ cl_msg cl = d_write D p n m /\
    forall d, n' = n -> Prop_Conv.good p -> Conv.lookup p n = Some d -> Prop_Conv.complete d fs ->
      (forall g v, In g (Conv.md_fields d) -> tget (Conv.fd_name g) fs = Some v -> Prop_Conv.fits (d_conv D) p true g v) ->
      exists v', Conv.message_to_cel (d_conv D) p n m = Some v' /\ Prop_Conv.same (VStruct n' fs) v'.
Proof.
  intros K D E0 cfg fa s l a cl r past E HC Hf Hs Hl Ho.
  destruct (calls_carry K D E0 cfg fa s l a cl r past HC Hf Hs Hl Ho) as (c & tm & g & sq & var & name & msg & rs & n' & fs & p & n & o & m & Ha & Hv & Hm & Hw & Hc). exists c, tm, g, sq, var, name, msg, rs, n', fs, p, n, o, m.
  split; [exact Ha|]. split; [exact Hv|]. split; [exact Hm|]. split; [exact Hw|]. intros d -> G Hl' Hcm Hfit.
  destruct (Prop_Conv.C65_messages_survive (d_conv D) p n d fs G Hl' Hcm Hfit) as (m' & v' & H1 & H2 & H3). rewrite Hc in H1. injection H1 as <-. eauto.
Qed.
Print Assumptions C98_services_get_the_value.

(** * C99 *)
(** the answer [b] of the service is the message [m] of the type [o] *)
Definition conforming (D : protos) (p : Conv.schema) (o : text) (b : text) (m : list (text * Conv.pval)) : Prop :=
  Prop_Conv.good p /\ Prop_Conv3.standard p /\ d_read D p o b = Some m /\
  (exists d, Conv.lookup p o = Some d /\ Prop_Conv3.conforms Prop_Conv2.conf_key p d m) /\ forall k w, In (k, w) m -> Prop_Conv3.times (d_conv D) w.
(** the host hands out the answer of [sz] bytes, of the service configured as [sc], and it is [m] *)
Definition answered (K : host) (D : protos) (sc : svc_cfg) (sz : N) (now : log) (p : Conv.schema) (o : text) (m : list (text * Conv.pval)) : Prop :=
  exists service method n b, method_of sc service method /\ method_types D now (sc_endpoint sc) service method p n o /\
    k_buffer K now BGrpc 0 sz = HcOk (Some b) /\ N.of_nat (length b) = sz /\ conforming D p o b m.

Lemma inst_callee sc service method : method_of sc service method -> exists k, inst_of sc = Some (IDyn k (mkSvc (sc_endpoint sc) service method (sc_timeout sc) (sc_deny sc))).
Proof.
  unfold method_of, inst_of. destruct (sc_type sc); try easy; intros [-> ->]; eexists; reflexivity.
Qed.

Lemma answers_used : forall K D E0 cfg fa s l a pr tm g sq var name msg rs sc k sz p o m service method n b v,
  let E := deployed K D E0 in
  fresh_tokens E -> try_from E cfg = Some fa -> serves E cfg fa s -> later l ->
  has_action E cfg s a (mkT pr tm g sq (OpGrpc var name msg rs)) -> tget name (pc_services cfg) = Some sc ->
  ~ terminated (f_log (run E fa l)) -> call_open (f_log (run E fa l)) k a ->
  let now := EvEval a :: EvHandle k a :: EvGrpcResp k 0 sz :: f_log (run E fa l) in
  method_of sc service method -> method_types D now (sc_endpoint sc) service method p n o -> k_buffer K now BGrpc 0 sz = HcOk (Some b) ->
  d_read D p o b = Some m -> Conv.message_to_cel (d_conv D) p o m = Some v -> sz <> 0%N ->
  exists after sv, f_log (run E fa (l ++ [InGrpc k 0 sz])) = after ++ now /\ in_order (reply_ids a rs) after /\
    (exists kd, inst_of sc = Some (IDyn kd sv)) /\ got_reply E sv a v (f_log (run E fa (l ++ [InGrpc k 0 sz]))).
Proof.
  intros K D E0 cfg fa s l a pr tm g sq var name msg rs sc k sz p o m service method n b v E F Hf Hs Hl Ha Hsc Ht Ho now Hm Hmt Hb Hr Hv Hz.
  destruct (inst_callee _ _ _ Hm) as (kd & Hi).
  set (sv := mkSvc (sc_endpoint sc) service method (sc_timeout sc) (sc_deny sc)) in *.
  assert (Hg : h_grpcresp E now sz = Some b). { cbn. unfold get_grpc_response. apply N.eqb_neq in Hz. rewrite Hz. fold now. now rewrite Hb. }
  assert (Hdec : o_decode E now sv b = Some v). { change (decode_value D now sv b = Some v). unfold decode_value. rewrite (proj2 (method_spec D now sv p n o) Hmt), Hr. exact Hv. }
  destruct (C15_reply_actions_run_first_and_in_order E cfg fa s l a pr tm g sq var name msg rs sc k sz F Hf Hs Hl Ha Hsc Ht Ho) as (after & H1 & H2); [exists kd, sv, b, v; auto|].
  exists after, sv. split; [exact H1|]. split; [exact H2|]. split; [eauto|]. fold now in H1. rewrite H1.
  exists after, now, (f_log (run E fa l)), k, sz, b. split; [reflexivity|]. split; [reflexivity|]. split; [|now split].
  intros e He. destruct e; auto. apply Ht. now exists id.
Qed.
(** C99, proved for answers of at least one byte: a successful answer that is a message of the
    method's output type is what reply actions see, and they run next, in order. *)
Theorem C99_answers_are_used_partial : forall K D E0 cfg fa s l a pr tm g sq var name msg rs sc k sz p o m,
  let E := deployed K D E0 in
  fresh_tokens E -> try_from E cfg = Some fa -> serves E cfg fa s -> later l ->
  has_action E cfg s a (mkT pr tm g sq (OpGrpc var name msg rs)) -> tget name (pc_services cfg) = Some sc ->
  ~ terminated (f_log (run E fa l)) -> call_open (f_log (run E fa l)) k a ->
  let now := EvEval a :: EvHandle k a :: EvGrpcResp k 0 sz :: f_log (run E fa l) in
  answered K D sc sz now p o m -> sz <> 0%N ->
  exists after sv v, f_log (run E fa (l ++ [InGrpc k 0 sz])) = after ++ now /\ in_order (reply_ids a rs) after /\
    Conv.message_to_cel (d_conv D) p o m = Some v /\
    (exists kd, inst_of sc = Some (IDyn kd sv)) /\ got_reply E sv a v (f_log (run E fa (l ++ [InGrpc k 0 sz]))).
Proof.
  intros K D E0 cfg fa s l a pr tm g sq var name msg rs sc k sz p o m E F Hf Hs Hl Ha Hsc Ht Ho now (service & method & n & b & Hm & Hmt & Hb & _ & G & S & Hr & (d & Hd & Hc) & Htm) Hz.
  destruct (Prop_Conv3.C85_replies_can_be_read_partial (d_conv D) p o d m G S Hd Hc Htm) as (v & Hv).
  destruct (answers_used K D E0 cfg fa s l a pr tm g sq var name msg rs sc k sz p o m service method n b v F Hf Hs Hl Ha Hsc Ht Ho Hm Hmt Hb Hr Hv Hz) as (after & sv & H1 & H2 & H3 & H4).
  exists after, sv, v. auto.
Qed.
Print Assumptions C99_answers_are_used_partial.

(** * A deployment for the examples *)
(** the host knows [request.host], takes every call and hands out the bytes [b] as any answer *)
Definition Kd (b : text) : host := mkHost
  (fun _ p => if path_eqb p [tx "request"; tx "host"] then HcOk (Some (tx "h")) else HcOk None)
  (fun _ _ => HcOk [(tx "a", tx "b")]) (fun _ _ _ => HcOk None) (fun _ _ _ => HcOk tt) (fun _ _ _ => HcOk tt)
  (fun _ _ _ _ => HcOk (Some b)) (fun l _ => HcOk (next_token l)) (fun _ _ _ _ => HcOk tt).
(** the method M takes and gives messages of type [M]; the empty text is the empty message, any
    other the message [reply_m] *)
Definition Dd : protos := mkProtos
  (fun _ _ _ => Some (mkPool Prop_Conv3.wkt [(tx "S", [(tx "M", (tx "M", tx "M"))])])) Prop_Conv3.Ct
  (fun _ _ _ => tx "wire")
  (fun _ _ b => match b with [] => Some [] | _ => Some Prop_Conv3.reply_m end).
Definition req_m : list (text * value) := [(tx "n", VInt 7); (tx "list", VList [])].
Definition Edep (b : text) : env := deployed (Kd b) Dd (e_parse Ed (fun s => if text_eqb s (tx "msg") then Some (ALit (VStruct (tx "M") req_m)) else parse_demo s)).
Lemma dep_fresh b : fresh_tokens (Edep b).
Proof. intros l c k [= <-] H. apply next_token_above in H. lia. Qed.
Lemma dep_constants b : cel_constants (Edep b).
Proof. split; [reflexivity|eexists; reflexivity]. Qed.
Definition ex99 : list action_cfg := [dcall "hard" false [dhdr "true" false]].
Example C98_ex : cel_constants (Edep (tx "u")) /\ try_from (Edep (tx "u")) (dcfg ex99) = Some (dfac (Edep (tx "u")) ex99) /\
  serves (Edep (tx "u")) (dcfg ex99) (dfac (Edep (tx "u")) ex99) (set_of ex99) /\ later [] /\
  (exists cl past, occurs (dlog (Edep (tx "u")) ex99 []) (EvDispatch (tx "0") cl (Some 0%N)) past /\ cl_msg cl = tx "wire") /\
  Prop_Conv.good Prop_Conv3.wkt /\ exists d, Conv.lookup Prop_Conv3.wkt (tx "M") = Some d /\ Prop_Conv.complete d req_m /\
  (forall g v, In g (Conv.md_fields d) -> tget (Conv.fd_name g) req_m = Some v -> Prop_Conv.fits (d_conv Dd) Prop_Conv3.wkt true g v).
Proof.
  split; [apply dep_constants|]. split; [vm_compute; reflexivity|]. split; [serve|]. split; [now intros []|].
  split; [do 2 eexists; split; [exists [EvRet true]; vm_compute; reflexivity|reflexivity]|]. split; [exact Prop_Conv3.wkt_good|].
  eexists. split; [reflexivity|]. split; [split; [Prop_Conv.declared|split; [Prop_Conv.present|Prop_Conv.alone]]|].
  intros g v Hg Hv. cbn in Hg. repeat destruct Hg as [<-|Hg]; try easy; vm_compute in Hv; try discriminate Hv; injection Hv as <-.
  - Prop_Conv.scalar.
  - apply Prop_Conv.fits_list; [reflexivity|intros e (n & _ & H & _); discriminate H|easy].
Qed.
Lemma dep_conforming b m : (b = [] -> m = []) -> (b <> [] -> m = Prop_Conv3.reply_m) -> conforming Dd Prop_Conv3.wkt (tx "M") b m.
Proof.
  intros H1 H2. destruct Prop_Conv3.C85_ex as (G & S & (d & Hd & Hc) & Ht & _). split; [exact G|]. split; [exact S|]. destruct b as [|x b].
  - rewrite H1 by reflexivity. split; [reflexivity|]. split; [|easy]. exists d. split; [exact Hd|]. split; [easy|]. split; [easy|]. now left.
  - rewrite H2 by discriminate. split; [reflexivity|]. split; [|exact Ht]. now exists d.
Qed.
Lemma dep_answered b sz l m : sz = N.of_nat (length b) -> conforming Dd Prop_Conv3.wkt (tx "M") b m -> answered (Kd b) Dd (dsvc true) sz l Prop_Conv3.wkt (tx "M") m.
Proof. intros -> H. exists (tx "S"), (tx "M"), (tx "M"), b. split; [split; reflexivity|]. split; [|split; [reflexivity|split; [reflexivity|exact H]]]. do 2 eexists. split; [reflexivity|]. split; [reflexivity|]. split; reflexivity. Qed.
Definition call99 : taction := mkT (tx "true") false true false (OpGrpc (tx "r") (tx "hard") (tx "msg") [dhdr "true" false]).
Example C99_ex :
  fresh_tokens (Edep (tx "u")) /\ try_from (Edep (tx "u")) (dcfg ex99) = Some (dfac (Edep (tx "u")) ex99) /\ serves (Edep (tx "u")) (dcfg ex99) (dfac (Edep (tx "u")) ex99) (set_of ex99) /\ later [] /\
  has_action (Edep (tx "u")) (dcfg ex99) (set_of ex99) (tx "0") call99 /\ tget (tx "hard") (pc_services (dcfg ex99)) = Some (dsvc true) /\
  ~ terminated (dlog (Edep (tx "u")) ex99 []) /\ call_open (dlog (Edep (tx "u")) ex99 []) 0 (tx "0") /\
  answered (Kd (tx "u")) Dd (dsvc true) 1 (EvEval (tx "0") :: EvHandle 0 (tx "0") :: EvGrpcResp 0 0 1 :: dlog (Edep (tx "u")) ex99 []) Prop_Conv3.wkt (tx "M") Prop_Conv3.reply_m /\
  evaluated (dlog (Edep (tx "u")) ex99 [InGrpc 0 0 1]) = [tx "0"; tx "0"; tx "0.0"].
Proof.
  split; [apply dep_fresh|]. split; [vm_compute; reflexivity|]. split; [serve|]. split; [now intros []|]. split; [acts 0|].
  split; [vm_compute; reflexivity|]. split; [apply no_end_spec; vm_compute; reflexivity|]. split; [apply call_open_spec; vm_compute; tauto|].
  split; [apply dep_answered; [reflexivity|apply dep_conforming; [discriminate|reflexivity]]|vm_compute; reflexivity].
Qed.
(** C99 fails for the empty answer, which is how a message with all fields at their defaults is
    sent: the call counts as failed, and the request is rejected. *)
Theorem C99_empty_answer_rejects_request_refuted : exists K D E0 cfg s l a pr tm g sq var name msg r rs sc k p o fa E, E = deployed K D E0 /\
  fresh_tokens E /\ try_from E cfg = Some fa /\ serves E cfg fa s /\ later l /\
  has_action E cfg s a (mkT pr tm g sq (OpGrpc var name msg (r :: rs))) /\ tget name (pc_services cfg) = Some sc /\
  ~ terminated (f_log (run E fa l)) /\ call_open (f_log (run E fa l)) k a /\
  answered K D sc 0 (EvEval a :: EvHandle k a :: EvGrpcResp k 0 0 :: f_log (run E fa l)) p o [] /\
  (exists v, Conv.message_to_cel (d_conv D) p o [] = Some v) /\
  (exists after evs, f_log (run E fa (l ++ [InGrpc k 0 0])) = after ++ evs ++ EvEval a :: EvHandle k a :: EvGrpcResp k 0 0 :: f_log (run E fa l) /\ rejected a evs).
Proof.
  exists (Kd []), Dd, (e_parse Ed (fun s => if text_eqb s (tx "msg") then Some (ALit (VStruct (tx "M") req_m)) else parse_demo s)), (dcfg ex99), (set_of ex99), [], (tx "0").
  exists (tx "true"), false, true, false, (tx "r"), (tx "hard"), (tx "msg"), (dhdr "true" false), [], (dsvc true), 0%N, Prop_Conv3.wkt, (tx "M"), (dfac (Edep []) ex99), (Edep []).
  split; [reflexivity|]. split; [exact (dep_fresh [])|]. split; [vm_compute; reflexivity|]. split; [serve|]. split; [now intros []|]. split; [acts 0|].
  split; [vm_compute; reflexivity|]. split; [apply no_end_spec; vm_compute; reflexivity|]. split; [apply call_open_spec; vm_compute; tauto|].
  split; [apply dep_answered; [reflexivity|apply dep_conforming; [reflexivity|now intros []]]|]. split; [eexists; reflexivity|].
  exists [], (firstn 4 (dlog (Edep []) ex99 [InGrpc 0 0 0])). split; [vm_compute; reflexivity|]. exists [], true. vm_compute. reflexivity.
Qed.
Print Assumptions C99_empty_answer_rejects_request_refuted.

(** * C114 *)
(** Headers are changed only after the host has delivered some: there is a moment before each write at
    which it had headers, and the first write changes those. *)
Theorem C114_headers_are_changed_only_when_there : forall K D E0 cfg fa s l m h ok past,
  let E := deployed K D E0 in
  try_from E cfg = Some fa -> serves E cfg fa s -> later l ->
  occurs (f_log (run E fa l)) (EvSetMap m h ok) past ->
  exists after before h0, past = after ++ before /\ k_map K before m = HcOk h0 /\ h0 <> [] /\
    ((forall e, In e past -> ~ wrote m e) -> exists pairs, pairs <> [] /\ changed pairs h0 h).
Proof.
  intros K D E0 cfg fa s l m h ok past E Hf Hs Hl. revert h ok. induction past as [past IH] using (well_founded_induction (Wf_nat.well_founded_ltof _ (@length ev))). intros h ok Ho.
  destruct (C95_header_changes_add_up E cfg fa s l m h ok past Hf Hs Hl Ho) as (a & past' & pairs & h0 & _ & Hp & [(after & before & He & Hn)|(Hn & after & before & He & Hm)] & Hc & _).
  - destruct (IH before) with (h := h0) (ok := true) as (af & be & h1 & I1 & I2 & I3 & _).
    + unfold Wf_nat.ltof. rewrite He, app_length. cbn. lia.
    + destruct Ho as (x & Hx). exists (x ++ EvSetMap m h ok :: after). rewrite Hx, He, <- app_assoc. reflexivity.
    + exists (after ++ EvSetMap m h0 true :: af), be, h1. split; [rewrite He, I1, <- app_assoc; reflexivity|]. split; [exact I2|]. split; [exact I3|].
      intros Hw. exfalso. apply (Hw (EvSetMap m h0 true)); [rewrite He; apply in_or_app; right; now left|now exists h0].
  - exists after, before, h0. split; [exact He|]. change (get_attribute_map K before m = HOk h0) in Hm. unfold get_attribute_map in Hm.
    destruct (k_map K before m) as [[|x h1]|]; try discriminate. injection Hm as <-. split; [reflexivity|]. split; [discriminate|]. intros _. now exists pairs.
Qed.
Print Assumptions C114_headers_are_changed_only_when_there.
(** So where the host has no response headers before it says that they are there, changes of the response
    wait for the response, also those of actions that are due when the request comes in. *)
Theorem C114_response_changes_wait_for_the_response : forall K D E0 cfg fa s l h ok past,
  let E := deployed K D E0 in
  (forall now h0, k_map K now MResp = HcOk h0 -> h0 <> [] -> In EvRespHeaders now) ->
  try_from E cfg = Some fa -> serves E cfg fa s -> later l ->
  occurs (f_log (run E fa l)) (EvSetMap MResp h ok) past -> In EvRespHeaders past.
Proof.
  intros K D E0 cfg fa s l h ok past E HK Hf Hs Hl Ho.
  destruct (C114_headers_are_changed_only_when_there K D E0 cfg fa s l MResp h ok past Hf Hs Hl Ho) as (after & before & h0 & -> & H1 & H2 & _).
  apply in_or_app. right. exact (HK _ _ H1 H2).
Qed.
Print Assumptions C114_response_changes_wait_for_the_response.
(** Reachable: an action of the request with the response as target waits, and its change is made when the
    response headers are there. *)
Definition Kr : host := mkHost (k_property (Kd []))
  (fun now m => match m with MReq => HcOk [(tx "a", tx "b")] | MResp => HcOk (if existsb (fun e => match e with EvRespHeaders => true | _ => false end) now then [(tx ":status", tx "200")] else []) end)
  (fun _ _ _ => HcOk None) (fun _ _ _ => HcOk tt) (fun _ _ _ => HcOk tt) (fun _ _ _ _ => HcOk None) (fun l _ => HcOk (next_token l)) (fun _ _ _ _ => HcOk tt).
Definition ex114 : list action_cfg := [CTyped (mkT (tx "true") false false false (OpHeaders MResp (tx "hdrs")))].
Definition Er : env := deployed Kr Dd Ed.
Example C114_ex : (forall now h0, k_map Kr now MResp = HcOk h0 -> h0 <> [] -> In EvRespHeaders now) /\ try_from Er (dcfg ex114) = Some (dfac Er ex114) /\
  serves Er (dcfg ex114) (dfac Er ex114) (set_of ex114) /\
  filter (fun e => match e with EvSetMap _ _ _ => true | _ => false end) (dlog Er ex114 []) = [] /\
  exists past, occurs (dlog Er ex114 [InRespHeaders]) (EvSetMap MResp [(tx ":status", tx "200"); (tx "x-a", tx "1")] true) past.
Proof.
  split.
  { cbn [Kr k_map]. intros now h0 H Hn. destruct (existsb _ now) eqn:He; [|now injection H as <-]. apply existsb_exists in He as (e & Hi & He). destruct e; try discriminate. exact Hi. }
  split; [vm_compute; reflexivity|]. split; [serve|]. split; [vm_compute; reflexivity|].
  eexists. exists [EvRet false; EvDone (tx "0")]. vm_compute. reflexivity.
Qed.
