(** C103 on the deployed environment: which of the host's buffers body fields come from.
    C120: what is made of the answers of the host. *)
From Coq Require Import String Ascii List NArith ZArith Bool Lia Arith.
From Verif Require Import Base Value Headers AttrPath Ctx CelProps CelEval Sse Body ValueBytes Tasks Exec Config Legacy Blueprint Factory Filter Deploy
  P_Frame P_Apply P_Exec P_Run P_Inv P_Ids P_Plan P_Order P_Cfg P_Head P_Fed P_Told P_Eff Demo DemoCfg
  Prop_Order Prop_Fail Prop_Know Prop_Eff Prop_Writes Prop_Body Prop_Fed Prop_Deploy.
Import ListNotations.
Open Scope list_scope.

(** * Specifications *)
(** the buffer of the host that holds a body *)
Definition buffer_of (src : Tasks.source) : buffer := match src with SrcReq => BReqBody | SrcResp => BRespBody end.
(** two hosts with the same body there and, for a response, the same headers of it *)
Definition same_body (K K' : host) (src : Tasks.source) : Prop :=
  (forall now start len, k_buffer K now (buffer_of src) start len = k_buffer K' now (buffer_of src) start len) /\
  (src = SrcResp -> forall now, k_map K now MResp = k_map K' now MResp).

(** * C103 *)
Lemma given_same K K' D D' E0 src on l bs : same_body K K' src -> given (deployed K D E0) src on l bs -> given (deployed K' D' E0) src on l bs.
Proof.
  intros [HK _]. induction 1 as [l|e l bs _ IH|l bs b start _ IH Hs Hlt Hr]; [constructor|now constructor|]. econstructor; [exact IH|exact Hs|exact Hlt|].
  rewrite <- Hr. destruct src; cbn; unfold get_body; (rewrite (HK l start) || rewrite <- (HK l start)); reflexivity.
Qed.
Lemma basis_same K K' D D' E0 l h : (forall now, k_map K now MResp = k_map K' now MResp) -> basis (deployed K D E0) MResp l h -> basis (deployed K' D' E0) MResp l h.
Proof.
  intros HK [H|(Hu & after & past & -> & H)]; [now left|]. right. split; [exact Hu|]. exists after, past. split; [reflexivity|].
  cbn in *. unfold get_attribute_map in *. now rewrite <- HK.
Qed.
Lemma is_same K K' D D' E0 l : (forall now, k_map K now MResp = k_map K' now MResp) -> is_stream (deployed K D E0) l -> is_stream (deployed K' D' E0) l.
Proof. intros HK (after & past & h & -> & Hb & Hs). exists after, past, h. split; [reflexivity|]. split; [|exact Hs]. now apply (basis_same K K' D D'). Qed.
Lemma no_same K K' D D' E0 l : (forall now, k_map K now MResp = k_map K' now MResp) -> no_stream (deployed K D E0) l -> no_stream (deployed K' D' E0) l.
Proof.
  intros HK (after & past & -> & H). exists after, past. split; [reflexivity|]. destruct H as [(h & Hb & Hs)|[H|H]]; [left; exists h; split; [now apply (basis_same K K' D D')|exact Hs]|right; left|right; now right].
  cbn in *. unfold get_attribute_map in *. now rewrite <- HK.
Qed.
Lemma says_same K K' D D' E0 src l f w : same_body K K' src -> body_says (deployed K D E0) src l f w -> body_says (deployed K' D' E0) src l f w.
Proof.
  intros HK (after & past & -> & H). exists after, past. split; [reflexivity|]. pose proof (proj2 HK) as HM.
  destruct H as [fields bs raw Hg Ho Hl Hu Hw Hn|bs evs sp u j y Hsrc Hg Hu He Hp Hn Hj Hy Hw Hi|bs j y Hsrc Hg He Hu Hj Hy Hw Hn|bs evs sp u j y Hsrc Hg He Hp Hn Hj Hy Hw Hi]; apply (given_same K K' D D') in Hg; auto.
  - eapply ba_json; eauto. intros Hs. now apply (no_same K K' D D' E0 past (HM Hs)), Hn.
  - eapply ba_event; eauto. now apply (is_same K K' D D' E0 past (HM Hsrc)).
  - eapply ba_usage; eauto. now apply (no_same K K' D D' E0 past (HM Hsrc)).
  - eapply ba_usage_event; eauto. now apply (is_same K K' D D' E0 past (HM Hsrc)).
Qed.
(** A field of the request body that is exported is one of what the host has in its buffer for
    the request body, and likewise for the response, whose headers say how to read it: nothing else
    the host has matters. *)
Theorem C103_exported_body_fields_deployed : forall K D E0 cfg fa s l a c tm g sq path x e src f hp bytes ok past,
  let E := deployed K D E0 in
  reads_body E -> try_from E cfg = Some fa -> serves E cfg fa s -> later l ->
  has_action E cfg s a (mkT c tm g sq (OpStore path x true)) -> parse_expr E x = Some e -> ex_ast e = ACall None (body_fn src) [ALit (VString f)] ->
  occurs (f_log (run E fa l)) (EvSetProp hp bytes ok) (EvEval a :: past) ->
  exists v, exports v bytes /\ forall K' D', same_body K K' src -> body_says (deployed K' D' E0) src (EvEval a :: past) f v.
Proof.
  intros K D E0 cfg fa s l a c tm g sq path x e src f hp bytes ok past E HC Hf Hs Hl Hy Hx He Ho.
  destruct (C103_exported_body_fields E cfg fa s l a c tm g sq path x e src f hp bytes ok past HC Hf Hs Hl Hy Hx He Ho) as (_ & v & Hv & Hex).
  exists v. split; [exact Hex|]. intros K' D' HK. exact (says_same K K' D D' E0 src _ f v HK Hv).
Qed.
Print Assumptions C103_exported_body_fields_deployed.
(** a host with different bodies in its buffers; the response body is asked for *)
Definition Kb : host := mkHost (k_property (Kd []))
  (fun _ m => HcOk [(tx "content-type", tx "application/json")]) (fun _ _ _ => HcOk None) (fun _ _ _ => HcOk tt) (fun _ _ _ => HcOk tt)
  (fun _ b start len => HcOk (Some (match b with BRespBody => slice doc start len | _ => slice (tx "other") start len end))) (fun l _ => HcOk (next_token l)) (fun _ _ _ _ => HcOk tt).
Definition Eh : env := deployed Kb Dd Ej.
Example C103_deployed_ex : exists e past, reads_body Eh /\ try_from Eh (dcfg ex103) = Some (dfac Eh ex103) /\ serves Eh (dcfg ex103) (dfac Eh ex103) (set_of ex103) /\
  has_action Eh (dcfg ex103) (set_of ex103) (tx "0") (mkT (tx "true") false false false (OpStore (tx "p") (tx "respbody") true)) /\
  parse_expr Eh (tx "respbody") = Some e /\ ex_ast e = ACall None (body_fn SrcResp) [ALit (VString (tx "/a"))] /\
  occurs (f_log (run Eh (dfac Eh ex103) jbody)) (EvSetProp [tx "kuadrant.p"] ok_bytes true) (EvEval (tx "0") :: past) /\ exports (VString (tx "ok")) ok_bytes.
Proof.
  eexists _, (skipn 4 (f_log (run Eh (dfac Eh ex103) jbody))). split; [now apply body_demo_reads|]. split; [vm_compute; reflexivity|]. split; [serve|]. split; [acts 0|].
  split; [vm_compute; reflexivity|]. split; [reflexivity|]. split; [|apply value_exports; vm_compute; reflexivity].
  exists (firstn 2 (f_log (run Eh (dfac Eh ex103) jbody))). vm_compute. reflexivity.
Qed.

(** * C120 *)
(** what was recorded of a call is what the host said *)
Definition honest (E : env) (e : ev) (l : log) : Prop :=
  match e with
  | EvReply st h b ok => h_reply E l st h b = ok
  | EvSetMap m h ok => hok (h_setmap E l m h) = ok
  | EvSetProp p v ok => hok (h_setprop E l p v) = ok
  | EvDispatch _ cl r | EvExport cl r => h_dispatch E l cl = r
  | _ => True
  end.
Definition hon E c := hist (honest E) (c_log c).
Lemma hon_ext E c c' : ext c c' -> hon E c -> hon E c'.
Proof. intros X H. unfold hon. now rewrite (ext_log _ _ X). Qed.
Lemma hon_xrid E c c' : xrid c c' -> hon E c -> hon E c'.
Proof. intros X H. unfold hon. now rewrite (xrid_log _ _ X). Qed.
Lemma hon_dispatch E mk u s m msg to c r c' : (forall cl r l, h_dispatch E l cl = r -> honest E (mk cl r) l) ->
  dispatch E mk u s m msg to c = (r, c') -> hon E c -> hon E c'.
Proof.
  intros Hm Hd Hc. apply dispatch_spec in Hd as (cl & c1 & X & -> & -> & _). apply (hon_xrid _ _ _ X) in Hc. split; [now apply Hm|exact Hc].
Qed.
Lemma hon_store_value E self id p x path ex tm c o c' : store_value E self id p x path ex tm c = (o, c') -> hon E c -> hon E c'.
Proof.
  unfold store_value. destruct (test_in E p _ c) as [[r vs] c1] eqn:H1. intros Ha Hc. apply (hon_ext _ _ _ (test_in_ext _ _ _ _ _ _ _ H1)) in Hc.
  destruct r as [|[]|]; try (injection Ha as _ <-; exact Hc). destruct (eval_in E x vs c1) as [[r2 vs2] c2] eqn:H2. apply (hon_ext _ _ _ (eval_in_ext _ _ _ _ _ _ _ H2)) in Hc.
  destruct r2 as [|v|]; try (injection Ha as _ <-; exact Hc). destruct ex; [|injection Ha as _ <-; exact Hc].
  destruct (value_bytes v) as [b|]; [|injection Ha as _ <-; exact Hc]. unfold Ctx.set_attribute in Ha.
  destruct (h_setprop E (c_log c2) _ b) as [[]| |] eqn:Hs; injection Ha as _ <-; (split; [exact (f_equal hok Hs)|exact Hc]).
Qed.
Lemma hon_feed E src p c p' c' : feed_parser E src p c = RAvail (p', c') -> hon E c -> hon E c'.
Proof.
  unfold feed_parser. intros H Hc. assert (Hs : c_log c' = c_log c) by (repeat match goal with Hx : context [match ?x with _ => _ end] |- _ => destruct x; try discriminate end; injection H as _ <-; now destruct src).
  unfold hon. now rewrite Hs.
Qed.
Lemma hon_store E id p x path ex tm bs c o c' : apply_store E id p x path ex tm bs c = (o, c') -> hon E c -> hon E c'.
Proof.
  unfold apply_store. intros Ha Hc.
  assert (R : forall src q c1, (match feed_parser E src q c1 with
    | RPending => (ORequeued [TStore id p x path ex tm (BSActive src q)], c1) | RErr => (OFailed, c1)
    | RAvail (p', c2) => store_value E (TStore id p x path ex tm (BSActive src p')) id p x path ex tm c2 end) = (o, c') -> hon E c1 -> hon E c').
  { intros src q c1 Hr H1. destruct (feed_parser E src q c1) as [|[p' c2]|] eqn:Hf; try (injection Hr as _ <-; exact H1). apply (hon_feed _ _ _ _ _ _ Hf) in H1. exact (hon_store_value _ _ _ _ _ _ _ _ _ _ _ Hr H1). }
  destruct bs as [|src fields|src q]; [exact (hon_store_value _ _ _ _ _ _ _ _ _ _ _ Ha Hc)| |exact (R _ _ _ Ha Hc)].
  destruct (create_parser E src fields c) as [r c1] eqn:Hp. assert (H1 : hon E c1).
  { unfold create_parser in Hp. destruct src; [now injection Hp as _ <-|]. destruct (read_headers E p_resp_headers c) as [r1 c2] eqn:Hr.
    apply (hon_ext _ _ _ (read_headers_ext _ _ _ _ _ Hr)) in Hc. destruct r1; injection Hp as _ <-; exact Hc. }
  destruct r as [|q|]; try (injection Ha as _ <-; exact H1). exact (R _ _ _ Ha H1).
Qed.
Lemma hon_apply E t : forall c o c', apply E t c = (o, c') -> hon E c -> hon E c'.
Proof.
  induction t; intros c o c' Ha Hc; cbn [apply] in Ha.
  - unfold apply_dynamic in Ha. destruct (test_in E _ _ c) as [[r vs] c1] eqn:H1. apply (hon_ext _ _ _ (test_in_ext _ _ _ _ _ _ _ H1)) in Hc.
    destruct r as [|[]|]; try (injection Ha as _ <-; exact Hc). destruct (eval_in E _ _ c1) as [[r2 vs2] c2] eqn:H2. apply (hon_ext _ _ _ (eval_in_ext _ _ _ _ _ _ _ H2)) in Hc.
    destruct r2 as [|v|]; try (injection Ha as _ <-; exact Hc). destruct (o_encode E _ _ v) as [b|]; [|injection Ha as _ <-; exact Hc].
    destruct (dispatch E _ _ _ _ _ _ c2) as [r3 c3] eqn:Hd. apply hon_dispatch in Hd; [|auto|exact Hc]. destruct r3; injection Ha as _ <-; [|exact Hd].
    match goal with |- hon E (if ?g then _ else _) => destruct g; exact Hd end.
  - assert (Hl : c_log c' = c_log c); [|unfold hon; now rewrite Hl].
    unfold apply_pending in Ha. destruct (process_response E id s var on_reply c) as [o1 c1] eqn:Hp.
    assert (H1 : c_log c1 = c_log c).
    { unfold process_response, take_grpc in Hp. destruct (c_grpc c) as [[st sz]|]; [|injection Hp as _ <-; reflexivity].
      destruct (negb (N.eqb st 0)); [injection Hp as _ <-; reflexivity|]. destruct on_reply; [injection Hp as _ <-; reflexivity|].
      destruct (h_grpcresp E _ sz) as [bs|]; [|injection Hp as _ <-; reflexivity]. destruct (o_decode E _ s bs); injection Hp as _ <-; reflexivity. }
    rewrite <- H1. match type of Ha with context [if ?g then _ else _] => destruct g end; injection Ha as _ <-; reflexivity.
  - assert (Hl : c_log c' = c_log c); [|unfold hon; now rewrite Hl].
    unfold apply_noop, take_grpc in Ha. injection Ha as _ <-. match goal with |- context [if ?g then _ else _] => destruct g end; cbn; now destruct (c_grpc c).
  - destruct (apply E t c) as [o1 c1] eqn:H1. apply IHt in H1; [|exact Hc]. destruct o1; injection Ha as _ <-; try exact H1. split; [exact I|exact H1].
  - destruct (apply E t c) as [o1 c1] eqn:H1. apply IHt in H1; [|exact Hc]. destruct o1; injection Ha as _ <-; exact H1.
  - unfold apply_fail in Ha. destruct (test_in E _ _ c) as [[r vs] c1] eqn:H1. apply (hon_ext _ _ _ (test_in_ext _ _ _ _ _ _ _ H1)) in Hc.
    destruct r as [|[]|]; try (injection Ha as _ <-; exact Hc). destruct terminal; injection Ha as _ <-; [split; [exact I|exact Hc]|exact Hc].
  - unfold apply_headers in Ha. destruct (test_in E _ _ c) as [[r vs] c1] eqn:H1. apply (hon_ext _ _ _ (test_in_ext _ _ _ _ _ _ _ H1)) in Hc.
    destruct r as [|[]|]; try (injection Ha as _ <-; exact Hc). destruct (eval_in E _ vs c1) as [[r2 vs2] c2] eqn:H2. apply (hon_ext _ _ _ (eval_in_ext _ _ _ _ _ _ _ H2)) in Hc.
    destruct r2 as [|v|]; try (injection Ha as _ <-; exact Hc). destruct (header_pairs v) as [|p0 ps]; [injection Ha as _ <-; exact Hc|].
    destruct (read_headers E _ c2) as [r3 c3] eqn:H3. apply (hon_ext _ _ _ (read_headers_ext _ _ _ _ _ H3)) in Hc. destruct r3 as [|h|]; try (injection Ha as _ <-; exact Hc).
    unfold set_headers in Ha.
    match type of Ha with context [h_setmap E ?l ?m ?hs] => destruct (h_setmap E l m hs) as [[]| |] eqn:Hs; [|destruct m|] end; injection Ha as _ <-; (split; [exact (f_equal hok Hs)|exact Hc]).
  - unfold apply_reply in Ha. destruct (test_in E _ _ c) as [[r vs] c1] eqn:H1. apply (hon_ext _ _ _ (test_in_ext _ _ _ _ _ _ _ H1)) in Hc.
    destruct r as [|[]|]; try (injection Ha as _ <-; exact Hc). destruct (eval_in E _ vs c1) as [[r2 vs2] c2] eqn:H2. apply (hon_ext _ _ _ (eval_in_ext _ _ _ _ _ _ _ H2)) in Hc.
    destruct r2 as [|v|]; try (injection Ha as _ <-; exact Hc). destruct v; try (injection Ha as _ <-; exact Hc).
    destruct (tracker E c2) as [tr c3] eqn:H4. apply (hon_xrid _ _ _ (tracker_xrid _ _ _ _ H4)) in Hc. unfold send_reply in Ha. injection Ha as _ <-.
    split; [reflexivity|]. split; [exact I|exact Hc].
  - exact (hon_store _ _ _ _ _ _ _ _ _ _ _ Ha Hc).
  - unfold apply_token in Ha. assert (Hl : c_log c' = c_log c); [|unfold hon; now rewrite Hl].
    match type of Ha with match ?s with _ => _ end = _ => destruct s as [st|] end.
    + repeat match goal with Hx : context [match ?x with _ => _ end] |- _ => destruct x end; try discriminate; injection Ha as _ <-; reflexivity.
    + destruct (read_headers E p_resp_headers c) as [r1 c2] eqn:Hr. apply read_headers_ext in Hr. rewrite <- (ext_log _ _ Hr).
      repeat match goal with Hx : context [match ?x with _ => _ end] |- _ => destruct x end; try discriminate; injection Ha as _ <-; reflexivity.
  - injection Ha as _ <-. exact Hc.
Qed.
Lemma hon_step E t c o c' : step E t c = (o, c') -> hon E c -> hon E c'.
Proof.
  unfold step. intros Hs Hc. destruct (apply E t (emit (EvEval (t_id t)) c)) as [o1 c1] eqn:Ha. apply hon_apply in Ha; [|split; [exact I|exact Hc]].
  destruct o1; injection Hs as _ <-; try exact Ha; (split; [exact I|exact Ha]).
Qed.
Lemma hon_terminal E t c : hon E c -> hon E (run_terminal E t c).
Proof. unfold run_terminal. intros Hc. destruct (apply E t c) as [o1 c1] eqn:Ha. now apply hon_apply in Ha. Qed.
Lemma hon_insert E k t p : hon E (p_ctx p) -> hon E (p_ctx (def_insert k t p)).
Proof. intros H. unfold hon. now rewrite (proj1 (def_insert_facts k t p)). Qed.
Lemma hon_finv E : finv E (fun _ p => hon E (p_ctx p)) (hist (honest E)).
Proof.
  constructor.
  - intros ts p ts' p' Hs Hc.
    destruct Hs as [p Hset|t ts p Hb|t ts p o c ts' p' Hb Hst Hn|tok st sz p Hset Hn|tok st sz t p o c Hset Hn Hst|p Hq Ht|a rest p Hq Hn Ht]; try exact Hc.
    + apply hon_step in Hst; [|exact Hc]. destruct o; cbn [run_next] in Hn; injection Hn as _ <-; try exact Hst.
      * now apply hon_insert.
      * cbn [p_ctx]. unfold hon. rewrite drop_log. now apply hon_terminal.
    + split; [exact I|exact Hc].
    + apply hon_step in Hst.
      2:{ split; [exact I|]. rewrite P_Ids.set_grpc_log. split; [exact I|exact Hc]. }
      unfold handle_next. destruct o; try exact Hst.
      * now apply hon_insert.
      * split; [exact I|exact Hst].
      * cbn [p_ctx]. unfold hon. rewrite drop_log. now apply hon_terminal.
    + unfold td_step. destruct (td_exec E a (emit EvTeardown (p_ctx (p_with_td p rest)))) as [r c] eqn:He.
      assert (H1 : hon E c).
      { unfold td_exec in He. assert (H0 : hon E (emit EvTeardown (p_ctx (p_with_td p rest)))) by (split; [exact I|exact Hc]).
        destruct (o_spans E _); [|injection He as _ <-; exact H0]. apply hon_dispatch in He; auto. }
      destruct r as [k|]; [now apply hon_insert|exact H1].
  - intros p e He Hc. split; [now destruct e|exact Hc].
  - auto.
  - auto.
  - auto.
  - intros l e He Hl. split; [|exact Hl]. destruct He as [He|(k & st & sz & ->)]; [now destruct e|exact I].
Qed.
Lemma run_honest E fa l : later l -> hist (honest E) (f_log (run E fa l)).
Proof.
  intros Hl. eapply holds_log with (I := fun _ p => hon E (p_ctx p)) (L := hist (honest E)); [auto|].
  apply holds_run; [apply finv_finvb, hon_finv| |exact Hl].
  unfold fstep. cbn [f_dead flt0]. unfold on_req_headers. cbn [f_emit f_log flt0 f_pipe f_resp f_force f_dead ev_of].
  pose proof (build_spec E fa (ctx0 [EvReqHeaders])) as Hs. destruct (build E fa (ctx0 [EvReqHeaders])) as [p|c|c|c].
  - apply (holds_emit E); [apply finv_finvb, hon_finv|exact Logic.I|]. destruct Hs as (b & c1 & tds & _ & _ & Hs & Hbl & _).
    destruct (eval_star E (p_emit (EvMetric MHits) p)) as [H1 H2]; [rewrite Hs; split; intros Hx; discriminate|].
    apply (holds_state E); [apply finv_finvb, hon_finv| |exact H2|apply eval_tidy].
    eapply (estar_inv E (fun _ p => hon E (p_ctx p)) (fi_step _ _ _ (hon_finv E))); [exact H1|]. destruct Hbl as (Hlog & _). split; [exact I|]. rewrite Hlog. now split.
  - destruct Hs as [Hs _]. cbn in Hs. unfold holds. cbn. rewrite Hs. now repeat split.
  - destruct Hs as [Hs _]. cbn in Hs. cbn [f_emit f_log]. rewrite Hs.
    destruct (h_reply E [EvMetric MErrors; EvReqHeaders] 500 [] (Some ise_body)) eqn:Hok; unfold holds; cbn [f_emit f_log f_pipe flt0 hist].
    + split; [exact I|]. split; [exact Hok|]. now repeat split.
    + split; [exact Hok|]. now repeat split.
  - destruct Hs as [Hs _]. cbn in Hs. unfold holds. cbn. rewrite Hs. now repeat split.
Qed.

(** what the host said when it was called at that moment; nothing for other events *)
Definition host_said (K : host) (e : ev) (now : log) : Prop :=
  match e with
  | EvReply st h b ok => ok = true <-> k_send K now st h b = HcOk tt
  | EvSetMap m h ok => ok = true <-> k_setmap K now m h = HcOk tt
  | EvSetProp p v ok => ok = true <-> k_setproperty K now p v = HcOk tt
  | EvDispatch _ cl r | EvExport cl r => forall k, r = Some k <-> k_call K now cl = HcOk k
  | _ => True
  end.
(** The outcomes that the filter goes by are those the host gave. *)
Theorem C120_outcomes_are_the_hosts : forall K D E0 fa l e past,
  let E := deployed K D E0 in
  later l -> occurs (f_log (run E fa l)) e past -> host_said K e past.
Proof.
  intros K D E0 fa l e past E Hl Ho. pose proof (run_honest E fa l Hl) as H. rewrite hist_spec in H. destruct Ho as [after Ho]. specialize (H _ _ _ Ho).
  assert (Hd : forall cl r, h_dispatch E past cl = r -> forall k, r = Some k <-> k_call K past cl = HcOk k).
  { cbn. unfold dispatch_grpc_call. intros cl r <- k. destruct (k_call K past cl); split; intros X; try discriminate; now injection X as ->. }
  destruct e; try exact Logic.I; cbn [honest host_said] in *; try (now apply Hd); cbn in H.
  - unfold send_http_reply in H. destruct (k_send K past status h body) as [[]|]; subst ok; now split.
  - unfold set_attribute_map, of_status in H. destruct (k_setmap K past m h) as [[]|[]]; subst ok; now split.
  - unfold Deploy.set_attribute in H. destruct (k_setproperty K past p v) as [[]|]; subst ok; now split.
Qed.
Print Assumptions C120_outcomes_are_the_hosts.
(** the host takes the header change and refuses the reply *)
Definition Kn : host := mkHost (k_property (Kd [])) (fun _ _ => HcOk [(tx "a", tx "b")]) (fun _ _ _ => HcOk None) (fun _ _ _ => HcOk tt) (fun _ _ _ => HcOk tt)
  (fun _ _ _ _ => HcOk None) (fun l _ => HcOk (next_token l)) (fun _ _ _ _ => HcErr OtherStatus).
Definition En : env := deployed Kn Dd Ed.
Definition ex120 : list action_cfg := [CTyped (dhdr "true" false); CTyped (ddeny "true" true false)].
Example C120_ex : exists h p1 p2, later [] /\
  occurs (f_log (run En (dfac En ex120) [])) (EvSetMap MReq h true) p1 /\
  occurs (f_log (run En (dfac En ex120) [])) (EvReply 403 [] (Some (tx "no")) false) p2 /\ k_send Kn p2 403 [] (Some (tx "no")) <> HcOk tt.
Proof.
  exists [(tx "a", tx "b"); (tx "x-a", tx "1")], (skipn 7 (f_log (run En (dfac En ex120) []))), (skipn 3 (f_log (run En (dfac En ex120) []))).
  split; [now intros []|]. split; [exists (firstn 6 (f_log (run En (dfac En ex120) []))); vm_compute; reflexivity|].
  split; [exists (firstn 2 (f_log (run En (dfac En ex120) []))); vm_compute; reflexivity|discriminate].
Qed.

(** * C81 on the deployed environment *)
From Verif Require P_Eval P_Props Prop_Eval.
(** the request is a gRPC call of the method [m] of the service [s], by what the host has of its headers *)
Definition host_grpc_call (K : host) (E : env) (c : ctx) (s m : text) : Prop :=
  (exists more, k_value K (c_log c) MReq (tx "content-type") = HcOk (Some (tx "application/grpc" ++ more))) /\
  fst (read_string E [tx "request"; tx "url_path"] c) = RAvail (Some ("/"%char :: s ++ "/"%char :: m)) /\
  s <> [] /\ m <> [] /\ ~ In "/"%char s /\ ~ In "/"%char m.
Theorem C81_grpc_service_and_method_deployed K D E0 e vs c vs' c' : let E := deployed K D E0 in
  P_Props.clean e -> P_Props.tidy e -> (exists q, P_Props.mentions e (tx "request" :: tx "grpc" :: q)) -> P_Eval.unset c [tx "request"] ->
  eval_vars E (expr_of e) vs c = (RAvail vs', c') ->
  (forall s, Prop_Eval.sees [tx "request"; tx "grpc"; tx "service"] vs' s <-> exists n m, host_grpc_call K E c n m /\ s = VString n) /\
  (forall m, Prop_Eval.sees [tx "request"; tx "grpc"; tx "method"] vs' m <-> exists s n, host_grpc_call K E c s n /\ m = VString n).
Proof.
  intros E Hc Ht Hm Hu He. destruct (Prop_Eval.C81_grpc_service_and_method E e vs c vs' c' Hc Ht Hm Hu He) as [H1 H2].
  assert (G : forall s m, Prop_Eval.grpc_call E c s m <-> host_grpc_call K E c s m).
  { intros s m. unfold Prop_Eval.grpc_call, host_grpc_call.
    assert (X : forall v, h_reqheader E (c_log c) (tx "content-type") = Some v <-> k_value K (c_log c) MReq (tx "content-type") = HcOk (Some v)).
    { intros v. change (h_reqheader E (c_log c) (tx "content-type")) with (get_attribute_map_value K (c_log c) (tx "content-type")). unfold get_attribute_map_value.
      destruct (k_value K (c_log c) MReq (tx "content-type")); split; congruence. }
    split; intros ((more & H) & H'); (split; [exists more; now apply X|exact H']). }
  split; intros x; [rewrite H1|rewrite H2]; split; intros (s & m & Hg & Hx); exists s, m; (split; [now apply G|exact Hx]).
Qed.
Print Assumptions C81_grpc_service_and_method_deployed.
(** the response headers say something else *)
Definition Kg : host := mkHost (fun _ p => if path_eqb p [tx "request"; tx "url_path"] then HcOk (Some (tx "/pkg.Svc/Get")) else HcOk None)
  (fun _ _ => HcOk []) (fun _ m n => HcOk (if text_eqb n (tx "content-type") then Some (match m with MReq => tx "application/grpc+proto" | MResp => tx "text/html" end) else None))
  (fun _ _ _ => HcOk tt) (fun _ _ _ => HcOk tt) (fun _ _ _ _ => HcOk None) (fun l _ => HcOk (next_token l)) (fun _ _ _ _ => HcOk tt).
Example C81_deployed_ex : P_Props.clean Prop_Eval.de4 /\ P_Props.tidy Prop_Eval.de4 /\ (exists q, P_Props.mentions Prop_Eval.de4 (tx "request" :: tx "grpc" :: q)) /\ P_Eval.unset Prop_Eval.cv [tx "request"] /\
  host_grpc_call Kg (deployed Kg Dd Ed) Prop_Eval.cv (tx "pkg.Svc") (tx "Get") /\
  exists vs' c', eval_vars (deployed Kg Dd Ed) (expr_of Prop_Eval.de4) [] Prop_Eval.cv = (RAvail vs', c').
Proof.
  destruct Prop_Eval.ex81 as (H1 & H2 & H3 & _). split; [exact H1|]. split; [exact H2|]. split; [eexists; exact H3|]. split; [reflexivity|].
  split; [split; [now exists (tx "+proto")|]; split; [vm_compute; reflexivity|]; split; [discriminate|]; split; [discriminate|]; split; cbn; intuition discriminate|].
  eexists. eexists. vm_compute. reflexivity.
Qed.
