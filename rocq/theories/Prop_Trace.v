(** C112: where traces are sent. *)
From Coq Require Import String List NArith ZArith Bool Lia Arith.
From Verif Require Import Base Value Headers AttrPath Ctx CelProps CelEval Sse Body Tasks Exec Config Legacy Blueprint Factory Filter
  P_Frame P_Apply P_Exec P_Run P_Inv P_Ids P_Plan P_Deps P_Order P_Term P_Bar P_Cfg P_Hist P_Grow Demo DemoCfg
  Prop_Order Prop_Term Prop_Guard Prop_Fail Prop_Eff.
Import ListNotations.
Open Scope list_scope.

(** * Specifications *)
(** the service traces are to be sent to *)
Definition trace_service (cfg : plugin_cfg) (sv : svc_cfg) : Prop :=
  exists n, pc_tracing cfg = Some n /\ tget n (pc_services cfg) = Some sv /\ sc_type sv = STracing.
(** [cl] exports [spans] to the service *)
Definition exports_to (sv : svc_cfg) (spans : text) (cl : call) : Prop :=
  cl_upstream cl = sc_endpoint sv /\ cl_service cl = tx "opentelemetry.proto.collector.trace.v1.TraceService" /\
  cl_method cl = tx "Export" /\ cl_timeout cl = sc_timeout sv /\ cl_msg cl = spans.

(** * Lemmas *)
Definition sent (E : env) (T : list td) (e : ev) (past : log) : Prop :=
  match e with
  | EvExport cl _ => exists t before, In t T /\ past = EvTeardown :: before /\ o_spans E past = Some (cl_msg cl) /\
      cl_upstream cl = td_upstream t /\ cl_timeout cl = td_timeout t /\
      cl_service cl = tx "opentelemetry.proto.collector.trace.v1.TraceService" /\ cl_method cl = tx "Export"
  | _ => True
  end.
(** a teardown with spans pending is followed by their export *)
Fixpoint flushed (E : env) (l : log) : Prop :=
  match l with
  | [] => True
  | e :: l' => flushed E l' /\
      match l' with
      | EvTeardown :: _ => o_spans E l' <> None -> exists cl r, e = EvExport cl r
      | _ => True
      end
  end.
(** … the newest event is no teardown whose spans wait *)
Definition settled_spans (E : env) (l : log) : Prop := match l with EvTeardown :: _ => o_spans E l = None | _ => True end.
Definition X (E : env) (T : list td) (l : log) : Prop := hist (sent E T) l /\ flushed E l /\ settled_spans E l.

Lemma X_cons E T e l : (match e with EvExport _ _ | EvTeardown => False | _ => True end) -> X E T l -> X E T (e :: l).
Proof.
  intros He (H1 & H2 & H3). split; [split; [now destruct e|exact H1]|]. split; [|now destruct e].
  cbn. split; [exact H2|]. destruct l as [|[] l]; auto. intros Hx. cbn in H3. congruence.
Qed.
Lemma X_app E T evs l : (forall e, In e evs -> match e with EvExport _ _ | EvTeardown => False | _ => True end) -> X E T l -> X E T (evs ++ l).
Proof. induction evs as [|e evs IH]; cbn; intros H Hl; [exact Hl|]. apply X_cons; [apply H; now left|]. apply IH; [|exact Hl]. intros x Hx. apply H. now right. Qed.
Lemma X_ssum E T t c o c' evs : ssum E t c o c' evs -> X E T (c_log c) -> X E T (c_log c').
Proof.
  intros Hs H. rewrite (ss_log _ _ _ _ _ _ Hs). apply X_app; [intros e He; destruct o; cbn in He; try easy; now destruct He as [<-|[]]|].
  apply X_app; [|now apply X_cons]. intros e He.
  destruct (ssum_evs_cases _ _ _ _ _ _ _ Hs He) as [Hq|(cl & tok & ->)]; [|exact Logic.I]. now destruct e.
Qed.
Lemma X_final E T f c : is_final f -> X E T (c_log c) -> X E T (c_log (run_terminal E f c)).
Proof.
  intros Hf H. destruct (terminal_sum E f c Hf) as (evs & -> & Ha & _). apply X_app; [|exact H]. intros e He. rewrite Forall_forall in Ha. specialize (Ha e He). now destruct e.
Qed.
Lemma X_td E T a p : In a T -> X E T (c_log (p_ctx p)) -> X E T (c_log (p_ctx (td_step E p a))).
Proof.
  intros Ha (H1 & H2 & H3). unfold td_step, td_exec. cbn [emit with_log c_log].
  assert (K1 : flushed E (EvTeardown :: c_log (p_ctx p))).
  { cbn. split; [exact H2|]. destruct (c_log (p_ctx p)) as [|[] l]; auto. cbn in H3. congruence. }
  destruct (o_spans E (EvTeardown :: c_log (p_ctx p))) as [msg|] eqn:Hs.
  - destruct (dispatch E _ _ _ _ _ _ _) as [r c] eqn:Hd. apply dispatch_spec in Hd.
    destruct Hd as (cl & c4 & Hx & -> & Hdis & D1 & D2 & D3 & D4 & D5 & _). pose proof (xrid_log _ _ Hx) as Hl. cbn [emit with_log c_log] in Hl.
    assert (K : X E T (EvExport cl r :: c_log c4)).
    { rewrite Hl. split; [split|split].
      - cbn. exists a, (c_log (p_ctx p)). rewrite Hs, D4. auto 10.
      - split; [exact Logic.I|exact H1].
      - split; [exact K1|]. intros _. eauto.
      - exact Logic.I. }
    destruct r as [tok|]; [|exact K].
    match goal with |- context [def_insert ?a ?b ?c] => destruct (def_insert_facts a b c) as (F1 & _); rewrite F1 end. exact K.
  - split; [split; [exact Logic.I|exact H1]|]. split; [exact K1|exact Hs].
Qed.
Lemma X_finv E T : finv E (fun ts p => X E T (c_log (p_ctx p)) /\ incl (p_td p) T) (X E T).
Proof.
  constructor.
  - intros ts p ts' p' Hs [Hx Hi].
    destruct Hs as [p Hset|t ts p Hb|t ts p o c ts' p' Hb Hst Hn|tok st sz p Hset Hn|tok st sz t p o c Hset Hn Hst|p Hq Ht|a rest p Hq Hn Ht].
    + now split.
    + now split.
    + destruct (step_sum _ _ _ _ _ Hst) as (evs & Hss). pose proof (X_ssum _ _ _ _ _ _ _ Hss Hx) as Hc.
      destruct o; simpl in Hn; injection Hn as <- <-; try (split; [exact Hc|exact Hi]).
      * destruct (def_insert_facts tok t0 (p_with_ctx p c)) as (F1 & F2 & F3 & F4 & F5 & F6). rewrite F1. split; [exact Hc|]. now replace (p_td _) with (p_td p).
      * pose proof (ss_final _ _ _ _ _ _ Hss) as Hf. simpl in Hf. split; [|exact Hi]. cbn [p_ctx p_with_ctx p_queue]. rewrite drop_log. now apply X_final.
    + split; [|exact Hi]. now apply X_cons.
    + destruct (step_sum _ _ _ _ _ Hst) as (evs & Hss).
      assert (Hc : X E T (c_log c)) by (apply (X_ssum _ _ _ _ _ _ _ Hss); fold (handle_ctx tok st sz (t_id t) (p_ctx p)); rewrite handle_log; apply X_cons; [exact Logic.I|]; apply X_cons; [exact Logic.I|exact Hx]).
      unfold handle_next. destruct o; try (split; [exact Hc|exact Hi]).
      * destruct (def_insert_facts tok0 t0 (p_with_ctx (mkPipe c (p_queue p) (ndel tok (p_def p)) (p_done p) (p_td p) (p_term p)) c)) as (F1 & F2 & F3 & F4 & F5 & F6).
        rewrite F1. split; [exact Hc|]. now replace (p_td _) with (p_td p).
      * split; [now apply X_cons|exact Hi].
      * pose proof (ss_final _ _ _ _ _ _ Hss) as Hf. simpl in Hf. split; [|exact Hi]. cbn [p_ctx p_with_ctx p_queue]. rewrite drop_log. now apply X_final.
    + split; [|exact Hi]. cbn [replace_deferred p_ctx]. now rewrite drop_log.
    + assert (Ha : In a T) by (apply Hi; rewrite Ht; now left). split; [now apply X_td|].
      destruct (td_sum E a (p_with_td p rest)) as (evs & tok & _ & _ & _ & _ & _ & _ & T7 & _). rewrite T7. cbn [p_with_td p_td]. intros x Hx'. apply Hi. rewrite Ht. now right.
  - intros p e He [Hx Hi]. split; [|exact Hi]. apply X_cons; [now destruct e|exact Hx].
  - intros p b [Hx Hi]. now split.
  - intros p b [Hx Hi]. now split.
  - intros p [Hx Hi] _ _ _ _. exact Hx.
  - intros l e [He|(k & st & sz & ->)] Hx; apply X_cons; auto; now destruct e.
Qed.
Lemma X_run E fa p l : build E fa (ctx0 [EvReqHeaders]) = BOk p -> later l -> X E (p_td p) (f_log (run E fa l)).
Proof.
  intros Hb Hl. assert (H : holds (fun ts q => X E (p_td p) (c_log (p_ctx q)) /\ incl (p_td q) (p_td p)) (X E (p_td p)) (run E fa l)).
  { apply (pipe_invariant E fa _ _ p); [apply X_finv|exact Hb| |exact Hl].
    pose proof (build_spec E fa (ctx0 [EvReqHeaders])) as Hs. rewrite Hb in Hs. destruct Hs as (b & c1 & tds & _ & _ & _ & (Hlog & _) & _).
    split; [|apply incl_refl]. cbn [p_emit p_with_ctx p_ctx emit with_log c_log]. rewrite Hlog. repeat apply X_cons; try exact Logic.I. repeat split. }
  unfold holds in H. destruct (f_pipe (run E fa l)) as [q|]; [destruct H as [[H _] _]; exact H|exact H].
Qed.
Lemma action_tasks_tds E rd tr a c ts tds c' : action_tasks E rd tr a c = Some (ts, tds, c') ->
  forall t, In t tds -> exists v m rs, a_op a = BGrpc (ITrace (Some t)) v m rs.
Proof.
  unfold action_tasks. destruct (a_op a) as [s v m rs|x|x y|x y z|].
  1: destruct s as [k s|[t|]].
  all: destruct (to_core E a c) as [[tk c1]|]; intros [= <- <- <-]; try (intros q Hq; now destruct Hq).
  intros q [<-|Hq]; [eauto|now destruct Hq].
Qed.
Lemma actions_tasks_tds E rd tr l : forall c ts tds c', actions_tasks E rd tr l c = Some (ts, tds, c') ->
  forall t, In t tds -> exists a v m rs, In a l /\ a_op a = BGrpc (ITrace (Some t)) v m rs.
Proof.
  induction l as [|a l IH]; intros c ts tds c'; cbn [actions_tasks]; [intros [= <- <- <-] t []|].
  destruct (action_tasks E rd tr a c) as [[[t1 td1] c1]|] eqn:H1; [|discriminate]. pose proof (action_tasks_tds _ _ _ _ _ _ _ _ H1) as K.
  destruct (actions_tasks E rd tr l c1) as [[[t2 td2] c2]|] eqn:H2; [|discriminate]. specialize (IH _ _ _ _ H2).
  intros [= <- <- <-] t Hi. apply in_app_or in Hi as [Hi|Hi]; [destruct (K t Hi) as (v & m & rs & K'); exists a, v, m, rs; split; [now left|exact K']|].
  destruct (IH t Hi) as (b & v & m & rs & Hb & H). exists b, v, m, rs. split; [now right|exact H].
Qed.
Lemma built_service E cfg fa p t : try_from E cfg = Some fa -> build E fa (ctx0 [EvReqHeaders]) = BOk p -> In t (p_td p) ->
  exists sv, trace_service cfg sv /\ td_upstream t = sc_endpoint sv /\ td_timeout t = sc_timeout sv.
Proof.
  intros Hf Hb Hi. pose proof (build_spec E fa (ctx0 [EvReqHeaders])) as Hs. rewrite Hb in Hs. destruct Hs as (b & c1 & tds & Hs & Ht & Hp & _).
  rewrite Hp in Hi. cbn [p_td] in Hi. unfold to_tasks in Ht. destruct (actions_tasks_tds _ _ _ _ _ _ _ _ Ht t Hi) as (a & v & m & rs & Ha & Hop).
  destruct (select_served E cfg fa _ _ _ Hf Hs) as (svs & H1 & H2).
  assert (He : is_exporter a = true) by (unfold is_exporter; now rewrite Hop).
  assert (Hd : In a (cfg_dev svs cfg)).
  { destruct H2 as [s bp _ Hc|h _]; cbn [bp_actions] in Ha; [|exact Ha]. apply in_app_or in Ha as [Ha|Ha]; [|exact Ha]. exfalso.
    pose proof (set_not_exporter _ _ _ _ _ Hc) as Hn. assert (In a (filter is_exporter (bp_actions bp))) as K by (apply filter_In; now split). now rewrite Hn in K. }
  unfold cfg_dev in Hd. destruct (pc_identifier cfg) as [h|]; [|destruct Hd]. destruct Hd as [<-|[]]. cbn in Hop. injection Hop as Htr _ _ _.
  unfold cfg_tracing in Htr. destruct (pc_tracing cfg) as [n|] eqn:Hn; [|discriminate]. destruct (svs_service cfg svs n H1) as [G1 _]. rewrite G1 in Htr.
  destruct (tget n (pc_services cfg)) as [sv|] eqn:Hsv; [|discriminate]. exists sv. split.
  - exists n. split; [exact Hn|]. split; [exact Hsv|]. unfold inst_of in Htr. destruct (sc_type sv); try discriminate; [reflexivity|].
    destruct (sc_grpc_service sv); [|discriminate]. destruct (sc_grpc_method sv); discriminate.
  - unfold inst_of in Htr. destruct (sc_type sv); try discriminate; [now injection Htr as <-|].
    destruct (sc_grpc_service sv); [|discriminate]. destruct (sc_grpc_method sv); discriminate.
Qed.
Lemma flushed_occurs E h past : flushed E h -> settled_spans E h -> occurs h EvTeardown past -> o_spans E (EvTeardown :: past) <> None ->
  exists cl r, occurs h (EvExport cl r) (EvTeardown :: past).
Proof.
  intros Hf Hset (after & ->) Hs. destruct after as [|e0 after0]; [now cbn in Hset|].
  destruct (exists_last (l := e0 :: after0)) as (after & e & Ha); [discriminate|]. rewrite Ha in *. rewrite <- app_assoc in *. clear Ha Hset. cbn [app] in *.
  assert (K : flushed E (e :: EvTeardown :: past)) by (induction after as [|x after IH]; [exact Hf|apply IH; exact (proj1 Hf)]).
  destruct (proj2 K Hs) as (cl & r & ->). exists cl, r. now exists after.
Qed.
Lemma td_count_at a p : td_count (a ++ EvTeardown :: p) = td_count a + S (td_count p).
Proof. now rewrite td_count_app. Qed.
Lemma td_count_twice h p1 p2 : occurs h EvTeardown p1 -> occurs h EvTeardown p2 -> td_count h <= 1 -> p1 = p2.
Proof.
  intros [a1 ->] [a2 H2] Hc. revert a2 H2 Hc. induction a1 as [|e a1 IH]; intros a2 H2 Hc.
  - destruct a2 as [|e a2]; [now injection H2|]. injection H2 as <- H2. exfalso. cbn [app] in Hc. rewrite H2 in Hc.
    pose proof (td_count_at [] (a2 ++ EvTeardown :: p2)) as K. cbn [app] in K. rewrite K, td_count_at in Hc. lia.
  - destruct a2 as [|e2 a2].
    + injection H2 as -> H2. exfalso. cbn [app] in Hc. pose proof (td_count_at [] (a1 ++ EvTeardown :: p1)) as K. cbn [app] in K. rewrite K, td_count_at in Hc. lia.
    + injection H2 as <- H2. apply (IH a2 H2). change ((e :: a1) ++ EvTeardown :: p1) with ([e] ++ (a1 ++ EvTeardown :: p1)) in Hc. rewrite td_count_app in Hc. lia.
Qed.
Lemma td_count_some h : td_count h = 1 -> exists past, occurs h EvTeardown past.
Proof.
  intros H. destruct (in_dec (fun x y : nat => Nat.eq_dec x y) 0 (map (fun e => match e with EvTeardown => 0 | _ => 1 end) h)) as [Hi|Hi].
  - apply in_map_iff in Hi as (e & He & Hi). destruct e; try discriminate. apply in_split in Hi as (a & past & ->). now exists past, a.
  - exfalso. assert (~ In EvTeardown h) as Hn by (intros Hx; apply Hi; apply in_map_iff; now exists EvTeardown). apply td_count_zero in Hn. lia.
Qed.
Lemma no_pipe_no_td E fa l : (forall p, build E fa (ctx0 [EvReqHeaders]) <> BOk p) -> later l ->
  forall e, In e (f_log (run E fa l)) -> e <> EvTeardown /\ forall cl r, e <> EvExport cl r.
Proof.
  intros Hb Hl e Hi. destruct (no_pipe_run E fa l Hb Hl) as [_ H]. rewrite Forall_forall in H.
  apply H in Hi as [[Hi|(x & y & z & ->)]|[(m & ->)|(st & h & bd & ok & ->)]]; try (split; easy). now destruct e.
Qed.
Lemma log_X E cfg fa l : try_from E cfg = Some fa -> later l -> exists T,
  X E T (f_log (run E fa l)) /\
  forall t, In t T -> exports cfg /\ exists sv, trace_service cfg sv /\ td_upstream t = sc_endpoint sv /\ td_timeout t = sc_timeout sv.
Proof.
  intros Hf Hl. destruct (build E fa (ctx0 [EvReqHeaders])) as [p|c|c|c] eqn:Hb.
  - exists (p_td p). split; [now apply X_run|]. intros t Hi. split; [|now apply (built_service E cfg fa p)].
    destruct (build_td E cfg fa p Hf Hb) as [[H _]|[_ H]]; [exact H|]. now rewrite H in Hi.
  - exists []. split; [|easy]. rewrite <- (app_nil_r (f_log _)). apply X_app; [|repeat split]. intros e He.
    destruct (no_pipe_no_td E fa l) with (e := e) as [H1 H2]; [intros p; congruence|exact Hl|exact He|]. destruct e; try easy. exact (H2 _ _ eq_refl).
  - exists []. split; [|easy]. rewrite <- (app_nil_r (f_log _)). apply X_app; [|repeat split]. intros e He.
    destruct (no_pipe_no_td E fa l) with (e := e) as [H1 H2]; [intros p; congruence|exact Hl|exact He|]. destruct e; try easy. exact (H2 _ _ eq_refl).
  - exists []. split; [|easy]. rewrite <- (app_nil_r (f_log _)). apply X_app; [|repeat split]. intros e He.
    destruct (no_pipe_no_td E fa l) with (e := e) as [H1 H2]; [intros p; congruence|exact Hl|exact He|]. destruct e; try easy. exact (H2 _ _ eq_refl).
Qed.

(** * C112 *)
(** Spans are sent to the tracing service the configuration names and nowhere else, under its
    timeout, to the method of the OpenTelemetry collector, unchanged; at most once per request; and
    when the pipeline of a request is gone, the spans that were pending at its teardown have been
    sent. *)
Theorem C112_traces_go_to_the_tracing_service : forall E cfg fa l,
  fresh_tokens E -> try_from E cfg = Some fa -> later l ->
  (forall cl r past, occurs (f_log (run E fa l)) (EvExport cl r) past ->
     pc_identifier cfg <> None /\ exists sv spans before, trace_service cfg sv /\ past = EvTeardown :: before /\
       o_spans E past = Some spans /\ exports_to sv spans cl) /\
  (forall cl r past cl' r' past', occurs (f_log (run E fa l)) (EvExport cl r) past -> occurs (f_log (run E fa l)) (EvExport cl' r') past' -> past = past') /\
  (forall p sv, build E fa (ctx0 [EvReqHeaders]) = BOk p -> f_pipe (run E fa l) = None -> pc_identifier cfg <> None -> trace_service cfg sv ->
     exists past, occurs (f_log (run E fa l)) EvTeardown past /\
       forall spans, o_spans E (EvTeardown :: past) = Some spans ->
         exists cl r, occurs (f_log (run E fa l)) (EvExport cl r) (EvTeardown :: past)).
Proof.
  intros E cfg fa l F Hf Hl. destruct (log_X E cfg fa l Hf Hl) as (T & (X1 & X2 & X3) & HT).
  destruct (C19_teardown_once_and_last E cfg fa l F Hf Hl) as (T1 & T2 & _ & _ & T5).
  assert (K : forall cl r past, occurs (f_log (run E fa l)) (EvExport cl r) past -> sent E T (EvExport cl r) past).
  { intros cl r past Ho. rewrite occurs_hist in X1. now apply X1. }
  split; [|split].
  - intros cl r past Ho. destruct (K cl r past Ho) as (t & before & Ht & -> & Hs & U1 & U2 & U3 & U4).
    destruct (HT t Ht) as ((h & n & c & Hx & _) & sv & Hsv & V1 & V2). split; [congruence|]. exists sv, (cl_msg cl), before.
    split; [exact Hsv|]. split; [reflexivity|]. split; [exact Hs|]. unfold exports_to. rewrite U1, U2, V1, V2. auto.
  - intros cl r past cl' r' past' Ho Ho'. destruct (K _ _ _ Ho) as (_ & b1 & _ & -> & _). destruct (K _ _ _ Ho') as (_ & b2 & _ & -> & _). f_equal.
    apply (td_count_twice (f_log (run E fa l))); [clear Ho'|clear Ho; rename Ho' into Ho|exact T1]; destruct Ho as [a Ho];
      [exists (a ++ [EvExport cl r])|exists (a ++ [EvExport cl' r'])]; rewrite Ho; now rewrite <- app_assoc.
  - intros p sv Hb Hp Hid (n & Hn & Hg & Ht).
    assert (Hx : exports cfg) by (destruct (pc_identifier cfg) as [h|] eqn:Hh; [|easy]; exists h, n, sv; auto).
    destruct (td_count_some _ (T5 p Hb Hp Hx)) as (past & Ho). exists past. split; [exact Ho|]. intros spans Hs. apply (flushed_occurs E); auto. congruence.
Qed.
Print Assumptions C112_traces_go_to_the_tracing_service.

(** Reachable: the spans of a request without actions are sent when its pipeline ends. *)
Example C112_ex : exists cl r past, try_from Et (tcfg []) = Some (tfac []) /\ later [InRespHeaders] /\ fresh_tokens Et /\
  occurs (f_log (run Et (tfac []) [InRespHeaders])) (EvExport cl r) past /\ cl_upstream cl = tx "otel" /\ cl_msg cl = tx "spans".
Proof.
  eexists _, _, _. split; [reflexivity|]. split; [intros [H|[]]; discriminate|]. split; [exact trace_fresh|]. split; [|split].
  - eexists [_; _; _; _]. vm_compute. reflexivity.
  - vm_compute. reflexivity.
  - vm_compute. reflexivity.
Qed.

(** That a configured tracing service receives the pending spans of every request that ends is
    false: without the header identifier (dev mode) the accepted configuration never exports … *)
Definition ucfg (id : option text) (n : string) : plugin_cfg := mkPlugin [] (pc_services (tcfg [])) (pc_sets (dcfg [CTyped (dhdr "true" false)])) id (Some (tx n)) [].
Theorem C112_spans_of_every_request_are_sent_refuted : exists cfg fa sv l,
  trace_service cfg sv /\ try_from Et cfg = Some fa /\ later l /\ (exists p, build Et fa (ctx0 [EvReqHeaders]) = BOk p) /\ f_pipe (run Et fa l) = None /\
  (forall h, o_spans Et h <> None) /\ ~ exists cl r, In (EvExport cl r) (f_log (run Et fa l)).
Proof.
  exists (ucfg None "tr"). eexists _, _, [InRespHeaders]. split; [exists (tx "tr"); split; [reflexivity|split; reflexivity]|].
  split; [reflexivity|]. split; [intros [H|[]]; discriminate|]. split; [eexists; vm_compute; reflexivity|]. split; [vm_compute; reflexivity|]. split; [discriminate|].
  intros (cl & r & H). vm_compute in H. intuition discriminate.
Qed.
(** … a name no service has is accepted, and nothing is exported … *)
Theorem C112_unknown_tracing_service_is_accepted_refuted : exists cfg n fa l,
  pc_tracing cfg = Some n /\ tget n (pc_services cfg) = None /\ pc_identifier cfg <> None /\ try_from Et cfg = Some fa /\ later l /\
  f_pipe (run Et fa l) = None /\ (forall h, o_spans Et h <> None) /\ ~ exists cl r, In (EvExport cl r) (f_log (run Et fa l)).
Proof.
  exists (ucfg (Some (tx "x-id")) "nosuch"). eexists _, _, [InRespHeaders]. split; [reflexivity|]. split; [reflexivity|]. split; [discriminate|].
  split; [reflexivity|]. split; [intros [H|[]]; discriminate|]. split; [vm_compute; reflexivity|]. split; [discriminate|].
  intros (cl & r & H). vm_compute in H. intuition discriminate.
Qed.
(** … and the name of a service of another type is accepted too: it is called for every request,
    with the value [true] for a message; since that is no message, every request is rejected if the
    service is configured to deny on failure. *)
Definition Em : env := mkEnv (h_prop Et) (h_map Et) (h_reqheader Et) (h_setprop Et) (h_setmap Et) (h_reqbody Et) (h_respbody Et) (h_dispatch Et) (h_grpcresp Et) (h_reply Et) (o_parse Et) (o_cel Et) (o_json Et) (o_pointer Et) (o_jshow Et) (o_f64 Et) (o_jnew Et) (o_jfeed Et) (o_jraw Et) (o_jfinish Et) (fun _ _ v => match v with VMap _ | VStruct _ _ => Some [] | _ => None end) (o_decode Et) (o_uuid Et) (o_trace Et) (o_span_on Et) (o_spans Et) (o_alpha Et).
Theorem C112_tracing_to_another_service_rejects_requests_refuted : exists cfg n fa sv,
  pc_tracing cfg = Some n /\ tget n (pc_services cfg) = Some sv /\ sc_type sv <> STracing /\ try_from Em cfg = Some fa /\
  exists st h b ok, In (EvReply st h b ok) (f_log (run Em fa [])).
Proof.
  exists (ucfg (Some (tx "x-id")) "hard"). eexists _, _, _. split; [reflexivity|]. split; [reflexivity|]. split; [discriminate|]. split; [reflexivity|].
  eexists _, _, _, _. vm_compute. tauto.
Qed.
Print Assumptions C112_spans_of_every_request_are_sent_refuted.
Print Assumptions C112_unknown_tracing_service_is_accepted_refuted.
Print Assumptions C112_tracing_to_another_service_rejects_requests_refuted.
