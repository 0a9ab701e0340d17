(** C15: reply actions run in order, before anything that was queued. *)
From Coq Require Import String List NArith ZArith Bool Lia Arith.
From Verif Require Import Base Value Headers AttrPath Ctx CelProps CelEval Sse Body Tasks Exec Config Legacy Blueprint Factory Filter
  P_Frame P_Apply P_Exec P_Run P_Inv P_Ids P_Plan P_Deps P_Order P_Term P_Bar P_Cfg P_Hist P_Grow P_Wake P_Fail P_Eff P_Scope Demo DemoCfg
  Prop_Order Prop_Term Prop_Guard Prop_Wake Prop_Fail Prop_Know Prop_Eff Prop_Scope.
Import ListNotations.
Open Scope list_scope.

(** * Specifications *)
(** the actions evaluated in a history, first to last (histories are newest first) *)
Fixpoint evaluated (h : log) : list text := match h with [] => [] | EvEval a :: l => evaluated l ++ [a] | _ :: l => evaluated l end.
(** [ids] are evaluated one after the other at the start of [h], unless one of them ends
    processing, and then nothing else is evaluated *)
Definition in_order (ids : list text) (h : log) : Prop :=
  (exists more, evaluated h = ids ++ more) \/
  (exists some last rest, ids = some ++ last :: rest /\ evaluated h = some ++ [last] /\ In (EvTerminate last) h).
(** the ids of the reply actions of an action *)
Definition reply_ids (a : text) (rs : list taction) : list text := map (fun i => a ++ dot :: nat_text i) (seq 0 (length rs)).

(** the response can be read, and decoded as a reply of that service *)
Definition readable (E : env) (sc : svc_cfg) (sz : N) (h : log) : Prop :=
  exists k sv b v, inst_of sc = Some (IDyn k sv) /\ h_grpcresp E h sz = Some b /\ o_decode E h sv b = Some v.

(** * Lemmas *)
Lemma evaluated_app new old : evaluated (new ++ old) = evaluated old ++ evaluated new.
Proof.
  induction new as [|e new IH]; [cbn; now rewrite app_nil_r|]. cbn [app evaluated]. destruct e; try exact IH. now rewrite IH, app_assoc.
Qed.
Definition no_eval (e : ev) : Prop := match e with EvEval _ => False | _ => True end.
Lemma evaluated_none h : Forall no_eval h -> evaluated h = [].
Proof. induction 1 as [|e h He _ IH]; [reflexivity|]. cbn. destruct e; easy. Qed.
Lemma step_evaluated E t c o c' : step E t c = (o, c') -> exists new, c_log c' = new ++ c_log c /\ evaluated new = [t_id t] /\ (match o with OTerminate f => is_final f /\ In (EvTerminate (t_id t)) new | _ => True end).
Proof.
  intros H. apply step_sum in H as (evs & Hs). exists (ghost t o ++ evs ++ [EvEval (t_id t)]). rewrite (ss_log _ _ _ _ _ _ Hs), <- !app_assoc. split; [reflexivity|].
  pose proof (ss_evs _ _ _ _ _ _ Hs) as He. assert (Hn : Forall no_eval evs).
  { destruct o; try (revert He; apply Forall_impl; intros e; now destruct e). destruct He as (cl & -> & _). now repeat constructor. }
  split.
  - rewrite !evaluated_app, (evaluated_none evs Hn). cbn. now destruct o.
  - pose proof (ss_final _ _ _ _ _ _ Hs) as Hf. destruct o; try exact Logic.I. split; [exact Hf|now left].
Qed.
Lemma process_front E : forall ks r p b p', Forall (fun t => t_deps t = []) ks -> process E (ks ++ r) p = (b, p') ->
  exists new, c_log (p_ctx p') = new ++ c_log (p_ctx p) /\
    ((exists more, evaluated new = map t_id ks ++ more) \/
     (b = true /\ exists some last rest, map t_id ks = some ++ last :: rest /\ evaluated new = some ++ [last] /\ In (EvTerminate last) new)).
Proof.
  induction ks as [|t ks IH]; intros r p b p' Hd Hp.
  - apply process_added in Hp as (new & Hn & _). exists new. split; [exact Hn|]. left. eexists. reflexivity.
  - inversion Hd as [|? ? Ht Hd']; subst. cbn [app process] in Hp. unfold blocked in Hp. rewrite Ht in Hp. cbn [existsb] in Hp.
    destruct (step E t (p_ctx p)) as [o c] eqn:Hs. destruct (step_evaluated _ _ _ _ _ Hs) as (n1 & N1 & N2 & N3).
    assert (K : forall q, c_log (p_ctx q) = c_log c -> process E (ks ++ r) q = (b, p') -> exists new, c_log (p_ctx p') = new ++ c_log (p_ctx p) /\
      ((exists more, evaluated new = map t_id (t :: ks) ++ more) \/
       (b = true /\ exists some last rest, map t_id (t :: ks) = some ++ last :: rest /\ evaluated new = some ++ [last] /\ In (EvTerminate last) new))).
    { intros q Hq Hpr. destruct (IH _ _ _ _ Hd' Hpr) as (n2 & M1 & M2). exists (n2 ++ n1). split; [now rewrite M1, Hq, N1, app_assoc|]. rewrite evaluated_app, N2. cbn [app map].
      destruct M2 as [(more & ->)|(Hb & some & last & rest & M3 & M4 & M5)]; [left; now exists more|right]. split; [exact Hb|]. exists (t_id t :: some), last, rest. rewrite M3, M4.
      repeat split. apply in_or_app. now left. }
    destruct o; try (eapply K; [|exact Hp]; first [reflexivity|apply def_insert_facts]).
    injection Hp as <- <-. destruct N3 as [Hf Ht']. destruct (terminal_sum E t0 c Hf) as (n2 & M1 & M2 & _). exists (n2 ++ n1). cbn [p_ctx p_with_ctx]. rewrite drop_log, M1, N1, app_assoc. split; [reflexivity|].
    right. split; [reflexivity|]. exists [], (t_id t), (map t_id ks). split; [reflexivity|]. rewrite evaluated_app, N2. rewrite (evaluated_none n2); [|revert M2; apply Forall_impl; intros e; now destruct e].
    split; [reflexivity|]. apply in_or_app. now right.
Qed.
Lemma teardown_evaluates E p : exists new, c_log (p_ctx (execute_teardown E p)) = new ++ c_log (p_ctx p) /\ evaluated new = [].
Proof.
  unfold execute_teardown. assert (K : forall l q, exists new, c_log (p_ctx (fold_left (td_step E) l q)) = new ++ c_log (p_ctx q) /\ evaluated new = []).
  { induction l as [|a l IH]; intros q; cbn [fold_left]; [now exists []|]. destruct (IH (td_step E q a)) as (n2 & M1 & M2). destruct (td_sum E a q) as (evs & tok & T1 & T2 & _).
    exists (n2 ++ evs ++ [EvTeardown]). rewrite M1, T1, <- !app_assoc. split; [reflexivity|]. rewrite !evaluated_app, M2, app_nil_r. destruct T2 as [[-> _]|(cl & -> & _)]; reflexivity. }
  destruct (K (p_td (replace_deferred p)) (mkPipe (p_ctx (replace_deferred p)) (p_queue (replace_deferred p)) (p_def (replace_deferred p)) (p_done (replace_deferred p)) [] (p_term (replace_deferred p)))) as (new & H1 & H2).
  exists new. split; [|exact H2]. rewrite H1. cbn [p_ctx]. unfold replace_deferred. cbn [p_ctx]. now rewrite drop_log.
Qed.
Lemma eval_front E p ks r : p_queue p = ks ++ r -> Forall (fun t => t_deps t = []) ks ->
  exists new, c_log (p_ctx (eval_pipe E p)) = new ++ c_log (p_ctx p) /\ in_order (map t_id ks) new.
Proof.
  intros Hq Hd. unfold eval_pipe. rewrite Hq. destruct (process E (ks ++ r) (p_with_queue p [])) as [b p1] eqn:Hp. destruct (process_front _ _ _ _ _ _ Hd Hp) as (n1 & N1 & N2). cbn [p_with_queue p_ctx] in N1.
  assert (K1 : in_order (map t_id ks) n1) by (destruct N2 as [H|[_ H]]; [now left|now right]).
  assert (K : exists new, c_log (p_ctx (execute_teardown E p1)) = new ++ c_log (p_ctx p) /\ in_order (map t_id ks) new).
  { destruct (teardown_evaluates E p1) as (n2 & M1 & M2). exists (n2 ++ n1). split; [now rewrite M1, N1, app_assoc|]. destruct K1 as [(more & H)|(some & last & rest & H1 & H2 & H3)].
    - left. exists more. now rewrite evaluated_app, M2, app_nil_r.
    - right. exists some, last, rest. rewrite evaluated_app, M2, app_nil_r. repeat split; auto. apply in_or_app. now right. }
  destruct b; [exact K|]. destruct (p_queue p1); [destruct (p_def p1); [destruct (p_td p1); [|exact K]|]|]; exists n1; split; assumption.
Qed.
(** what a wrapper does to the outcome of a successful response *)
Lemma wrapped_success E t c : forall o c', apply E (core t) c = (o, c') -> match o with ODone | ORequeued _ => True | _ => False end ->
  exists o', apply E t c = (o', c') /\ match o with ODone => o' = ODone | ORequeued l => exists l', o' = ORequeued l' /\ map t_id l' = map t_id l /\ map t_deps l' = map t_deps l | _ => False end.
Proof.
  induction t as [| | |t IH abort|t IH| | | | | |]; intros o c' H Ho; cbn [core] in H.
  all: try (exists o; split; [exact H|]; destruct o; try easy; now exists ts).
  - destruct (IH o c' H Ho) as (o' & H1 & H2). cbn [apply]. rewrite H1. destruct o; try easy; [subst o'; now exists ODone|]. destruct H2 as (l' & -> & H2). exists (ORequeued l'). split; [reflexivity|]. now exists l'.
  - destruct (IH o c' H Ho) as (o' & H1 & H2). cbn [apply]. rewrite H1. destruct o; try easy; [subst o'; now exists ODone|]. destruct H2 as (l' & -> & H2). exists (ORequeued (map TTracing l')). split; [reflexivity|].
    exists (map TTracing l'). split; [reflexivity|]. now rewrite !map_map.
Qed.

Lemma answer_silent i f q : Forall no_eval (answer i f q).
Proof.
  assert (K : forall (b : bool) e, no_eval e -> Forall no_eval (if b then [e] else [])) by (intros [|] e H; constructor; auto).
  unfold answer. destruct i; [now repeat constructor|now repeat constructor|now repeat constructor|now repeat constructor|].
  destruct (P_Grow.kept q); apply K; now destruct (f_resp f).
Qed.
Lemma map_t_deps_nil (l l' : list task) : map t_deps l' = map t_deps l -> Forall (fun t => t_deps t = []) l -> Forall (fun t => t_deps t = []) l'.
Proof.
  revert l'. induction l as [|x l IH]; intros [|y l']; try discriminate; [constructor|]. cbn [map]. intros [= H1 H2] H. inversion H; subst.
  constructor; [congruence|now apply IH].
Qed.

(** The response to a call that succeeds has its reply actions evaluated at once, in
    configuration order, and nothing else before them; a reply action that ends processing
    leaves the ones after it out, and everything else too. *)
Theorem C15_reply_actions_run_first_and_in_order : forall E cfg fa s l a pr tm g sq var name m rs sc k sz,
  fresh_tokens E -> try_from E cfg = Some fa -> serves E cfg fa s -> later l ->
  has_action E cfg s a (mkT pr tm g sq (OpGrpc var name m rs)) -> tget name (pc_services cfg) = Some sc ->
  ~ terminated (f_log (run E fa l)) -> call_open (f_log (run E fa l)) k a ->
  let now := EvEval a :: EvHandle k a :: EvGrpcResp k 0 sz :: f_log (run E fa l) in
  readable E sc sz now ->
  exists after, f_log (run E fa (l ++ [InGrpc k 0 sz])) = after ++ now /\ in_order (reply_ids a rs) after.
Proof.
  intros E cfg fa s l a pr tm g sq var name m rs sc k sz F Hf Hs Hl (svs & Hsv & Hc) Hsc Ht Ho now (kd & sv & b & v & Hi & Hb & Hv).
  destruct (open_pipe E fa l k F Hl) as (p & Hp); [left; eauto|]. destruct (reach E fa l p Hl Hp) as (p0 & Hbd & HB & _ & Hd).
  destruct (open_def _ _ _ _ _ _ F HB Ho) as (t & Hn & Hid). cbn [f_take p_with_ctx p_def] in Hn.
  (* the deferred task *)
  assert (Hx : exists id sv var rs g, core t = TPending id sv var rs g /\ Forall wf_q rs).
  { pose proof (Forall_nget _ _ _ _ (w_def _ _ (t_w _ _ _ _ (b_t _ _ _ _ _ HB))) Hn) as Hw. apply wf_d_core in Hw.
    destruct (core t) eqn:Hct; try easy; [do 5 eexists; split; [reflexivity|exact Hw]|]. exfalso.
    destruct Ho as (after & cl & before & Hlg & Hun). refine (t_u _ _ _ _ (b_t _ _ _ _ _ HB) F Ht _ a k _).
    - apply Exists_exists. exists t. split; [|exact Hw]. apply nget_In in Hn. now apply (in_map snd) in Hn.
    - exists after, cl, before. split; [exact Hlg|]. apply Forall_forall. intros e He Ha. destruct e; simpl in Ha; try easy. subst. eapply Hun; eauto. }
  destruct Hx as (id & sv' & var' & rs' & g' & Hct & Hwf).
  assert (id = a) by (rewrite <- Hid, <- (core_id t), Hct; reflexivity). subst id.
  assert (Hin : In t (items [] (f_take (run E fa l) p))).
  { unfold items, dts. apply in_or_app. right. apply in_or_app. right. apply nget_In in Hn. now apply (in_map snd) in Hn. }
  (* what it is configured as *)
  assert (Hnd : In (NCall a sv' var' g' (map t_id rs')) (nodess (p_queue p0))).
  { apply (b_nodes _ _ _ _ _ HB). apply in_flat_map. exists t. split; [exact Hin|]. rewrite <- nodes_core, Hct. now left. }
  assert (Hk : sv' = sv /\ map t_id rs' = reply_ids a rs).
  { destruct (serves_nodes _ _ _ _ _ Hs Hbd _ Hnd) as [(svs' & a' & x & Hsv' & Hc' & Hds)|Hds].
    - rewrite Hsv in Hsv'. injection Hsv' as <-. destruct x as [pr' tm' g'' sq' op]. destruct Hds as (pred & _ & Hds). destruct op; try contradiction.
      destruct Hds as (<- & _ & _ & (k' & Hk') & Hkids). pose proof (configured_unique _ _ _ _ _ _ Hc Hc') as Hu. injection Hu as <- <- <- <- <- <- <- <-.
      split; [|exact Hkids]. destruct (svs_service cfg svs name Hsv) as [S1 S2]. rewrite Hsc in S1. rewrite Hi in S1. congruence.
    - destruct Hds as (-> & _). now apply configured_not_dev in Hc. }
  destruct Hk as [-> Hids].
  (* its reply tasks wait for nothing *)
  assert (Hdeps : Forall (fun t => t_deps t = []) rs').
  { destruct (build_shape _ _ _ _ Hbd) as (bb & HBt). destruct (bt_sel _ _ _ _ _ HBt) as (c & Hsel).
    pose proof (Z_run_filter E cfg fa p0 bb c l Hf Hbd Hsel Hl) as HZ. unfold holds in HZ. rewrite Hp in HZ. destruct HZ as [[HZ _] _].
    pose proof (z_flat _ _ _ _ _ _ HZ) as Hfl. rewrite Forall_forall in Hfl. specialize (Hfl _ Hin). unfold flat in Hfl. rewrite Hct in Hfl.
    apply Forall_forall. intros r Hr. rewrite Forall_forall in Hwf. apply (flat_sub r (Hwf r Hr)). intros x d Hxd. apply (Hfl x d). apply in_dls. now exists r. }
  (* the callback *)
  rewrite run_snoc. destruct (callback E fa _ (InGrpc k 0 sz) p Hd Hp) as (_ & _ & _ & H); [discriminate|]. rewrite H. clear H.
  set (q := advance E (InGrpc k 0 sz) (seen (InGrpc k 0 sz) (run E fa l) p)).
  assert (K : exists new, c_log (p_ctx q) = new ++ now /\ in_order (reply_ids a rs) new).
  2:{ destruct K as (new & -> & K). exists (answer (InGrpc k 0 sz) (run E fa l) q ++ new). split; [now rewrite <- app_assoc|].
      unfold in_order in *. rewrite evaluated_app, (evaluated_none _ (answer_silent _ _ _)), app_nil_r.
      destruct K as [K|(some & last & rest & K1 & K2 & K3)]; [now left|right]. exists some, last, rest. repeat split; auto. apply in_or_app. now right. }
  unfold q. cbn [advance]. unfold digest_pipe. destruct (seen_def (InGrpc k 0 sz) (run E fa l) p) as [S1 S2]. rewrite S1, Hn, S2. cbn [p_ctx].
  set (c0 := emit (EvHandle k (t_id t)) (set_grpc 0 sz (p_ctx (seen (InGrpc k 0 sz) (run E fa l) p)))).
  assert (Hc0 : c_log c0 = EvHandle k a :: EvGrpcResp k 0 sz :: f_log (run E fa l) /\ c_grpc c0 = Some (0%N, sz)).
  { unfold c0. rewrite Hid. pose proof (w_grpc _ _ (t_w _ _ _ _ (b_t _ _ _ _ _ HB))) as Hg. cbn in Hg. unfold set_grpc. cbn. rewrite Hg. split; reflexivity. }
  destruct Hc0 as [L0 G0]. clearbody c0.
  assert (Hap : exists c1, c_log c1 = now /\ apply E (core t) (emit (EvEval (t_id t)) c0) = (match rs' with [] => ODone | _ => ORequeued rs' end, c1)).
  { rewrite Hct, Hid. cbn [apply]. unfold apply_pending, process_response, take_grpc. cbn [emit with_log c_grpc]. rewrite G0. cbn [N.eqb negb].
    destruct rs' as [|r rs']; [eexists; split; [|reflexivity]; destruct g'; cbn; now rewrite L0|].
    cbn [with_grpc emit with_log c_log]. rewrite L0. fold now. rewrite Hb, Hv. eexists. split; [|reflexivity]. destruct g'; unfold add_binding; cbn; now rewrite L0. }
  destruct Hap as (c1 & L1 & Hap). destruct (wrapped_success E t _ _ _ Hap) as (o' & H1 & H2); [now destruct rs'|].
  unfold step. rewrite H1. destruct rs' as [|r rs'].
  - subst o'. cbn [map] in Hids. rewrite <- Hids. match goal with |- context [eval_pipe E ?pp] => destruct (eval_added E pp) as (new & -> & _) end.
    cbn [p_with_done p_with_ctx p_ctx emit with_log with_res c_log]. rewrite L1. exists (new ++ [EvDone (t_id t)]). split; [now rewrite <- app_assoc|]. left. now eexists.
  - destruct H2 as (l' & -> & I1 & I2). cbn [p_with_ctx p_ctx p_queue p_def p_done p_td p_term].
    match goal with |- context [eval_pipe E ?pp] => destruct (eval_front E pp l' (p_queue p) eq_refl) as (new & N1 & N2) end; [exact (map_t_deps_nil _ _ I2 Hdeps)|].
    rewrite N1. cbn [p_ctx emit with_log with_res c_log]. rewrite L1. exists (new ++ [EvDone (t_id t)]). split; [now rewrite <- app_assoc|].
    rewrite I1, Hids in N2. unfold in_order in *. rewrite evaluated_app. cbn [evaluated app]. destruct N2 as [N2|(some & last & rest & K1 & K2 & K3)]; [now left|right].
    exists some, last, rest. repeat split; auto. apply in_or_app. now left.
Qed.
Print Assumptions C15_reply_actions_run_first_and_in_order.
(** a call with three reply actions, the second of which denies the request; a call is
    queued behind it *)
Definition ex15 : list action_cfg := [dcall "hard" false [dhdr "true" false; ddeny "true" true false; dhdr "true" false]; dcall "soft" true []].
Example C15_ex :
  fresh_tokens Ed /\ try_from Ed (dcfg ex15) = Some (dfac Ed ex15) /\ serves Ed (dcfg ex15) (dfac Ed ex15) (set_of ex15) /\ later [] /\
  has_action Ed (dcfg ex15) (set_of ex15) (tx "0") (mkT (tx "true") false true false (OpGrpc (tx "r") (tx "hard") (tx "msg") [dhdr "true" false; ddeny "true" true false; dhdr "true" false])) /\
  tget (tx "hard") (pc_services (dcfg ex15)) = Some (dsvc true) /\
  ~ terminated (dlog Ed ex15 []) /\ call_open (dlog Ed ex15 []) 0 (tx "0") /\
  readable Ed (dsvc true) 0 (EvEval (tx "0") :: EvHandle 0 (tx "0") :: EvGrpcResp 0 0 0 :: dlog Ed ex15 []) /\
  evaluated (dlog Ed ex15 []) = [tx "0"] /\ evaluated (dlog Ed ex15 [InGrpc 0 0 0]) = [tx "0"; tx "0"; tx "0.0"; tx "0.1"].
Proof.
  split; [exact demo_fresh|]. split; [vm_compute; reflexivity|]. split; [serve|]. split; [now intros []|]. split; [acts 0|].
  split; [vm_compute; reflexivity|]. split; [apply no_end_spec; vm_compute; reflexivity|]. split; [apply call_open_spec; vm_compute; tauto|].
  split; [do 4 eexists; split; [vm_compute; reflexivity|split; vm_compute; reflexivity]|]. split; vm_compute; reflexivity.
Qed.
(** without the denial the three reply actions are evaluated before the queued call *)
Definition ex15b : list action_cfg := [dcall "hard" false [dhdr "true" false; ddeny "false" true false; dhdr "true" false]; dcall "soft" true []].
Example C15_ex2 : evaluated (dlog Ed ex15b [InGrpc 0 0 0]) = [tx "0"; tx "0"; tx "0.0"; tx "0.1"; tx "0.2"; tx "1"].
Proof. vm_compute. reflexivity. Qed.

(** A call that has to follow another one is sent while a call among the reply actions of the
    latter is on its way: a call counts as completed before its reply actions are. *)
Definition inner_call : taction := mkT (tx "true") false true false (OpGrpc (tx "q") (tx "soft") (tx "msg") []).
Definition ex90 : list action_cfg := [dcall "hard" false [inner_call]; dcall "soft" true []].
Theorem C90_sequential_call_overtakes_reply_call_refuted : exists E cfg fa s l i j r cl k past k',
  fresh_tokens E /\ try_from E cfg = Some fa /\ serves E cfg fa s /\ later l /\
  typed_at (as_actions s) i /\ call_at (as_actions s) i /\ must_follow (as_actions s) i j /\
  has_action E cfg s r inner_call /\ In r (reply_ids (nat_text j) [inner_call]) /\
  occurs (f_log (run E fa l)) (EvDispatch (nat_text i) cl (Some k)) past /\ call_open past k' r.
Proof.
  exists Ed, (dcfg ex90), (dfac Ed ex90), (set_of ex90), [InGrpc 0 0 0], 1, 0, (tx "0.0"). eexists _, _, _, 1%N.
  split; [exact demo_fresh|]. split; [vm_compute; reflexivity|]. split; [serve|]. split; [intros [H|[]]; discriminate|].
  split; [eexists; reflexivity|]. split; [eexists; split; [reflexivity|exact Logic.I]|].
  split; [split; [lia|]; split; [simpl; lia|]; left; do 4 eexists; reflexivity|].
  split; [eexists; split; [vm_compute; reflexivity|]; exists 0; eexists _, _; split; [reflexivity|]; split; [reflexivity|]; apply (wi_reply _ _ _ _ _ _ _ _ _ 0 inner_call); [reflexivity|constructor]|].
  split; [now left|]. split; [exists []; vm_compute; reflexivity|]. apply call_open_spec. vm_compute. tauto.
Qed.
Print Assumptions C90_sequential_call_overtakes_reply_call_refuted.
