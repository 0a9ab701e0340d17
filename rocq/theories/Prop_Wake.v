(** C18, C21, C71: nothing is forgotten. *)
From Coq Require Import String List NArith ZArith Bool Lia Arith.
From Verif Require Import Base Value Headers AttrPath Ctx CelProps CelEval Sse Body Tasks Exec Config Legacy Blueprint Factory Filter
  P_Frame P_Apply P_Exec P_Run P_Inv P_Ids P_Plan P_Deps P_Order P_Term P_Bar P_Cfg P_Hist P_Grow P_Wake Demo DemoCfg Prop_Order Prop_Term Prop_Guard.
Import ListNotations.
Open Scope list_scope.

(** * Specifications *)
(** what was in the history before the last callback *)
Definition before_last (E : env) (fa : factory) (l : list fin) : log :=
  match l with [] => [] | _ => f_log (run E fa (removelast l)) end.
(** action [a] was evaluated during the last callback *)
Definition just_evaluated (E : env) (fa : factory) (l : list fin) (a : text) : Prop :=
  exists evs, f_log (run E fa l) = evs ++ before_last E fa l /\ In (EvEval a) evs.
(** an action of the set that has neither completed nor failed and has no call on its way *)
Definition waiting (h : log) (a : text) : Prop :=
  ~ In (EvDone a) h /\ ~ In (EvFailed a) h /\ forall k, ~ call_open h k a.
(** the pipeline of the request exists: the request matched an action set *)
Definition matched (h : log) : Prop := In (EvMetric MHits) h.

(** * Lemmas *)
Lemma A_run_filter E cfg fa p b c l : try_from E cfg = Some fa -> build E fa (ctx0 [EvReqHeaders]) = BOk p ->
  select E fa (ctx0 [EvReqHeaders]) = (Some (Some b), c) -> later l ->
  holds (A E (b_dl (bp_actions b))) (AL E (b_dl (bp_actions b))) (run E fa l).
Proof.
  intros Hf Hb Hs Hl. destruct (A_start E cfg fa p Hf Hb) as (b' & svs' & B1 & B2 & B3 & B4).
  destruct (bt_sel _ _ _ _ _ B1) as [c' Hs']. rewrite Hs in Hs'. injection Hs' as <- _.
  apply pipe_invariant with (p := p); auto. apply A_finv. eapply served_plan; eauto.
Qed.
(** dependencies are those computed for the set *)
Lemma plan_deps E cfg fa s b c x ds d : serves E cfg fa s -> select E fa (ctx0 [EvReqHeaders]) = (Some (Some b), c) ->
  In (x, ds) (b_dl (bp_actions b)) -> In d ds -> exists i j, x = nat_text i /\ d = nat_text j /\ depends (as_actions s) i j.
Proof.
  intros (_ & svs & bp & c' & H1 & H2 & H3) Hs. rewrite Hs in H3. injection H3 as -> _. cbn [bp_actions].
  intros Hx Hd. unfold b_dl in Hx. rewrite flat_map_app in Hx. apply in_app_or in Hx as [Hx|Hx].
  - apply compile_set_compiled in H2. apply in_flat_map in Hx as (a & Ha & Hx). apply In_nth_error in Ha as (i & Ha).
    destruct (cm_nth _ _ _ _ _ H2 i a Ha) as (cf & dd & B1 & B2 & B3).
    destruct (compile_action_typed _ _ _ _ _ _ _ B3) as (t & act0 & C1 & ->).
    destruct (compile_typed_ids _ _ _ _ _ C1) as (D1 & D2 & D3 & D4 & D5).
    apply set_deps_dl in Hx as [[-> ->]|Hx]; [|apply D5 in Hx as [-> _]; destruct Hd].
    pose proof (deps_spec _ _ _ B2 d) as Hsp. destruct (proj1 Hsp Hd) as (j & -> & _). exists i, j. rewrite D1. repeat split. exists dd. auto.
  - exfalso. apply in_flat_map in Hx as (a & Ha & Hx). unfold cfg_dev in Ha. destruct (pc_identifier cfg); [|easy]. destruct Ha as [<-|[]].
    unfold dev_action in Hx. destruct (cfg_tracing svs cfg); simpl in Hx; destruct Hx as [[= _ <-]|[]]; easy.
Qed.
Lemma top_ids E cfg fa s b c i : serves E cfg fa s -> select E fa (ctx0 [EvReqHeaders]) = (Some (Some b), c) ->
  i < length (as_actions s) -> In (nat_text i) (map a_id (bp_actions b)).
Proof.
  intros (_ & svs & bp & c' & H1 & H2 & H3) Hs Hi. rewrite Hs in H3. injection H3 as -> _. cbn [bp_actions].
  apply compile_set_compiled in H2. rewrite <- (cm_len _ _ _ _ _ H2) in Hi.
  destruct (nth_error (bp_actions bp) i) as [a|] eqn:Ha; [|apply nth_error_None in Ha; lia].
  rewrite map_app. apply in_or_app. left. destruct (compiled_top _ _ _ _ _ _ _ H2 Ha) as (<- & _). apply in_map. eapply nth_error_In; eauto.
Qed.
Lemma snoc_last {A} (l : list A) x : removelast (l ++ [x]) = l.
Proof. apply removelast_last. Qed.
Lemma before_snoc E fa l i : before_last E fa (l ++ [i]) = f_log (run E fa l).
Proof. unfold before_last. rewrite snoc_last. destruct l; reflexivity. Qed.

(** the queue of a pipeline, callback after callback *)
Lemma queue_reason E cfg fa l p : try_from E cfg = Some fa -> later l -> f_pipe (run E fa l) = Some p ->
  reason (before_last E fa l) p /\ exists evs, f_log (run E fa l) = evs ++ c_log (p_ctx p).
Proof.
  intros Hf Hl Hp. destruct (reach E fa l p Hl Hp) as (p0 & Hb & _).
  destruct (build_shape _ _ _ _ Hb) as (b & HB). destruct (bt_sel _ _ _ _ _ HB) as (c & Hs).
  destruct (run_init l) as [-> |(l' & i & ->)].
  - destruct (first_callback E fa p0 Hb) as (F1 & _ & _ & F4). cbv zeta in *. rewrite F1 in Hp. apply kept_busy in Hp as [-> _].
    split; [|rewrite F4; now exists [EvRet (match kept (eval_pipe E (p_emit (EvMetric MHits) p0)) with Some _ => tripped (p_ctx (eval_pipe E (p_emit (EvMetric MHits) p0))) | None => false end)]].
    destruct (Z_start E cfg fa p0 b c Hf Hb Hs) as [HZ _]. eapply eval_reason; [exact HZ|]. cbn. eexists. symmetry. apply app_nil_r.
  - assert (Hl' : later l') by (intros H; apply Hl; apply in_or_app; now left).
    assert (Hi : i <> InReqHeaders) by (intros ->; apply Hl; apply in_or_app; right; now left).
    rewrite run_snoc in *. rewrite before_snoc.
    destruct (f_pipe (run E fa l')) as [p'|] eqn:Hp'.
    2:{ destruct (no_pipe_step E fa _ i Hp' Hi) as (H & _). congruence. }
    pose proof (Z_run_filter E cfg fa p0 b c l' Hf Hb Hs Hl') as HZ. unfold holds in HZ. rewrite Hp' in HZ. destruct HZ as [[HZ HN] Hlv].
    assert (Hdead : f_dead (run E fa l') = false) by (apply pipe_alive; [exact Hl'|congruence]).
    destruct (callback E fa _ i p' Hdead Hp' Hi) as (F1 & _ & _ & F4). cbv zeta in *. rewrite F1 in Hp. apply kept_busy in Hp as [-> _].
    split; [|rewrite F4; eauto].
    assert (Hpre : forall e, exists e0, e :: f_log (run E fa l') = e0 ++ f_log (run E fa l')) by (intros e; now exists [e]).
    pose proof (ZN_finv E (length (p_td p0)) (nodess (p_queue p0)) (map a_id (bp_actions b))) as HI.
    destruct i as [|n e| |n e|k st sz]; [easy| | | |]; cbn [advance].
    + eapply eval_reason; [|rewrite seen_log by discriminate; apply Hpre].
      eapply (fi_reqb _ _ _ HI). eapply (fi_neutral _ _ _ HI (f_take (run E fa l') p') (EvReqBody n e)); [exact Logic.I|split; assumption].
    + eapply eval_reason; [|rewrite seen_log by discriminate; now exists [EvMetric MAllowed; EvRespHeaders]].
      refine (proj1 (fi_neutral _ _ _ HI (p_emit EvRespHeaders (f_take (run E fa l') p')) (EvMetric MAllowed) Logic.I _)).
      eapply (fi_neutral _ _ _ HI (f_take (run E fa l') p') EvRespHeaders); [exact Logic.I|split; assumption].
    + eapply eval_reason; [|rewrite seen_log by discriminate; apply Hpre].
      eapply (fi_respb _ _ _ HI). eapply (fi_neutral _ _ _ HI (f_take (run E fa l') p') (EvRespBody n e)); [exact Logic.I|split; assumption].
    + apply (digest_reason E _ _ _ k st sz (f_take (run E fa l') p') (f_log (run E fa l')) Hlv HZ). now exists [].
Qed.
Lemma matches_open l d k t a : Forall2 matches l d -> In (k, t) d -> t_id t = a -> ~ is_noop t -> In (k, Some a) l.
Proof.
  intros Hm H1 H2 H3. induction Hm as [|[k1 o] [k2 t'] l0 d [M1 M2] _ IH]; [destruct H1|].
  simpl in M1. subst k2. destruct H1 as [[= -> ->]|H1]; [|right; auto]. simpl in M2. destruct o as [b|]; [|easy]. left. congruence.
Qed.
Lemma waiting_queued E cfg fa s l p i : fresh_tokens E -> try_from E cfg = Some fa -> serves E cfg fa s -> later l ->
  f_pipe (run E fa l) = Some p -> ~ terminated (f_log (run E fa l)) -> i < length (as_actions s) ->
  waiting (f_log (run E fa l)) (nat_text i) -> exists t, In t (p_queue p) /\ t_id t = nat_text i.
Proof.
  intros F Hf Hs Hl Hp Ht Hi (W1 & W2 & W3). destruct (reach E fa l p Hl Hp) as (p0 & Hb & _).
  destruct (build_shape _ _ _ _ Hb) as (b & HB). destruct (bt_sel _ _ _ _ _ HB) as (c & Hsel).
  pose proof (Z_run_filter E cfg fa p0 b c l Hf Hb Hsel Hl) as HZ. unfold holds in HZ. rewrite Hp in HZ. destruct HZ as [[HZ HN] _].
  assert (Htm : p_term p = false).
  { destruct (p_term p) eqn:H; [|reflexivity]. exfalso. apply Ht. exact (proj2 (t_over _ _ _ _ (b_t _ _ _ _ _ (z_b _ _ _ _ _ _ HZ))) H). }
  destruct (z_acc _ _ _ _ _ _ HZ F Htm (nat_text i) (top_ids _ _ _ _ _ _ _ Hs Hsel Hi)) as [H|[(k & t & H1 & H2 & H3)|[H|H]]].
  - rewrite app_nil_r in H. apply in_map_iff in H as (t & H1 & H2). exists t. auto.
  - exfalso. pose proof (b_open _ _ _ _ _ (z_b _ _ _ _ _ _ HZ) F) as Hm. apply (W3 k). apply call_open_spec.
    apply (matches_open _ _ _ _ _ Hm (nget_In _ _ _ H1) H2 H3).
  - exfalso. apply W1. exact (HN _ H).
  - now apply W2 in H.
Qed.
Lemma queued_deps E cfg fa s l p t i d : try_from E cfg = Some fa -> serves E cfg fa s -> later l ->
  f_pipe (run E fa l) = Some p -> In t (p_queue p) -> t_id t = nat_text i -> In d (t_deps t) ->
  exists j, d = nat_text j /\ depends (as_actions s) i j.
Proof.
  intros Hf Hs Hl Hp Hin Hid Hd. destruct (reach E fa l p Hl Hp) as (p0 & Hb & _).
  destruct (build_shape _ _ _ _ Hb) as (b & HB). destruct (bt_sel _ _ _ _ _ HB) as (c & Hsel).
  pose proof (A_run_filter E cfg fa p0 b c l Hf Hb Hsel Hl) as HA. unfold holds in HA. rewrite Hp in HA. destruct HA as [HA _].
  assert (Hq : wf_q t).
  { pose proof (w_queue _ _ (j_w _ _ (a_j _ _ _ _ HA))) as H. rewrite Forall_forall in H. apply H. exact Hin. }
  destruct (dl_wf t Hq) as [H|H].
  - exfalso. apply (tu_not_number i). left. congruence.
  - assert (HD : In (t_id t, t_deps t) (b_dl (bp_actions b))).
    { apply (o_dl _ _ _ (a_o _ _ _ _ HA)). apply in_dls. exists t. split; [|exact H]. unfold items. rewrite !in_app_iff. right; left. exact Hin. }
    destruct (plan_deps _ _ _ _ _ _ _ _ _ Hs Hsel HD Hd) as (i' & j & Hi & Hj & Hdep).
    rewrite Hid in Hi. apply nat_text_inj in Hi. subst i'. exists j. auto.
Qed.
Lemma done_iff E cfg fa l p d : try_from E cfg = Some fa -> later l -> f_pipe (run E fa l) = Some p ->
  (In d (p_done p) <-> In (EvDone d) (f_log (run E fa l))).
Proof.
  intros Hf Hl Hp. destruct (reach E fa l p Hl Hp) as (p0 & Hb & _).
  destruct (build_shape _ _ _ _ Hb) as (b & HB). destruct (bt_sel _ _ _ _ _ HB) as (c & Hsel).
  pose proof (Z_run_filter E cfg fa p0 b c l Hf Hb Hsel Hl) as HZ. unfold holds in HZ. rewrite Hp in HZ. destruct HZ as [[HZ HN] _].
  split; [apply HN|apply (z_done _ _ _ _ _ _ HZ)].
Qed.

(** * C18 *)
(** While a request is processed: an action of its set that has not completed or failed, and
    has no call on its way, was evaluated during the last callback (and asked to be evaluated
    again), or one of the actions it depends on has not completed. *)
Theorem C18_no_lost_wakeup : forall E cfg fa s l i,
  fresh_tokens E -> try_from E cfg = Some fa -> serves E cfg fa s -> later l ->
  f_pipe (run E fa l) <> None -> ~ terminated (f_log (run E fa l)) ->
  i < length (as_actions s) -> waiting (f_log (run E fa l)) (nat_text i) ->
  just_evaluated E fa l (nat_text i) \/
  exists j, depends (as_actions s) i j /\ ~ In (EvDone (nat_text j)) (f_log (run E fa l)).
Proof.
  intros E cfg fa s l i F Hf Hs Hl Hne Ht Hi Hw. destruct (f_pipe (run E fa l)) as [p|] eqn:Hp; [|easy].
  destruct (waiting_queued E cfg fa s l p i F Hf Hs Hl Hp Ht Hi Hw) as (t & Hin & Hid).
  destruct (queue_reason E cfg fa l p Hf Hl Hp) as [Hr (e2 & He)].
  destruct (Hr t Hin) as [(e1 & H1 & H2)|(d & H1 & H2)].
  - left. exists (e2 ++ e1). rewrite He, H1, app_assoc. split; [reflexivity|]. apply in_or_app. right. now rewrite <- Hid.
  - right. destruct (queued_deps E cfg fa s l p t i d Hf Hs Hl Hp Hin Hid H1) as (j & -> & Hj). exists j. split; [exact Hj|].
    rewrite <- (done_iff E cfg fa l p _ Hf Hl Hp). exact H2.
Qed.
Print Assumptions C18_no_lost_wakeup.
(** a call that must wait for data, and a sequential one behind it *)
Definition dwait (sv : string) (seq : bool) : action_cfg :=
  CTyped (mkT (tx "true") false true seq (OpGrpc (tx "r") (tx sv) (tx "wait") [])).
Definition ex18 : list action_cfg := [dwait "hard" false; dcall "soft" true []].
Example C18_ex :
  fresh_tokens Ed /\ try_from Ed (dcfg ex18) = Some (dfac Ed ex18) /\ serves Ed (dcfg ex18) (dfac Ed ex18) (mkSet (tx "s") [tx "h"] [] ex18) /\
  later [InRespBody 3 false] /\ f_pipe (run Ed (dfac Ed ex18) [InRespBody 3 false]) <> None /\ ~ terminated (dlog Ed ex18 [InRespBody 3 false]) /\
  waiting (dlog Ed ex18 [InRespBody 3 false]) (nat_text 0) /\ waiting (dlog Ed ex18 [InRespBody 3 false]) (nat_text 1) /\
  just_evaluated Ed (dfac Ed ex18) [InRespBody 3 false] (nat_text 0) /\ depends ex18 1 0.
Proof.
  assert (Hw : forall a, waiting (dlog Ed ex18 [InRespBody 3 false]) a).
  { intros a. assert (H : forallb (fun e => match e with EvDone _ | EvFailed _ | EvTerminate _ => false | _ => true end) (dlog Ed ex18 [InRespBody 3 false]) = true) by (vm_compute; reflexivity).
    rewrite forallb_forall in H. split; [intros Hi; now apply H in Hi|]. split; [intros Hi; now apply H in Hi|].
    intros k Hk. apply call_open_spec in Hk. vm_compute in Hk. exact Hk. }
  split; [exact demo_fresh|]. split; [vm_compute; reflexivity|]. split; [serve|]. split; [intros [H|[]]; discriminate|].
  split; [vm_compute; discriminate|].
  split; [intros (a & Ha); assert (H : forallb (fun e => match e with EvTerminate _ => false | _ => true end) (dlog Ed ex18 [InRespBody 3 false]) = true) by (vm_compute; reflexivity); rewrite forallb_forall in H; now apply H in Ha|].
  split; [apply Hw|]. split; [apply Hw|]. split.
  - exists (firstn 3 (dlog Ed ex18 [InRespBody 3 false])). split; [vm_compute; reflexivity|vm_compute; tauto].
  - exists [nat_text 0]. split; [vm_compute; reflexivity|now left].
Qed.

(** * C21 *)
Lemma matched_built E fa l : later l -> matched (f_log (run E fa l)) -> exists p, build E fa (ctx0 [EvReqHeaders]) = BOk p.
Proof.
  unfold matched. destruct (build E fa (ctx0 [EvReqHeaders])) as [p|c|c|c] eqn:Hb; [eauto| | |]; intros Hl Hm; exfalso;
    assert (Hnp : forall p, build E fa (ctx0 [EvReqHeaders]) <> BOk p) by (intros p; congruence); revert Hl Hm.
  all: induction l as [|i l IH] using rev_ind; intros Hl Hm.
  all: try (pose proof (headers_log E fa) as H; rewrite Hb in H).
  all: try (rewrite run_snoc in Hm;
    assert (Hl' : later l) by (intros H0; apply Hl; apply in_or_app; now left);
    destruct (no_pipe_run E fa l Hnp Hl') as [H1 _];
    destruct (no_pipe_step E fa _ i H1) as (H3 & evs & H4 & H5 & _); [intros ->; apply Hl; apply in_or_app; right; now left|];
    rewrite H4 in Hm; apply in_app_or in Hm as [Hm|Hm]; [|now apply IH];
    rewrite Forall_forall in H5; apply H5 in Hm as [Hm|(x & y & z & Hm)]; [exact Hm|discriminate]).
  - destruct H as (H & _). rewrite H in Hm. destruct Hm as [Hm|[Hm|[Hm|[]]]]; discriminate.
  - destruct H as (_ & ok & _ & H). rewrite H in Hm. destruct ok; simpl in Hm; repeat (destruct Hm as [Hm|Hm]; [discriminate|]); exact Hm.
  - destruct H as (_ & _ & H). rewrite H in Hm. destruct Hm as [Hm|[]]. discriminate.
Qed.
(** Partial: when the processing of a request that matched a set ends without having been
    terminated, every action of the set has completed or failed; in particular, if none
    failed no guard was skipped. *)
Theorem C21_none_skipped_unless_failed_partial : forall E cfg fa s l i,
  fresh_tokens E -> try_from E cfg = Some fa -> serves E cfg fa s -> later l ->
  matched (f_log (run E fa l)) -> f_pipe (run E fa l) = None -> ~ terminated (f_log (run E fa l)) ->
  i < length (as_actions s) ->
  In (EvDone (nat_text i)) (f_log (run E fa l)) \/ In (EvFailed (nat_text i)) (f_log (run E fa l)).
Proof.
  intros E cfg fa s l i F Hf Hs Hl Hm Hp Ht Hi. destruct (matched_built E fa l Hl Hm) as (p0 & Hb).
  destruct (build_shape _ _ _ _ Hb) as (b & HB). destruct (bt_sel _ _ _ _ _ HB) as (c & Hsel).
  pose proof (Z_run_filter E cfg fa p0 b c l Hf Hb Hsel Hl) as HZ. unfold holds in HZ. rewrite Hp in HZ. destruct HZ as [_ HZ].
  apply HZ; auto. eapply top_ids; eauto.
Qed.
Print Assumptions C21_none_skipped_unless_failed_partial.
Example C21_ex : fresh_tokens Ed /\ serves Ed (dcfg ex01) (dfac Ed ex01) (mkSet (tx "s") [tx "h"] [] ex01) /\
  matched (dlog Ed ex01 [InGrpc 0 0 0; InGrpc 1 0 0]) /\ f_pipe (run Ed (dfac Ed ex01) [InGrpc 0 0 0; InGrpc 1 0 0]) = None /\
  ~ terminated (dlog Ed ex01 [InGrpc 0 0 0; InGrpc 1 0 0]) /\ 1 < length ex01.
Proof.
  split; [exact demo_fresh|]. split; [serve|]. split; [vm_compute; tauto|]. split; [vm_compute; reflexivity|]. split; [|simpl; lia].
  intros (a & Ha). assert (H : forallb (fun e => match e with EvTerminate _ => false | _ => true end) (dlog Ed ex01 [InGrpc 0 0 0; InGrpc 1 0 0]) = true) by (vm_compute; reflexivity).
  rewrite forallb_forall in H. now apply H in Ha.
Qed.
(** An action that sets headers fails; the guard that was to follow is never evaluated, the
    request and the response headers go through. *)
Definition ex21 : list action_cfg := [CTyped (dhdr "err" false); dcall "hard" true []].
Definition set21 : action_set := mkSet (tx "s") [tx "h"] [] ex21.
Theorem C21_none_skipped_refuted : exists E cfg fa s h,
  fresh_tokens E /\ try_from E cfg = Some fa /\ serves E cfg fa s /\ h = f_log (run E fa [InReqBody 0 true; InRespHeaders; InRespBody 0 true]) /\
  In (EvFailed (nat_text 0)) h /\ ~ terminated h /\ guard E cfg s (nat_text 1) /\ call_at (as_actions s) 1 /\
  ~ In (EvEval (nat_text 1)) h /\ (forall st hd b ok, ~ In (EvReply st hd b ok) h) /\
  f_log (run E fa []) = EvRet false :: tl (f_log (run E fa [])) /\
  f_log (run E fa [InReqBody 0 true]) = EvRet false :: EvReqBody 0 true :: f_log (run E fa []).
Proof.
  exists Ed, (dcfg ex21), (dfac Ed ex21), set21, (dlog Ed ex21 [InReqBody 0 true; InRespHeaders; InRespBody 0 true]).
  assert (H : forallb (fun e => match e with EvTerminate _ | EvReply _ _ _ _ => false | EvEval a => text_eqb a (nat_text 0) | _ => true end) (dlog Ed ex21 [InReqBody 0 true; InRespHeaders; InRespBody 0 true]) = true) by (vm_compute; reflexivity).
  rewrite forallb_forall in H.
  split; [exact demo_fresh|]. split; [vm_compute; reflexivity|]. split; [serve|]. split; [reflexivity|]. split; [vm_compute; tauto|].
  split; [intros (a & Ha); now apply H in Ha|].
  split.
  { right. eexists. exists (mkT (tx "true") false true true (OpGrpc (tx "r") (tx "hard") (tx "msg") [])).
    split; [vm_compute; reflexivity|]. split; [|reflexivity]. exists 1. eexists _, _. split; [reflexivity|]. split; [reflexivity|]. constructor. }
  split; [eexists; split; [reflexivity|exact Logic.I]|].
  split; [intros Ha; apply H in Ha; vm_compute in Ha; discriminate|]. split; [intros st hd b ok Ha; now apply H in Ha|].
  split; vm_compute; reflexivity.
Qed.
Print Assumptions C21_none_skipped_refuted.

(** * C71 *)
Lemma alive E fa l p : build E fa (ctx0 [EvReqHeaders]) = BOk p -> later l -> f_dead (run E fa l) = false.
Proof.
  intros Hb. induction l as [|i l IH] using rev_ind; intros Hl.
  - now destruct (first_callback E fa p Hb) as (_ & _ & H & _).
  - assert (Hl' : later l) by (intros H0; apply Hl; apply in_or_app; now left).
    assert (Hi : i <> InReqHeaders) by (intros ->; apply Hl; apply in_or_app; right; now left).
    specialize (IH Hl'). rewrite run_snoc. destruct (f_pipe (run E fa l)) as [q|] eqn:Hp.
    + now destruct (callback E fa _ i q IH Hp Hi) as (_ & _ & H & _).
    + now destruct (no_pipe_callback E fa _ i IH Hp Hi) as (_ & _ & H & _).
Qed.
Lemma ret_true_built E fa l : later l -> In (EvRet true) (f_log (run E fa l)) -> exists p, build E fa (ctx0 [EvReqHeaders]) = BOk p.
Proof.
  destruct (build E fa (ctx0 [EvReqHeaders])) as [p|c|c|c] eqn:Hb; [eauto| | |]; intros Hl Hm; exfalso;
    assert (Hnp : forall p, build E fa (ctx0 [EvReqHeaders]) <> BOk p) by (intros p; congruence); revert Hl Hm.
  all: induction l as [|i l IH] using rev_ind; intros Hl Hm.
  all: try (pose proof (headers_log E fa) as H; rewrite Hb in H).
  all: try (rewrite run_snoc in Hm;
    assert (Hl' : later l) by (intros H0; apply Hl; apply in_or_app; now left);
    destruct (no_pipe_run E fa l Hnp Hl') as [H1 _];
    destruct (no_pipe_step E fa _ i H1) as (H3 & evs & H4 & H5 & H6 & _); [intros ->; apply Hl; apply in_or_app; right; now left|];
    rewrite H4 in Hm; apply in_app_or in Hm as [Hm|Hm]; [apply H6 in Hm; discriminate|now apply IH]).
  - destruct H as (H & _). rewrite H in Hm. destruct Hm as [Hm|[Hm|[Hm|[]]]]; discriminate.
  - destruct H as (_ & ok & _ & H). rewrite H in Hm. destruct ok; simpl in Hm; repeat (destruct Hm as [Hm|Hm]; [discriminate|]); exact Hm.
  - destruct H as (_ & _ & H). rewrite H in Hm. destruct Hm as [Hm|[]]. discriminate.
Qed.
(** a response paused at its end is still being processed *)
Lemma paused_pipe E fa l n past : later l -> f_log (run E fa (l ++ [InRespBody n true])) = EvRet true :: past ->
  exists p, f_pipe (run E fa (l ++ [InRespBody n true])) = Some p.
Proof.
  intros Hl' Hlog. set (i := InRespBody n true) in *. assert (Hi : i <> InReqHeaders) by discriminate.
  assert (Hl : later (l ++ [i])) by now apply later_app.
  destruct (ret_true_built E fa (l ++ [i]) Hl) as (p0 & Hb); [rewrite Hlog; now left|].
  pose proof (alive E fa l p0 Hb Hl') as Hd. rewrite run_snoc in *. destruct (f_pipe (run E fa l)) as [q|] eqn:Hp.
  - destruct (callback E fa _ i q Hd Hp Hi) as (F1 & _ & _ & F4). cbv zeta in *. set (r := advance E i (seen i (run E fa l) q)) in *.
    rewrite F1. destruct (kept r) eqn:Hk; [eauto|]. exfalso. unfold answer in F4. cbn [i] in F4. rewrite Hk in F4. rewrite Hlog in F4. discriminate.
  - exfalso. destruct (no_pipe_callback E fa _ i Hd Hp Hi) as (_ & _ & _ & H). rewrite H in Hlog. discriminate.
Qed.
Lemma queued_top E cfg fa s l p t d : try_from E cfg = Some fa -> serves E cfg fa s -> later l ->
  f_pipe (run E fa l) = Some p -> In t (p_queue p) -> In d (t_deps t) -> exists i, t_id t = nat_text i.
Proof.
  intros Hf Hs Hl Hp Hin Hd. destruct (reach E fa l p Hl Hp) as (p0 & Hb & _).
  destruct (build_shape _ _ _ _ Hb) as (b & HB). destruct (bt_sel _ _ _ _ _ HB) as (c & Hsel).
  pose proof (A_run_filter E cfg fa p0 b c l Hf Hb Hsel Hl) as HA. unfold holds in HA. rewrite Hp in HA. destruct HA as [HA _].
  assert (HD : In (t_id t, t_deps t) (b_dl (bp_actions b))).
  { apply (o_dl _ _ _ (a_o _ _ _ _ HA)). apply in_dls. exists t. split; [unfold items; rewrite !in_app_iff; right; left; exact Hin|].
    clear - Hd. induction t; simpl in *; try easy; auto. }
  destruct (plan_deps _ _ _ _ _ _ _ _ _ Hs Hsel HD Hd) as (i & j & Hi & _). eauto.
Qed.
Lemma depends_lt acts i j : depends acts i j -> j < i /\ i < length acts.
Proof.
  intros (dd & H1 & H2). destruct (proj1 (deps_spec _ _ _ H1 (nat_text j)) H2) as (j' & Hj & Hd). apply nat_text_inj in Hj. subst j'.
  destruct Hd as [Hd1 Hd2]. split; [exact Hd1|]. apply nth_error_Some. intros Hx. now rewrite Hx in Hd2.
Qed.
(** Partial: if no action has failed, a response paused at the end of its body waits for a
    call, or for an action that was evaluated just now and asked to be evaluated again. *)
Theorem C71_response_released_partial : forall E cfg fa s l n past,
  fresh_tokens E -> try_from E cfg = Some fa -> serves E cfg fa s -> later l ->
  let l' := l ++ [InRespBody n true] in
  f_log (run E fa l') = EvRet true :: past ->
  (forall a, ~ In (EvFailed a) (f_log (run E fa l'))) ->
  (exists k, awaited (f_log (run E fa l')) k) \/ exists a, just_evaluated E fa l' a.
Proof.
  intros E cfg fa s l n past F Hf Hs Hl l' Hlog Hfail.
  assert (Hl' : later l') by (intros H; apply in_app_or in H as [H|[H|[]]]; [now apply Hl|discriminate]).
  destruct (paused_pipe E fa l n past Hl Hlog) as (p & Hp). fold l' in Hp.
  destruct (reach E fa l' p Hl' Hp) as (p0 & Hb & HB & Hlv & Hdead).
  destruct (build_shape _ _ _ _ Hb) as (b & HBt). destruct (bt_sel _ _ _ _ _ HBt) as (c & Hsel).
  pose proof (Z_run_filter E cfg fa p0 b c l' Hf Hb Hsel Hl') as HZ. unfold holds in HZ. rewrite Hp in HZ. destruct HZ as [[HZ HN] _].
  destruct (p_def p) as [|[k t] d] eqn:Hdf.
  - right. destruct (pipe_busy E fa l' p Hl' Hp) as [Hq|Hq]; [|congruence].
    destruct (p_queue p) as [|t ts] eqn:Hqe; [easy|]. destruct (queue_reason E cfg fa l' p Hf Hl' Hp) as [Hr (e2 & He)].
    destruct (Hr t) as [(e1 & H1 & H2)|(d & H1 & H2)]; [rewrite Hqe; now left| |].
    + exists (t_id t), (e2 ++ e1). rewrite He, H1, app_assoc. split; [reflexivity|]. apply in_or_app. now right.
    + exfalso. assert (Hin : In t (p_queue p)) by (rewrite Hqe; now left).
      destruct (queued_top E cfg fa s l' p t d Hf Hs Hl' Hp Hin H1) as (i & Hi).
      destruct (queued_deps E cfg fa s l' p t i d Hf Hs Hl' Hp Hin Hi H1) as (j & -> & Hdep).
      assert (Hij : j < i /\ i < length (as_actions s)) by now apply depends_lt.
      assert (Htm : p_term p = false).
      { destruct (p_term p) eqn:H; [|reflexivity]. destruct Hlv as [_ Hlv]. rewrite (Hlv H) in Hqe. discriminate. }
      destruct (z_acc _ _ _ _ _ _ HZ F Htm (nat_text j)) as [H|[(k & x & H & _)|[H|H]]].
      * eapply top_ids; eauto. lia.
      * cbn in H. rewrite app_nil_r, Hqe in H. destruct H as [H|H]; [rewrite Hi in H; apply nat_text_inj in H; lia|].
        pose proof (z_ord _ _ _ _ _ _ HZ) as Ho. cbn in Ho. rewrite app_nil_r, Hqe in Ho. destruct Ho as [Ho _]. now apply (Ho _ H1).
      * cbn in H. rewrite Hdf in H. discriminate.
      * now apply H2.
      * now apply Hfail in H.
  - left. destruct (opens (f_log (run E fa l'))) as [|[k0 o] os] eqn:Ho.
    + exfalso. pose proof (b_open _ _ _ _ _ HB F) as Hm. cbn [f_take p_def p_ctx c_log p_with_ctx with_log] in Hm. change (p_def (f_take (run E fa l') p)) with (p_def p) in Hm. change (c_log (p_ctx (f_take (run E fa l') p))) with (f_log (run E fa l')) in Hm. rewrite Ho, Hdf in Hm. inversion Hm.
    + exists k0. apply opens_awaited. exists o. rewrite Ho. now left.
Qed.
Print Assumptions C71_response_released_partial.
(** a call that waits for data when the response body ends *)
Example C71_ex : let l := [InRespHeaders] in
  fresh_tokens Ed /\ serves Ed (dcfg ex01) (dfac Ed ex01) (mkSet (tx "s") [tx "h"] [] ex01) /\ later l /\
  f_log (run Ed (dfac Ed ex01) (l ++ [InRespBody 3 true])) = EvRet true :: tl (dlog Ed ex01 (l ++ [InRespBody 3 true])) /\
  forall a, ~ In (EvFailed a) (f_log (run Ed (dfac Ed ex01) (l ++ [InRespBody 3 true]))).
Proof.
  split; [exact demo_fresh|]. split; [serve|]. split; [intros [H|[]]; discriminate|]. split; [vm_compute; reflexivity|].
  assert (H : forallb (fun e => match e with EvFailed _ => false | _ => true end) (dlog Ed ex01 ([InRespHeaders] ++ [InRespBody 3 true])) = true) by (vm_compute; reflexivity).
  rewrite forallb_forall in H. intros a Ha. now apply H in Ha.
Qed.
(** An action failed; the whole response has been received, nothing is in flight and nothing
    was evaluated, yet the response is paused. The only events that can follow are answers
    to calls, and there is no call. *)
Theorem C71_response_released_refuted : exists E cfg fa s l past,
  fresh_tokens E /\ try_from E cfg = Some fa /\ serves E cfg fa s /\ later (l ++ [InRespBody 0 true]) /\
  f_log (run E fa (l ++ [InRespBody 0 true])) = EvRet true :: past /\
  (forall k, ~ awaited (f_log (run E fa (l ++ [InRespBody 0 true]))) k) /\
  (forall a, ~ just_evaluated E fa (l ++ [InRespBody 0 true]) a) /\ ~ terminated (f_log (run E fa (l ++ [InRespBody 0 true]))).
Proof.
  exists Ed, (dcfg ex21), (dfac Ed ex21), set21, [InReqBody 0 true; InRespHeaders]. eexists.
  split; [exact demo_fresh|]. split; [vm_compute; reflexivity|]. split; [serve|].
  split; [intros [H|[H|[H|[]]]]; discriminate|]. split; [vm_compute; reflexivity|]. split; [|split].
  - intros k Hk. apply opens_awaited in Hk as (o & Hk). vm_compute in Hk. exact Hk.
  - intros a (evs & H1 & H2). assert (Hn : evs = [EvRet true; EvRespBody 0 true]).
    { rewrite before_snoc in H1. rewrite run_snoc in H1.
      assert (H3 : f_log (fstep Ed (dfac Ed ex21) (run Ed (dfac Ed ex21) [InReqBody 0 true; InRespHeaders]) (InRespBody 0 true)) = [EvRet true; EvRespBody 0 true] ++ f_log (run Ed (dfac Ed ex21) [InReqBody 0 true; InRespHeaders])) by (vm_compute; reflexivity).
      rewrite H3 in H1. now apply app_inv_tail in H1. }
    rewrite Hn in H2. destruct H2 as [H2|[H2|[]]]; discriminate.
  - intros (a & Ha). assert (H : forallb (fun e => match e with EvTerminate _ => false | _ => true end) (dlog Ed ex21 ([InReqBody 0 true; InRespHeaders] ++ [InRespBody 0 true])) = true) by (vm_compute; reflexivity).
    rewrite forallb_forall in H. now apply H in Ha.
Qed.
Print Assumptions C71_response_released_refuted.
