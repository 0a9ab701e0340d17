(** C11, C12, C13, C14: what the failure mode of a service governs. *)
From Coq Require Import String List NArith ZArith Bool Lia Arith.
From Verif Require Import Base Value Headers AttrPath Ctx CelProps CelEval Sse Body Tasks Exec Config Legacy Blueprint Factory Filter
  P_Frame P_Apply P_Exec P_Run P_Inv P_Ids P_Plan P_Deps P_Order P_Term P_Bar P_Cfg P_Hist P_Grow P_Wake P_Fail Demo DemoCfg
  Prop_Order Prop_Term Prop_Guard Prop_Wake.
Import ListNotations.
Open Scope list_scope.

(** * Specifications *)
(** The action numbered [a] of the set [s] is a call to a service configured as [sc], and runs
    [rs] on the reply; legacy actions are read as the calls they stand for ([meaning]). *)
Definition calls_service (E : env) (cfg : plugin_cfg) (s : action_set) (a : text) (sc : svc_cfg) (rs : list taction) : Prop :=
  exists svs i cf p tm g sq var name msg, cfg_svs cfg = Some svs /\
    a = nat_text i /\ nth_error (as_actions s) i = Some cf /\
    meaning svs (cfg_rsrc E cfg) cf = Some (mkT p tm g sq (OpGrpc var name msg rs)) /\
    tget name (pc_services cfg) = Some sc.
(** the response cannot be read, or not be decoded as a reply of that service *)
Definition unreadable (E : env) (sc : svc_cfg) (sz : N) (h : log) : Prop :=
  h_grpcresp E h sz = None \/
  exists b k sv, h_grpcresp E h sz = Some b /\ inst_of sc = Some (IDyn k sv) /\ o_decode E h sv b = None.
(** a response that counts as a failure of the call; [h] is the history when it is handled *)
Definition failed_response (E : env) (sc : svc_cfg) (rs : list taction) (st sz : N) (h : log) : Prop :=
  st <> 0%N \/ rs <> [] /\ unreadable E sc sz h.
(** how often action [a] was evaluated, and how often as a response handler *)
Definition times (a : text) (h : log) : nat := length (filter (is_eval a) h).
Definition times_handled (a : text) (h : log) : nat := length (filter (is_handle a) h).
(** everything an internal server error leaves behind, newest first *)
Definition rejected (a : text) (h : log) : Prop :=
  exists hd ok, h = [EvReply 500 hd (Some ise_body) ok; EvMetric MDenied; EvTerminate a; EvMetric MErrors].

(** * Lemmas *)
Lemma actions_tasks_mode E rd tr l : forall c ts tds c', actions_tasks E rd tr l c = Some (ts, tds, c') ->
  forall id p tm k sv var m rs ds g, In (mkAct id p tm (BGrpc (IDyn k sv) var m rs) ds g) l -> In (id, (sv_deny sv, sv, some rs)) (modes ts).
Proof.
  induction l as [|x l IH]; intros c ts tds c'; cbn [actions_tasks]; [easy|].
  destruct (action_tasks E rd tr x c) as [[[t1 td1] c1]|] eqn:H1; [|discriminate].
  destruct (actions_tasks E rd tr l c1) as [[[t2 td2] c2]|] eqn:H2; [|discriminate].
  intros [= <- <- <-] id p tm k sv var m rs ds g Hi. apply in_modes. destruct Hi as [-> |Hi].
  - clear IH H2. unfold action_tasks in H1. cbn [a_op inst_deny] in H1. rewrite to_core_grpc in H1.
    destruct (to_cores E rs c) as [[ts c3]|] eqn:Hr; [|discriminate].
    assert (Hs : some ts = some rs).
    { destruct rs as [|r rs]; simpl in Hr; [now injection Hr as <- _|]. destruct (to_core E r c) as [[t0 c0]|]; [|discriminate].
      destruct (to_cores E rs c0) as [[ts0 c4]|]; [|discriminate]. now injection Hr as <- _. }
    injection H1 as <- _ _.
    exists (let tk1 := TFailureMode (TDynamic id sv var m ts p ds g) (sv_deny sv) in if tr then TTracing tk1 else tk1).
    split; [apply in_or_app; left; apply in_or_app; right; now left|]. rewrite <- Hs. destruct tr; split; reflexivity.
  - specialize (IH _ _ _ _ H2 id p tm k sv var m rs ds g Hi). apply in_modes in IH as (t & Ht & H). exists t. split; [apply in_or_app; now right|exact H].
Qed.
Lemma service_mode E cfg fa s p a sc rs : serves E cfg fa s -> build E fa (ctx0 [EvReqHeaders]) = BOk p ->
  calls_service E cfg s a sc rs -> exists k sv, inst_of sc = Some (IDyn k sv) /\ sv_deny sv = sc_deny sc /\
    In (a, (sc_deny sc, sv, some rs)) (modes (p_queue p)).
Proof.
  intros (_ & svs & bp & c & Hsv & Hc & Hsel) Hb (svs' & i & cf & pp & tm & g & sq & var & name & msg & Hsv' & -> & Hi & Hm & Hn).
  rewrite Hsv in Hsv'. injection Hsv' as <-.
  destruct (svs_service cfg svs name Hsv) as [S1 S2]. rewrite Hn in S1.
  apply compile_set_compiled in Hc.
  destruct (nth_error (bp_actions bp) i) as [act|] eqn:Ha.
  2:{ apply nth_error_None in Ha. rewrite (cm_len _ _ _ _ _ Hc) in Ha. apply nth_error_None in Ha. congruence. }
  destruct (cm_nth _ _ _ _ _ Hc i act Ha) as (cf' & d & N1 & N2 & N3). rewrite Hi in N1. injection N1 as <-.
  assert (exists a0, compile_typed E svs (mkT pp tm g sq (OpGrpc var name msg rs)) (nat_text i) = Some a0 /\ act = set_deps d a0) as (a0 & M2 & ->).
  { assert (K : forall t, option_map (set_deps d) (compile_typed E svs t (nat_text i)) = Some act ->
                exists a0, compile_typed E svs t (nat_text i) = Some a0 /\ act = set_deps d a0).
    { intros t. destruct (compile_typed E svs t (nat_text i)) as [a0|] eqn:H; [|discriminate]. intros [= <-]. eauto. }
    destruct cf as [t|l]; cbn [compile_action meaning] in *; [injection Hm as ->; now apply K in N3|]. unfold compile_legacy in N3.
    destruct (tget (la_service l) svs) as [[k s0|]|]; try discriminate. destruct k; try discriminate; apply K in N3 as (a0 & K1 & K2); exists a0; (split; [congruence|exact K2]). }
  rewrite compile_typed_grpc, S1 in M2. destruct (parse_expr E pp) as [p'|]; [|discriminate].
  destruct (inst_of sc) as [[k sv|]|] eqn:Hin; try discriminate.
  destruct (compile_replies E svs (nat_text i) 0 rs) as [rs'|] eqn:Hr; [|discriminate].
  destruct (parse_expr E msg) as [m'|]; [|discriminate]. injection M2 as <-.
  assert (Hd : sv_deny sv = sc_deny sc).
  { unfold inst_of in Hin. destruct (sc_type sc); try (injection Hin as <- <-; reflexivity); try discriminate.
    destruct (sc_grpc_service sc), (sc_grpc_method sc); try discriminate. now injection Hin as <- <-. }
  exists k, sv. split; [reflexivity|]. split; [exact Hd|].
  assert (HT : exists rd cc tds c3, to_tasks E rd (mkBp (bp_name bp) (bp_preds bp) (bp_actions bp ++ cfg_dev svs cfg)) cc = Some (p_queue p, tds, c3)).
  { clear - Hb Hsel. unfold build in Hb. rewrite Hsel in Hb. cbv zeta in Hb.
    destruct (to_tasks E _ _ _) as [[[ts tds] c3]|] eqn:Ht; [|discriminate]. destruct ts as [|t ts]; [discriminate|].
    injection Hb as <-. cbn. eauto 6. }
  destruct HT as (rd & cc & tds & c3 & HT). unfold to_tasks in HT.
  assert (Hs : some rs' = some rs).
  { apply replies_nth in Hr as [L _]. apply (f_equal (@length _)) in L. rewrite !map_length, seq_length in L. destruct rs, rs'; easy. }
  rewrite <- Hs, <- Hd. eapply actions_tasks_mode; [exact HT|]. cbn [bp_actions]. apply in_or_app. left.
  apply nth_error_In in Ha. cbn [set_deps] in Ha. exact Ha.
Qed.
Lemma active_built E fa l : later l -> (exists a, In (EvEval a) (f_log (run E fa l))) -> exists p, build E fa (ctx0 [EvReqHeaders]) = BOk p.
Proof.
  intros Hl [a Ha]. destruct (request_HT E fa l Hl) as [(p & Hp & _)|H]; [eauto|]. exfalso.
  apply H in Ha as [[Hx|(k & st & sz & Hx)]|[(m & Hx)|(st & h & b & ok & Hx)]]; easy.
Qed.
Lemma times_In a h : times a h <> 0 -> In (EvEval a) h.
Proof.
  unfold times. induction h as [|e h IH]; simpl; [easy|]. destruct (is_eval a e) eqn:He.
  - intros _. left. destruct e; try discriminate. simpl in He. apply text_eqb_eq in He. now subst.
  - intros H. right. auto.
Qed.
Lemma bad_spec E sc rs st sz h k sv : inst_of sc = Some (IDyn k sv) -> failed_response E sc rs st sz h -> bad E (sc_deny sc, sv, some rs) st sz h.
Proof.
  intros Hi [H|[Hr H]]; [now left|]. right. split; [now destruct rs|]. destruct H as [H|(b & k' & sv' & H1 & H2 & H3)]; [now left|].
  right. exists b. split; [exact H1|]. rewrite Hi in H2. injection H2 as <- <-. exact H3.
Qed.
Lemma fails_call E cfg fa s l a sc rs cl past after : serves E cfg fa s -> try_from E cfg = Some fa -> later l -> cel_constants E ->
  calls_service E cfg s a sc rs -> f_log (run E fa l) = after ++ EvDispatch a cl None :: past -> times a past = 1 ->
  starts (fallout (sc_deny sc) a) after.
Proof.
  intros Hs Hf Hl HC Hcs Hlog Ht. destruct (active_built E fa l Hl) as (p & Hb).
  { exists a. rewrite Hlog. apply in_or_app. right. right. apply times_In. lia. }
  destruct (service_mode _ _ _ _ _ _ _ _ Hs Hb Hcs) as (k & sv & Hi & Hd & Hm).
  exact (M_run_filter E cfg fa p l Hf Hb Hl HC _ _ _ Hlog _ _ Hm eq_refl Ht).
Qed.
Lemma fails_response E cfg fa s l a sc rs k st sz past after : serves E cfg fa s -> try_from E cfg = Some fa -> later l -> cel_constants E ->
  calls_service E cfg s a sc rs -> f_log (run E fa l) = after ++ EvHandle k a :: EvGrpcResp k st sz :: past ->
  ~ terminated past -> times a past = 1 -> failed_response E sc rs st sz (EvEval a :: EvHandle k a :: EvGrpcResp k st sz :: past) ->
  starts (fun l => exists l1, l = l1 ++ [EvEval a] /\ fallout (sc_deny sc) a l1) after.
Proof.
  intros Hs Hf Hl HC Hcs Hlog Hn Ht Hbad. destruct (active_built E fa l Hl) as (p & Hb).
  { exists a. rewrite Hlog. apply in_or_app. right. right. right. apply times_In. lia. }
  destruct (service_mode _ _ _ _ _ _ _ _ Hs Hb Hcs) as (k' & sv & Hi & Hd & Hm).
  refine (M_run_filter E cfg fa p l Hf Hb Hl HC _ _ _ Hlog _ _ Hm eq_refl _ _ st sz past eq_refl _).
  - intros (x & [H|H]); [discriminate|]. apply Hn. now exists x.
  - exact Ht.
  - eapply bad_spec; eauto.
Qed.

(** * C11 *)
(** A call of a deny-mode service that the host refuses when the action is evaluated for the
    first time: an error is counted, the request is rejected with a 500 *)
Theorem C11_refused_call_rejects : forall E cfg fa s l a sc rs cl past after,
  try_from E cfg = Some fa -> serves E cfg fa s -> later l -> cel_constants E ->
  calls_service E cfg s a sc rs -> sc_deny sc = true ->
  f_log (run E fa l) = after ++ EvDispatch a cl None :: past -> times a past = 1 ->
  exists after' evs, after = after' ++ evs /\ rejected a evs.
Proof.
  intros E cfg fa s l a sc rs cl past after Hf Hs Hl HC Hcs Hd Hlog Ht.
  destruct (fails_call _ _ _ _ _ _ _ _ _ _ _ Hs Hf Hl HC Hcs Hlog Ht) as (l' & l0 & -> & H). rewrite Hd in H. exists l', l0. split; [reflexivity|exact H].
Qed.
Print Assumptions C11_refused_call_rejects.
(** ... likewise if the response to the call is a failure; processing has then ended, so C04
    says that no action follows *)
Theorem C11_failed_response_rejects : forall E cfg fa s l a sc rs k st sz,
  try_from E cfg = Some fa -> serves E cfg fa s -> fresh_tokens E -> later l -> cel_constants E ->
  calls_service E cfg s a sc rs -> sc_deny sc = true ->
  call_open (f_log (run E fa l)) k a -> ~ terminated (f_log (run E fa l)) -> times a (f_log (run E fa l)) = 1 ->
  failed_response E sc rs st sz (EvEval a :: EvHandle k a :: EvGrpcResp k st sz :: f_log (run E fa l)) ->
  exists after evs, f_log (run E fa (l ++ [InGrpc k st sz])) =
    after ++ evs ++ EvEval a :: EvHandle k a :: EvGrpcResp k st sz :: f_log (run E fa l) /\ rejected a evs.
Proof.
  intros E cfg fa s l a sc rs k st sz Hf Hs F Hl HC Hcs Hd Ho Hn Ht Hbad.
  destruct (C07_response_reaches_its_handler E fa l k a st sz F Hl Ho) as [(evs & Hlog) _].
  assert (Hl2 : later (l ++ [InGrpc k st sz])) by (apply later_app; [exact Hl|discriminate]).
  destruct (fails_response E cfg fa s (l ++ [InGrpc k st sz]) a sc rs k st sz _ _ Hs Hf Hl2 HC Hcs Hlog Hn Ht Hbad)
    as (l' & l0 & -> & l1 & -> & H). rewrite Hd in H. exists l', l1. split; [|exact H]. rewrite Hlog, <- !app_assoc. reflexivity.
Qed.
Print Assumptions C11_failed_response_rejects.
(** ... and such an action is never dropped silently unless it had been put off: between its
    evaluations as an action and as a response handler there was one more *)
Theorem C11_never_dropped_at_once : forall E cfg fa s l a sc rs past,
  try_from E cfg = Some fa -> serves E cfg fa s -> later l -> cel_constants E ->
  calls_service E cfg s a sc rs -> occurs (f_log (run E fa l)) (EvFailed a) past -> times a past >= 2 + times_handled a past.
Proof.
  intros E cfg fa s l a sc rs past Hf Hs Hl HC Hcs (after & Hlog). destruct (request_HT E fa l Hl) as [(p & Hb & _)|H].
  - destruct (service_mode _ _ _ _ _ _ _ _ Hs Hb Hcs) as (k & sv & Hi & Hd & Hm).
    exact (M_run_filter E cfg fa p l Hf Hb Hl HC _ _ _ Hlog _ _ Hm eq_refl).
  - exfalso. assert (Hin : In (EvFailed a) (f_log (run E fa l))) by (rewrite Hlog; apply in_or_app; right; now left).
    apply H in Hin as [[Hx|(k & st & sz & Hx)]|[(m & Hx)|(st & h & b & ok & Hx)]]; easy.
Qed.
Print Assumptions C11_never_dropped_at_once.

(** * C12 *)
(** With failure mode allow the same failures count an error and complete the action: the very
    next event is its completion, no reply in between *)
Theorem C12_refused_call_completes : forall E cfg fa s l a sc rs cl past after,
  try_from E cfg = Some fa -> serves E cfg fa s -> later l -> cel_constants E ->
  calls_service E cfg s a sc rs -> sc_deny sc = false ->
  f_log (run E fa l) = after ++ EvDispatch a cl None :: past -> times a past = 1 ->
  exists after', after = after' ++ [EvDone a; EvMetric MErrors].
Proof.
  intros E cfg fa s l a sc rs cl past after Hf Hs Hl HC Hcs Hd Hlog Ht.
  destruct (fails_call _ _ _ _ _ _ _ _ _ _ _ Hs Hf Hl HC Hcs Hlog Ht) as (l' & l0 & -> & H). rewrite Hd in H. cbn in H. subst l0. now exists l'.
Qed.
Print Assumptions C12_refused_call_completes.
Theorem C12_failed_response_completes : forall E cfg fa s l a sc rs k st sz,
  try_from E cfg = Some fa -> serves E cfg fa s -> fresh_tokens E -> later l -> cel_constants E ->
  calls_service E cfg s a sc rs -> sc_deny sc = false ->
  call_open (f_log (run E fa l)) k a -> ~ terminated (f_log (run E fa l)) -> times a (f_log (run E fa l)) = 1 ->
  failed_response E sc rs st sz (EvEval a :: EvHandle k a :: EvGrpcResp k st sz :: f_log (run E fa l)) ->
  exists after, f_log (run E fa (l ++ [InGrpc k st sz])) =
    after ++ EvDone a :: EvMetric MErrors :: EvEval a :: EvHandle k a :: EvGrpcResp k st sz :: f_log (run E fa l).
Proof.
  intros E cfg fa s l a sc rs k st sz Hf Hs F Hl HC Hcs Hd Ho Hn Ht Hbad.
  destruct (C07_response_reaches_its_handler E fa l k a st sz F Hl Ho) as [(evs & Hlog) _].
  assert (Hl2 : later (l ++ [InGrpc k st sz])) by (apply later_app; [exact Hl|discriminate]).
  destruct (fails_response E cfg fa s (l ++ [InGrpc k st sz]) a sc rs k st sz _ _ Hs Hf Hl2 HC Hcs Hlog Hn Ht Hbad)
    as (l' & l0 & -> & l1 & -> & H). rewrite Hd in H. cbn in H. subst l1. exists l'. rewrite Hlog, <- !app_assoc. reflexivity.
Qed.
Print Assumptions C12_failed_response_completes.

(** * Failures while the call is prepared *)
(** the value of an expression in the scope of action [id], and what the context is afterwards *)
Definition value_of (E : env) (id : text) (ex : expr) (c : ctx) : rd value * ctx :=
  let '(r, _, c') := eval_in E ex (scope_vars id c) c in (r, c').
(** the body the expression reads from has ended *)
Definition body_ended (ex : expr) (c : ctx) : Prop :=
  (has_req ex = true /\ b_eos (c_reqb c) = true) \/ (has_resp ex = true /\ b_eos (c_respb c) = true).
Definition expr_fails (ex : expr) (r : rd value) (c : ctx) : Prop := r = RErr \/ (r = RPending /\ body_ended ex c).
(** the predicate fails or is no boolean; or it holds and the message fails or cannot be encoded *)
Inductive call_fails (E : env) (id : text) (s : svc) (msg pred : expr) (c : ctx) : Prop :=
| fails_pred r c1 : value_of E id pred c = (r, c1) -> expr_fails pred r c1 -> call_fails E id s msg pred c
| fails_type v c1 : value_of E id pred c = (RAvail v, c1) -> (forall b, v <> VBool b) -> call_fails E id s msg pred c
| fails_msg c1 r c2 : value_of E id pred c = (RAvail (VBool true), c1) -> value_of E id msg c1 = (r, c2) -> expr_fails msg r c2 ->
    call_fails E id s msg pred c
| fails_encode c1 v c2 : value_of E id pred c = (RAvail (VBool true), c1) -> value_of E id msg c1 = (RAvail v, c2) ->
    o_encode E (c_log c2) s v = None -> call_fails E id s msg pred c.
Lemma ended_over ex c : body_ended ex c -> body_over ex c = true.
Proof. unfold body_over. intros [[-> ->]|[-> ->]]; [reflexivity|apply orb_true_r]. Qed.
Lemma call_fails_apply E id s var msg rs pred deps g c : call_fails E id s msg pred c ->
  exists c', apply E (TDynamic id s var msg rs pred deps g) c = (OFailed, c') /\ c_log c' = c_log c.
Proof.
  assert (X : forall a b, ext a b -> c_log b = c_log a) by now intros a b (x & -> & _).
  assert (V : forall ex c r c1, value_of E id ex c = (r, c1) -> exists vs, eval_in E ex (scope_vars id c) c = (r, vs, c1) /\ c_log c1 = c_log c).
  { intros ex c0 r c1. unfold value_of. destruct (eval_in E ex _ c0) as [[r0 vs] c2] eqn:H. intros [= <- <-]. exists vs. split; [reflexivity|]. now apply eval_in_ext, X in H. }
  intros H. cbn [apply]. unfold apply_dynamic, test_in. destruct H as [r c1 H Hf|v c1 H Hf|c1 r c2 H H2 Hf|c1 v c2 H H2 Hf]; apply V in H as (vs & -> & Hl).
  - destruct Hf as [-> |[-> Ho]]; [eauto|]. rewrite (ended_over _ _ Ho). eauto.
  - destruct v; try (eexists; split; [reflexivity|exact Hl]). now elim (Hf b).
  - apply V in H2 as (vs2 & -> & Hl2). destruct Hf as [-> |[-> Ho]]; [|rewrite (ended_over _ _ Ho)]; eexists; (split; [reflexivity|congruence]).
  - apply V in H2 as (vs2 & -> & Hl2). rewrite Hf. eexists. split; [reflexivity|congruence].
Qed.
(** With failure mode deny any such failure ends processing with the 500 ... *)
Theorem C11_evaluation_failure_rejects : forall E id s var msg rs pred deps g c,
  cel_constants E -> call_fails E id s msg pred (emit (EvEval id) c) ->
  exists fin c' evs, step E (TFailureMode (TDynamic id s var msg rs pred deps g) true) c = (OTerminate fin, c') /\
    c_log (run_terminal E fin c') = evs ++ EvEval id :: c_log c /\ rejected id evs.
Proof.
  intros E id s var msg rs pred deps g c HC Hf. destruct (call_fails_apply E id s var msg rs pred deps g _ Hf) as (c1 & Ha & Hl).
  assert (exists c', step E (TFailureMode (TDynamic id s var msg rs pred deps g) true) c = (OTerminate default_reply, c') /\
    c_log c' = EvTerminate id :: EvMetric MErrors :: EvEval id :: c_log c) as (c' & Hs & Hc).
  { unfold step. cbn [t_id].
    assert (Hap : apply E (TFailureMode (TDynamic id s var msg rs pred deps g) true) (emit (EvEval id) c) = (OTerminate default_reply, emit (EvMetric MErrors) c1))
      by (cbn [apply] in Ha |- *; rewrite Ha; reflexivity).
    rewrite Hap. eexists. split; [reflexivity|]. cbn. rewrite Hl. reflexivity. }
  destruct (default_effect E default_reply c' HC) as (h & ok & Hr); [vm_compute; tauto|reflexivity|].
  exists default_reply, c'. eexists. split; [exact Hs|]. rewrite Hr, Hc. split; [|now exists h, ok]. reflexivity.
Qed.
Print Assumptions C11_evaluation_failure_rejects.
(** ... and with allow completes the action with an error counted *)
Theorem C12_evaluation_failure_completes : forall E id s var msg rs pred deps g c,
  call_fails E id s msg pred (emit (EvEval id) c) ->
  exists c', step E (TFailureMode (TDynamic id s var msg rs pred deps g) false) c = (ODone, c') /\
    c_log c' = EvDone id :: EvMetric MErrors :: EvEval id :: c_log c.
Proof.
  intros E id s var msg rs pred deps g c Hf. destruct (call_fails_apply E id s var msg rs pred deps g _ Hf) as (c1 & Ha & Hl).
  unfold step. cbn [t_id].
  assert (Hap : apply E (TFailureMode (TDynamic id s var msg rs pred deps g) false) (emit (EvEval id) c) = (ODone, emit (EvMetric MErrors) c1))
    by (cbn [apply] in Ha |- *; rewrite Ha; reflexivity).
  rewrite Hap. eexists. split; [reflexivity|]. cbn. rewrite Hl. reflexivity.
Qed.
Print Assumptions C12_evaluation_failure_completes.

(** * Examples *)
Lemma demo_constants E : o_cel E = cel_demo -> cel_constants E.
Proof. intros H l vs. rewrite H. split; [reflexivity|]. eexists. reflexivity. Qed.
Ltac named := eexists; exists 0; do 8 eexists; split; [vm_compute; reflexivity|]; split; [reflexivity|]; split; [reflexivity|]; split; [vm_compute; reflexivity|]; vm_compute; reflexivity.
Ltac find := vm_compute; repeat (first [left; reflexivity|right]).
Definition no_end (h : log) : bool := forallb (fun e => match e with EvTerminate _ => false | _ => true end) h.
Lemma no_end_spec h : no_end h = true -> ~ terminated h.
Proof. intros H (a & Ha). unfold no_end in H. rewrite forallb_forall in H. now apply H in Ha. Qed.
Definition set_of (l : list action_cfg) : action_set := mkSet (tx "s") [tx "h"] [] l.

(** a guard of a deny-mode service and a header action after it; the service answers with an error *)
Definition ex11 : list action_cfg := [dcall "hard" false []; CTyped (dhdr "true" true)].
Example C11_ex : try_from Ed (dcfg ex11) = Some (dfac Ed ex11) /\ serves Ed (dcfg ex11) (dfac Ed ex11) (set_of ex11) /\
  fresh_tokens Ed /\ cel_constants Ed /\ calls_service Ed (dcfg ex11) (set_of ex11) (tx "0") (dsvc true) [] /\
  call_open (dlog Ed ex11 []) 0 (tx "0") /\ ~ terminated (dlog Ed ex11 []) /\ times (tx "0") (dlog Ed ex11 []) = 1 /\
  failed_response Ed (dsvc true) [] 14 0 (EvEval (tx "0") :: EvHandle 0 (tx "0") :: EvGrpcResp 0 14 0 :: dlog Ed ex11 []).
Proof.
  split; [vm_compute; reflexivity|]. split; [serve|]. split; [exact demo_fresh|]. split; [now apply demo_constants|]. split; [named|].
  split; [apply call_open_spec; vm_compute; tauto|]. split; [apply no_end_spec; vm_compute; reflexivity|]. split; [vm_compute; reflexivity|]. now left.
Qed.
(** the response is OK but cannot be decoded, and something runs on the reply *)
Definition ex11b : list action_cfg := [dcall "hard" false [ddeny "reply" true false]].
Example C11_decode_ex : let E := e_grpcresp Ed (fun _ _ => None) in
  serves E (dcfg ex11b) (dfac E ex11b) (set_of ex11b) /\ calls_service E (dcfg ex11b) (set_of ex11b) (tx "0") (dsvc true) [ddeny "reply" true false] /\
  call_open (dlog E ex11b []) 0 (tx "0") /\
  failed_response E (dsvc true) [ddeny "reply" true false] 0 8 (EvEval (tx "0") :: EvHandle 0 (tx "0") :: EvGrpcResp 0 0 8 :: dlog E ex11b []).
Proof.
  split; [serve|]. split; [named|]. split; [apply call_open_spec; vm_compute; tauto|]. right. split; [discriminate|]. left. reflexivity.
Qed.
(** the host refuses the call: [EvDispatch _ _ None] at the first evaluation *)
Example C11_refused_ex : let E := e_dispatch Ed (fun _ _ => None) in
  serves E (dcfg ex11) (dfac E ex11) (set_of ex11) /\ cel_constants E /\ calls_service E (dcfg ex11) (set_of ex11) (tx "0") (dsvc true) [] /\
  exists after cl past, dlog E ex11 [InRespHeaders] = after ++ EvDispatch (tx "0") cl None :: past /\ times (tx "0") past = 1.
Proof.
  split; [serve|]. split; [now apply demo_constants|]. split; [named|].
  eexists [_; _; _; _; _; _; _; _], _, _. split; [vm_compute; reflexivity|]. vm_compute. reflexivity.
Qed.
(** a call that was put off and then failed *)
Definition ex13 : list action_cfg := [CTyped (mkT (tx "true") false true false (OpGrpc (tx "r") (tx "hard") (tx "reqbody") []))].
Example C11_dropped_ex : serves Ed (dcfg ex13) (dfac Ed ex13) (set_of ex13) /\ calls_service Ed (dcfg ex13) (set_of ex13) (tx "0") (dsvc true) [] /\
  exists past, occurs (dlog Ed ex13 [InReqBody 1 true]) (EvFailed (tx "0")) past /\ times (tx "0") past = 2.
Proof. split; [serve|]. split; [named|]. eexists. split; [exists [EvRet false]; vm_compute; reflexivity|]. vm_compute. reflexivity. Qed.
(** the predicate refers to a variable nobody defined *)
Example C11_evaluation_ex : forall c, call_fails Ed (tx "0") (mkSvc (tx "up") (tx "S") (tx "M") 100 true) (expr_of (ALit (VString (tx "m")))) (expr_of (AIdent (tx "unbound")))
  (emit (EvEval (tx "0")) (ctx0 (c_log c))).
Proof. intros c. eapply fails_pred; [reflexivity|]. left. reflexivity. Qed.
Definition ex12 : list action_cfg := [dcall "soft" false []; dcall "hard" true []].
Example C12_ex : try_from Ed (dcfg ex12) = Some (dfac Ed ex12) /\ serves Ed (dcfg ex12) (dfac Ed ex12) (set_of ex12) /\
  fresh_tokens Ed /\ cel_constants Ed /\ calls_service Ed (dcfg ex12) (set_of ex12) (tx "0") (dsvc false) [] /\
  call_open (dlog Ed ex12 []) 0 (tx "0") /\ ~ terminated (dlog Ed ex12 []) /\ times (tx "0") (dlog Ed ex12 []) = 1 /\
  (exists cl k, In (EvDispatch (tx "1") cl (Some k)) (dlog Ed ex12 [InGrpc 0 14 0])).
Proof.
  split; [vm_compute; reflexivity|]. split; [serve|]. split; [exact demo_fresh|]. split; [now apply demo_constants|]. split; [named|].
  split; [apply call_open_spec; vm_compute; tauto|]. split; [apply no_end_spec; vm_compute; reflexivity|]. split; [vm_compute; reflexivity|].
  do 2 eexists. vm_compute. left. reflexivity.
Qed.
Example C12_refused_ex : let E := e_dispatch Ed (fun _ _ => None) in
  serves E (dcfg ex12) (dfac E ex12) (set_of ex12) /\ cel_constants E /\ calls_service E (dcfg ex12) (set_of ex12) (tx "0") (dsvc false) [] /\
  exists after cl past, dlog E ex12 [] = after ++ EvDispatch (tx "0") cl None :: past /\ times (tx "0") past = 1.
Proof.
  split; [serve|]. split; [now apply demo_constants|]. split; [named|].
  eexists (firstn 9 (dlog (e_dispatch Ed (fun _ _ => None)) ex12 [])), _, _. split; [vm_compute; reflexivity|]. vm_compute. reflexivity.
Qed.

(** * C13 *)
(** A guard of a deny-mode service needs the request body; the body turns out to be unusable.
    The action fails after having waited: nothing is rejected, no error is counted, the request
    and the response go through. *)
Theorem C13_failure_mode_after_waiting_refuted : exists E cfg fa s a sc,
  fresh_tokens E /\ cel_constants E /\ try_from E cfg = Some fa /\ serves E cfg fa s /\ guard E cfg s a /\
  calls_service E cfg s a sc [] /\ sc_deny sc = true /\
  let h := f_log (run E fa [InReqBody 1 true; InRespHeaders]) in
  In (EvFailed a) h /\ ~ terminated h /\ (forall st hd b ok, ~ In (EvReply st hd b ok) h) /\ ~ In (EvMetric MErrors) h /\
  forall b, In (EvRet b) h -> b = false.
Proof.
  exists Ed, (dcfg ex13), (dfac Ed ex13), (set_of ex13), (tx "0"), (dsvc true).
  assert (H : forallb (fun e => match e with EvTerminate _ | EvReply _ _ _ _ | EvMetric MErrors | EvRet true => false | _ => true end) (f_log (run Ed (dfac Ed ex13) [InReqBody 1 true; InRespHeaders])) = true)
    by (vm_compute; reflexivity).
  rewrite forallb_forall in H.
  split; [exact demo_fresh|]. split; [now apply demo_constants|]. split; [vm_compute; reflexivity|]. split; [serve|].
  split; [right; eexists; exists (mkT (tx "true") false true false (OpGrpc (tx "r") (tx "hard") (tx "reqbody") [])); split; [vm_compute; reflexivity|]; split; [|reflexivity];
          exists 0; eexists _, _; split; [reflexivity|]; split; [reflexivity|]; constructor|].
  split; [named|]. split; [reflexivity|]. cbv zeta.
  split; [find|]. split; [intros (a & Ha); now apply H in Ha|]. split; [intros st hd b ok Ha; now apply H in Ha|].
  split; [intros Ha; now apply H in Ha|]. intros [|] Ha; [now apply H in Ha|reflexivity].
Qed.
Print Assumptions C13_failure_mode_after_waiting_refuted.

(** * C14 *)
(** The deny configured on the reply of a deny-mode guard fails: the request is resumed *)
Definition err14 : taction := mkT (tx "err") true false false (OpDeny (tx "deny")).
Definition ex14 : list action_cfg := [dcall "hard" false [err14]].
Theorem C14_failure_mode_of_reply_actions_refuted : exists E cfg fa s a sc r x k,
  fresh_tokens E /\ cel_constants E /\ try_from E cfg = Some fa /\ serves E cfg fa s /\ guard E cfg s a /\
  calls_service E cfg s a sc [x] /\ sc_deny sc = true /\ x = mkT (tx "err") true false false (OpDeny (tx "deny")) /\ r = a ++ tx ".0" /\
  let h := f_log (run E fa [InGrpc k 0 0; InRespHeaders]) in
  In (EvFailed r) h /\ ~ terminated h /\ (forall st hd b ok, ~ In (EvReply st hd b ok) h) /\ ~ In (EvMetric MErrors) h /\
  exists past, f_log (run E fa [InGrpc k 0 0]) = EvResumeReq :: past.
Proof.
  exists Ed, (dcfg ex14), (dfac Ed ex14), (set_of ex14), (tx "0"), (dsvc true), (tx "0.0"), err14, 0%N.
  assert (H : forallb (fun e => match e with EvTerminate _ | EvReply _ _ _ _ | EvMetric MErrors => false | _ => true end) (f_log (run Ed (dfac Ed ex14) [InGrpc 0 0 0; InRespHeaders])) = true)
    by (vm_compute; reflexivity).
  rewrite forallb_forall in H.
  split; [exact demo_fresh|]. split; [now apply demo_constants|]. split; [vm_compute; reflexivity|]. split; [serve|].
  split; [right; eexists; exists (mkT (tx "true") false true false (OpGrpc (tx "r") (tx "hard") (tx "msg") [err14])); split; [vm_compute; reflexivity|]; split; [|reflexivity];
          exists 0; eexists _, _; split; [reflexivity|]; split; [reflexivity|]; constructor|].
  split; [named|]. split; [reflexivity|]. split; [reflexivity|]. split; [reflexivity|]. cbv zeta.
  split; [find|]. split; [intros (a & Ha); now apply H in Ha|]. split; [intros st hd b ok Ha; now apply H in Ha|].
  split; [intros Ha; now apply H in Ha|]. eexists. vm_compute. reflexivity.
Qed.
Print Assumptions C14_failure_mode_of_reply_actions_refuted.
