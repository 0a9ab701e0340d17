(** C10, continued: what may hold a request after its processing was terminated. *)
From Coq Require Import String List NArith Bool Lia.
From Verif Require Import Base Value Headers AttrPath Ctx CelProps CelEval Sse Body Tasks Exec Config Legacy Blueprint Factory Filter
  P_Frame P_Apply P_Exec P_Run P_Inv P_Ids P_Plan P_Order P_Term P_Bar P_Cfg P_Grow P_Hist Prop_Order Prop_Term Prop_Guard Demo DemoCfg.
Import ListNotations.
Open Scope list_scope.

(** * Lemmas *)
(** the history before the termination *)
Fixpoint ended_at (h : log) : option log :=
  match h with [] => None | EvTerminate _ :: h' => Some h' | _ :: h' => ended_at h' end.
Lemma ended_plain evs h : Forall plain evs \/ Forall (fun e => forall a, e <> EvTerminate a) evs -> ended_at (evs ++ h) = ended_at h.
Proof.
  intros H. assert (Forall (fun e => forall a, e <> EvTerminate a) evs) as K.
  { destruct H as [H|H]; [|exact H]. revert H. apply Forall_impl. intros e He a ->. exact He. }
  clear H. induction K as [|e evs He _ IH]; [reflexivity|]. cbn [app ended_at]. destruct e; try exact IH. now destruct (He id).
Qed.
Lemma ended_cons e h : (forall a, e <> EvTerminate a) -> ended_at (e :: h) = ended_at h.
Proof. intros H. apply (ended_plain [e]). right. now constructor. Qed.
Lemma ended_none h : ~ over h -> ended_at h = None.
Proof. induction h as [|e h IH]; intros H; [reflexivity|]. cbn. destruct e; try (apply IH; intros (a & Ha); apply H; exists a; now right). exfalso. apply H. eexists. now left. Qed.
Lemma occurs_ended E fa l x past : fresh_tokens E -> later l -> occurs (f_log (run E fa l)) (EvTerminate x) past -> ended_at (f_log (run E fa l)) = Some past.
Proof.
  intros F Hl (after & H). rewrite H. rewrite ended_plain; [reflexivity|]. right. apply Forall_forall. intros e He a ->.
  apply in_split in He as (h1 & h2 & ->). rewrite <- app_assoc in H. cbn [app] in H.
  destruct (C04_nothing_runs_after_termination E fa l x (EvTerminate a) (h2 ++ EvTerminate x :: past) F Hl) as (_ & K & _); [now exists h1|apply in_or_app; right; now left|].
  now destruct (K a).
Qed.

Section Hold.
Variables (E : env) (n : nat) (N0 : list node) (G : text -> Prop).
Hypothesis HG : forall id s v kids, In (NCall id s v true kids) N0 -> G id.

(** without a guard's call on its way at the termination the counter is down *)
Definition down (p : pipe) : Prop := forall past, ended_at (c_log (p_ctx p)) = Some past ->
  (forall k a, In (k, Some a) (opens past) -> ~ G a) -> c_bar (p_ctx p) = 0%N.
Record D (ts : list task) (p : pipe) : Prop := { d_b : B E n N0 ts p; d_down : fresh_tokens E -> down p }.

(** the counter at the termination *)
Lemma no_guards ts p d past : fresh_tokens E -> B E n N0 ts p -> incl d (p_def p) ->
  Forall2 matches (opens past) d -> (forall k a, In (k, Some a) (opens past) -> ~ G a) -> guards_in d = 0%N.
Proof.
  intros F HB Hi Hm Hn. unfold guards_in. replace (filter (fun x => pend_guard (snd x)) d) with (@nil (N * task)); [reflexivity|]. symmetry.
  assert (K : forall x, In x d -> pend_guard (snd x) = false).
  { intros [k t] Hx. destruct (pend_guard (snd (k, t))) eqn:Hg; [|reflexivity]. exfalso. cbn [snd] in Hg. unfold pend_guard in Hg. destruct (core t) eqn:Hc; try discriminate. subst guard.
    assert (exists o, In o (opens past) /\ matches o (k, t)) as ([k' o] & Ho & Ho1 & Ho2).
    { clear -Hm Hx. induction Hm as [|y z l d Hy _ IH]; [easy|]. destruct Hx as [->|Hx]; [exists y; split; [now left|exact Hy]|]. destruct (IH Hx) as (o & H1 & H2). exists o. split; [now right|exact H2]. }
    cbn [fst snd] in *. subst k'. destruct o as [a|]; [|destruct t; try easy; discriminate Hc].
    apply (Hn k a Ho). assert (a = id) as -> by (rewrite <- Ho2, <- (core_id t), Hc; reflexivity).
    eapply HG. apply (b_nodes _ _ _ _ _ HB). apply in_flat_map. exists t. split.
    - unfold items, dts. rewrite !in_app_iff. right. right. apply in_map_iff. exists (k, t). split; [reflexivity|now apply Hi].
    - rewrite <- nodes_core, Hc. now left. }
  clear -K. induction d as [|x d IH]; [reflexivity|]. cbn [filter]. rewrite (K x) by now left. apply IH. intros y Hy. apply K. now right.
Qed.

Lemma D_run t ts p o c ts' p' : blocked (p_done p) t = false -> step E t (p_ctx p) = (o, c) -> run_next E t ts p o c = (ts', p') ->
  B E n N0 (t :: ts) p -> (fresh_tokens E -> down p) -> fresh_tokens E -> down p'.
Proof.
  intros Hb Hst Hn HB _ F.
  assert (Hq : wf_q t) by (pose proof (w_ts _ _ (t_w _ _ _ _ (b_t _ _ _ _ _ HB))) as H; now inversion H).
  assert (Hnov : ~ over (c_log (p_ctx p))).
  { rewrite (t_over _ _ _ _ (b_t _ _ _ _ _ HB)). intros H. destruct (w_term _ _ (t_w _ _ _ _ (b_t _ _ _ _ _ HB)) H). discriminate. }
  apply step_sum in Hst as (evs & Hss). pose proof (ssum_opens _ _ _ _ _ _ Hss) as Hop. pose proof (ss_bar _ _ _ _ _ _ Hss) as Hbr.
  pose proof (wf_q_not_pending _ Hq) as Hnp. destruct (ssum_events _ _ _ _ _ _ Hss) as (g & Hlog & Hp & Hg).
  assert (Hend : match o with OTerminate _ => True | _ => ended_at (c_log c) = None end).
  { destruct o; try exact I; rewrite Hlog, ended_plain by (now left); rewrite ended_plain by (now left); rewrite ended_cons by discriminate; now apply ended_none. }
  destruct o; simpl in Hn; injection Hn as <- <-; intros past Hpast Hno; cbn [p_with_ctx p_with_done p_with_queue p_ctx] in *; try congruence.
  - destruct (def_insert_facts tok t0 (p_with_ctx p c)) as (F1 & _). rewrite F1 in Hpast. cbn [p_with_ctx p_ctx] in Hpast. congruence.
  - pose proof (ss_final _ _ _ _ _ _ Hss) as Hf. simpl in Hf. destruct (terminal_sum E t0 c Hf) as (evs2 & T1 & T2 & T3 & _).
    rewrite drop_log, T1, ended_plain in Hpast by (left; now apply final_plain). rewrite Hlog, Hg in Hpast. cbn [app ended_at] in Hpast. injection Hpast as <-.
    change (c_bar (run_terminal E t0 c) = 0%N). rewrite T3, Hbr. assert (Hop' : opens (c_log c) = opens (evs ++ EvEval (t_id t) :: c_log (p_ctx p))) by (rewrite Hlog, Hg; reflexivity).
    transitivity (guards_in (p_def p)).
    + rewrite <- (b_bar _ _ _ _ _ HB F Hnov). now destruct (core t).
    + eapply no_guards; [exact F|exact HB|apply incl_refl| |exact Hno]. rewrite <- Hop', Hop. apply (b_open _ _ _ _ _ HB F).
Qed.
Lemma D_handle tok st sz t p o c : settled p -> nget tok (p_def p) = Some t ->
  step E t (emit (EvHandle tok (t_id t)) (set_grpc st sz (emit (EvGrpcResp tok st sz) (p_ctx p)))) = (o, c) ->
  B E n N0 [] p -> (fresh_tokens E -> down p) -> fresh_tokens E ->
  down (handle_next E t (mkPipe c (p_queue p) (ndel tok (p_def p)) (p_done p) (p_td p) (p_term p)) o c).
Proof.
  intros Hset Hn Hst HB Hdn F. specialize (Hdn F).
  assert (Hw : wf_d t) by (eapply Forall_nget; [apply (w_def _ _ (t_w _ _ _ _ (b_t _ _ _ _ _ HB)))|exact Hn]).
  pose proof Hst as Hst0. apply step_sum in Hst as (evs & Hss). pose proof (ssum_opens _ _ _ _ _ _ Hss) as Hop. pose proof (ss_bar _ _ _ _ _ _ Hss) as Hbr.
  rewrite handle_grpc_log in Hop. rewrite handle_grpc_bar in Hbr.
  destruct (ssum_events _ _ _ _ _ _ Hss) as (g & Hlog & Hp & Hg). rewrite handle_grpc_log in Hlog.
  assert (Hle : (forall k t, o <> ODeferred k t) -> (c_bar c <= c_bar (p_ctx p))%N).
  { intros Hnd. rewrite Hbr. destruct o; try (exfalso; now apply (Hnd tok0 t0)); destruct (core t); try lia; destruct guard; lia. }
  assert (Hend : match o with OTerminate _ => True | _ => ended_at (c_log c) = ended_at (c_log (p_ctx p)) end).
  { destruct o; try exact I; rewrite Hlog, ended_plain by (now left); rewrite ended_plain by (now left); now rewrite !ended_cons by discriminate. }
  unfold handle_next. destruct o; intros past Hpast Hno; cbn [p_with_ctx p_with_done p_with_queue p_ctx emit with_log c_log c_bar] in *.
  - rewrite Hend in Hpast. specialize (Hdn past Hpast Hno). specialize (Hle ltac:(discriminate)). lia.
  - exfalso. destruct (ss_evs _ _ _ _ _ _ Hss) as (cl & _ & _ & _ & Hc). apply wf_d_core in Hw. destruct (core t); easy.
  - rewrite ended_cons, Hend in Hpast by discriminate. specialize (Hdn past Hpast Hno). specialize (Hle ltac:(discriminate)). lia.
  - rewrite Hend in Hpast. specialize (Hdn past Hpast Hno). specialize (Hle ltac:(discriminate)). lia.
  - pose proof (ss_final _ _ _ _ _ _ Hss) as Hf. simpl in Hf. destruct (terminal_sum E t0 c Hf) as (evs2 & T1 & T2 & T3 & _).
    rewrite drop_log, T1, ended_plain in Hpast by (left; now apply final_plain). rewrite Hlog, Hg in Hpast. cbn [app ended_at] in Hpast. injection Hpast as <-.
    change (c_bar (run_terminal E t0 c) = 0%N). rewrite T3.
    destruct (p_term p) eqn:Htm.
    + exfalso. pose proof (Hset Htm) as Hall. pose proof (Forall_nget _ _ _ _ Hall Hn) as Hnoop. now destruct t.
    + assert (Hnov : ~ over (c_log (p_ctx p))) by (rewrite (t_over _ _ _ _ (b_t _ _ _ _ _ HB)); congruence).
      assert (Hop' : opens (c_log c) = opens (evs ++ EvEval (t_id t) :: EvHandle tok (t_id t) :: EvGrpcResp tok st sz :: c_log (p_ctx p))) by (rewrite Hlog, Hg; reflexivity).
      assert (Hz : guards_in (ndel tok (p_def p)) = 0%N).
      { eapply no_guards; [exact F|exact HB| | |exact Hno]; [intros x Hx; eapply ndel_incl; exact Hx|]. rewrite <- Hop', Hop. cbn [opens]. apply matches_filter. apply (b_open _ _ _ _ _ HB F). }
      pose proof (b_bar _ _ _ _ _ HB F Hnov) as Hbar. rewrite (guards_ndel tok t) in Hbar by (auto; apply (b_nodup _ _ _ _ _ HB F)). rewrite Hz in Hbar. unfold pend_guard in Hbar. apply wf_d_core in Hw. rewrite Hbr.
      destruct (core t); try easy; destruct guard; lia.
Qed.

Lemma down_same p p' : ended_at (c_log (p_ctx p')) = ended_at (c_log (p_ctx p)) -> c_bar (p_ctx p') = c_bar (p_ctx p) -> down p -> down p'.
Proof. intros H1 H2 H past. rewrite H1, H2. apply H. Qed.
Lemma D_finv : finv E D (BL E n).
Proof.
  pose proof (B_finv E n N0) as HF. constructor.
  - intros ts p ts' p' Hs [HB Hd]. split; [eapply (fi_step _ _ _ HF); eauto|]. intros F.
    destruct Hs as [p Hset|t ts p Hb|t ts p o c ts' p' Hb Hst Hn|tok st sz p Hset Hn|tok st sz t p o c Hset Hn Hst|p Hq Ht|a rest p Hq Hn Ht].
    + exact (Hd F).
    + exact (Hd F).
    + exact (D_run _ _ _ _ _ _ _ Hb Hst Hn HB Hd F).
    + eapply down_same; [| |exact (Hd F)]; [|reflexivity]. apply ended_cons. discriminate.
    + exact (D_handle _ _ _ _ _ _ _ Hset Hn Hst HB Hd F).
    + eapply down_same; [| |exact (Hd F)]; cbn [replace_deferred p_ctx]; [now rewrite drop_log|reflexivity].
    + destruct (td_sum E a (p_with_td p rest)) as (evs & tok & T1 & T2 & _ & _ & _ & _ & _ & T8 & _). eapply down_same; [| |exact (Hd F)]; [|rewrite T8; reflexivity].
      rewrite T1. cbn [p_with_td p_ctx]. rewrite ended_plain; [now apply ended_cons|]. right. destruct T2 as [[-> _]|(cl & -> & _)]; repeat constructor. discriminate.
  - intros p e He [HB Hd]. split; [now apply (fi_neutral _ _ _ HF)|]. intros F. eapply down_same; [| |exact (Hd F)]; [|reflexivity]. apply ended_cons. intros a ->. exact He.
  - intros p b [HB Hd]. split; [now apply (fi_reqb _ _ _ HF)|exact Hd].
  - intros p b [HB Hd]. split; [now apply (fi_respb _ _ _ HF)|exact Hd].
  - intros p [HB Hd]. now apply (fi_log _ _ _ HF).
  - apply (fi_idle _ _ _ HF).
Qed.
End Hold.

(** * C10 *)
(** Once processing was terminated, only guard calls that were on their way at that moment
    can hold the request: if a callback pauses then there was one, and not all calls have
    been answered.  The end of the response body is held for any call.  Missing: the guard
    call need not be on its way any more. *)
Theorem C10_held_only_by_abandoned_guards_partial : forall E cfg fa s l x past before,
  fresh_tokens E -> serves E cfg fa s -> later l -> f_log (run E fa l) = EvRet true :: past ->
  occurs (f_log (run E fa l)) (EvTerminate x) before ->
  (~ (forall k, ~ guard_open E cfg s before k) \/ exists l' n, l = l' ++ [InRespBody n true]) /\ ~ (forall k, ~ awaited (f_log (run E fa l)) k).
Proof.
  intros E cfg fa s l x past before F Hs Hl Hlog Ho.
  assert (Ht : terminated (f_log (run E fa l))) by (destruct Ho as (after & Ho); exists x; rewrite Ho; apply in_or_app; right; now left).
  split.
  2:{ intros Hn. destruct (C10_terminated_not_held_partial E fa l F Hl Ht Hn) as [H _]. specialize (H true past Hlog). discriminate. }
  pose proof (occurs_ended E fa l x before F Hl Ho) as He.
  destruct (f_pipe (run E fa l)) as [p|] eqn:Hp.
  2:{ exfalso. pose proof (gone E fa l F Hl Hp) as Hg. destruct (C10_terminated_not_held_partial E fa l F Hl Ht Hg) as [H _]. specialize (H true past Hlog). discriminate. }
  destruct (reach E fa l p Hl Hp) as (p0 & Hb & _).
  assert (HG : forall id sv v kids, In (NCall id sv v true kids) (nodess (p_queue p0)) -> guard E cfg s id).
  { intros id sv v kids Hi. now apply (guard_node E cfg fa s p0 id sv v true kids Hs Hb Hi). }
  assert (HD : holds (D E (length (p_td p0)) (nodess (p_queue p0)) (guard E cfg s)) (BL E (length (p_td p0))) (run E fa l)).
  { apply pipe_invariant with (p := p0); [now apply D_finv|exact Hb| |exact Hl]. split; [now apply B_start with (fa := fa)|]. intros _ h Hh. exfalso.
    pose proof (B_start E fa p0 Hb) as HB. assert (ended_at (c_log (p_ctx (p_emit (EvMetric MHits) p0))) = None); [|congruence]. apply ended_none.
    rewrite (t_over _ _ _ _ (b_t _ _ _ _ _ HB)). destruct (build_shape _ _ _ _ Hb) as (b & Hbt). cbn. rewrite (bt_term _ _ _ _ _ Hbt). discriminate. }
  unfold holds in HD. rewrite Hp in HD. destruct HD as [[_ Hd] _]. specialize (Hd F before He).
  assert (Hz : (forall k, ~ guard_open E cfg s before k) -> tripped (p_ctx p) = false).
  { intros Hn. unfold tripped. cbn [f_take p_with_ctx p_ctx with_log c_bar] in Hd. rewrite Hd; [reflexivity|]. intros k a Hk Hga. apply (Hn k). exists a. split; [now apply call_open_spec|exact Hga]. }
  destruct (last_answer E fa l p Hl Hp) as [[-> H]|(l' & i & p' & -> & Hl' & Hi & Hdd & Hp' & Hk & H & evs & Hev & Hne & Hh)].
  - left. intros Hn. rewrite H, (Hz Hn) in Hlog. discriminate.
  - destruct i as [|m e| |m [|]|tok st sz]; [easy| | |right; now exists l', m| |]; left; intros Hn; rewrite H in Hlog; unfold answer in Hlog; rewrite Hk, (Hz Hn) in Hlog; try discriminate.
    revert Hlog. match goal with |- context [if ?b then _ else []] => destruct b end; [destruct (f_resp _); discriminate|]. cbn [app]. rewrite Hev. destruct evs as [|e evs]; [easy|].
    destruct (Hh e evs) as (A1 & _); [discriminate|reflexivity|]. intros [= -> _]. now destruct (A1 true).
Qed.
Print Assumptions C10_held_only_by_abandoned_guards_partial.
(** the other guard's call is abandoned, and the response to the 500 reply paused *)
Example C10_held_ex : fresh_tokens Ed /\ serves Ed (dcfg ex10) (dfac Ed ex10) (mkSet (tx "s") [tx "h"] [] ex10) /\ later [InGrpc 0 1 0; InRespHeaders] /\
  exists past before, dlog Ed ex10 [InGrpc 0 1 0; InRespHeaders] = EvRet true :: past /\ occurs (dlog Ed ex10 [InGrpc 0 1 0; InRespHeaders]) (EvTerminate (nat_text 0)) before /\
    call_open before 1 (nat_text 1) /\ ~ exists l' n, [InGrpc 0 1 0; InRespHeaders] = l' ++ [InRespBody n true].
Proof.
  split; [exact demo_fresh|]. split; [serve|]. split; [intros [H|[H|[]]]; discriminate|].
  exists (tl (dlog Ed ex10 [InGrpc 0 1 0; InRespHeaders])). eexists. split; [vm_compute; reflexivity|]. split; [apply (cut_occurs 5); vm_compute; reflexivity|].
  split; [apply call_open_spec; vm_compute; tauto|]. intros (l' & n & H). apply (f_equal (@rev fin)) in H. rewrite rev_app_distr in H. discriminate.
Qed.
(** The call of a guard among the reply actions is not wrapped: its answer ends the hold
    although another call, no guard's, is still on its way. *)
Definition kept10 : list action_cfg :=
  [dcall "soft" false [mkT (tx "true") false true false (OpGrpc (tx "q") (tx "soft") (tx "msg") [])]; dcall "hard" false []; dplain "soft"].
Example C10_reply_guard_ex : let l := [InGrpc 0 0 0; InGrpc 1 1 0; InRespHeaders] in
  hd_error (dlog Ed kept10 l) = Some (EvRet true) /\ call_open (dlog Ed kept10 l) 3 (nat_text 0 ++ dot :: nat_text 0) /\
  hd_error (dlog Ed kept10 (l ++ [InGrpc 3 0 0])) = Some EvResumeResp /\ awaited (dlog Ed kept10 (l ++ [InGrpc 3 0 0])) 2.
Proof.
  split; [vm_compute; reflexivity|]. split; [apply call_open_spec; vm_compute; tauto|]. split; [vm_compute; reflexivity|].
  left. exists (nat_text 2). apply call_open_spec. vm_compute. tauto.
Qed.
