(** The events added by one callback. *)
From Coq Require Import String List NArith Bool Lia Arith.
From Verif Require Import Base Value Headers AttrPath Ctx CelProps CelEval Sse Body Tasks Exec Config Legacy Blueprint Factory Filter
  P_Frame P_Apply P_Exec P_Run P_Inv P_Ids P_Plan P_Order P_Term P_Bar P_Hist.
Import ListNotations.
Open Scope list_scope.

(** events made by the evaluation of a pipeline *)
Definition inner (e : ev) : Prop :=
  match e with
  | EvReqHeaders | EvReqBody _ _ | EvRespHeaders | EvRespBody _ _ | EvGrpcResp _ _ _
  | EvResumeReq | EvResumeResp | EvRet _ | EvHandle _ _ => False
  | EvMetric m => match m with MErrors | MDenied => True | _ => False end
  | _ => True
  end.
Definition added (Q : ev -> Prop) (l l' : log) : Prop := exists evs, l' = evs ++ l /\ Forall Q evs.
Lemma added_refl Q l : added Q l l. Proof. now exists []. Qed.
Lemma added_trans Q a b c : added Q a b -> added Q b c -> added Q a c.
Proof. intros (x & -> & Hx) (y & -> & Hy). exists (y ++ x). rewrite app_assoc. split; [reflexivity|]. apply Forall_app. now split. Qed.

Lemma step_added E t c o c' : step E t c = (o, c') -> added inner (c_log c) (c_log c').
Proof.
  intros H. apply step_sum in H as (evs & Hs). exists (ghost t o ++ evs ++ [EvEval (t_id t)]).
  rewrite (ss_log _ _ _ _ _ _ Hs), <- !app_assoc. split; [reflexivity|]. apply Forall_app. split; [destruct o; repeat constructor|].
  apply Forall_app. split; [|repeat constructor]. pose proof (ss_evs _ _ _ _ _ _ Hs) as He.
  destruct o; try (revert He; apply Forall_impl; intros e; destruct e; simpl; try easy; now destruct m).
  destruct He as (cl & -> & _). repeat constructor.
Qed.
Lemma final_added E t c o c1 c2 t0 : step E t c = (OTerminate t0, c1) -> o = t0 -> c2 = run_terminal E t0 c1 -> added inner (c_log c1) (c_log c2).
Proof.
  intros H _ ->. apply step_sum in H as (evs & Hs). pose proof (ss_final _ _ _ _ _ _ Hs) as Hf. simpl in Hf.
  destruct (terminal_sum E t0 c1 Hf) as (evs2 & T1 & T2 & _). exists evs2. split; [exact T1|].
  revert T2. apply Forall_impl. intros e. destruct e; simpl; try easy; now destruct m.
Qed.
Lemma process_added E ts : forall p b p', process E ts p = (b, p') -> added inner (c_log (p_ctx p)) (c_log (p_ctx p')).
Proof.
  induction ts as [|t ts IH]; intros p b p'; cbn [process]; [intros [= <- <-]; apply added_refl|].
  destruct (blocked (p_done p) t); [intros H; apply IH in H; exact H|].
  destruct (step E t (p_ctx p)) as [o c] eqn:Hs. pose proof (step_added _ _ _ _ _ Hs) as Ha.
  destruct o.
  - intros H. apply IH in H. eapply added_trans; [exact Ha|exact H].
  - intros H. apply IH in H. destruct (def_insert_facts tok t0 (p_with_ctx p c)) as (F1 & _). rewrite F1 in H. eapply added_trans; [exact Ha|exact H].
  - intros H. apply IH in H. eapply added_trans; [exact Ha|exact H].
  - intros H. apply IH in H. eapply added_trans; [exact Ha|exact H].
  - intros [= <- <-]. cbn [p_ctx p_with_ctx]. rewrite drop_log. eapply added_trans; [exact Ha|]. eapply final_added; eauto.
Qed.
Lemma td_added E a p : added inner (c_log (p_ctx p)) (c_log (p_ctx (td_step E p a))).
Proof.
  destruct (td_sum E a p) as (evs & tok & T1 & T2 & _). rewrite T1. exists (evs ++ [EvTeardown]). rewrite <- app_assoc. split; [reflexivity|].
  destruct T2 as [[-> _]|(cl & -> & _)]; repeat constructor.
Qed.
Lemma teardown_added E p : added inner (c_log (p_ctx p)) (c_log (p_ctx (execute_teardown E p))).
Proof.
  unfold execute_teardown. cbn [replace_deferred p_ctx p_queue p_def p_done p_td p_term].
  assert (K : forall l q, added inner (c_log (p_ctx q)) (c_log (p_ctx (fold_left (td_step E) l q)))).
  { induction l as [|a l IH]; intros q; cbn [fold_left]; [apply added_refl|]. eapply added_trans; [apply (td_added E a q)|apply IH]. }
  eapply added_trans; [|apply K]. cbn [p_ctx]. rewrite drop_log. apply added_refl.
Qed.
Lemma eval_added E p : added inner (c_log (p_ctx p)) (c_log (p_ctx (eval_pipe E p))).
Proof.
  unfold eval_pipe. destruct (process E (p_queue p) (p_with_queue p [])) as [b p1] eqn:Hp. apply process_added in Hp.
  destruct b; [eapply added_trans; [exact Hp|apply teardown_added]|].
  destruct (p_queue p1); [|exact Hp]. destruct (p_def p1); [|exact Hp]. destruct (p_td p1); [exact Hp|]. eapply added_trans; [exact Hp|apply teardown_added].
Qed.
Lemma set_grpc_log st sz c : c_log (set_grpc st sz c) = c_log c.
Proof. unfold set_grpc. now destruct (c_grpc c). Qed.
Lemma digest_added E tok st sz p : match nget tok (p_def p) with
  | Some t => added inner (EvHandle tok (t_id t) :: c_log (p_ctx p)) (c_log (p_ctx (digest_pipe E tok st sz p)))
  | None => digest_pipe E tok st sz p = eval_pipe E p
  end.
Proof.
  unfold digest_pipe. destruct (nget tok (p_def p)) as [t|]; [|reflexivity]. cbn [p_ctx].
  destruct (step E t (emit (EvHandle tok (t_id t)) (set_grpc st sz (p_ctx p)))) as [o c] eqn:Hs.
  pose proof (step_added _ _ _ _ _ Hs) as Ha. cbn [emit with_log c_log] in Ha. rewrite set_grpc_log in Ha.
  destruct o.
  - eapply added_trans; [exact Ha|]. eapply added_trans; [|apply eval_added]. apply added_refl.
  - eapply added_trans; [exact Ha|]. eapply added_trans; [|apply eval_added].
    match goal with |- added _ _ (c_log (p_ctx (def_insert ?k ?t ?q))) => destruct (def_insert_facts k t q) as (F1 & _); rewrite F1 end. apply added_refl.
  - eapply added_trans; [exact Ha|]. eapply added_trans; [|apply eval_added]. cbn [p_ctx p_with_ctx emit with_log c_log].
    exists [EvDone (t_id t)]. split; [reflexivity|repeat constructor].
  - eapply added_trans; [exact Ha|]. eapply added_trans; [|apply eval_added]. apply added_refl.
  - eapply added_trans; [exact Ha|]. eapply added_trans; [|apply eval_added]. eapply added_trans; [|apply teardown_added].
    cbn [p_ctx p_with_ctx]. rewrite drop_log. eapply final_added; eauto.
Qed.

(** * The pipeline after a callback *)
Lemma state_log s f : f_log (f_state s f) = match s with InProgress p => c_log (p_ctx p) | Completed _ c => c_log c end.
Proof. now destruct s. Qed.
Lemma to_state_log p : match to_state p with InProgress q => c_log (p_ctx q) | Completed _ c => c_log c end = c_log (p_ctx p).
Proof. unfold to_state. destruct (p_queue p); [|reflexivity]. destruct (p_def p); reflexivity. Qed.
Lemma to_state_pipe p f : f_pipe (f_state (to_state p) f) = match p_queue p, p_def p with [], [] => None | _, _ => Some p end.
Proof. unfold to_state. destruct (p_queue p); [|reflexivity]. destruct (p_def p); reflexivity. Qed.
Lemma state_resp s f : f_resp (f_state s f) = f_resp f /\ f_force (f_state s f) = f_force f /\ f_dead (f_state s f) = f_dead f.
Proof. now destruct s. Qed.

(** what the callback lets the pipeline see, before its evaluation *)
Definition seen (i : fin) (f : flt) (p : pipe) : pipe :=
  match i with
  | InReqHeaders => p
  | InReqBody n e => let q := f_take (f_emit (EvReqBody n e) f) p in p_with_ctx q (with_reqb (p_ctx q) (set_size n e (c_reqb (p_ctx q))))
  | InRespHeaders => f_take (f_emit (EvMetric MAllowed) (f_emit EvRespHeaders f)) p
  | InRespBody n e => let q := f_take (f_emit (EvRespBody n e) f) p in p_with_ctx q (with_respb (p_ctx q) (set_size n e (c_respb (p_ctx q))))
  | InGrpc k st sz => f_take (f_emit (EvGrpcResp k st sz) f) p
  end.
Definition advance (E : env) (i : fin) (q : pipe) : pipe :=
  match i with InGrpc k st sz => digest_pipe E k st sz q | _ => eval_pipe E q end.
Definition in_resp (i : fin) (f : flt) : bool := match i with InRespHeaders => true | _ => f_resp f end.
Definition kept (q : pipe) : option pipe := match p_queue q, p_def q with [], [] => None | _, _ => Some q end.
(** the event closing a callback *)
Definition answer (i : fin) (f : flt) (q : pipe) : list ev :=
  let held := match kept q with Some _ => tripped (p_ctx q) | None => false end in
  let resume := [if f_resp f then EvResumeResp else EvResumeReq] in
  match i with
  | InGrpc _ _ _ =>
      match kept q with
      | Some _ => if (if p_term q && f_resp f then negb held else negb (p_term q) && negb held) then resume else []
      | None => if negb (p_term q) || f_force f || f_resp f then resume else []
      end
  | InRespBody _ eos => [EvRet (held || match kept q with Some _ => eos | None => false end)]
  | _ => [EvRet held]
  end.
Lemma callback E fa f i p : f_dead f = false -> f_pipe f = Some p -> i <> InReqHeaders ->
  let q := advance E i (seen i f p) in
  f_pipe (fstep E fa f i) = kept q /\ f_resp (fstep E fa f i) = in_resp i f /\ f_dead (fstep E fa f i) = false /\
  f_log (fstep E fa f i) = answer i f q ++ c_log (p_ctx q).
Proof.
  intros Hd Hp Hi. unfold fstep. rewrite Hd. unfold answer, kept.
  destruct i as [|n e| |n e|k st sz]; [easy| | | |]; cbn [seen advance in_resp ev_of].
  - unfold on_req_body, f_ret, should_pause, f_eval. cbn [f_emit f_pipe f_dead f_log f_resp]. rewrite Hp.
    unfold eval. cbn [f_emit f_pipe f_dead f_log f_resp]. rewrite to_state_pipe, state_log, to_state_log.
    destruct (state_resp (to_state (eval_pipe E (p_with_ctx (f_take (f_emit (EvReqBody n e) f) p) (with_reqb (p_ctx (f_take (f_emit (EvReqBody n e) f) p)) (set_size n e (c_reqb (p_ctx (f_take (f_emit (EvReqBody n e) f) p)))))))) (f_emit (EvReqBody n e) f)) as (R1 & R2 & R3).
    rewrite R1, R3. repeat split; auto. unfold requires_pause. destruct (p_queue _); [destruct (p_def _)|]; reflexivity.
  - unfold on_resp_headers, f_ret, should_pause, f_eval. cbn [f_emit f_pipe f_dead f_log f_resp f_force]. rewrite Hp.
    unfold eval. cbn [f_emit f_pipe f_dead f_log f_resp]. rewrite to_state_pipe, state_log, to_state_log.
    destruct (state_resp (to_state (eval_pipe E (p_with_ctx (f_take (mkFlt (Some p) true (f_force f) (f_dead f) (EvMetric MAllowed :: EvRespHeaders :: f_log f)) p) (p_ctx (f_take (mkFlt (Some p) true (f_force f) (f_dead f) (EvMetric MAllowed :: EvRespHeaders :: f_log f)) p))))) (mkFlt (Some p) true (f_force f) (f_dead f) (EvMetric MAllowed :: EvRespHeaders :: f_log f))) as (R1 & R2 & R3).
    rewrite R1, R3. assert (S : forall q, p_with_ctx q (p_ctx q) = q) by (intros []; reflexivity).
    rewrite S. unfold f_take. cbn [f_emit f_log f_resp f_dead]. repeat split; auto. unfold requires_pause. destruct (p_queue _); [destruct (p_def _)|]; reflexivity.
  - unfold on_resp_body, should_pause, f_eval. cbn [f_emit f_pipe f_dead f_log f_resp f_force]. rewrite Hp.
    unfold eval. set (q := eval_pipe E _). rewrite !to_state_pipe, state_log, to_state_log.
    destruct (state_resp (to_state q) (f_emit (EvRespBody n e) f)) as (R1 & R2 & R3). unfold requires_pause.
    destruct (p_queue q) as [|t0 q0] eqn:Hq; [destruct (p_def q) as [|d0 d1] eqn:Hdf|].
    + cbn [andb f_emit f_pipe f_resp f_dead f_log orb]. rewrite to_state_pipe, R1, R3, state_log, to_state_log, Hq, Hdf. now repeat split.
    + destruct (tripped (p_ctx q)); [|destruct e]; cbn [andb f_emit f_pipe f_resp f_dead f_log orb app]; rewrite ?to_state_pipe, ?R1, ?R3, ?state_log, ?to_state_log, ?Hq, ?Hdf; now repeat split.
    + destruct (tripped (p_ctx q)); [|destruct e]; cbn [andb f_emit f_pipe f_resp f_dead f_log orb app]; rewrite ?to_state_pipe, ?R1, ?R3, ?state_log, ?to_state_log, ?Hq; now repeat split.
  - unfold on_grpc. cbn [f_emit f_pipe f_dead f_log f_resp f_force]. rewrite Hp. unfold digest.
    set (q := digest_pipe E k st sz _). destruct (state_resp (to_state q) (f_emit (EvGrpcResp k st sz) f)) as (R1 & R2 & R3).
    unfold should_resume, should_pause, requires_pause. rewrite to_state_pipe, R1. cbn [f_resp f_emit].
    unfold to_state. destruct (p_queue q) as [|t0 q0] eqn:Hq; [destruct (p_def q) as [|d0 d1] eqn:Hdf|]; cbn [f_state].
    + destruct (negb (p_term q) || f_force f || f_resp f); cbn; rewrite ?Hd; now repeat split.
    + destruct (p_term q && f_resp f); [destruct (negb (tripped (p_ctx q)))|destruct (negb (p_term q) && negb (tripped (p_ctx q)))]; cbn; rewrite ?Hd; now repeat split.
    + destruct (p_term q && f_resp f); [destruct (negb (tripped (p_ctx q)))|destruct (negb (p_term q) && negb (tripped (p_ctx q)))]; cbn; rewrite ?Hd; now repeat split.
Qed.
Lemma seen_log i f p : i <> InReqHeaders -> c_log (p_ctx (seen i f p)) = match i with InRespHeaders => [EvMetric MAllowed] | _ => [] end ++ ev_of i :: f_log f.
Proof. destruct i; try easy; reflexivity. Qed.
Lemma seen_def i f p : p_def (seen i f p) = p_def p /\ p_queue (seen i f p) = p_queue p.
Proof. now destruct i. Qed.

(** * The history only grows *)
Lemma dead_stays E fa f i : f_dead f = true -> fstep E fa f i = f.
Proof. intros H. unfold fstep. now rewrite H. Qed.
Lemma step_grows E fa f i : i <> InReqHeaders -> exists evs, f_log (fstep E fa f i) = evs ++ f_log f.
Proof.
  intros Hi. destruct (f_dead f) eqn:Hd; [exists []; now rewrite dead_stays|].
  destruct (f_pipe f) as [p|] eqn:Hp; [|destruct (no_pipe_step E fa f i Hp Hi) as (_ & evs & H & _); now exists evs].
  destruct (callback E fa f i p Hd Hp Hi) as (_ & _ & _ & H). rewrite H.
  assert (A : exists evs, c_log (p_ctx (advance E i (seen i f p))) = evs ++ c_log (p_ctx (seen i f p))).
  { destruct i as [|n e| |n e|k st sz]; cbn [advance]; try (match goal with |- context [eval_pipe E ?q] => destruct (eval_added E q) as (evs & -> & _); now exists evs end).
    pose proof (digest_added E k st sz (seen (InGrpc k st sz) f p)) as Ha. destruct (nget k _) as [t|].
    - destruct Ha as (evs & -> & _). exists (evs ++ [EvHandle k (t_id t)]). now rewrite <- app_assoc.
    - rewrite Ha. destruct (eval_added E (seen (InGrpc k st sz) f p)) as (evs & -> & _). now exists evs. }
  destruct A as (evs & ->). rewrite (seen_log i f p Hi). rewrite !app_assoc. eexists. replace (ev_of i :: f_log f) with ([ev_of i] ++ f_log f) by reflexivity.
  rewrite !app_assoc. reflexivity.
Qed.
Lemma run_grows E fa l l' : later l' -> exists evs, f_log (run E fa (l ++ l')) = evs ++ f_log (run E fa l).
Proof.
  induction l' as [|i l' IH] using rev_ind; intros Hl; [exists []; now rewrite app_nil_r|].
  destruct IH as (evs & IH); [intros H; apply Hl; apply in_or_app; now left|].
  rewrite app_assoc, run_snoc. destruct (step_grows E fa (run E fa (l ++ l')) i) as (evs' & H); [intros ->; apply Hl; apply in_or_app; right; now left|].
  rewrite H, IH, app_assoc. eauto.
Qed.
(** a request with a pipeline never traps *)
Lemma pipe_alive E fa l : later l -> f_pipe (run E fa l) <> None -> f_dead (run E fa l) = false.
Proof.
  induction l as [|i l IH] using rev_ind; intros Hl.
  - unfold run, frun. cbn [fold_left]. unfold fstep. cbn [flt0 f_dead]. unfold on_req_headers. cbn [f_emit f_log f_pipe f_resp f_force f_dead flt0].
    destruct (build E fa _) as [p|c|c|c].
    + intros _. unfold f_ret. cbn [f_emit f_dead]. match goal with |- f_dead (f_state ?s ?f) = _ => now destruct (state_resp s f) as (_ & _ & ->) end.
    + easy.
    + destruct (h_reply E _ 500 [] (Some ise_body)); easy.
    + easy.
  - rewrite run_snoc. assert (Hl' : later l) by (intros H; apply Hl; apply in_or_app; now left).
    assert (Hi : i <> InReqHeaders) by (intros ->; apply Hl; apply in_or_app; right; now left).
    destruct (f_pipe (run E fa l)) as [p|] eqn:Hp.
    + assert (Hd : f_dead (run E fa l) = false) by (apply IH; [exact Hl'|discriminate]).
      intros _. now destruct (callback E fa _ i p Hd Hp Hi) as (_ & _ & H & _).
    + intros H. now destruct (no_pipe_step E fa _ i Hp Hi) as (H' & _).
Qed.
(** the first callback of a request with a pipeline *)
Lemma first_callback E fa p : build E fa (ctx0 [EvReqHeaders]) = BOk p ->
  let q := eval_pipe E (p_emit (EvMetric MHits) p) in
  f_pipe (run E fa []) = kept q /\ f_resp (run E fa []) = false /\ f_dead (run E fa []) = false /\
  f_log (run E fa []) = EvRet (match kept q with Some _ => tripped (p_ctx q) | None => false end) :: c_log (p_ctx q).
Proof.
  intros Hb. unfold run, frun. cbn [fold_left]. unfold fstep. cbn [flt0 f_dead]. unfold on_req_headers. cbn [f_emit f_log flt0 ev_of]. rewrite Hb.
  unfold f_ret, should_pause, eval, kept. cbn [f_emit f_pipe f_dead f_log f_resp]. fold (p_emit (EvMetric MHits) p). set (q := eval_pipe E _).
  match goal with |- context [f_state (to_state q) ?f] => destruct (state_resp (to_state q) f) as (R1 & R2 & R3); rewrite to_state_pipe, state_log, to_state_log, R1, R3 end.
  repeat split. unfold requires_pause. destruct (p_queue q); [destruct (p_def q)|]; reflexivity.
Qed.
Lemma kept_busy q p : kept q = Some p -> p = q /\ (p_queue p <> [] \/ p_def p <> []).
Proof.
  unfold kept. destruct (p_queue q) eqn:Hq; [destruct (p_def q) eqn:Hd; [discriminate|]|]; intros [= <-]; (split; [reflexivity|]); [right|left]; congruence.
Qed.
Lemma kept_none q : kept q = None -> p_queue q = [] /\ p_def q = [].
Proof. unfold kept. destruct (p_queue q); [destruct (p_def q)|]; easy. Qed.
Lemma run_init (l : list fin) : l = [] \/ exists l' i, l = l' ++ [i].
Proof. destruct l as [|i l] using rev_ind; eauto. Qed.
Lemma pipe_busy E fa l p : later l -> f_pipe (run E fa l) = Some p -> p_queue p <> [] \/ p_def p <> [].
Proof.
  intros Hl Hp. destruct (run_init l) as [->|(l' & i & ->)].
  - destruct (build E fa (ctx0 [EvReqHeaders])) as [p0|c|c|c] eqn:Hb.
    + destruct (first_callback E fa p0 Hb) as (H & _). rewrite H in Hp. now apply kept_busy in Hp.
    + pose proof (headers_log E fa) as H. rewrite Hb in H. destruct H as (_ & H & _). congruence.
    + pose proof (headers_log E fa) as H. rewrite Hb in H. destruct H as (H & _). congruence.
    + pose proof (headers_log E fa) as H. rewrite Hb in H. destruct H as (H & _). congruence.
  - rewrite run_snoc in Hp. assert (Hi : i <> InReqHeaders) by (intros ->; apply Hl; apply in_or_app; right; now left).
    assert (Hl' : later l') by (intros H; apply Hl; apply in_or_app; now left).
    destruct (f_pipe (run E fa l')) as [p1|] eqn:Hp1.
    + assert (Hd : f_dead (run E fa l') = false) by (apply pipe_alive; [exact Hl'|congruence]).
      destruct (callback E fa _ i p1 Hd Hp1 Hi) as (H & _). rewrite H in Hp. now apply kept_busy in Hp.
    + destruct (no_pipe_step E fa _ i Hp1 Hi) as (H & _). congruence.
Qed.
(** the events of a callback, latest first *)
Lemma callback_log E f i p : f_dead f = false -> f_pipe f = Some p -> i <> InReqHeaders ->
  let q := advance E i (seen i f p) in exists evs,
  c_log (p_ctx q) = evs ++ match i with InRespHeaders => [EvMetric MAllowed]
                           | InGrpc k _ _ => match nget k (p_def p) with Some t => [EvHandle k (t_id t)] | None => [] end
                           | _ => [] end ++ ev_of i :: f_log f /\ Forall inner evs.
Proof.
  intros Hd Hp Hi. cbv zeta. destruct i as [|n e| |n e|k st sz]; [easy| | | |]; cbn [advance].
  { destruct (eval_added E (seen (InReqBody n e) f p)) as (evs & H & Hf); exists evs; split; [rewrite H|exact Hf]; rewrite seen_log by discriminate; reflexivity. }
  { destruct (eval_added E (seen InRespHeaders f p)) as (evs & H & Hf); exists evs; split; [rewrite H|exact Hf]; rewrite seen_log by discriminate; reflexivity. }
  { destruct (eval_added E (seen (InRespBody n e) f p)) as (evs & H & Hf); exists evs; split; [rewrite H|exact Hf]; rewrite seen_log by discriminate; reflexivity. }
  pose proof (digest_added E k st sz (seen (InGrpc k st sz) f p)) as Ha. destruct (seen_def (InGrpc k st sz) f p) as [Hdf _]. rewrite Hdf in Ha.
  destruct (nget k (p_def p)) as [t|].
  - destruct Ha as (evs & H & Hf). exists evs. split; [rewrite H|exact Hf]. rewrite seen_log by discriminate. reflexivity.
  - rewrite Ha. destruct (eval_added E (seen (InGrpc k st sz) f p)) as (evs & H & Hf). exists evs. split; [rewrite H|exact Hf]. rewrite seen_log by discriminate. reflexivity.
Qed.
Lemma no_pipe_callback E fa f i : f_dead f = false -> f_pipe f = None -> i <> InReqHeaders ->
  f_resp (fstep E fa f i) = in_resp i f /\ f_pipe (fstep E fa f i) = None /\ f_dead (fstep E fa f i) = false /\
  f_log (fstep E fa f i) = match i with
                           | InRespHeaders => [EvRet false; EvMetric MAllowed; EvRespHeaders]
                           | InGrpc k st sz => [EvGrpcResp k st sz]
                           | _ => [EvRet false; ev_of i]
                           end ++ f_log f.
Proof.
  intros H3 H2 Hi. unfold fstep. rewrite H3. destruct i as [|n e| |n e|tok st sz]; [easy| | | |];
    unfold on_req_body, on_resp_headers, on_resp_body, on_grpc, f_eval, f_ret, should_pause; cbn [f_emit f_pipe f_dead f_log f_resp ev_of]; rewrite H2;
    cbn [f_emit f_pipe f_dead f_log ev_of app andb f_resp]; rewrite ?H2; cbn [f_pipe f_dead f_log app f_resp]; rewrite ?H3; auto.
Qed.
(** the response phase has begun *)
Lemma in_resp_cons i f e (evs : list ev) h : (f_resp f = true <-> In EvRespHeaders h) -> Forall (fun e => e <> EvRespHeaders) evs -> e = ev_of i ->
  i <> InReqHeaders -> (in_resp i f = true <-> In EvRespHeaders (evs ++ e :: h)).
Proof.
  intros H Hf -> Hi. rewrite in_app_iff. rewrite Forall_forall in Hf. simpl. destruct i; simpl; try easy;
    (split; [intros Hx; try tauto; right; right; now apply H|intros [Hx|[Hx|Hx]]; try discriminate; try reflexivity; [now apply Hf in Hx|now apply H]]) || tauto.
Qed.
Lemma resp_flag E fa l : later l -> f_dead (run E fa l) = false -> (f_resp (run E fa l) = true <-> In EvRespHeaders (f_log (run E fa l))).
Proof.
  assert (NI : forall evs, Forall inner evs -> Forall (fun e => e <> EvRespHeaders) evs).
  { intros evs. apply Forall_impl. intros e He ->. exact He. }
  induction l as [|i l IH] using rev_ind; intros Hl Hd.
  - pose proof (headers_log E fa) as H. destruct (build E fa (ctx0 [EvReqHeaders])) as [p0|c|c|c] eqn:Hb.
    + destruct (first_callback E fa p0 Hb) as (_ & H1 & _ & H2). rewrite H1, H2. split; [discriminate|]. intros [Hx|Hx]; [discriminate|].
      destruct (eval_added E (p_emit (EvMetric MHits) p0)) as (evs & He & Hf). rewrite He in Hx. apply in_app_or in Hx as [Hx|Hx].
      * apply NI in Hf. rewrite Forall_forall in Hf. now apply Hf in Hx.
      * pose proof (build_spec E fa (ctx0 [EvReqHeaders])) as Hs. rewrite Hb in Hs. destruct Hs as (b & c1 & tds & _ & _ & _ & (Hlog & _) & _).
        cbn in Hlog, Hx. rewrite Hlog in Hx. destruct Hx as [Hx|[Hx|[]]]; discriminate.
    + destruct H as (H1 & _). rewrite H1. assert (R : f_resp (run E fa []) = false); [|rewrite R; simpl; intuition discriminate].
      unfold run, frun. cbn [fold_left]. unfold fstep. cbn [flt0 f_dead]. unfold on_req_headers. cbn [f_emit f_log flt0 ev_of]. now rewrite Hb.
    + destruct H as (_ & ok & _ & H1). rewrite H1. assert (R : f_resp (run E fa []) = false); [|rewrite R; destruct ok; simpl; intuition discriminate].
      unfold run, frun. cbn [fold_left]. unfold fstep. cbn [flt0 f_dead]. unfold on_req_headers. cbn [f_emit f_log flt0 ev_of]. rewrite Hb.
      match goal with |- context [h_reply E ?x 500 [] ?y] => destruct (h_reply E x 500 [] y) end; reflexivity.
    + destruct H as (_ & H & _). congruence.
  - rewrite run_snoc in *. assert (Hi : i <> InReqHeaders) by (intros ->; apply Hl; apply in_or_app; right; now left).
    assert (Hl' : later l) by (intros H; apply Hl; apply in_or_app; now left). specialize (IH Hl').
    destruct (f_dead (run E fa l)) eqn:Hd0; [rewrite dead_stays in Hd by exact Hd0; congruence|]. specialize (IH eq_refl).
    destruct (f_pipe (run E fa l)) as [p|] eqn:Hp.
    + destruct (callback E fa _ i p Hd0 Hp Hi) as (_ & H1 & _ & H2). rewrite H1, H2.
      destruct (callback_log E _ i p Hd0 Hp Hi) as (evs & H3 & H4). rewrite H3. rewrite !app_assoc. apply in_resp_cons; auto.
      apply Forall_app. split; [apply Forall_app; split|].
      * unfold answer. destruct i; repeat constructor; try discriminate.
        destruct (kept _); match goal with |- Forall _ (if ?b then _ else _) => destruct b end; repeat constructor; destruct (f_resp _); discriminate.
      * now apply NI.
      * destruct i; repeat constructor; try discriminate. destruct (nget _ _); repeat constructor; discriminate.
    + destruct (no_pipe_callback E fa _ i Hd0 Hp Hi) as (H1 & _ & _ & H2). rewrite H1, H2.
      replace (match i with InRespHeaders => [EvRet false; EvMetric MAllowed; EvRespHeaders] | InGrpc k st sz => [EvGrpcResp k st sz] | _ => [EvRet false; ev_of i] end ++ f_log (run E fa l))
        with (match i with InRespHeaders => [EvRet false; EvMetric MAllowed] | InGrpc k st sz => [] | _ => [EvRet false] end ++ ev_of i :: f_log (run E fa l)) by (now destruct i).
      apply in_resp_cons; auto. destruct i; repeat constructor; discriminate.
Qed.
