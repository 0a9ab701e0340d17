(** Base invariant of the executor and what each small step adds to the history. *)
From Coq Require Import String List NArith Bool Lia Permutation.
From Verif Require Import Base Value Headers AttrPath Ctx CelProps CelEval Sse Body Tasks Exec P_Frame P_Apply P_Exec.
Import ListNotations.
Open Scope list_scope.

Definition ghost (t : task) (o : outcome) : list ev :=
  match o with
  | ODone => [EvDone (t_id t)] | OFailed => [EvFailed (t_id t)] | OTerminate _ => [EvTerminate (t_id t)]
  | ODeferred _ _ | ORequeued _ => []
  end.

(** One application of a task by the executor *)
Record ssum (E : env) (t : task) (c : ctx) (o : outcome) (c' : ctx) (evs : list ev) : Prop := {
  ss_log : c_log c' = ghost t o ++ evs ++ EvEval (t_id t) :: c_log c;
  ss_evs : match o with
           | ODeferred tok t' => exists cl, evs = [EvDispatch (t_id t) cl (Some tok)] /\ t_id t' = t_id t /\
                h_dispatch E (EvEval (t_id t) :: c_log c) cl = Some tok /\
                match core t with
                | TDynamic id s var msg rs pred deps g => core t' = TPending id s var rs g
                | _ => False
                end
           | _ => Forall (quiet t) evs
           end;
  ss_bar : c_bar c' = match o, core t with
                      | ODeferred _ _, TDynamic _ _ _ _ _ _ _ true => (c_bar c + 1)%N
                      | _, TPending _ _ _ _ true | _, TPendNoop _ true => (c_bar c - 1)%N
                      | _, _ => c_bar c
                      end;
  ss_grpc : match core t with TPending _ _ _ _ _ | TPendNoop _ _ => c_grpc c' = None | _ => c_grpc c' = c_grpc c end;
  ss_rid : forall i, c_rid c = Some i -> c_rid c' = Some i;
  ss_track : c_track c' = c_track c;
  ss_final : match o with OTerminate f => is_final f | _ => True end;
  ss_requeue : match o with
              | ORequeued l =>
                  match core t with
                  | TPending _ _ _ rs _ => l <> [] /\ map norm l = map norm rs
                  | TPendNoop _ _ => False
                  | _ => map norm l = [norm t]
                  end
              | _ => True
              end
}.

Lemma step_sum E t c o c' : step E t c = (o, c') -> exists evs, ssum E t c o c' evs.
Proof.
  unfold step. destruct (apply E t (emit (EvEval (t_id t)) c)) as [o1 c1] eqn:Ha.
  apply apply_summary in Ha. destruct Ha as [S1 (S2a & S2b & S2c) S3 S4 S5]. intros [= <- <-].
  destruct o1.
  - destruct S1 as (evs & G & Q & B). exists evs. constructor; auto. simpl. f_equal. exact G.
  - destruct S1 as (cl & G & Hi & Hd & Hc). exists [EvDispatch (t_id t) cl (Some tok)].
    constructor; auto; simpl.
    + exists cl. split; [reflexivity|]. split; [exact Hi|]. split; [exact Hd|]. destruct (core t); try easy; now destruct Hc.
    + destruct (core t); try easy.
  - destruct S1 as (evs & G & Q & B). exists evs. constructor; auto.
  - destruct S1 as (evs & G & Q & B). exists evs. constructor; auto. simpl. f_equal. exact G.
  - destruct S1 as (evs & G & Q & B). exists evs. constructor; auto. simpl. f_equal. exact G.
Qed.

(** Running the task of a termination *)
Definition final_ev (e : ev) : Prop :=
  match e with EvReply _ _ _ _ => True | EvMetric MDenied => True | EvMetric MErrors => True | _ => False end.
Lemma final_core t : is_final t -> core t = default_reply \/ core t = TNoop.
Proof. induction t; simpl; intros [H|H] || intros H; try discriminate; subst; auto. Qed.
Lemma noop_apply E f c : core f = TNoop -> apply E f c = (ODone, c).
Proof. induction f; simpl; intros Hc; try discriminate; try (now rewrite IHf). reflexivity. Qed.
Lemma terminal_sum E f c : is_final f -> exists evs,
  c_log (run_terminal E f c) = evs ++ c_log c /\ Forall final_ev evs /\
  c_bar (run_terminal E f c) = c_bar c /\ c_grpc (run_terminal E f c) = c_grpc c /\
  c_track (run_terminal E f c) = c_track c /\ (forall i, c_rid c = Some i -> c_rid (run_terminal E f c) = Some i) /\
  (core f = TNoop -> evs = []).
Proof.
  intros Hf. unfold run_terminal. destruct (apply E f c) as [o c1] eqn:Ha.
  assert (Hn : core f = TNoop -> c1 = c).
  { intros Hc. rewrite (noop_apply E f c Hc) in Ha. congruence. }
  apply apply_summary in Ha. destruct Ha as [S1 (S2a & S2b & S2c) S3 S4 S5].
  apply final_core in Hf.
  assert (exists evs, c_log c1 = evs ++ c_log c /\ Forall final_ev evs /\ c_bar c1 = c_bar c) as (evs & G & Q & B).
  { destruct o; try (destruct S1 as (evs & G & Q & B); exists evs; split; [exact G|]; split;
      [|destruct Hf as [Hf|Hf]; rewrite Hf in B; exact B];
      revert Q; apply Forall_impl; intros e; unfold quiet, final_ev; destruct Hf as [Hf|Hf]; rewrite Hf; destruct e; try easy;
      try (destruct tok; easy); try (destruct m; easy)).
    destruct S1 as (cl & _ & _ & _ & Hc). destruct Hf as [Hf|Hf]; rewrite Hf in Hc; easy. }
  exists evs. repeat split; auto.
  - destruct Hf as [Hf|Hf]; rewrite Hf in S3; exact S3.
  - intros Hc. specialize (Hn Hc). subst c1.
    assert (Hl : length (c_log c) = length evs + length (c_log c)) by (rewrite <- app_length, <- G; reflexivity).
    destruct evs; [reflexivity|simpl in Hl; lia].
Qed.

Lemma def_insert_facts k t p :
  c_log (p_ctx (def_insert k t p)) = c_log (p_ctx p) /\ c_bar (p_ctx (def_insert k t p)) = c_bar (p_ctx p) /\
  c_grpc (p_ctx (def_insert k t p)) = c_grpc (p_ctx p) /\ c_rid (p_ctx (def_insert k t p)) = c_rid (p_ctx p) /\
  c_track (p_ctx (def_insert k t p)) = c_track (p_ctx p) /\
  p_def (def_insert k t p) = nset k t (p_def p).
Proof. unfold def_insert. simpl. destruct (nget k (p_def p)); repeat split. Qed.

(** One teardown action *)
Lemma td_sum E a p : exists evs tok,
  c_log (p_ctx (td_step E p a)) = evs ++ EvTeardown :: c_log (p_ctx p) /\
  (evs = [] /\ tok = None \/ exists cl, evs = [EvExport cl tok] /\ h_dispatch E (EvTeardown :: c_log (p_ctx p)) cl = tok) /\
  p_def (td_step E p a) = match tok with
                          | None => p_def p
                          | Some k => nset k (TPendNoop (tx "teardown_" ++ nat_text (N.to_nat k)) false) (p_def p)
                          end /\
  p_queue (td_step E p a) = p_queue p /\ p_done (td_step E p a) = p_done p /\ p_term (td_step E p a) = p_term p /\
  p_td (td_step E p a) = p_td p /\
  c_bar (p_ctx (td_step E p a)) = c_bar (p_ctx p) /\ c_grpc (p_ctx (td_step E p a)) = c_grpc (p_ctx p) /\
  c_track (p_ctx (td_step E p a)) = c_track (p_ctx p) /\
  (forall i, c_rid (p_ctx p) = Some i -> c_rid (p_ctx (td_step E p a)) = Some i).
Proof.
  unfold td_step, td_exec. cbn [emit with_log c_log].
  destruct (o_spans E (EvTeardown :: c_log (p_ctx p))) as [msg|].
  - destruct (dispatch E _ _ _ _ _ _ _) as [r c] eqn:Hd. apply dispatch_spec in Hd.
    destruct Hd as (cl & c4 & Hx & -> & Hdis & _). exists [EvExport cl r], r.
    pose proof (xrid_log _ _ Hx) as Hl. simpl in Hl.
    pose proof (xrid_bar _ _ Hx) as Hb. pose proof (xrid_grpc _ _ Hx) as Hg. pose proof (xrid_track _ _ Hx) as Ht.
    pose proof (fun i => xrid_rid _ _ i Hx) as Hi. simpl in Hl, Hb, Hg, Ht, Hi. rewrite Hl in Hdis.
    destruct r as [tok|].
    + destruct (def_insert_facts tok (TPendNoop (tx "teardown_" ++ nat_text (N.to_nat tok)) false) (p_with_ctx p (emit (EvExport cl (Some tok)) c4))) as (F1 & F2 & F3 & F4 & F5 & F6).
      cbv beta iota zeta. rewrite F1, F2, F3, F4, F5, F6. cbn [p_with_ctx p_ctx emit with_log c_log c_bar c_grpc c_track c_rid p_def p_queue p_done p_term p_td app]. rewrite Hl. repeat split; auto.
      right. exists cl. auto.
    + cbn [p_with_ctx p_ctx emit with_log c_log c_bar c_grpc c_track c_rid p_def p_queue p_done p_term p_td app]. rewrite Hl. repeat split; auto. right. exists cl. auto.
  - exists [], None. simpl. repeat split; auto.
Qed.

Lemma Forall_nset {V} (P : V -> Prop) k v (d : list (N * V)) : P v -> Forall P (map snd d) -> Forall P (map snd (nset k v d)).
Proof.
  intros Hv. induction d as [|[k' v'] d IH]; simpl; intros H; [now repeat constructor|].
  inversion H; subst. destruct (N.eqb k k'); simpl; constructor; auto.
Qed.
Lemma Forall_ndel {V} (P : V -> Prop) k (d : list (N * V)) : Forall P (map snd d) -> Forall P (map snd (ndel k d)).
Proof.
  rewrite !Forall_forall. intros H t Hi. apply in_map_iff in Hi as (x & <- & Hi). apply ndel_incl in Hi.
  apply H. now apply in_map.
Qed.
Lemma Forall_nget {V} (P : V -> Prop) k v (d : list (N * V)) : Forall P (map snd d) -> nget k d = Some v -> P v.
Proof.
  intros H Hn. apply nget_In in Hn. rewrite Forall_forall in H. apply H. apply in_map_iff. now exists (k, v).
Qed.

Definition has_noop (d : list (N * task)) : Prop := Exists is_noop (map snd d).

Record W (ts : list task) (p : pipe) : Prop := {
  w_ts : Forall wf_q ts;
  w_queue : Forall wf_q (p_queue p);
  w_def : Forall wf_d (map snd (p_def p));
  w_term : p_term p = true -> ts = [] /\ p_queue p = [];
  w_noop : has_noop (p_def p) -> ts = [] /\ p_queue p = [] /\ Forall is_noop (map snd (p_def p));
  w_grpc : c_grpc (p_ctx p) = None
}.

Lemma requeue_wf t l : wf_q t -> map norm l = [norm t] -> Forall wf_q l.
Proof.
  intros Hq Hm. destruct l as [|r [|r2 l]]; try discriminate. injection Hm as Hm. repeat constructor.
  apply wf_q_norm. rewrite Hm. now apply wf_q_norm.
Qed.
Lemma requeue_wf_p rs l : Forall wf_q rs -> map norm l = map norm rs -> Forall wf_q l.
Proof.
  revert rs. induction l as [|r l IH]; intros [|r' rs]; simpl; intros H Hm; try discriminate; constructor; inversion H; subst; injection Hm as Hm Hl.
  - apply wf_q_norm. rewrite Hm. now apply wf_q_norm.
  - eapply IH; eauto.
Qed.
Lemma wf_q_not_pending t : wf_q t -> match core t with TPending _ _ _ _ _ | TPendNoop _ _ | TNoop => False | _ => True end.
Proof. rewrite <- wf_q_core. destruct (core t); simpl; tauto. Qed.
Lemma wf_d_core t : wf_d t -> match core t with TPending _ _ _ rs _ => Forall wf_q rs | TPendNoop _ _ => is_noop t | _ => False end.
Proof.
  intros [H|H].
  - destruct t; simpl in *; easy.
  - unfold wf_p in H. now destruct (core t).
Qed.
Lemma wf_q_dyn t : wf_q t -> match core t with TDynamic _ _ _ _ rs _ _ _ => Forall wf_q rs | _ => True end.
Proof.
  rewrite <- wf_q_core. destruct (core t); simpl; auto. intros H. now apply wf_qs_Forall.
Qed.

Lemma W_step E ts p ts' p' : estep E ts p ts' p' -> W ts p -> W ts' p'.
Proof.
  intros Hs [W1 W2 W3 W4 W5 W6]. destruct Hs as [p Hset|t ts p Hb|t ts p o c ts' p' Hb Hst Hn|tok st sz p Hset Hn|tok st sz t p o c Hset Hn Hst|p Hq Ht|a rest p Hq Hn Ht].
  - constructor; simpl; auto.
    + intros Ht. destruct (W4 Ht) as [_ ->]. now split.
    + intros H. destruct (W5 H) as (_ & -> & H3). now repeat split.
  - inversion W1; subst. constructor; simpl; auto.
    + apply Forall_app. split; [assumption|now repeat constructor].
    + intros Ht. destruct (W4 Ht); discriminate.
    + intros H. destruct (W5 H) as (? & _); discriminate.
  - inversion W1 as [|x y Hq Hqs]; subst. apply step_sum in Hst as (evs & Hss).
    assert (Hterm : p_term p = false). { destruct (p_term p); [|reflexivity]. now destruct (W4 eq_refl). }
    assert (Hno : ~ has_noop (p_def p)). { intros H. now destruct (W5 H). }
    pose proof (ss_grpc _ _ _ _ _ _ Hss) as Hg. pose proof (wf_q_not_pending _ Hq) as Hp.
    assert (Hg' : c_grpc c = None) by (destruct (core t); try easy; congruence). clear Hg.
    destruct o; simpl in Hn; injection Hn as <- <-.
    + constructor; simpl; auto. now rewrite Hterm. tauto.
    + destruct (def_insert_facts tok t0 (p_with_ctx p c)) as (F1 & F2 & F3 & F4 & F5 & F6).
      destruct (ss_evs _ _ _ _ _ _ Hss) as (cl & _ & _ & _ & Hc).
      assert (Hwp : wf_p t0).
      { unfold wf_p. apply wf_q_dyn in Hq. destruct (core t); try easy. now rewrite Hc. }
      constructor; auto.
      * rewrite F6. apply Forall_nset; [now right|assumption].
      * simpl. now rewrite Hterm.
      * rewrite F6. simpl. intros H. exfalso. apply Hno. unfold has_noop in *.
        clear - H Hwp. induction (p_def p) as [|[k v] d IH]; simpl in H.
        -- inversion H as [x l Hx|x l Hx]; subst; [destruct t0; easy|inversion Hx].
        -- destruct (N.eqb tok k); simpl in H; inversion H as [x l Hx|x l Hx]; subst.
           ++ destruct t0; easy. ++ now right. ++ now left. ++ right. now apply IH.
      * rewrite F3. exact Hg'.
    + pose proof (ss_requeue _ _ _ _ _ _ Hss) as Hr. simpl in Hr.
      constructor; simpl; auto; [|now rewrite Hterm|tauto].
      apply Forall_app. split; [assumption|].
      eapply requeue_wf; [exact Hq|]. destruct (core t); try easy.
    + constructor; simpl; auto. now rewrite Hterm. tauto.
    + pose proof (ss_final _ _ _ _ _ _ Hss) as Hf. simpl in Hf.
      destruct (terminal_sum E t0 c Hf) as (evs2 & T1 & T2 & T3 & T4 & _).
      constructor; simpl; auto; [tauto|]. unfold drop_tasks, release. simpl. congruence.
  - constructor; simpl; auto.
  - assert (Hd : wf_d t) by (eapply Forall_nget; eauto).
    assert (Hnoop : is_noop t -> o = ODone).
    { intros Hno. destruct t; try easy. unfold step in Hst. simpl in Hst. congruence. }
    apply step_sum in Hst as (evs & Hss).
    pose proof (wf_d_core _ Hd) as Hc. pose proof (ss_grpc _ _ _ _ _ _ Hss) as Hg.
    assert (Hg' : c_grpc c = None) by (destruct (core t); try easy).
    assert (Hndel : has_noop (ndel tok (p_def p)) -> has_noop (p_def p)).
    { unfold has_noop. rewrite !Exists_exists. intros (x & Hi & Hx). exists x. split; [|exact Hx].
      apply in_map_iff in Hi as (y & <- & Hi). apply ndel_incl in Hi. now apply in_map. }
    assert (Hdel : has_noop (ndel tok (p_def p)) -> is_noop t).
    { intros H. apply Hndel in H. destruct (W5 H) as (_ & _ & H3). eapply Forall_nget; eauto. }
    assert (Hwd : Forall wf_d (map snd (ndel tok (p_def p)))) by now apply Forall_ndel.
    assert (Ht : p_term p = true -> is_noop t).
    { intros Ht. apply Hset in Ht. eapply Forall_nget; eauto. }
    destruct o; simpl.
    + constructor; simpl; auto. intros H. apply Hndel in H. destruct (W5 H) as (H1 & H2 & H3). repeat split; auto.
      now apply Forall_ndel.
    + destruct (ss_evs _ _ _ _ _ _ Hss) as (cl & _ & _ & _ & Hx). destruct (core t); easy.
    + pose proof (ss_requeue _ _ _ _ _ _ Hss) as Hr. simpl in Hr.
      constructor; simpl; auto.
      * apply Forall_app. split; [|assumption]. destruct (core t); try easy. eapply requeue_wf_p; [exact Hc|apply Hr].
      * intros H. apply Ht, Hnoop in H. discriminate.
      * intros H. apply Hdel, Hnoop in H. discriminate.
    + constructor; simpl; auto.
      intros H. apply Hdel, Hnoop in H. discriminate.
    + pose proof (ss_final _ _ _ _ _ _ Hss) as Hf. simpl in Hf.
      destruct (terminal_sum E t0 c Hf) as (evs2 & T1 & T2 & T3 & T4 & _).
      constructor; simpl; auto.
      * intros H. apply Hdel, Hnoop in H. discriminate.
      * congruence.
  - constructor; simpl; auto.
    + rewrite map_map. apply Forall_forall. intros x Hi. apply in_map_iff in Hi as (y & <- & _). left. exact I.
    + intros _. repeat split; auto. rewrite map_map. apply Forall_forall. intros x Hi. apply in_map_iff in Hi as (y & <- & _). exact I.
  - destruct (td_sum E a (p_with_td p rest)) as (evs & tok & T1 & T2 & T3 & T4 & T5 & T6 & T7 & T8 & T9 & _). simpl in *.
    assert (Hd : Forall is_noop (map snd (p_def (td_step E (p_with_td p rest) a)))) by now apply td_step_noop.
    constructor; auto.
    + rewrite T4. constructor || (rewrite Hq; constructor).
    + apply Forall_impl with (P := is_noop); [|exact Hd]. intros x Hx. now left.
    + rewrite T4. now rewrite Hq.
    + rewrite T4. now rewrite Hq.
    + congruence.
Qed.
