(** What may still happen once processing is over. *)
From Coq Require Import String List NArith Bool Lia Arith.
From Verif Require Import Base Value Headers AttrPath Ctx CelProps CelEval Sse Body Tasks Exec Config Legacy Blueprint Factory Filter
  P_Frame P_Apply P_Exec P_Run P_Inv P_Ids P_Plan P_Order.
Import ListNotations.
Open Scope list_scope.

Definition over (l : log) : Prop := exists a, In (EvTerminate a) l.
Definition closed (l : log) : Prop := over l \/ In EvTeardown l.
Definition silent (e : ev) (l : log) : Prop :=
  closed l ->
  match e with
  | EvDispatch _ _ _ | EvSetMap _ _ _ | EvSetProp _ _ _ | EvTerminate _ | EvFailed _ => False
  | EvEval a => exists k l', l = EvHandle k a :: l'
  | EvDone a => exists k l', l = EvEval a :: EvHandle k a :: l'
  | EvReply _ _ _ _ => exists evs a l', l = evs ++ EvTerminate a :: l' /\ Forall final_ev evs
  | _ => True
  end.
Definition td_last (e : ev) (l : log) : Prop :=
  match e with EvTeardown => over l \/ forall a k, ~ unanswered l a k | _ => True end.
Definition is_td (e : ev) : bool := match e with EvTeardown => true | _ => false end.
Definition td_count (l : log) : nat := length (filter is_td l).

Lemma over_app evs l : over l -> over (evs ++ l).
Proof. intros [a H]. exists a. apply in_or_app. now right. Qed.
Lemma td_count_app evs l : td_count (evs ++ l) = td_count evs + td_count l.
Proof. unfold td_count. now rewrite filter_app, app_length. Qed.
Lemma td_count_zero l : td_count l = 0 <-> ~ In EvTeardown l.
Proof.
  unfold td_count. induction l as [|e l IH]; simpl; [tauto|].
  destruct e; simpl; try (rewrite IH; intuition discriminate). split; [discriminate|]. intros H. exfalso. apply H. now left.
Qed.

(** events of an action's own evaluation *)
Definition plain (e : ev) : Prop := match e with EvTerminate _ | EvTeardown => False | _ => True end.
Lemma plain_over evs l : Forall plain evs -> over (evs ++ l) -> over l.
Proof.
  intros Hp [a H]. apply in_app_or in H as [H|H]; [|now exists a]. rewrite Forall_forall in Hp. now apply Hp in H.
Qed.
Lemma plain_td evs l : Forall plain evs -> In EvTeardown (evs ++ l) -> In EvTeardown l.
Proof. intros Hp H. apply in_app_or in H as [H|H]; [|exact H]. rewrite Forall_forall in Hp. now apply Hp in H. Qed.
Lemma plain_closed evs l : Forall plain evs -> closed (evs ++ l) -> closed l.
Proof. intros Hp [H|H]; [left; eapply plain_over; eauto|right; eapply plain_td; eauto]. Qed.
Lemma plain_count evs : Forall plain evs -> td_count evs = 0.
Proof. intros Hp. apply td_count_zero. intros H. rewrite Forall_forall in Hp. now apply Hp in H. Qed.
Lemma quiet_plain t evs : Forall (quiet t) evs -> Forall plain evs.
Proof. apply Forall_impl. intros e. destruct e; simpl; easy. Qed.
Lemma final_plain evs : Forall final_ev evs -> Forall plain evs.
Proof. apply Forall_impl. intros e. destruct e; simpl; easy. Qed.
Lemma hist_plain evs l : Forall plain evs -> ~ closed l -> hist silent l -> hist silent (evs ++ l).
Proof.
  intros Hp Hc Hh. induction Hp as [|e evs He Hp IH]; simpl; [exact Hh|]. split; [|exact IH].
  intros Hcl. exfalso. apply Hc. eapply plain_closed; eauto.
Qed.
Lemma hist_final evs a l : Forall final_ev evs -> hist silent (EvTerminate a :: l) -> hist silent (evs ++ EvTerminate a :: l).
Proof.
  intros Hf Hh. induction Hf as [|e evs He Hf IH]; simpl; [exact Hh|]. split; [|exact IH].
  intros _. destruct e; simpl in He; try easy. now exists evs, a, l.
Qed.
Lemma hist_td_last evs l : Forall plain evs -> hist td_last l -> hist td_last (evs ++ l).
Proof. intros Hp. apply hist_app. intros e l1 Hi. rewrite Forall_forall in Hp. apply Hp in Hi. destruct e; simpl; easy. Qed.

Lemma ssum_events E t c o c' evs : ssum E t c o c' evs -> exists g,
  c_log c' = g ++ evs ++ EvEval (t_id t) :: c_log c /\ Forall plain evs /\
  match o with OTerminate _ => g = [EvTerminate (t_id t)] | _ => Forall plain g end.
Proof.
  intros Hs. pose proof (ss_log _ _ _ _ _ _ Hs) as H1. pose proof (ss_evs _ _ _ _ _ _ Hs) as H2. exists (ghost t o). split; [exact H1|].
  destruct o; simpl in *; (split; [|try reflexivity; repeat constructor]); try (eapply quiet_plain; eassumption).
  destruct H2 as (cl & -> & _). repeat constructor.
Qed.

Record T (E : env) (n : nat) (ts : list task) (p : pipe) : Prop := {
  t_w : W ts p;
  t_over : over (c_log (p_ctx p)) <-> p_term p = true;
  t_td : In EvTeardown (c_log (p_ctx p)) -> ts = [] /\ p_queue p = [] /\ Forall is_noop (dts p);
  t_hist : hist silent (c_log (p_ctx p));
  t_cnt : td_count (c_log (p_ctx p)) + length (p_td p) = n;
  t_k : fresh_tokens E -> K p;
  t_u : fresh_tokens E -> ~ over (c_log (p_ctx p)) -> has_noop (p_def p) -> forall a k, ~ unanswered (c_log (p_ctx p)) a k;
  t_last : fresh_tokens E -> hist td_last (c_log (p_ctx p)) }.

Lemma has_noop_dts p : dts p <> [] -> Forall is_noop (dts p) -> has_noop (p_def p).
Proof. unfold dts, has_noop. destruct (map snd (p_def p)); [easy|]. intros _ H. inversion H; subst. now constructor. Qed.

Lemma T_run E n t ts p o c ts' p' : blocked (p_done p) t = false -> step E t (p_ctx p) = (o, c) ->
  run_next E t ts p o c = (ts', p') -> T E n (t :: ts) p -> T E n ts' p'.
Proof.
  intros Hb Hst Hn HT. pose proof (es_run E t ts p o c ts' p' Hb Hst Hn) as Hes.
  pose proof (W_step _ _ _ _ _ Hes (t_w _ _ _ _ HT)) as HW'.
  destruct HT as [HW Hov Htd Hh Hc Hk Hu Hl].
  assert (Ht : p_term p = false).
  { destruct (p_term p) eqn:E0; [|reflexivity]. destruct (w_term _ _ HW E0). discriminate. }
  assert (Hno : ~ over (c_log (p_ctx p))) by (rewrite Hov, Ht; discriminate).
  assert (Hnt : ~ In EvTeardown (c_log (p_ctx p))). { intros H. destruct (Htd H). discriminate. }
  assert (Hncl : ~ closed (c_log (p_ctx p))) by (intros [H|H]; auto).
  assert (Hnn : ~ has_noop (p_def p)). { intros H. destruct (w_noop _ _ HW H). discriminate. }
  apply step_sum in Hst as (evs & Hss). destruct (ssum_events _ _ _ _ _ _ Hss) as (g & Hlog & Hp & Hg).
  set (pre := evs ++ [EvEval (t_id t)]).
  assert (Hpe : Forall plain pre) by (apply Forall_app; split; [exact Hp|now repeat constructor]).
  assert (Hlog' : c_log c = g ++ pre ++ c_log (p_ctx p)) by (unfold pre; now rewrite Hlog, <- app_assoc).
  assert (Hk' : fresh_tokens E -> K p') by (intros F; eapply K_step; eauto).
  (* outcomes that do not terminate *)
  assert (G : forall q, Forall plain g -> c_log (p_ctx q) = c_log c -> p_term q = false -> p_td q = p_td p ->
            (has_noop (p_def q) -> False) -> forall ts', W ts' q -> (fresh_tokens E -> K q) -> T E n ts' q).
  { intros q Hpg Hlq Htq Htdq Hnq ts1 HWq HKq. assert (Hpa : Forall plain (g ++ pre)) by (apply Forall_app; now split).
    rewrite app_assoc in Hlog'. constructor; [exact HWq| | | | |exact HKq| |].
    - rewrite Hlq, Hlog', Htq. split; [|discriminate]. intros H. apply plain_over in H; [|exact Hpa]. easy.
    - rewrite Hlq, Hlog'. intros H. apply plain_td in H; [|exact Hpa]. easy.
    - rewrite Hlq, Hlog'. now apply hist_plain.
    - rewrite Hlq, Hlog', td_count_app, plain_count, Htdq by exact Hpa. exact Hc.
    - intros _ _ H. now apply Hnq in H.
    - intros F. rewrite Hlq, Hlog'. apply hist_td_last; auto. }
  destruct o; simpl in Hn; injection Hn as <- <-.
  - apply G; auto.
  - destruct (def_insert_facts tok t0 (p_with_ctx p c)) as (F1 & F2 & F3 & F4 & F5 & F6).
    apply G; [exact Hg|exact F1|exact Ht|reflexivity| |exact HW'|exact Hk']. rewrite F6. cbn [p_def p_with_ctx]. intros H. apply Hnn.
    destruct (ss_evs _ _ _ _ _ _ Hss) as (cl & _ & _ & _ & Hcore).
    unfold has_noop in *. apply Exists_exists in H as (x & Hi & Hx). apply In_nset in Hi as [->|Hi].
    + exfalso. assert (core t0 = core t0) by reflexivity. destruct (core t); try easy. destruct t0; simpl in Hx; try easy.
    + apply Exists_exists. eauto.
  - apply G; auto.
  - apply G; auto.
  - pose proof (ss_final _ _ _ _ _ _ Hss) as Hf. simpl in Hf.
    destruct (terminal_sum E t0 c Hf) as (evs2 & T1 & T2 & _). simpl in Hg. subst g.
    assert (Hlq : c_log (drop_tasks (p_queue p ++ ts) (run_terminal E t0 c)) = evs2 ++ EvTerminate (t_id t) :: pre ++ c_log (p_ctx p)).
    { rewrite drop_log, T1, Hlog'. reflexivity. }
    constructor; cbn [p_ctx p_term p_td p_queue p_def].
    + exact HW'.
    + split; [reflexivity|]. intros _. rewrite Hlq. apply over_app. exists (t_id t). now left.
    + rewrite Hlq. intros H. apply plain_td in H; [|now apply final_plain]. destruct H as [H|H]; [discriminate|].
      apply plain_td in H; [|exact Hpe]. easy.
    + rewrite Hlq. apply hist_final; [exact T2|]. split; [|now apply hist_plain].
      intros H. apply plain_closed in H; [easy|exact Hpe].
    + rewrite Hlq, td_count_app, plain_count by now apply final_plain.
      change (td_count (pre ++ c_log (p_ctx p)) + length (p_td p) = n). rewrite td_count_app, (plain_count pre) by exact Hpe. exact Hc.
    + exact Hk'.
    + rewrite Hlq. intros _ H. exfalso. apply H. apply over_app. exists (t_id t). now left.
    + intros F. rewrite Hlq. apply hist_td_last; [now apply final_plain|]. split; [exact I|]. apply hist_td_last; auto.
Qed.

Lemma unanswered_answer k st sz l a k' : unanswered (EvGrpcResp k st sz :: l) a k' -> unanswered l a k' /\ k <> k'.
Proof. rewrite unanswered_cons. intros [(cl & H)|[H1 H2]]; [discriminate|]. split; [exact H1|]. intros ->. now apply H2. Qed.

Lemma T_handle E n tok st sz t p o c : settled p -> nget tok (p_def p) = Some t ->
  step E t (emit (EvHandle tok (t_id t)) (set_grpc st sz (emit (EvGrpcResp tok st sz) (p_ctx p)))) = (o, c) ->
  T E n [] p -> T E n [] (handle_next E t (mkPipe c (p_queue p) (ndel tok (p_def p)) (p_done p) (p_td p) (p_term p)) o c).
Proof.
  intros Hset Hn Hst HT. pose proof (es_handle E tok st sz t p o c Hset Hn Hst) as Hes.
  pose proof (W_step _ _ _ _ _ Hes (t_w _ _ _ _ HT)) as HW'.
  assert (HK' : fresh_tokens E -> K (handle_next E t (mkPipe c (p_queue p) (ndel tok (p_def p)) (p_done p) (p_td p) (p_term p)) o c)).
  { intros F. eapply K_step; eauto. now apply (t_k _ _ _ _ HT). }
  destruct HT as [HW Hov Htd Hh Hc Hk Hu Hl].
  assert (Hc0 : c_log (emit (EvHandle tok (t_id t)) (set_grpc st sz (emit (EvGrpcResp tok st sz) (p_ctx p)))) =
                EvHandle tok (t_id t) :: EvGrpcResp tok st sz :: c_log (p_ctx p)).
  { unfold set_grpc. cbn [emit with_log c_grpc]. now destruct (c_grpc (p_ctx p)). }
  destruct (match t with TPendNoop _ _ => true | _ => false end) eqn:Hno.
  - (* an abandoned call *)
    assert (Hin : is_noop t) by now destruct t.
    assert (Hhn : has_noop (p_def p)).
    { unfold has_noop. apply Exists_exists. exists t. split; [|exact Hin]. eapply In_nget; eauto. }
    destruct (w_noop _ _ HW Hhn) as (_ & Hq & Hall).
    destruct t as [| |id g| | | | | | | |]; try easy.
    assert (Ho : o = ODone /\ c_log c = EvDone id :: EvEval id :: EvHandle tok id :: EvGrpcResp tok st sz :: c_log (p_ctx p)).
    { unfold step in Hst. cbn [apply apply_noop t_id t_paths o_paths] in Hst. injection Hst as <- <-. split; [reflexivity|].
      unfold apply_noop. cbn [emit with_log with_res c_log with_grpc take_grpc snd]. f_equal.
      destruct g; cbn [lower with_bar c_log with_log emit]; f_equal; exact Hc0. }
    destruct Ho as [-> Hlog]. cbn [handle_next p_with_ctx p_with_done p_ctx p_queue p_def p_done p_td p_term t_id] in *.
    assert (Hov' : over (c_log c) <-> over (c_log (p_ctx p))).
    { rewrite Hlog. split; [|intros H; now apply (over_app [_; _; _; _])].
      intros H. eapply (plain_over [_; _; _; _]); [|exact H]. repeat constructor. }
    assert (Hcl' : forall pre, Forall plain pre -> closed (pre ++ c_log (p_ctx p)) -> closed (c_log (p_ctx p))).
    { intros pre Hpre. now apply plain_closed. }
    constructor; cbn [p_with_ctx p_with_done p_ctx p_queue p_def p_done p_td p_term].
    + exact HW'.
    + now rewrite Hov'.
    + rewrite Hlog. intros _. split; [reflexivity|]. split; [exact Hq|]. unfold dts. cbn [p_def]. now apply Forall_ndel.
    + rewrite Hlog. cbn [hist]. repeat split; try exact Hh; intros _; try exact I; eauto.
    + rewrite Hlog. change (_ :: _ :: _ :: _ :: c_log (p_ctx p)) with ([EvDone id; EvEval id; EvHandle tok id; EvGrpcResp tok st sz] ++ c_log (p_ctx p)).
      rewrite td_count_app. exact Hc.
    + exact HK'.
    + intros F Hnov _ a k Hun. rewrite Hlog in Hun. apply (unanswered_app [_; _; _]) in Hun; [|repeat constructor].
      apply unanswered_answer in Hun as [Hun _]. revert Hun. apply Hu; [exact F| |exact Hhn]. now rewrite <- Hov'.
    + intros F. rewrite Hlog. cbn [hist]. repeat split. now apply Hl.
  - (* a live call: nothing is over yet *)
    assert (Hnin : ~ is_noop t) by now destruct t.
    assert (Hi : In t (dts p)) by (unfold dts; eapply In_nget; eauto).
    assert (Ht : p_term p = false).
    { destruct (p_term p) eqn:E0; [|reflexivity]. exfalso. specialize (Hset E0). rewrite Forall_forall in Hset. now apply Hnin, Hset. }
    assert (Hnov : ~ over (c_log (p_ctx p))) by (rewrite Hov, Ht; discriminate).
    assert (Hntd : ~ In EvTeardown (c_log (p_ctx p))).
    { intros H. destruct (Htd H) as (_ & _ & H3). rewrite Forall_forall in H3. now apply Hnin, H3. }
    assert (Hncl : ~ closed (c_log (p_ctx p))) by (intros [H|H]; auto).
    assert (Hnn : ~ has_noop (p_def p)).
    { intros H. destruct (w_noop _ _ HW H) as (_ & _ & H3). rewrite Forall_forall in H3. now apply Hnin, H3. }
    apply step_sum in Hst as (evs & Hss). destruct (ssum_events _ _ _ _ _ _ Hss) as (g & Hlog & Hp & Hg). rewrite Hc0 in Hlog.
    set (pre := evs ++ [EvEval (t_id t); EvHandle tok (t_id t); EvGrpcResp tok st sz]).
    assert (Hpe : Forall plain pre) by (apply Forall_app; split; [exact Hp|now repeat constructor]).
    assert (Hlog' : c_log c = g ++ pre ++ c_log (p_ctx p)) by (unfold pre; now rewrite Hlog, <- app_assoc).
    assert (G : forall q g, Forall plain g -> c_log (p_ctx q) = g ++ pre ++ c_log (p_ctx p) -> p_term q = false -> p_td q = p_td p ->
            (has_noop (p_def q) -> False) -> W [] q -> (fresh_tokens E -> K q) -> T E n [] q).
    { intros q g0 Hpg Hlq Htq Htdq Hnq HWq HKq. assert (Hpa : Forall plain (g0 ++ pre)) by (apply Forall_app; now split).
      rewrite app_assoc in Hlq. constructor; [exact HWq| | | | |exact HKq| |].
      - rewrite Hlq, Htq. split; [|discriminate]. intros H. apply plain_over in H; [|exact Hpa]. easy.
      - rewrite Hlq. intros H. apply plain_td in H; [|exact Hpa]. easy.
      - rewrite Hlq. now apply hist_plain.
      - rewrite Hlq, td_count_app, plain_count, Htdq by exact Hpa. exact Hc.
      - intros _ _ H. now apply Hnq in H.
      - intros F. rewrite Hlq. apply hist_td_last; auto. }
    assert (Hnd : has_noop (ndel tok (p_def p)) -> False).
    { intros H. apply Hnn. unfold has_noop in *. apply Exists_exists in H as (x & Hx & Hx'). apply Exists_exists. exists x. split; [|exact Hx'].
      now apply In_ndel in Hx. }
    destruct o; cbn [handle_next p_with_ctx p_with_done p_ctx p_queue p_def p_done p_td p_term] in *.
    + apply (G _ g); auto.
    + exfalso. destruct (ss_evs _ _ _ _ _ _ Hss) as (cl & _ & _ & _ & Hcore).
      assert (Hd : wf_d t) by (eapply Forall_nget; [apply (w_def _ _ HW)|exact Hn]). apply wf_d_core in Hd. destruct (core t); easy.
    + apply (G _ (EvDone (t_id t) :: g)); auto; [now constructor|]. cbn [p_ctx emit with_log c_log]. now rewrite Hlog'.
    + apply (G _ g); auto.
    + pose proof (ss_final _ _ _ _ _ _ Hss) as Hf. simpl in Hf.
      destruct (terminal_sum E t0 c Hf) as (evs2 & T1 & T2 & _). subst g.
      assert (Hlq : c_log (drop_tasks (p_queue p) (run_terminal E t0 c)) = evs2 ++ EvTerminate (t_id t) :: pre ++ c_log (p_ctx p)).
      { rewrite drop_log, T1, Hlog'. reflexivity. }
      constructor; cbn [p_ctx p_term p_td p_queue p_def].
      * exact HW'.
      * split; [reflexivity|]. intros _. rewrite Hlq. apply over_app. exists (t_id t). now left.
      * rewrite Hlq. intros H. apply plain_td in H; [|now apply final_plain]. destruct H as [H|H]; [discriminate|].
        apply plain_td in H; [|exact Hpe]. easy.
      * rewrite Hlq. apply hist_final; [exact T2|]. split; [|now apply hist_plain].
        intros H. apply plain_closed in H; [easy|exact Hpe].
      * rewrite Hlq, td_count_app, plain_count by now apply final_plain.
        change (td_count (pre ++ c_log (p_ctx p)) + length (p_td p) = n). rewrite td_count_app, (plain_count pre) by exact Hpe. exact Hc.
      * exact HK'.
      * rewrite Hlq. intros _ H. exfalso. apply H. apply over_app. exists (t_id t). now left.
      * intros F. rewrite Hlq. apply hist_td_last; [now apply final_plain|]. split; [exact I|]. apply hist_td_last; auto.
Qed.

Lemma T_step E n ts p ts' p' : estep E ts p ts' p' -> T E n ts p -> T E n ts' p'.
Proof.
  intros Hs HT. pose proof (W_step _ _ _ _ _ Hs (t_w _ _ _ _ HT)) as HW'.
  assert (HK' : fresh_tokens E -> K p') by (intros F; eapply K_step; [exact F|exact Hs|now apply (t_k _ _ _ _ HT)]).
  destruct Hs as [p Hset|t ts p Hb|t ts p o c ts' p' Hb Hst Hn|tok st sz p Hset Hn|tok st sz t p o c Hset Hn Hst|p Hq Ht|a rest p Hq Hn Ht].
  - destruct HT as [HW Hov Htd Hh Hc Hk Hu Hl]. constructor; cbn [p_with_queue p_ctx p_term p_td p_def p_queue]; auto.
    intros H. destruct (Htd H) as (_ & -> & H3). auto.
  - destruct HT as [HW Hov Htd Hh Hc Hk Hu Hl]. constructor; cbn [p_with_queue p_ctx p_term p_td p_def p_queue]; auto.
    intros H. destruct (Htd H) as (H1 & _). discriminate.
  - eapply T_run; eauto.
  - destruct HT as [HW Hov Htd Hh Hc Hk Hu Hl]. constructor; cbn [p_emit p_with_ctx p_ctx p_term p_td p_def p_queue emit with_log c_log]; auto.
    + rewrite <- Hov. split; [apply (plain_over [_]); now repeat constructor|apply (over_app [_])].
    + intros H. apply (plain_td [_]) in H; [auto|now repeat constructor].
    + split; [intros _; exact I|exact Hh].
    + intros F H1 H2 a k Hun. apply unanswered_answer in Hun as [Hun _]. revert Hun. apply Hu; auto.
      intros H. apply H1. now apply (over_app [_]).
    + intros F. split; [exact I|now apply Hl].
  - eapply T_handle; eauto.
  - destruct HT as [HW Hov Htd Hh Hc Hk Hu Hl]. constructor; cbn [replace_deferred p_ctx p_term p_td p_def p_queue]; rewrite ?drop_log; auto.
    + intros _. split; [reflexivity|]. split; [exact Hq|]. unfold dts. cbn [replace_deferred p_def]. rewrite map_map.
      apply Forall_forall. intros x Hi. apply in_map_iff in Hi as (y & <- & _). exact I.
    + intros F Hno Hn. destruct Ht as [Ht|Ht]; [exfalso; apply Hno; now apply Hov|]. rewrite Ht in Hn. inversion Hn.
  - destruct HT as [HW Hov Htd Hh Hc Hk Hu Hl].
    destruct (td_sum E a (p_with_td p rest)) as (evs & tok & T1 & T2 & T3 & T4 & T5 & T6 & T7 & T8 & T9 & _).
    cbn [p_with_td p_ctx p_queue p_def p_done p_term p_td] in *.
    assert (Hnoop : Forall is_noop (dts (td_step E (p_with_td p rest) a))) by (unfold dts; now apply td_step_noop).
    assert (Hpe : Forall plain evs) by (destruct T2 as [[-> _]|(cl & -> & _)]; repeat constructor).
    assert (Hnc : Forall no_call (evs ++ [EvTeardown])).
    { apply Forall_app. split; [|repeat constructor]. destruct T2 as [[-> _]|(cl & -> & _)]; repeat constructor. }
    assert (Hov' : over (c_log (p_ctx (td_step E (p_with_td p rest) a))) <-> over (c_log (p_ctx p))).
    { rewrite T1. split.
      - intros H. apply plain_over in H; [|exact Hpe]. destruct H as [x [H|H]]; [discriminate|now exists x].
      - intros H. apply over_app. now apply (over_app [_]). }
    constructor.
    + exact HW'.
    + now rewrite Hov', T6.
    + intros _. split; [reflexivity|]. split; [congruence|exact Hnoop].
    + rewrite T1. destruct T2 as [[-> _]|(cl & -> & _)]; simpl; repeat split; auto; intros _; exact I.
    + rewrite T1, T7, td_count_app, plain_count by exact Hpe.
      change (EvTeardown :: c_log (p_ctx p)) with ([EvTeardown] ++ c_log (p_ctx p)). rewrite td_count_app.
      rewrite Ht in Hc. simpl in *. lia.
    + exact HK'.
    + intros F Hno _ x k Hun. rewrite T1 in Hun.
      replace (evs ++ EvTeardown :: c_log (p_ctx p)) with ((evs ++ [EvTeardown]) ++ c_log (p_ctx p)) in Hun by now rewrite <- app_assoc.
      apply unanswered_app in Hun; [|exact Hnc]. destruct (dts p) as [|t d] eqn:Hd.
      * apply (Hk F) in Hun as (t & Hg & _). apply In_nget in Hg. unfold dts in Hd. now rewrite Hd in Hg.
      * revert Hun. apply Hu; [exact F|now rewrite <- Hov'|]. apply has_noop_dts; [congruence|exact Hn].
    + intros F. rewrite T1. apply hist_td_last; [exact Hpe|]. split; [|now apply Hl]. simpl.
      destruct (p_term p) eqn:Htm; [left; now apply Hov|right]. intros x k Hun. destruct (dts p) as [|t d] eqn:Hd.
      * apply (Hk F) in Hun as (t & Hg & _). apply In_nget in Hg. unfold dts in Hd. now rewrite Hd in Hg.
      * revert Hun. apply Hu; [exact F|rewrite Hov; congruence|]. apply has_noop_dts; [congruence|exact Hn].
Qed.

(** At the end of the request, and at the level of the filter *)
Definition TL (E : env) (n : nat) (l : log) : Prop :=
  hist silent l /\ td_count l <= n /\ (fresh_tokens E -> hist td_last l).
Lemma T_TL E n ts p : T E n ts p -> TL E n (c_log (p_ctx p)).
Proof. intros [HW Hov Htd Hh Hc Hk Hu Hl]. split; [exact Hh|]. split; [lia|exact Hl]. Qed.
Lemma neutral_plain e : neutral e -> plain e.
Proof. now destruct e. Qed.
Lemma idle_plain e : idle_ev e -> plain e.
Proof. intros [H|(tok & st & sz & ->)]; [now apply neutral_plain|exact I]. Qed.
Lemma idle_silent e l : idle_ev e -> silent e l.
Proof. intros [H|(tok & st & sz & ->)] _; [|exact I]. now destruct e. Qed.
Lemma T_ctx E n ts p c : c_grpc c = c_grpc (p_ctx p) -> c_log c = c_log (p_ctx p) -> T E n ts p -> T E n ts (p_with_ctx p c).
Proof.
  intros Hg Hlg [HW Hov Htd Hh Hc Hk Hu Hl]. constructor; cbn [p_with_ctx p_ctx p_term p_td p_def p_queue]; rewrite ?Hlg; auto.
  - now apply W_ctx.
  - intros F. unfold K. cbn [p_with_ctx p_ctx p_def]. rewrite Hlg. now apply Hk.
Qed.
Lemma T_finv E n : finv E (T E n) (fun l => TL E n l /\ td_count l = n).
Proof.
  constructor.
  - apply T_step.
  - intros p e He [HW Hov Htd Hh Hc Hk Hu Hl]. pose proof (neutral_plain e He) as Hp.
    assert (Hno : no_call e) by now destruct e.
    constructor; cbn [p_emit p_with_ctx p_ctx p_term p_td p_def p_queue emit with_log c_log].
    + now apply W_ctx.
    + rewrite <- Hov. split; [apply (plain_over [_]); now repeat constructor|apply (over_app [_])].
    + intros H. apply (plain_td [_]) in H; [auto|now repeat constructor].
    + split; [apply idle_silent; now left|exact Hh].
    + change (e :: c_log (p_ctx p)) with ([e] ++ c_log (p_ctx p)). rewrite td_count_app, plain_count; [exact Hc|now repeat constructor].
    + intros F a k Hun. cbn [p_with_ctx p_ctx p_def emit with_log c_log] in *. apply (unanswered_app [e]) in Hun; [|now repeat constructor]. now apply (Hk F).
    + intros F H1 H2 a k Hun. apply (unanswered_app [e]) in Hun; [|now repeat constructor]. revert Hun. apply Hu; auto.
      intros H. apply H1. now apply (over_app [_]).
    + intros F. apply (hist_td_last [e]); [now repeat constructor|now apply Hl].
  - intros p b. now apply T_ctx.
  - intros p b. now apply T_ctx.
  - intros p HT Hlv Hq Hd Ht. split; [eapply T_TL; eauto|]. pose proof (t_cnt _ _ _ _ HT) as Hc. rewrite Ht in Hc. simpl in Hc. lia.
  - intros l e He ((L1 & L2 & L3) & L4). pose proof (idle_plain e He) as Hp.
    assert (Hcnt : td_count (e :: l) = td_count l).
    { change (e :: l) with ([e] ++ l). rewrite td_count_app, plain_count; [reflexivity|now repeat constructor]. }
    split; [|congruence]. split; [split; [now apply idle_silent|exact L1]|]. split; [lia|].
    intros F. apply (hist_td_last [e]); [now repeat constructor|now apply L3].
Qed.
Lemma T_start E fa p : build E fa (ctx0 [EvReqHeaders]) = BOk p -> T E (length (p_td p)) [] (p_emit (EvMetric MHits) p).
Proof.
  intros Hb. destruct (build_shape _ _ _ _ Hb) as (b & HB).
  pose proof (build_spec E fa (ctx0 [EvReqHeaders])) as Hsp. rewrite Hb in Hsp. destruct Hsp as (b' & c1' & tds & _ & _ & _ & Hbld & _).
  destruct Hbld as (Hlog & Hbar & Hgrpc & _). cbn in Hlog, Hgrpc.
  assert (Hl : c_log (p_ctx (p_emit (EvMetric MHits) p)) = [EvMetric MHits; EvReqHeaders]) by (cbn; now rewrite Hlog).
  assert (Hov : ~ over [EvMetric MHits; EvReqHeaders]) by (intros (x & [H|[H|[]]]); discriminate).
  assert (Hncl : ~ closed [EvMetric MHits; EvReqHeaders]) by (intros [H|[H|[H|[]]]]; [easy|discriminate|discriminate]).
  constructor; rewrite ?Hl; cbn [p_emit p_with_ctx p_term p_queue p_td p_def]; rewrite ?(bt_term _ _ _ _ _ HB), ?(bt_def _ _ _ _ _ HB).
  - constructor; cbn; auto.
    + apply (bt_wf _ _ _ _ _ HB).
    + rewrite (bt_def _ _ _ _ _ HB). constructor.
    + rewrite (bt_term _ _ _ _ _ HB). discriminate.
    + rewrite (bt_def _ _ _ _ _ HB). intros H. inversion H.
  - split; [intros H; now apply Hov in H|discriminate].
  - intros [H|[H|[]]]; discriminate.
  - apply (hist_plain [_; _] []); [repeat constructor| |exact I]. intros [(x & [])|[]].
  - reflexivity.
  - intros _ a k. rewrite Hl, !unanswered_cons. intros [(x & H)|[[(x & H)|[H _]] _]]; try discriminate. now apply unanswered_nil in H.
  - intros _ _ H. inversion H.
  - intros _. now repeat split.
Qed.

(** Whatever happens, for a request with a pipeline *)
Lemma T_run_filter E fa p l : build E fa (ctx0 [EvReqHeaders]) = BOk p -> later l ->
  holds (T E (length (p_td p))) (fun h => TL E (length (p_td p)) h /\ td_count h = length (p_td p)) (run E fa l).
Proof.
  intros Hb. apply pipe_invariant with (p := p); [apply T_finv|exact Hb|now apply T_start with (fa := fa)].
Qed.
