(** C04, C16, C19, C69, C70: termination, teardown and requests without a pipeline. *)
From Coq Require Import String List NArith ZArith Bool Lia Arith.
From Verif Require Import Base Value Headers AttrPath Ctx CelProps CelEval Sse Body Tasks Exec Config Legacy Blueprint Factory Filter
  P_Frame P_Apply P_Exec P_Run P_Inv P_Ids P_Plan P_Order P_Term P_Bar P_Cfg P_Hist Demo DemoCfg Prop_Order.
Import ListNotations.
Open Scope list_scope.

(** * Specifications *)

(** What an action does to the outside, replies apart *)
Definition outward (e : ev) : Prop :=
  match e with EvDispatch _ _ _ | EvSetMap _ _ _ | EvSetProp _ _ _ => True | _ => False end.
(** the call of [a] with token [k] was sent, and its response has not come *)
Definition call_open (h : log) (k : N) (a : text) : Prop :=
  exists after cl before, h = after ++ EvDispatch a cl (Some k) :: before /\ forall st sz, ~ In (EvGrpcResp k st sz) after.
Definition export_open (h : log) (k : N) : Prop :=
  exists after cl before, h = after ++ EvExport cl (Some k) :: before /\ forall st sz, ~ In (EvGrpcResp k st sz) after.

(** Answers of the filter to a callback when it has nothing to do *)
Definition passes (i : fin) : list ev :=
  match i with
  | InReqHeaders => []
  | InReqBody n e => [EvRet false; EvReqBody n e]
  | InRespHeaders => [EvRet false; EvMetric MAllowed; EvRespHeaders]
  | InRespBody n e => [EvRet false; EvRespBody n e]
  | InGrpc k st sz => [EvGrpcResp k st sz]
  end.

(** * Lemmas *)
Lemma call_open_spec h k a : call_open h k a <-> In (k, Some a) (opens h).
Proof.
  rewrite opens_spec. split.
  - intros (after & cl & before & -> & H). exists after, (EvDispatch a cl (Some k)), before. split; [reflexivity|]. split; [now exists cl|exact H].
  - intros (l2 & e & l1 & -> & (cl & ->) & H). now exists l2, cl, l1.
Qed.
Lemma export_open_spec h k : export_open h k <-> In (k, None) (opens h).
Proof.
  rewrite opens_spec. split.
  - intros (after & cl & before & -> & H). exists after, (EvExport cl (Some k)), before. split; [reflexivity|]. split; [now exists cl|exact H].
  - intros (l2 & e & l1 & -> & (cl & ->) & H). now exists l2, cl, l1.
Qed.
Lemma no_pipe_run E fa l : (forall p, build E fa (ctx0 [EvReqHeaders]) <> BOk p) -> later l ->
  f_pipe (run E fa l) = None /\
  Forall (fun e => idle_ev e \/ (exists m, e = EvMetric m) \/ exists st h b ok, e = EvReply st h b ok) (f_log (run E fa l)).
Proof.
  intros Hb. assert (N0 : idle_ev EvReqHeaders) by now left. assert (N1 : idle_ev (EvRet false)) by now left.
  induction l as [|i l IH] using rev_ind; intros Hl.
  - pose proof (headers_log E fa) as H. destruct (build E fa (ctx0 [EvReqHeaders])) as [p|c|c|c]; [now destruct (Hb p)| | |].
    + destruct H as (H1 & H2 & _). rewrite H1. split; [exact H2|]. constructor; [now left|]. constructor; [right; left; eauto|]. constructor; [now left|constructor].
    + destruct H as (H1 & ok & _ & H2). rewrite H2. split; [exact H1|]. apply Forall_app. split; [destruct ok; constructor; [now left|constructor]|].
      constructor; [right; right; eauto|]. constructor; [right; left; eauto|]. constructor; [now left|constructor].
    + destruct H as (H1 & _ & H2). rewrite H2. split; [exact H1|]. constructor; [now left|constructor].
  - rewrite run_snoc. destruct IH as [H1 H2]; [intros H; apply Hl; apply in_or_app; now left|].
    destruct (no_pipe_step E fa _ i H1) as (H3 & evs & H4 & H5 & _); [intros ->; apply Hl; apply in_or_app; right; now left|].
    split; [exact H3|]. rewrite H4. apply Forall_app. split; [|exact H2]. revert H5. apply Forall_impl. auto.
Qed.
Lemma request_HT E fa l : later l -> (exists p, build E fa (ctx0 [EvReqHeaders]) = BOk p /\ HT E (length (p_td p)) (f_log (run E fa l))) \/
  (forall e, In e (f_log (run E fa l)) -> idle_ev e \/ (exists m, e = EvMetric m) \/ exists st h b ok, e = EvReply st h b ok).
Proof.
  intros Hl. destruct (build E fa (ctx0 [EvReqHeaders])) as [p|c|c|c] eqn:Hb;
    [|right; apply Forall_forall; apply no_pipe_run; [intros p; congruence|exact Hl]..].
  left. exists p. split; [reflexivity|]. eapply H_log. eapply H_run_filter; eauto.
Qed.

(** * C04 *)
(** Once an action has terminated processing: no call is attempted, no header or property
    is written, no action fails or terminates again, an action is evaluated only to take
    in the response of the call it had sent (and then completes at once), and a reply is
    sent only as part of the termination itself. *)
Theorem C04_nothing_runs_after_termination : forall E fa l a e past,
  fresh_tokens E -> later l -> occurs (f_log (run E fa l)) e past -> In (EvTerminate a) past ->
  ~ outward e /\ (forall b, e <> EvFailed b /\ e <> EvTerminate b) /\
  (forall b, e = EvEval b -> exists k st sz before, past = EvHandle k b :: EvGrpcResp k st sz :: before /\ (call_open before k b \/ export_open before k)) /\
  (forall b, e = EvDone b -> exists k before, past = EvEval b :: EvHandle k b :: before) /\
  (forall st h b ok, e = EvReply st h b ok -> exists evs a' before, past = evs ++ EvTerminate a' :: before /\
     forall x, In x evs -> (exists m, x = EvMetric m) \/ exists st h b ok, x = EvReply st h b ok).
Proof.
  intros E fa l a e past F Hl Ho Ht. destruct (request_HT E fa l Hl) as [(p & Hb & H1 & H2 & H3 & H4)|H].
  - rewrite occurs_hist in H1. rewrite occurs_hist in H4. pose proof (H1 e past Ho) as Hs.
    assert (Hc : closed past) by (left; now exists a). specialize (Hs Hc).
    split; [destruct e; simpl in *; easy|]. split; [intros b; split; intros ->; exact Hs|]. split; [|split].
    + intros b ->. destruct Hs as (k & l' & ->).
      assert (Ho' : occurs (f_log (run E fa l)) (EvHandle k b) l') by (eapply occurs_trans; [exact Ho|now exists []]).
      destruct (H4 _ _ Ho' F) as (st & sz & l2 & o & -> & Hi & Hor). exists k, st, sz, l2. split; [reflexivity|].
      rewrite call_open_spec, export_open_spec. destruct Hor as [-> | ->]; auto.
    + intros b ->. destruct Hs as (k & l' & ->). eauto.
    + intros st h b ok ->. destruct Hs as (evs & a' & l' & -> & Hf). exists evs, a', l'. split; [reflexivity|].
      intros x Hx. rewrite Forall_forall in Hf. apply Hf in Hx. destruct x; simpl in Hx; try easy; eauto. right. eauto.
  - exfalso. pose proof (occurs_In _ _ _ _ Ho Ht) as Hi. apply H in Hi as [[Hi|(x & y & z & Hi)]|[(m & Hi)|(st & h & b & ok & Hi)]]; easy.
Qed.
Print Assumptions C04_nothing_runs_after_termination.
(** the call of [0] fails in deny mode while that of [1] is open; the later answer is swallowed *)
Definition ex04 : list action_cfg := [dcall "hard" false []; dcall "soft" false []; CTyped (dhdr "wait" false)].
Example C04_ex : fresh_tokens Ed /\ later [InGrpc 0 7 0; InRespHeaders; InGrpc 1 0 0] /\
  let h := dlog Ed ex04 [InGrpc 0 7 0; InRespHeaders; InGrpc 1 0 0] in
  (exists a past, occurs h EvRespHeaders past /\ In (EvTerminate a) past) /\
  (exists b past, occurs h (EvEval b) past /\ In (EvTerminate (nat_text 0)) past /\ b = nat_text 1) /\
  (exists st b hd ok, In (EvReply st hd b ok) h).
Proof.
  split; [exact demo_fresh|]. split; [intros [H|[H|[H|[]]]]; discriminate|]. intros h. split; [|split].
  - exists (nat_text 0). eexists. split; [apply (cut_occurs 7); vm_compute; reflexivity|]. vm_compute. tauto.
  - exists (nat_text 1). eexists. split; [apply (cut_occurs 2); vm_compute; reflexivity|]. split; [vm_compute; tauto|reflexivity].
  - do 4 eexists. vm_compute. do 8 right. left. reflexivity.
Qed.

(** * C16 *)
(** The actions after a terminating one in the same pass have no influence on what happens *)
Theorem C16_later_actions_of_the_pass_ignored : forall E pre post p r,
  process E pre p = (true, r) ->
  exists r', process E (pre ++ post) p = (true, r') /\ c_log (p_ctx r') = c_log (p_ctx r) /\
    p_queue r' = [] /\ p_term r' = true /\ p_def r' = p_def r /\ p_done r' = p_done r /\ p_td r' = p_td r.
Proof.
  intros E pre post. induction pre as [|t pre IH]; intros p r; cbn [process app]; [discriminate|].
  destruct (blocked (p_done p) t); [apply IH|]. destruct (step E t (p_ctx p)) as [o c]. destruct o; try apply IH.
  intros [= <-]. eexists. split; [reflexivity|]. cbn [p_ctx p_queue p_term p_def p_done p_td]. rewrite !drop_log. now repeat split.
Qed.
Print Assumptions C16_later_actions_of_the_pass_ignored.

(** After a termination the queue is empty, processing is marked terminated and the calls
    still on their way will only be discarded; or the pipeline is gone. *)
Theorem C16_queue_emptied : forall E fa l a p, later l ->
  In (EvTerminate a) (f_log (run E fa l)) -> f_pipe (run E fa l) = Some p ->
  p_queue p = [] /\ p_term p = true /\ forall k t, In (k, t) (p_def p) -> exists id g, t = TPendNoop id g.
Proof.
  intros E fa l a p Hl Ht Hp. destruct (build E fa (ctx0 [EvReqHeaders])) as [p0|c|c|c] eqn:Hb;
    [|destruct (no_pipe_run E fa l) as [H _]; [intros x; congruence|exact Hl|congruence]..].
  pose proof (T_run_filter E fa p0 l Hb Hl) as HT. unfold holds in HT. rewrite Hp in HT. destruct HT as [HT [Hset Hq]].
  assert (Htm : p_term p = true) by (apply (t_over _ _ _ _ HT); now exists a).
  split; [now apply Hq|]. split; [exact Htm|]. specialize (Hset Htm). rewrite Forall_forall in Hset.
  intros k t Hi. apply (in_map snd) in Hi. apply Hset in Hi. destruct t; simpl in Hi; try easy. eauto.
Qed.
Print Assumptions C16_queue_emptied.
(** terminal deny first: the header action queued behind it never runs *)
Definition ex16 : list action_cfg := [dcall "soft" false []; CTyped (ddeny "true" true false); CTyped (dhdr "true" false)].
Example C16_ex :
  (exists p0, build Ed (dfac Ed ex16) (ctx0 [EvReqHeaders]) = BOk p0 /\ fst (process Ed (firstn 2 (p_queue p0)) (p_with_queue p0 [])) = true /\
              length (p_queue p0) = 3) /\
  (exists a p, In (EvTerminate a) (f_log (run Ed (dfac Ed ex16) [])) /\ f_pipe (run Ed (dfac Ed ex16) []) = Some p /\ p_def p <> []) /\
  ~ (exists m hd ok, In (EvSetMap m hd ok) (dlog Ed ex16 [])).
Proof.
  split; [eexists; split; [vm_compute; reflexivity|]; split; vm_compute; reflexivity|]. split.
  - exists (nat_text 1). eexists. split; [vm_compute; tauto|]. split; [vm_compute; reflexivity|]. vm_compute. discriminate.
  - intros (m & hd & ok & H). vm_compute in H. intuition discriminate.
Qed.

(** * C19 *)
(** a trace exporter is configured *)
Definition exports (cfg : plugin_cfg) : Prop :=
  exists h n c, pc_identifier cfg = Some h /\ pc_tracing cfg = Some n /\ tget n (pc_services cfg) = Some c /\ sc_type c = STracing.

Lemma action_tasks_td E rd tr a c ts tds c' : action_tasks E rd tr a c = Some (ts, tds, c') ->
  length tds = if is_exporter a then 1 else 0.
Proof.
  unfold action_tasks, is_exporter. destruct (a_op a) as [s v m rs|x|x y|x y z|].
  1: destruct s as [k s|[t|]].
  all: destruct (to_core E a c) as [[tk c1]|]; intros [= <- <- <-]; reflexivity.
Qed.
Lemma actions_tasks_td E rd tr l : forall c ts tds c', actions_tasks E rd tr l c = Some (ts, tds, c') ->
  length tds = length (filter is_exporter l).
Proof.
  induction l as [|a l IH]; intros c ts tds c'; cbn [actions_tasks]; [now intros [= <- <- <-]|].
  destruct (action_tasks E rd tr a c) as [[[t1 td1] c1]|] eqn:H1; [|discriminate]. apply action_tasks_td in H1.
  destruct (actions_tasks E rd tr l c1) as [[[t2 td2] c2]|] eqn:H2; [|discriminate]. apply IH in H2.
  intros [= <- <- <-]. rewrite app_length, H1, H2. cbn [filter]. destruct (is_exporter a); reflexivity.
Qed.
Lemma compiled_not_exporter E svs t id a d : compile_typed E svs t id = Some a -> is_exporter (set_deps d a) = false.
Proof.
  destruct t as [p tm g sq op]. destruct op; [rewrite compile_typed_grpc|cbn [compile_typed]..]; (destruct (parse_expr E p); [|discriminate]).
  - destruct (tget service svs) as [[k s|]|]; try discriminate. destruct (compile_replies E svs id 0 on_reply); [|discriminate].
    destruct (parse_expr E message); [|discriminate]. now intros [= <-].
  - destruct (parse_expr E deny_with); [|discriminate]. now intros [= <-].
  - destruct (parse_expr E headers); [|discriminate]. now intros [= <-].
  - destruct (parse_expr E value); [|discriminate]. now intros [= <-].
  - now intros [= <-].
Qed.
Lemma set_not_exporter E svs rd s bp : compile_set E svs rd s = Some bp -> filter is_exporter (bp_actions bp) = [].
Proof.
  intros H. apply compile_set_compiled in H. destruct (filter is_exporter (bp_actions bp)) as [|a l] eqn:Hf; [reflexivity|].
  exfalso. assert (Hi : In a (filter is_exporter (bp_actions bp))) by (rewrite Hf; now left). apply filter_In in Hi as [Hi He].
  apply In_nth_error in Hi as (i & Hi). destruct (cm_nth _ _ _ _ _ H i a Hi) as (cf & d & _ & _ & Hc).
  assert (K : forall t, option_map (set_deps d) (compile_typed E svs t (nat_text i)) = Some a -> False).
  { intros t. destruct (compile_typed E svs t (nat_text i)) as [a0|] eqn:Ha; [|discriminate]. intros [= <-].
    apply (compiled_not_exporter _ _ _ _ _ d) in Ha. congruence. }
  destruct cf as [t|lg]; cbn [compile_action] in Hc; [now apply K in Hc|]. unfold compile_legacy in Hc.
  destruct (tget (la_service lg) svs) as [[k s0|]|]; try discriminate. destruct k; try discriminate; now apply K in Hc.
Qed.
Lemma svs_service cfg svs n : cfg_svs cfg = Some svs ->
  tget n svs = match tget n (pc_services cfg) with Some c => inst_of c | None => None end /\
  (forall c, tget n (pc_services cfg) = Some c -> inst_of c <> None).
Proof.
  unfold cfg_svs. generalize (pc_services cfg). intros l. revert svs. induction l as [|[k c] l IH]; intros svs; cbn [map_opt].
  - intros [= <-]. split; [reflexivity|discriminate].
  - destruct (option_map _ (inst_of (snd (k, c)))) as [x|] eqn:Hx; [|discriminate].
    destruct (map_opt _ l) as [svs'|] eqn:Hm; [|discriminate]. intros [= <-]. destruct (IH _ eq_refl) as [I1 I2].
    cbn [snd fst] in Hx. destruct (inst_of c) as [i|] eqn:Hi; [|discriminate]. injection Hx as <-. cbn [aget fst snd].
    destruct (text_eqb n k); [split; [now rewrite Hi|intros c' [= <-]; congruence]|now split].
Qed.
Lemma dev_exporter cfg svs : cfg_svs cfg = Some svs ->
  (exports cfg /\ length (filter is_exporter (cfg_dev svs cfg)) = 1) \/ (~ exports cfg /\ filter is_exporter (cfg_dev svs cfg) = []).
Proof.
  intros Hs. unfold cfg_dev, exports. destruct (pc_identifier cfg) as [h|]; [|right; split; [intros (x & ? & ? & H & _); discriminate|reflexivity]].
  unfold cfg_tracing. destruct (pc_tracing cfg) as [n|]; [|right; split; [intros (x & y & ? & _ & H & _); discriminate|reflexivity]].
  destruct (svs_service cfg svs n Hs) as [H1 H2]. rewrite H1.
  destruct (tget n (pc_services cfg)) as [c|] eqn:Hc; [|right; split; [intros (x & y & z & _ & [= <-] & H & _); congruence|reflexivity]].
  specialize (H2 c eq_refl). destruct (inst_of c) as [i|] eqn:Hi; [|easy]. unfold inst_of in Hi.
  destruct (sc_type c) eqn:Ht; try (injection Hi as <-);
    try (right; split; [intros (x & y & z & _ & [= <-] & H & H'); congruence|reflexivity]).
  - left. split; [now exists h, n, c|reflexivity].
  - right. split; [intros (x & y & z & _ & [= <-] & H & H'); congruence|].
    destruct (sc_grpc_service c); [|discriminate]. destruct (sc_grpc_method c); [|discriminate]. now injection Hi as <-.
Qed.
Lemma build_td E cfg fa p : try_from E cfg = Some fa -> build E fa (ctx0 [EvReqHeaders]) = BOk p ->
  (exports cfg /\ length (p_td p) = 1) \/ (~ exports cfg /\ p_td p = []).
Proof.
  intros Hf Hb. pose proof (build_spec E fa (ctx0 [EvReqHeaders])) as Hs. rewrite Hb in Hs. destruct Hs as (b & c1 & tds & Hs & Ht & Hp & _).
  assert (Htd : p_td p = tds) by now rewrite Hp. rewrite Htd. apply actions_tasks_td in Ht.
  destruct (select_served E cfg fa _ _ _ Hf Hs) as (svs & H1 & H2).
  assert (K : length tds = length (filter is_exporter (cfg_dev svs cfg))).
  { rewrite Ht. destruct H2 as [s bp _ Hc|h _]; cbn [bp_actions]; [|reflexivity]. rewrite filter_app, (set_not_exporter _ _ _ _ _ Hc). reflexivity. }
  destruct (dev_exporter cfg svs H1) as [[D1 D2]|[D1 D2]]; [left|right]; rewrite D2 in K; (split; [exact D1|]); [exact K|now destruct tds].
Qed.

(** The teardown runs at most once; only if an exporter is configured; not before
    processing terminated or no call is left; after it no action is evaluated except to take
    in a late response, nothing is called or written; and a pipeline that is gone has run it. *)
Theorem C19_teardown_once_and_last : forall E cfg fa l,
  fresh_tokens E -> try_from E cfg = Some fa -> later l ->
  td_count (f_log (run E fa l)) <= 1 /\
  (In EvTeardown (f_log (run E fa l)) -> exports cfg) /\
  (forall past, occurs (f_log (run E fa l)) EvTeardown past ->
     (exists a, In (EvTerminate a) past) \/ forall k a, ~ call_open past k a) /\
  (forall e past, occurs (f_log (run E fa l)) e past -> In EvTeardown past ->
     ~ outward e /\ forall b, e = EvEval b -> exists k before, past = EvHandle k b :: before) /\
  (forall p, build E fa (ctx0 [EvReqHeaders]) = BOk p -> f_pipe (run E fa l) = None -> exports cfg -> td_count (f_log (run E fa l)) = 1).
Proof.
  intros E cfg fa l F Hf Hl. destruct (build E fa (ctx0 [EvReqHeaders])) as [p|c|c|c] eqn:Hb.
  - pose proof (H_run_filter E fa p l Hb Hl) as HH. pose proof (H_log _ _ _ _ HH) as (H1 & H2 & H3 & H4). specialize (H3 F).
    destruct (build_td E cfg fa p Hf Hb) as [[X1 X2]|[X1 X2]]; rewrite X2 in *.
    + split; [exact H2|]. split; [now intros _|]. split; [|split].
      * intros past Ho. rewrite occurs_hist in H3. apply H3 in Ho. simpl in Ho. destruct Ho as [Ho|Ho]; [now left|right].
        intros k a (after & cl & before & -> & Hn). apply (Ho a k). exists after, cl, before. split; [reflexivity|].
        apply Forall_forall. intros e He Ha. destruct e; simpl in Ha; try easy. subst. eapply Hn; eauto.
      * intros e past Ho Hi. rewrite occurs_hist in H1. apply H1 in Ho. specialize (Ho (or_intror Hi)).
        split; [destruct e; simpl in *; easy|]. intros b ->. exact Ho.
      * intros p' _ Hp _. unfold holds in HH. rewrite Hp in HH. destruct HH as [(_ & HH & _) _]. exact HH.
    + simpl in H2. assert (H0 : ~ In EvTeardown (f_log (run E fa l))) by (apply td_count_zero; lia).
      split; [lia|]. split; [intros H; easy|]. split; [|split].
      * intros past [after Ho]. exfalso. apply H0. rewrite Ho. apply in_or_app. right. now left.
      * intros e past Ho Hi. exfalso. apply H0. eapply occurs_In; eauto.
      * intros p' _ _ H. easy.
  - assert (H0 : ~ In EvTeardown (f_log (run E fa l))).
    { intros Hi. destruct (no_pipe_run E fa l) as [_ H]; [intros x; congruence|exact Hl|]. rewrite Forall_forall in H.
      apply H in Hi as [[Hi|(x & y & z & Hi)]|[(m & Hi)|(st & h & bd & ok & Hi)]]; easy. }
    split; [apply td_count_zero in H0; lia|]. split; [intros H; easy|]. split; [|split].
    + intros past [after Ho]. exfalso. apply H0. rewrite Ho. apply in_or_app. right. now left.
    + intros e past Ho Hi. exfalso. apply H0. eapply occurs_In; eauto.
    + discriminate.
  - assert (H0 : ~ In EvTeardown (f_log (run E fa l))).
    { intros Hi. destruct (no_pipe_run E fa l) as [_ H]; [intros x; congruence|exact Hl|]. rewrite Forall_forall in H.
      apply H in Hi as [[Hi|(x & y & z & Hi)]|[(m & Hi)|(st & h & bd & ok & Hi)]]; easy. }
    split; [apply td_count_zero in H0; lia|]. split; [intros H; easy|]. split; [|split].
    + intros past [after Ho]. exfalso. apply H0. rewrite Ho. apply in_or_app. right. now left.
    + intros e past Ho Hi. exfalso. apply H0. eapply occurs_In; eauto.
    + discriminate.
  - assert (H0 : ~ In EvTeardown (f_log (run E fa l))).
    { intros Hi. destruct (no_pipe_run E fa l) as [_ H]; [intros x; congruence|exact Hl|]. rewrite Forall_forall in H.
      apply H in Hi as [[Hi|(x & y & z & Hi)]|[(m & Hi)|(st & h & bd & ok & Hi)]]; easy. }
    split; [apply td_count_zero in H0; lia|]. split; [intros H; easy|]. split; [|split].
    + intros past [after Ho]. exfalso. apply H0. rewrite Ho. apply in_or_app. right. now left.
    + intros e past Ho Hi. exfalso. apply H0. eapply occurs_In; eauto.
    + discriminate.
Qed.
Print Assumptions C19_teardown_once_and_last.
(** with an exporter: the export follows the answer of the only call, and its own answer ends the pipeline *)
Definition ex19 : list action_cfg := [dcall "soft" false []].
Example C19_ex : fresh_tokens Et /\ try_from Et (tcfg ex19) = Some (tfac ex19) /\ later [InGrpc 0 0 0; InGrpc 1 0 0] /\ exports (tcfg ex19) /\
  (exists p, build Et (tfac ex19) (ctx0 [EvReqHeaders]) = BOk p) /\ f_pipe (run Et (tfac ex19) [InGrpc 0 0 0; InGrpc 1 0 0]) = None /\
  (exists past, occurs (f_log (run Et (tfac ex19) [InGrpc 0 0 0; InGrpc 1 0 0])) EvTeardown past) /\
  f_pipe (run Et (tfac ex19) [InGrpc 0 0 0]) <> None.
Proof.
  split; [exact trace_fresh|]. split; [vm_compute; reflexivity|]. split; [intros [H|[H|[]]]; discriminate|].
  split; [do 3 eexists; repeat split; reflexivity|]. split; [eexists; vm_compute; reflexivity|]. split; [vm_compute; reflexivity|].
  split; [eexists; apply (cut_occurs 7); vm_compute; reflexivity|]. vm_compute. discriminate.
Qed.

(** * C70 *)
(** With no pipeline, every callback continues at once and responses do nothing *)
Theorem C70_without_a_pipeline_everything_passes : forall E fa l l',
  later l' -> f_pipe (run E fa l) = None -> f_dead (run E fa l) = false ->
  f_log (run E fa (l ++ l')) = flat_map passes (rev l') ++ f_log (run E fa l) /\
  f_pipe (run E fa (l ++ l')) = None /\ f_dead (run E fa (l ++ l')) = false.
Proof.
  intros E fa l l' Hl Hp Hd. induction l' as [|i l' IH] using rev_ind; [rewrite app_nil_r; auto|].
  destruct IH as (H1 & H2 & H3); [intros H; apply Hl; apply in_or_app; now left|].
  rewrite app_assoc, run_snoc, rev_app_distr. cbn [rev app flat_map]. rewrite <- app_assoc, <- H1.
  assert (Hi : i <> InReqHeaders) by (intros ->; apply Hl; apply in_or_app; right; now left).
  unfold fstep. rewrite H3. destruct i as [|n e| |n e|tok st sz]; [easy| | | |];
    unfold on_req_body, on_resp_headers, on_resp_body, on_grpc, f_eval, f_ret, should_pause; cbn [f_emit f_pipe f_dead f_log ev_of]; rewrite H2;
    cbn [f_emit f_pipe f_dead f_log ev_of passes app andb]; rewrite ?H2; cbn [f_pipe f_dead f_log app]; rewrite ?H3; auto.
Qed.
Print Assumptions C70_without_a_pipeline_everything_passes.
(** ... which is the case from the start when no action set applies or the pipeline cannot be
    built (unless the callback traps: the host refused the error reply, or the identifier
    expression of dev mode does not parse) *)
Theorem C70_no_pipeline_from_the_start : forall E fa,
  (forall p, build E fa (ctx0 [EvReqHeaders]) <> BOk p) ->
  f_pipe (run E fa []) = None /\ (f_dead (run E fa []) = true \/ exists past, f_log (run E fa []) = EvRet false :: past).
Proof.
  intros E fa Hb. pose proof (headers_log E fa) as H. destruct (build E fa (ctx0 [EvReqHeaders])) as [p|c|c|c]; [now destruct (Hb p)| | |].
  - destruct H as (H1 & H2 & H3). split; [exact H2|right]. rewrite H1. eauto.
  - destruct H as (H1 & ok & H2 & H3). split; [exact H1|]. destruct ok; [right; rewrite H3; simpl; eauto|left; exact H2].
  - destruct H as (H1 & H2 & H3). auto.
Qed.
Print Assumptions C70_no_pipeline_from_the_start.
(** an unknown host, and a request whose only call was answered *)
Example C70_ex : f_pipe (run Ed factory0 []) = None /\ f_dead (run Ed factory0 []) = false /\
  f_pipe (run Ed (dfac Ed ex19) [InGrpc 0 0 0]) = None /\ f_dead (run Ed (dfac Ed ex19) [InGrpc 0 0 0]) = false /\
  later [InRespHeaders; InGrpc 0 0 0; InRespBody 4 true].
Proof. repeat split; try (vm_compute; reflexivity). intros [H|[H|[H|[]]]]; discriminate. Qed.
