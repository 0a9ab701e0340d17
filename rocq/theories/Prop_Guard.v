(** C05-C10, C69, C71, C72: calls in flight, pausing and resuming. *)
From Coq Require Import String List NArith ZArith Bool Lia Arith.
From Verif Require Import Base Value Headers AttrPath Ctx CelProps CelEval Sse Body Tasks Exec Config Legacy Blueprint Factory Filter
  P_Frame P_Apply P_Exec P_Run P_Inv P_Ids P_Plan P_Order P_Term P_Bar P_Cfg P_Hist P_Grow Demo DemoCfg Prop_Order Prop_Term.
Import ListNotations.
Open Scope list_scope.

(** * Specifications *)
(** a call, or an export of traces, with token [k] is on its way *)
Definition awaited (h : log) (k : N) : Prop := (exists a, call_open h k a) \/ export_open h k.
(** processing was terminated *)
Definition terminated (h : log) : Prop := exists a, In (EvTerminate a) h.
Definition ta_guard (t : taction) : bool := match t with mkT _ _ g _ _ => g end.
(** guard actions of the set [s] of a configuration; the action of dev mode is one *)
Definition guard (E : env) (cfg : plugin_cfg) (s : action_set) (a : text) : Prop :=
  a = tx "kuadrant.devMode" \/
  exists svs x, cfg_svs cfg = Some svs /\ configured svs (cfg_rsrc E cfg) s a x /\ ta_guard x = true.
Definition guard_open (E : env) (cfg : plugin_cfg) (s : action_set) (h : log) (k : N) : Prop :=
  exists a, call_open h k a /\ guard E cfg s a.
(** the response has started *)
Definition resp_started (h : log) : Prop := In EvRespHeaders h.
Definition metric_dec (a b : metric) : {a = b} + {a <> b}. Proof. decide equality. Defined.
(** how often a metric was incremented *)
Fixpoint count (m : metric) (h : log) : nat :=
  match h with
  | [] => 0
  | EvMetric m' :: h' => (if metric_dec m m' then 1 else 0) + count m h'
  | _ :: h' => count m h'
  end.

(** * Lemmas *)
Lemma opens_awaited h k : awaited h k <-> exists o, In (k, o) (opens h).
Proof.
  unfold awaited. rewrite export_open_spec. split.
  - intros [(a & H)|H]; [rewrite call_open_spec in H|]; eauto.
  - intros ([a|] & H); [left; exists a; now apply call_open_spec|now right].
Qed.
Lemma opens_nil h : opens h = [] <-> forall k, ~ awaited h k.
Proof.
  split.
  - intros H k Hk. apply opens_awaited in Hk as (o & Hk). now rewrite H in Hk.
  - intros H. destruct (opens h) as [|[k o] l] eqn:Ho; [reflexivity|]. exfalso. apply (H k). apply opens_awaited. exists o. rewrite Ho. now left.
Qed.
(** the state of a request that has a pipeline *)
Lemma reach E fa l p : later l -> f_pipe (run E fa l) = Some p ->
  exists p0, build E fa (ctx0 [EvReqHeaders]) = BOk p0 /\ B E (length (p_td p0)) (nodess (p_queue p0)) [] (f_take (run E fa l) p) /\ live p /\ f_dead (run E fa l) = false.
Proof.
  intros Hl Hp. destruct (build E fa (ctx0 [EvReqHeaders])) as [p0|c|c|c] eqn:Hb;
    [|destruct (no_pipe_run E fa l) as [H _]; [intros x; congruence|exact Hl|congruence]..].
  exists p0. split; [reflexivity|]. pose proof (B_run_filter E fa p0 l Hb Hl) as H. unfold holds in H. rewrite Hp in H.
  destruct H as [H1 H2]. split; [exact H1|]. split; [exact H2|]. apply pipe_alive; [exact Hl|congruence].
Qed.
Lemma gone E fa l : fresh_tokens E -> later l -> f_pipe (run E fa l) = None -> forall k, ~ awaited (f_log (run E fa l)) k.
Proof.
  intros F Hl Hp. apply opens_nil. destruct (build E fa (ctx0 [EvReqHeaders])) as [p0|c|c|c] eqn:Hb.
  - pose proof (B_run_filter E fa p0 l Hb Hl) as H. unfold holds in H. rewrite Hp in H. now apply H.
  - destruct (no_pipe_run E fa l) as [_ H]; [intros x; congruence|exact Hl|]. induction H as [|e h He _ IH]; [reflexivity|].
    destruct He as [He|[(m & ->)|(st & hd & b & ok & ->)]]; [now apply idle_opens|exact IH|exact IH].
  - destruct (no_pipe_run E fa l) as [_ H]; [intros x; congruence|exact Hl|]. induction H as [|e h He _ IH]; [reflexivity|].
    destruct He as [He|[(m & ->)|(st & hd & b & ok & ->)]]; [now apply idle_opens|exact IH|exact IH].
  - destruct (no_pipe_run E fa l) as [_ H]; [intros x; congruence|exact Hl|]. induction H as [|e h He _ IH]; [reflexivity|].
    destruct He as [He|[(m & ->)|(st & hd & b & ok & ->)]]; [now apply idle_opens|exact IH|exact IH].
Qed.
Lemma open_pipe E fa l k : fresh_tokens E -> later l -> awaited (f_log (run E fa l)) k -> exists p, f_pipe (run E fa l) = Some p.
Proof. intros F Hl Hk. destruct (f_pipe (run E fa l)) as [p|] eqn:Hp; [eauto|]. exfalso. now apply (gone E fa l F Hl Hp k). Qed.
Lemma def_awaited E n N0 ts p : fresh_tokens E -> B E n N0 ts p -> (p_def p = [] <-> forall k, ~ awaited (c_log (p_ctx p)) k).
Proof.
  intros F HB. rewrite <- opens_nil. pose proof (b_open _ _ _ _ _ HB F) as Hm. split; intros H; rewrite H in Hm; inversion Hm; reflexivity.
Qed.
Lemma later_app l i : later l -> i <> InReqHeaders -> later (l ++ [i]).
Proof. intros H Hi Hx. apply in_app_or in Hx as [Hx|[Hx|[]]]; auto. Qed.
Lemma later_init l i : later (l ++ [i]) -> later l /\ i <> InReqHeaders.
Proof. intros H. split; [intros Hx; apply H; apply in_or_app; now left|]. intros ->. apply H. apply in_or_app. right. now left. Qed.

(** * C05 *)
(** In every state a request can reach, evaluation and the handling of a response report
    completion exactly when nothing is queued and no call is on its way; the flag tells
    whether processing was terminated. *)
Definition complete_iff_idle (s : pstate) : Prop :=
  match s with
  | Completed sr c => (forall k, ~ awaited (c_log c) k) /\ (sr = true <-> ~ terminated (c_log c))
  | InProgress q => p_queue q <> [] \/ exists k, awaited (c_log (p_ctx q)) k
  end.
Lemma to_state_complete E n N0 q : fresh_tokens E -> B E n N0 [] q -> complete_iff_idle (to_state q).
Proof.
  intros F HB. unfold to_state, complete_iff_idle. pose proof (def_awaited E n N0 [] q F HB) as Hd.
  pose proof (t_over _ _ _ _ (b_t _ _ _ _ _ HB)) as Ht. fold (terminated (c_log (p_ctx q))) in Ht.
  destruct (p_queue q) eqn:Hq; [|left; discriminate || congruence]. destruct (p_def q) as [|[k t] d] eqn:Hdf.
  - split; [now apply Hd|]. rewrite Ht. destruct (p_term q); simpl; split; congruence || (intros; easy).
  - right. pose proof (b_open _ _ _ _ _ HB F) as Hm. rewrite Hdf in Hm. inversion Hm as [|[k' o] y l' d' Hh Ht0 He]; subst.
    exists k'. apply opens_awaited. exists o. rewrite <- He. now left.
Qed.
Theorem C05_completed_iff_no_work_left : forall E fa l p, fresh_tokens E -> later l -> f_pipe (run E fa l) = Some p ->
  complete_iff_idle (eval E (f_take (run E fa l) p)) /\
  (forall k st sz, complete_iff_idle (digest E k st sz (f_take (f_emit (EvGrpcResp k st sz) (run E fa l)) p))) /\
  (p_queue p <> [] \/ exists k, awaited (f_log (run E fa l)) k).
Proof.
  intros E fa l p F Hl Hp. destruct (reach E fa l p Hl Hp) as (p0 & _ & HB & Hlv & Hd).
  assert (Hlv' : live (f_take (run E fa l) p)) by exact Hlv. split; [|split].
  - destruct (eval_star E _ Hlv') as [H1 _]. eapply to_state_complete; [exact F|].
    eapply (estar_inv E _ (fi_step _ _ _ (B_finv E _ _))); eauto.
  - intros k st sz. destruct (digest_star E k st sz _ Hlv') as [H1 _]. eapply to_state_complete; [exact F|].
    eapply (estar_inv E _ (fi_step _ _ _ (B_finv E _ _))); [exact H1|exact HB].
  - destruct (pipe_busy E fa l p Hl Hp) as [H|H]; [now left|right]. pose proof (b_open _ _ _ _ _ HB F) as Hm.
    cbn [f_take p_with_ctx p_def p_ctx with_log c_log] in Hm. destruct (p_def p) as [|[k t] d]; [easy|].
    inversion Hm as [|[k' o] y l' d' Hh Ht0 He]; subst. exists k'. apply opens_awaited. exists o. rewrite <- He. now left.
Qed.
Print Assumptions C05_completed_iff_no_work_left.
Definition ex05 : list action_cfg := [dcall "soft" false []; CTyped (dhdr "wait" false)].
Definition at05 (l : list fin) : option pipe := f_pipe (run Ed (dfac Ed ex05) l).
(** first a call is open, then the header action waits for the response; at last nothing is left *)
Example C05_ex : fresh_tokens Ed /\ later [InGrpc 0 0 0; InRespHeaders] /\
  (exists p, at05 [] = Some p /\ exists q, eval Ed (f_take (run Ed (dfac Ed ex05) []) p) = InProgress q /\ p_def q <> []) /\
  (exists p, at05 [InGrpc 0 0 0] = Some p /\ p_def p = [] /\ exists c, eval Ed (f_take (f_emit EvRespHeaders (run Ed (dfac Ed ex05) [InGrpc 0 0 0])) p) = Completed true c) /\
  at05 [InGrpc 0 0 0; InRespHeaders] = None.
Proof.
  split; [exact demo_fresh|]. split; [intros [H|[H|[]]]; discriminate|]. split; [|split].
  - eexists. split; [vm_compute; reflexivity|]. eexists. split; [vm_compute; reflexivity|]. vm_compute. discriminate.
  - eexists. split; [vm_compute; reflexivity|]. split; [vm_compute; reflexivity|]. eexists. vm_compute. reflexivity.
  - vm_compute. reflexivity.
Qed.

(** * C06 *)
Lemma not_awaited_nget E n N0 p k : fresh_tokens E -> B E n N0 [] p -> ~ awaited (c_log (p_ctx p)) k -> nget k (p_def p) = None.
Proof.
  intros F HB Hk. apply nget_None. intros Hi. apply Hk. apply opens_awaited. pose proof (b_open _ _ _ _ _ HB F) as Hm. apply matches_fst in Hm.
  rewrite <- Hm in Hi. apply in_map_iff in Hi as ([k' o] & <- & Hi). eauto.
Qed.
Lemma awaited_app evs h k : (forall st sz, ~ In (EvGrpcResp k st sz) evs) -> awaited h k -> awaited (evs ++ h) k.
Proof.
  intros Hn [(a & after & cl & before & -> & H)|(after & cl & before & -> & H)]; [left; exists a|right]; exists (evs ++ after), cl, before;
    (split; [now rewrite app_assoc|]); intros st sz Hi; apply in_app_or in Hi as [Hi|Hi]; [now apply Hn in Hi|now apply H in Hi|now apply Hn in Hi|now apply H in Hi].
Qed.
Lemma answer_grpc k st sz f q : answer (InGrpc k st sz) f q = [] \/ answer (InGrpc k st sz) f q = [if f_resp f then EvResumeResp else EvResumeReq].
Proof. unfold answer. destruct (kept q); match goal with |- context [if ?b then [if f_resp f then _ else _] else _] => destruct b end; auto. Qed.
(** A response nobody waits for is a mere re-evaluation: no handler runs and no call is lost *)
Theorem C06_unknown_token_harmless : forall E fa l k st sz,
  fresh_tokens E -> later l -> f_dead (run E fa l) = false -> ~ awaited (f_log (run E fa l)) k ->
  (forall p, f_pipe (run E fa l) = Some p ->
     let q := f_take (f_emit (EvGrpcResp k st sz) (run E fa l)) p in digest E k st sz q = eval E q) /\
  exists evs, f_log (run E fa (l ++ [InGrpc k st sz])) = evs ++ EvGrpcResp k st sz :: f_log (run E fa l) /\
    (forall k' a, ~ In (EvHandle k' a) evs) /\
    (forall k', awaited (f_log (run E fa l)) k' -> awaited (f_log (run E fa (l ++ [InGrpc k st sz]))) k').
Proof.
  intros E fa l k st sz F Hl Hd Hk. destruct (f_pipe (run E fa l)) as [p|] eqn:Hp.
  - destruct (reach E fa l p Hl Hp) as (p0 & _ & HB & _ & _). pose proof (not_awaited_nget _ _ _ _ _ F HB Hk) as Hn.
    cbn [f_take p_with_ctx p_def] in Hn. split.
    + intros p' [= <-]. cbv zeta. unfold digest, eval. f_equal. pose proof (digest_added E k st sz (f_take (f_emit (EvGrpcResp k st sz) (run E fa l)) p)) as H.
      cbn [f_take p_with_ctx p_def] in H. now rewrite Hn in H.
    + rewrite run_snoc. destruct (callback E fa _ (InGrpc k st sz) p Hd Hp) as (_ & _ & _ & H); [discriminate|]. rewrite H. clear H.
      destruct (callback_log E _ (InGrpc k st sz) p Hd Hp) as (evs & H & Hf); [discriminate|]. rewrite H. clear H. rewrite Hn. cbn [app ev_of].
      exists (answer (InGrpc k st sz) (run E fa l) (advance E (InGrpc k st sz) (seen (InGrpc k st sz) (run E fa l) p)) ++ evs).
      rewrite Forall_forall in Hf. split; [now rewrite app_assoc|].
      assert (NA : forall e, In e (answer (InGrpc k st sz) (run E fa l) (advance E (InGrpc k st sz) (seen (InGrpc k st sz) (run E fa l) p))) -> e = EvResumeReq \/ e = EvResumeResp).
      { intros e He. destruct (answer_grpc k st sz (run E fa l) (advance E (InGrpc k st sz) (seen (InGrpc k st sz) (run E fa l) p))) as [R|R]; rewrite R in He; [easy|].
        destruct He as [<-|[]]. destruct (f_resp _); auto. }
      split.
      * intros k' a Hi. apply in_app_or in Hi as [Hi|Hi]; [apply NA in Hi as [Hi|Hi]; discriminate|now apply Hf in Hi].
      * intros k' Hk'. replace (answer _ _ _ ++ evs ++ EvGrpcResp k st sz :: f_log (run E fa l)) with ((answer (InGrpc k st sz) (run E fa l) (advance E (InGrpc k st sz) (seen (InGrpc k st sz) (run E fa l) p)) ++ evs ++ [EvGrpcResp k st sz]) ++ f_log (run E fa l)) by (rewrite <- !app_assoc; reflexivity).
        apply awaited_app; [|exact Hk']. intros st' sz' Hi. apply in_app_or in Hi as [Hi|Hi]; [apply NA in Hi as [Hi|Hi]; discriminate|].
        apply in_app_or in Hi as [Hi|[Hi|[]]]; [now apply Hf in Hi|]. injection Hi as -> _ _. easy.
  - split; [discriminate|]. rewrite run_snoc. destruct (no_pipe_callback E fa _ (InGrpc k st sz) Hd Hp) as (_ & _ & _ & H); [discriminate|]. rewrite H.
    exists []. split; [reflexivity|]. split; [easy|]. intros k' Hk'. apply (awaited_app [EvGrpcResp k st sz]); [|exact Hk']. intros st' sz' [[= -> _ _]|[]]. easy.
Qed.
Print Assumptions C06_unknown_token_harmless.
(** a token never issued, and one answered already *)
Example C06_ex : fresh_tokens Ed /\ later [InGrpc 0 0 0; InGrpc 0 7 0] /\ f_dead (run Ed (dfac Ed ex05) []) = false /\
  ~ awaited (dlog Ed ex05 []) 9 /\ awaited (dlog Ed ex05 []) 0 /\ ~ awaited (dlog Ed ex05 [InGrpc 0 0 0]) 0 /\ at05 [InGrpc 0 0 0] <> None.
Proof.
  split; [exact demo_fresh|]. split; [intros [H|[H|[]]]; discriminate|]. split; [vm_compute; reflexivity|].
  split; [rewrite opens_awaited; intros (o & H); vm_compute in H; intuition discriminate|].
  split; [rewrite opens_awaited; exists (Some (nat_text 0)); vm_compute; tauto|].
  split; [rewrite opens_awaited; intros (o & H); vm_compute in H; intuition discriminate|]. vm_compute. discriminate.
Qed.

(** * C07 *)
Lemma occurs_cut h e past e' past' : occurs h e past -> occurs h e' past' -> occurs past e' past' \/ (e' = e /\ past' = past) \/ occurs past' e past.
Proof.
  intros [a1 ->] [a2 H]. revert a2 H. induction a1 as [|x a1 IH]; intros [|y a2] H; simpl in H.
  - injection H as <- <-. auto.
  - injection H as <- ->. left. now exists a2.
  - injection H as <- <-. right. right. now exists a1.
  - injection H as <- H. now apply IH in H.
Qed.
Lemma nget_nodup {V} k (v : V) d : NoDup (map fst d) -> In (k, v) d -> nget k d = Some v.
Proof.
  unfold nget. induction d as [|[k' v'] d IH]; simpl; intros Hd Hi; [easy|]. inversion Hd; subst. destruct Hi as [[= -> ->]|Hi]; [now rewrite N.eqb_refl|].
  destruct (N.eqb_spec k k') as [->|]; [|now apply IH]. exfalso. apply H1. apply in_map_iff. now exists (k', v).
Qed.
Lemma open_def E n N0 p k a : fresh_tokens E -> B E n N0 [] p -> call_open (c_log (p_ctx p)) k a -> exists t, nget k (p_def p) = Some t /\ t_id t = a.
Proof.
  intros F HB Ho. apply call_open_spec in Ho. pose proof (b_open _ _ _ _ _ HB F) as Hm. pose proof (b_nodup _ _ _ _ _ HB F) as Hd.
  assert (exists t, In (k, t) (p_def p) /\ t_id t = a) as (t & H1 & H2).
  { clear Hd. induction Hm as [|[k1 o] [k2 t'] l d [H1 H2] _ IH]; [easy|]. simpl in H1. subst k2. destruct Ho as [[= -> ->]|Ho].
    - exists t'. split; [now left|exact H2].
    - apply IH in Ho as (t & H3 & H4). exists t. split; [now right|exact H4]. }
  exists t. split; [now apply nget_nodup|exact H2].
Qed.
(** A handler runs only right after a response to its own call, and only if that call is on
    its way; ... *)
Theorem C07_handled_by_its_own_response : forall E fa l k a past,
  fresh_tokens E -> later l -> occurs (f_log (run E fa l)) (EvHandle k a) past ->
  exists st sz before, past = EvGrpcResp k st sz :: before /\ (call_open before k a \/ export_open before k).
Proof.
  intros E fa l k a past F Hl Ho. destruct (request_HT E fa l Hl) as [(p & Hb & _ & _ & _ & H4)|H].
  - rewrite occurs_hist in H4. destruct (H4 _ _ Ho F) as (st & sz & before & o & -> & Hi & Hor). exists st, sz, before. split; [reflexivity|].
    rewrite call_open_spec, export_open_spec. destruct Hor as [-> | ->]; auto.
  - exfalso. destruct Ho as [after Ho]. assert (Hi : In (EvHandle k a) (f_log (run E fa l))) by (rewrite Ho; apply in_or_app; right; now left).
    apply H in Hi as [[Hi|(x & y & z & Hi)]|[(m & Hi)|(st & hd & b & ok & Hi)]]; easy.
Qed.
Print Assumptions C07_handled_by_its_own_response.
(** ... hence never twice for the same call: between two handlers for a token a new call got it *)
Theorem C07_handled_once : forall E fa l k a b past past',
  fresh_tokens E -> later l -> occurs (f_log (run E fa l)) (EvHandle k a) past -> occurs past (EvHandle k b) past' ->
  exists mid e earlier, past = mid ++ e :: earlier /\ (forall c, ~ In (EvHandle k c) mid) /\ In (EvHandle k b) earlier /\
    ((exists cl, e = EvDispatch a cl (Some k)) \/ exists cl, e = EvExport cl (Some k)).
Proof.
  intros E fa l k a b past past' F Hl Ho Hb. pose proof (occurs_trans _ _ _ _ _ Ho Hb) as Hb'.
  destruct (C07_handled_by_its_own_response _ _ _ _ _ _ F Hl Ho) as (st & sz & before & -> & Hop).
  assert (exists after e earlier, before = after ++ e :: earlier /\ ((exists cl, e = EvDispatch a cl (Some k)) \/ exists cl, e = EvExport cl (Some k)) /\
          forall st sz, ~ In (EvGrpcResp k st sz) after) as (after & e & earlier & -> & He & Hn).
  { destruct Hop as [(after & cl & earlier & H1 & H2)|(after & cl & earlier & H1 & H2)]; [exists after, (EvDispatch a cl (Some k)), earlier|exists after, (EvExport cl (Some k)), earlier]; eauto. }
  assert (Hmid : forall c x y, after = x ++ EvHandle k c :: y -> False).
  { intros c x y ->. assert (Hc : occurs (f_log (run E fa l)) (EvHandle k c) (y ++ e :: earlier)).
    { eapply occurs_trans; [exact Ho|]. exists (EvGrpcResp k st sz :: x). now rewrite <- app_assoc. }
    destruct (C07_handled_by_its_own_response _ _ _ _ _ _ F Hl Hc) as (st' & sz' & bf & Hy & _). destruct y as [|z y].
    - injection Hy as -> _. destruct He as [(cl & He)|(cl & He)]; discriminate.
    - injection Hy as -> _. apply (Hn st' sz'). apply in_or_app. right. right. now left. }
  exists (EvGrpcResp k st sz :: after), e, earlier. split; [reflexivity|]. split; [|split; [|exact He]].
  - intros c [Hi|Hi]; [discriminate|]. apply in_split in Hi as (x & y & Hi). eapply Hmid; eauto.
  - destruct Hb as [ab Hb]. destruct ab as [|z ab]; [discriminate|]. injection Hb as <- Hb.
    assert (Hi : In (EvHandle k b) (after ++ e :: earlier)) by (rewrite Hb; apply in_or_app; right; now left).
    apply in_app_or in Hi as [Hi|[Hi|Hi]]; [|destruct He as [(cl & ->)|(cl & ->)]; discriminate|exact Hi].
    apply in_split in Hi as (x & y & Hi). now apply Hmid in Hi.
Qed.
Print Assumptions C07_handled_once.
(** The response to a call on its way is handled at once, by that call's action; the handler
    sees the status and size of this very response, as none is ever left over. *)
Theorem C07_response_reaches_its_handler : forall E fa l k a st sz,
  fresh_tokens E -> later l -> call_open (f_log (run E fa l)) k a ->
  (exists evs, f_log (run E fa (l ++ [InGrpc k st sz])) = evs ++ EvHandle k a :: EvGrpcResp k st sz :: f_log (run E fa l)) /\
  exists p, f_pipe (run E fa l) = Some p /\ c_grpc (p_ctx p) = None /\ c_grpc (set_grpc st sz (p_ctx p)) = Some (st, sz).
Proof.
  intros E fa l k a st sz F Hl Ho. destruct (open_pipe E fa l k F Hl) as (p & Hp); [left; eauto|].
  destruct (reach E fa l p Hl Hp) as (p0 & _ & HB & _ & Hd). destruct (open_def _ _ _ _ _ _ F HB Ho) as (t & Hn & Hi). cbn [f_take p_with_ctx p_def] in Hn.
  split.
  - rewrite run_snoc. destruct (callback E fa _ (InGrpc k st sz) p Hd Hp) as (_ & _ & _ & H); [discriminate|]. rewrite H. clear H.
    destruct (callback_log E _ (InGrpc k st sz) p Hd Hp) as (evs & H & Hf); [discriminate|]. rewrite H, Hn, Hi. cbn [app ev_of].
    rewrite app_assoc. eauto.
  - exists p. split; [exact Hp|]. pose proof (w_grpc _ _ (t_w _ _ _ _ (b_t _ _ _ _ _ HB))) as Hg. cbn in Hg. split; [exact Hg|]. unfold set_grpc. now rewrite Hg.
Qed.
Print Assumptions C07_response_reaches_its_handler.
(** a host that gives every call the token 5 once it is free: two calls, two handlers *)
Definition E5 : env := e_dispatch Ed (fun l _ => if existsb (N.eqb 5) (map fst (opens l)) then None else Some 5%N).
Lemma E5_fresh : fresh_tokens E5.
Proof.
  intros l c k. unfold E5. cbn [e_dispatch h_dispatch]. destruct (existsb (N.eqb 5) (map fst (opens l))) eqn:He; [discriminate|]. intros [= <-] Hi.
  apply opens_flight in Hi. assert (existsb (N.eqb 5) (map fst (opens l)) = true); [|congruence]. apply existsb_exists. exists 5%N. split; [exact Hi|reflexivity].
Qed.
Definition ex07 : list action_cfg := [dcall "soft" false []; dcall "soft" true []].
Example C07_ex : fresh_tokens E5 /\ later [InGrpc 5 0 0; InGrpc 5 3 1] /\
  call_open (f_log (run E5 (dfac E5 ex07) [])) 5 (nat_text 0) /\
  exists past past', occurs (f_log (run E5 (dfac E5 ex07) [InGrpc 5 0 0; InGrpc 5 3 1])) (EvHandle 5 (nat_text 1)) past /\ occurs past (EvHandle 5 (nat_text 0)) past'.
Proof.
  split; [exact E5_fresh|]. split; [intros [H|[H|[]]]; discriminate|]. split; [apply call_open_spec; vm_compute; tauto|].
  do 2 eexists. split; [apply (cut_occurs 4); vm_compute; reflexivity|]. apply (cut_occurs 5). vm_compute. reflexivity.
Qed.

(** * C08 *)
Lemma serves_built E cfg fa s p : serves E cfg fa s -> build E fa (ctx0 [EvReqHeaders]) = BOk p ->
  exists svs, cfg_svs cfg = Some svs /\ forall nd, In nd (nodess (p_queue p)) ->
    (exists a x, configured svs (cfg_rsrc E cfg) s a x /\ describes E svs a x nd) \/ dev_node nd.
Proof. intros (_ & svs & bp & c & H1 & H2 & H3) Hb. exists svs. split; [exact H1|]. eapply built_nodes; eauto. Qed.
Lemma guard_node E cfg fa s p0 id sv var g kids : serves E cfg fa s -> build E fa (ctx0 [EvReqHeaders]) = BOk p0 ->
  In (NCall id sv var g kids) (nodess (p_queue p0)) -> (g = true <-> guard E cfg s id).
Proof.
  intros Hs Hb Hi. destruct (serves_built _ _ _ _ _ Hs Hb) as (svs & Hsv & Hn). destruct (Hn _ Hi) as [(a & x & Hc & Hd)|Hd].
  - assert (id = a /\ g = ta_guard x) as [-> ->].
    { destruct x as [pp tm gg sq op]. destruct Hd as (pred & _ & Hd). destruct op; try contradiction. now destruct Hd as (-> & _ & -> & _). }
    split.
    + intros Hg. right. exists svs, x. auto.
    + intros [-> |(svs' & y & Hsv' & Hc' & Hg)]; [now apply configured_not_dev in Hc|]. rewrite Hsv in Hsv'. injection Hsv' as <-.
      now rewrite (configured_unique _ _ _ _ _ _ Hc Hc').
  - destruct Hd as (-> & -> & _). split; [intros _; now left|reflexivity].
Qed.
Lemma def_guard E cfg fa s p0 n p k t a : fresh_tokens E -> serves E cfg fa s -> build E fa (ctx0 [EvReqHeaders]) = BOk p0 ->
  B E n (nodess (p_queue p0)) [] p -> ~ terminated (c_log (p_ctx p)) -> nget k (p_def p) = Some t -> call_open (c_log (p_ctx p)) k a ->
  (pend_guard t = true <-> guard E cfg s a).
Proof.
  intros F Hs Hb HB Ht Hn Ho. destruct (open_def _ _ _ _ _ _ F HB Ho) as (t' & Hn' & Hid). rewrite Hn in Hn'. injection Hn' as <-.
  pose proof (Forall_nget _ _ _ _ (w_def _ _ (t_w _ _ _ _ (b_t _ _ _ _ _ HB))) Hn) as Hw. apply wf_d_core in Hw.
  assert (Hx : exists id sv var rs g, core t = TPending id sv var rs g).
  { destruct (core t) eqn:Hc; try easy; [do 5 eexists; reflexivity|]. exfalso.
    destruct Ho as (after & cl & before & Hl & Hun). refine (t_u _ _ _ _ (b_t _ _ _ _ _ HB) F Ht _ a k _).
    - apply Exists_exists. exists t. split; [|exact Hw]. apply nget_In in Hn. now apply (in_map snd) in Hn.
    - exists after, cl, before. split; [exact Hl|]. apply Forall_forall. intros e He Ha. destruct e; simpl in Ha; try easy. subst. eapply Hun; eauto. }
  destruct Hx as (id & sv & var & rs & g & Hc). unfold pend_guard. rewrite Hc.
  assert (Hii : id = a) by (rewrite <- Hid, <- (core_id t), Hc; reflexivity). subst id.
  apply (guard_node E cfg fa s p0 a sv var g (map t_id rs) Hs Hb).
  apply (b_nodes _ _ _ _ _ HB). apply in_flat_map. exists t. split.
  - unfold items, dts. apply in_or_app. right. apply in_or_app. right. apply nget_In in Hn. now apply (in_map snd) in Hn.
  - rewrite <- nodes_core, Hc. now left.
Qed.
Theorem C08_counter_counts_open_guard_calls : forall E cfg fa s l p,
  fresh_tokens E -> serves E cfg fa s -> later l -> f_pipe (run E fa l) = Some p -> ~ terminated (f_log (run E fa l)) ->
  exists gs, NoDup gs /\ (forall k, In k gs <-> guard_open E cfg s (f_log (run E fa l)) k) /\ c_bar (p_ctx p) = N.of_nat (length gs).
Proof.
  intros E cfg fa s l p F Hs Hl Hp Ht. destruct (reach E fa l p Hl Hp) as (p0 & Hb & HB & _ & _).
  exists (map fst (filter (fun x => pend_guard (snd x)) (p_def p))). pose proof (b_nodup _ _ _ _ _ HB F) as Hd. cbn [f_take p_with_ctx p_def] in Hd.
  split; [|split].
  - clear -Hd. induction (p_def p) as [|x d IH]; simpl; [constructor|]. inversion Hd; subst. destruct (pend_guard (snd x)); simpl; auto. constructor; auto.
    intros Hi. apply in_map_iff in Hi as (y & Hy & Hi). apply filter_In in Hi as [Hi _]. apply H1. rewrite <- Hy. now apply in_map.
  - intros k. rewrite in_map_iff. split.
    + intros ([k' t] & <- & Hi). cbn [fst]. apply filter_In in Hi as [Hi Hg]. cbn [snd] in Hg. pose proof (nget_nodup _ _ _ Hd Hi) as Hn.
      destruct (matches_nget _ _ _ _ (b_open _ _ _ _ _ HB F) Hn) as ([a|] & Ho & Ha); [|destruct t; simpl in Ha; easy].
      exists a. apply call_open_spec in Ho. split; [exact Ho|]. eapply def_guard; eauto.
    + intros (a & Ho & Hg). destruct (open_def _ _ _ _ _ _ F HB Ho) as (t & Hn & _). exists (k, t). split; [reflexivity|]. apply filter_In. split; [now apply nget_In in Hn|].
      cbn [snd]. eapply (def_guard E cfg fa s p0 _ (f_take (run E fa l) p)); eauto.
  - pose proof (b_bar _ _ _ _ _ HB F Ht) as Hbar. cbn [f_take p_with_ctx p_ctx with_log c_bar p_def] in Hbar. rewrite Hbar. unfold guards_in. now rewrite map_length.
Qed.
Print Assumptions C08_counter_counts_open_guard_calls.
(** a guard call and a call that is no guard, both open *)
Definition dplain (sv : string) : action_cfg := CTyped (mkT (tx "true") false false false (OpGrpc (tx "r") (tx sv) (tx "msg") [])).
Definition ex08 : list action_cfg := [dcall "soft" false []; dplain "soft"].
Definition set08 : action_set := mkSet (tx "s") [tx "h"] [] ex08.
Lemma ex08_guard0 : guard Ed (dcfg ex08) set08 (nat_text 0).
Proof.
  right. eexists. exists (mkT (tx "true") false true false (OpGrpc (tx "r") (tx "soft") (tx "msg") [])).
  split; [vm_compute; reflexivity|]. split; [|reflexivity]. exists 0. eexists _, _. split; [reflexivity|]. split; [reflexivity|]. constructor.
Qed.
Lemma ex08_guard1 : ~ guard Ed (dcfg ex08) set08 (nat_text 1).
Proof.
  intros [H|(svs & x & _ & Hc & Hg)]; [vm_compute in H; discriminate|].
  assert (Hx : configured svs (cfg_rsrc Ed (dcfg ex08)) set08 (nat_text 1) (mkT (tx "true") false false false (OpGrpc (tx "r") (tx "soft") (tx "msg") []))).
  { exists 1. eexists _, _. split; [reflexivity|]. split; [reflexivity|]. constructor. }
  rewrite (configured_unique _ _ _ _ _ _ Hc Hx) in Hg. discriminate.
Qed.
Example C08_ex : fresh_tokens Ed /\ serves Ed (dcfg ex08) (dfac Ed ex08) set08 /\ later [InReqBody 3 true] /\
  (exists p, f_pipe (run Ed (dfac Ed ex08) [InReqBody 3 true]) = Some p /\ c_bar (p_ctx p) = 1%N /\ length (p_def p) = 2) /\
  guard_open Ed (dcfg ex08) set08 (dlog Ed ex08 [InReqBody 3 true]) 0 /\ ~ guard_open Ed (dcfg ex08) set08 (dlog Ed ex08 [InReqBody 3 true]) 1 /\
  ~ terminated (dlog Ed ex08 [InReqBody 3 true]).
Proof.
  split; [exact demo_fresh|]. split; [serve|]. split; [intros [H|[]]; discriminate|].
  split; [eexists; split; [vm_compute; reflexivity|]; split; vm_compute; reflexivity|].
  split; [exists (nat_text 0); split; [apply call_open_spec; vm_compute; tauto|exact ex08_guard0]|]. split.
  - intros (a & Ho & Hg). apply call_open_spec in Ho. vm_compute in Ho. destruct Ho as [Ho|[Ho|[]]]; [discriminate|]. injection Ho as <-. exact (ex08_guard1 Hg).
  - intros (a & H). vm_compute in H. intuition discriminate.
Qed.

(** * C09 *)
Lemma guard_trips E cfg fa s l p k : fresh_tokens E -> serves E cfg fa s -> later l -> f_pipe (run E fa l) = Some p ->
  ~ terminated (f_log (run E fa l)) -> (guard_open E cfg s (f_log (run E fa l)) k -> tripped (p_ctx p) = true) /\
  ((forall k, ~ guard_open E cfg s (f_log (run E fa l)) k) -> tripped (p_ctx p) = false).
Proof.
  intros F Hs Hl Hp Ht. destruct (C08_counter_counts_open_guard_calls E cfg fa s l p F Hs Hl Hp Ht) as (gs & _ & Hg & Hb). unfold tripped. rewrite Hb. split.
  - intros Hk. apply Hg in Hk. destruct gs; [easy|]. reflexivity.
  - intros Hk. destruct gs as [|k0 gs]; [reflexivity|]. exfalso. apply (Hk k0). apply Hg. now left.
Qed.
(** how the latest callback ended, if a pipeline is left *)
Lemma last_answer E fa l p : later l -> f_pipe (run E fa l) = Some p ->
  (l = [] /\ f_log (run E fa l) = EvRet (tripped (p_ctx p)) :: c_log (p_ctx p)) \/
  exists l' i p', l = l' ++ [i] /\ later l' /\ i <> InReqHeaders /\ f_dead (run E fa l') = false /\ f_pipe (run E fa l') = Some p' /\
    kept p = Some p /\ f_log (run E fa l) = answer i (run E fa l') p ++ c_log (p_ctx p) /\
    exists evs, c_log (p_ctx p) = evs ++ f_log (run E fa l') /\ evs <> [] /\
      forall e evs', i <> InRespHeaders -> evs = e :: evs' -> (forall b, e <> EvRet b) /\ e <> EvResumeReq /\ e <> EvResumeResp.
Proof.
  intros Hl Hp. destruct (reach E fa l p Hl Hp) as (p0 & Hb & _). destruct (run_init l) as [->|(l' & i & ->)].
  - left. split; [reflexivity|]. destruct (first_callback E fa p0 Hb) as (H1 & _ & _ & H2). rewrite H2. rewrite H1 in Hp. rewrite Hp.
    apply kept_busy in Hp as [-> _]. reflexivity.
  - right. destruct (later_init _ _ Hl) as [Hl' Hi]. rewrite run_snoc in *.
    destruct (f_pipe (run E fa l')) as [p'|] eqn:Hp'.
    + assert (Hd : f_dead (run E fa l') = false) by (apply pipe_alive; [exact Hl'|congruence]).
      destruct (callback E fa _ i p' Hd Hp' Hi) as (H1 & _ & _ & H2). rewrite H1 in Hp. pose proof Hp as Hk. apply kept_busy in Hp as [-> Hbz].
      exists l', i, p'. split; [reflexivity|]. split; [exact Hl'|]. split; [exact Hi|]. split; [exact Hd|]. split; [exact Hp'|]. split; [exact Hk|]. split; [exact H2|].
      destruct (callback_log E _ i p' Hd Hp' Hi) as (evs & H3 & Hf).
      eexists. split; [rewrite H3; change (ev_of i :: f_log (run E fa l')) with ([ev_of i] ++ f_log (run E fa l')); rewrite !app_assoc; reflexivity|].
      split; [intros Hx; now apply app_eq_nil in Hx as [_ Hx]|].
      intros e evs' Hne Hx. destruct evs as [|x evs].
      * destruct i as [|n e0| |n e0|k st sz]; try easy; cbn [app ev_of] in Hx; try (injection Hx as <- _; repeat split; discriminate).
        destruct (nget k (p_def p')); injection Hx as <- _; repeat split; discriminate.
      * injection Hx as <- _. inversion Hf as [|? ? Hin _]; subst. split; [intros b ->; exact Hin|split; intros ->; exact Hin].
    + destruct (no_pipe_step E fa _ i Hp' Hi) as (H & _). congruence.
Qed.
(** While a guard's call is on its way (and processing goes on) every HTTP callback pauses
    and nothing is resumed. *)
Theorem C09_phase_held_by_guard_calls : forall E cfg fa s l k,
  fresh_tokens E -> serves E cfg fa s -> later l ->
  guard_open E cfg s (f_log (run E fa l)) k -> ~ terminated (f_log (run E fa l)) ->
  (forall b past, f_log (run E fa l) = EvRet b :: past -> b = true) /\
  (forall past, f_log (run E fa l) <> EvResumeReq :: past /\ f_log (run E fa l) <> EvResumeResp :: past).
Proof.
  intros E cfg fa s l k F Hs Hl Hg Ht. destruct (open_pipe E fa l k F Hl) as (p & Hp); [destruct Hg as (a & Ho & _); left; eauto|].
  destruct (guard_trips E cfg fa s l p k F Hs Hl Hp Ht) as [Htr _]. specialize (Htr Hg).
  destruct (last_answer E fa l p Hl Hp) as [[-> H]|(l' & i & p' & -> & Hl' & Hi & Hd & Hp' & Hk & H & evs & He & Hne & Hh)].
  - rewrite H, Htr. split; [intros b past [= <- _]; reflexivity|]. intros past. split; discriminate.
  - rewrite H. unfold answer. rewrite Hk, Htr. destruct i as [|n e| |n e|tok st sz]; [easy| | | |].
    + split; [intros b past [= <- _]; reflexivity|]. intros past. split; discriminate.
    + split; [intros b past [= <- _]; reflexivity|]. intros past. split; discriminate.
    + split; [intros b past [= <- _]; reflexivity|]. intros past. split; discriminate.
    + assert (p_term p = false).
      { destruct (p_term p) eqn:Hterm; [|reflexivity]. exfalso. destruct (reach E fa _ p Hl Hp) as (p0 & _ & HB & _).
        apply Ht. apply (t_over _ _ _ _ (b_t _ _ _ _ _ HB)). exact Hterm. }
      rewrite H0. cbn [andb negb app]. rewrite He. destruct evs as [|e evs]; [easy|]. destruct (Hh e evs) as (A1 & A2 & A3); [discriminate|reflexivity|].
      split; [intros b past [= -> _]; now destruct (A1 b)|]. intros past. split; intros [= -> _]; auto.
Qed.
Print Assumptions C09_phase_held_by_guard_calls.
(** every HTTP callback returns an answer, unless the filter has trapped *)
Theorem C09_every_callback_answers : forall E fa l i, later (l ++ [i]) -> f_dead (run E fa l) = false -> (forall k st sz, i <> InGrpc k st sz) ->
  exists b past, f_log (run E fa (l ++ [i])) = EvRet b :: past.
Proof.
  intros E fa l i Hl Hd Hg. destruct (later_init _ _ Hl) as [Hl' Hi]. rewrite run_snoc. destruct (f_pipe (run E fa l)) as [p|] eqn:Hp.
  - destruct (callback E fa _ i p Hd Hp Hi) as (_ & _ & _ & H). rewrite H. unfold answer. destruct i; try easy; try (do 2 eexists; reflexivity). now destruct (Hg tok status size).
  - destruct (no_pipe_callback E fa _ i Hd Hp Hi) as (_ & _ & _ & H). rewrite H. destruct i; try easy; try (do 2 eexists; reflexivity). now destruct (Hg tok status size).
Qed.
Print Assumptions C09_every_callback_answers.
(** the same request: the body callback pauses, as [C08_ex] meets all hypotheses *)
Example C09_ex : (exists past, dlog Ed ex08 [InReqBody 3 true] = EvRet true :: past) /\ f_dead (run Ed (dfac Ed ex08) []) = false /\ later ([] ++ [InReqBody 3 true]).
Proof. split; [eexists; vm_compute; reflexivity|]. split; [vm_compute; reflexivity|]. intros [H|[]]; discriminate. Qed.

(** * C10 *)
(** Part that holds: once the abandoned calls are answered, a terminated request is not
    paused, and the answer to the last of them resumes a response held meanwhile.
    Missing: while such a call is on its way its hold remains. *)
Lemma term_queue E fa l p : later l -> f_pipe (run E fa l) = Some p -> terminated (f_log (run E fa l)) -> p_term p = true /\ p_queue p = [].
Proof.
  intros Hl Hp Ht. destruct (reach E fa l p Hl Hp) as (p0 & _ & HB & [_ Hq] & _).
  assert (Htm : p_term p = true) by (apply (t_over _ _ _ _ (b_t _ _ _ _ _ HB)); exact Ht). split; [exact Htm|]. now apply Hq.
Qed.
Theorem C10_terminated_not_held_partial : forall E fa l,
  fresh_tokens E -> later l -> terminated (f_log (run E fa l)) -> (forall k, ~ awaited (f_log (run E fa l)) k) ->
  (forall b past, f_log (run E fa l) = EvRet b :: past -> b = false) /\
  (forall l' k st sz a, l = l' ++ [InGrpc k st sz] -> call_open (f_log (run E fa l')) k a -> resp_started (f_log (run E fa l')) ->
     exists past, f_log (run E fa l) = EvResumeResp :: past).
Proof.
  intros E fa l F Hl Ht Ha. assert (Hp : f_pipe (run E fa l) = None).
  { destruct (f_pipe (run E fa l)) as [p|] eqn:Hp; [|reflexivity]. exfalso. destruct (term_queue E fa l p Hl Hp Ht) as [_ Hq].
    destruct (C05_completed_iff_no_work_left E fa l p F Hl Hp) as (_ & _ & [H|(k & H)]); [easy|]. now apply Ha in H. }
  split.
  - intros b past Hlog. destruct (run_init l) as [->|(l' & i & ->)].
    + destruct (build E fa (ctx0 [EvReqHeaders])) as [p0|c|c|c] eqn:Hb.
      * destruct (first_callback E fa p0 Hb) as (H1 & _ & _ & H2). rewrite H2 in Hlog. rewrite H1 in Hp. rewrite Hp in Hlog. now injection Hlog.
      * pose proof (headers_log E fa) as H. rewrite Hb in H. destruct H as (H & _). rewrite H in Hlog. now injection Hlog.
      * pose proof (headers_log E fa) as H. rewrite Hb in H. destruct H as (_ & ok & _ & H). rewrite H in Hlog. destruct ok; now injection Hlog.
      * pose proof (headers_log E fa) as H. rewrite Hb in H. destruct H as (_ & _ & H). rewrite H in Hlog. discriminate.
    + destruct (later_init _ _ Hl) as [Hl' Hi]. rewrite run_snoc in *. destruct (f_pipe (run E fa l')) as [p'|] eqn:Hp'.
      * assert (Hd : f_dead (run E fa l') = false) by (apply pipe_alive; [exact Hl'|congruence]).
        destruct (callback E fa _ i p' Hd Hp' Hi) as (H1 & _ & _ & H2). rewrite H2 in Hlog. rewrite H1 in Hp. unfold answer in Hlog. rewrite Hp in Hlog.
        destruct i as [|n e| |n e|tok st sz]; try easy; try (injection Hlog as <- _; reflexivity).
        exfalso. destruct (negb _ || _ || _); [destruct (f_resp _); discriminate|]. cbn [app] in Hlog.
        destruct (callback_log E _ (InGrpc tok st sz) p' Hd Hp' Hi) as (evs & H3 & Hf). rewrite H3 in Hlog.
        destruct evs as [|x evs]; [destruct (nget tok (p_def p')); discriminate|]. injection Hlog as -> _. now inversion Hf.
      * destruct (f_dead (run E fa l')) eqn:Hd.
        -- rewrite dead_stays in * by exact Hd. exfalso. destruct (build E fa (ctx0 [EvReqHeaders])) as [p0|c|c|c] eqn:Hb.
           ++ clear -Hd Hb Hl'. induction l' as [|i l' IH] using rev_ind.
              ** destruct (first_callback E fa p0 Hb) as (_ & _ & H & _). congruence.
              ** destruct (later_init _ _ Hl') as [Hl2 Hi]. rewrite run_snoc in Hd. destruct (f_dead (run E fa l')) eqn:Hd'; [now apply IH|].
                 destruct (f_pipe (run E fa l')) as [p'|] eqn:Hp'.
                 --- destruct (callback E fa _ i p' Hd' Hp' Hi) as (_ & _ & H & _). congruence.
                 --- destruct (no_pipe_callback E fa _ i Hd' Hp' Hi) as (_ & _ & H & _). congruence.
           ++ destruct (no_pipe_run E fa l') as [_ H]; [intros x; congruence|exact Hl'|]. destruct Ht as (a & Ht). rewrite Forall_forall in H. apply H in Ht as [[Ht|(x & y & z & Ht)]|[(m & Ht)|(x & y & z & w & Ht)]]; easy.
           ++ destruct (no_pipe_run E fa l') as [_ H]; [intros x; congruence|exact Hl'|]. destruct Ht as (a & Ht). rewrite Forall_forall in H. apply H in Ht as [[Ht|(x & y & z & Ht)]|[(m & Ht)|(x & y & z & w & Ht)]]; easy.
           ++ destruct (no_pipe_run E fa l') as [_ H]; [intros x; congruence|exact Hl'|]. destruct Ht as (a & Ht). rewrite Forall_forall in H. apply H in Ht as [[Ht|(x & y & z & Ht)]|[(m & Ht)|(x & y & z & w & Ht)]]; easy.
        -- destruct (no_pipe_callback E fa _ i Hd Hp' Hi) as (_ & _ & _ & H). rewrite H in Hlog. destruct i; try easy; now injection Hlog.
  - intros l' k st sz a -> Ho Hr. destruct (later_init _ _ Hl) as [Hl' Hi]. destruct (open_pipe E fa l' k F Hl') as (p' & Hp'); [left; eauto|].
    assert (Hd : f_dead (run E fa l') = false) by (apply pipe_alive; [exact Hl'|congruence]). rewrite run_snoc in *.
    destruct (callback E fa _ _ p' Hd Hp' Hi) as (H1 & _ & _ & H2). rewrite H2. rewrite H1 in Hp. unfold answer. rewrite Hp.
    apply (resp_flag E fa l' Hl' Hd) in Hr. rewrite Hr, !orb_true_r. cbn [app]. eauto.
Qed.
Print Assumptions C10_terminated_not_held_partial.
(** The deny-mode call of [0] fails and the 500 reply is sent, but the response to it is
    paused as the call of the other guard is still counted. *)
Definition ex10 : list action_cfg := [dcall "hard" false []; dcall "soft" false []].
Theorem C10_terminated_not_held_refuted : exists E cfg fa s l l' st h b past,
  fresh_tokens E /\ try_from E cfg = Some fa /\ serves E cfg fa s /\ later (l ++ l') /\
  In (EvReply st h b true) (f_log (run E fa l)) /\ terminated (f_log (run E fa l)) /\ l' = [InRespHeaders] /\
  f_log (run E fa (l ++ l')) = EvRet true :: past.
Proof.
  exists Ed, (dcfg ex10), (dfac Ed ex10), (mkSet (tx "s") [tx "h"] [] ex10), [InGrpc 0 1 0], [InRespHeaders], 500%N, [], (Some ise_body), (tl (dlog Ed ex10 [InGrpc 0 1 0; InRespHeaders])).
  split; [exact demo_fresh|]. split; [vm_compute; reflexivity|]. split; [serve|]. split; [intros [H|[H|[]]]; discriminate|].
  split; [vm_compute; tauto|]. split; [exists (nat_text 0); vm_compute; tauto|]. split; [reflexivity|]. vm_compute. reflexivity.
Qed.
Print Assumptions C10_terminated_not_held_refuted.
Example C10_ex : fresh_tokens Ed /\ later ([InGrpc 0 1 0; InRespHeaders] ++ [InGrpc 1 0 0]) /\
  terminated (dlog Ed ex10 [InGrpc 0 1 0; InRespHeaders; InGrpc 1 0 0]) /\ (forall k, ~ awaited (dlog Ed ex10 [InGrpc 0 1 0; InRespHeaders; InGrpc 1 0 0]) k) /\
  call_open (dlog Ed ex10 [InGrpc 0 1 0; InRespHeaders]) 1 (nat_text 1) /\ resp_started (dlog Ed ex10 [InGrpc 0 1 0; InRespHeaders]).
Proof.
  split; [exact demo_fresh|]. split; [intros [H|[H|[H|[]]]]; discriminate|]. split; [exists (nat_text 0); vm_compute; tauto|].
  split; [apply opens_nil; vm_compute; reflexivity|]. split; [apply call_open_spec; vm_compute; tauto|]. vm_compute. tauto.
Qed.

(** * C72 *)
(** The answer to the last guard call on its way resumes the current phase *)
Theorem C72_pausing_ends_with_a_resume : forall E cfg fa s l k a st sz,
  fresh_tokens E -> serves E cfg fa s -> later l -> call_open (f_log (run E fa l)) k a ->
  ~ terminated (f_log (run E fa (l ++ [InGrpc k st sz]))) ->
  (forall k', ~ guard_open E cfg s (f_log (run E fa (l ++ [InGrpc k st sz]))) k') ->
  exists e past, f_log (run E fa (l ++ [InGrpc k st sz])) = e :: past /\
    (resp_started (f_log (run E fa l)) /\ e = EvResumeResp \/ ~ resp_started (f_log (run E fa l)) /\ e = EvResumeReq).
Proof.
  intros E cfg fa s l k a st sz F Hs Hl Ho Ht Hg. destruct (open_pipe E fa l k F Hl) as (p & Hp); [left; eauto|].
  assert (Hd : f_dead (run E fa l) = false) by (apply pipe_alive; [exact Hl|congruence]).
  assert (Hl2 : later (l ++ [InGrpc k st sz])) by (apply later_app; [exact Hl|discriminate]).
  pose proof (resp_flag E fa l Hl Hd) as Hr. rewrite run_snoc in *.
  destruct (callback E fa _ (InGrpc k st sz) p Hd Hp) as (H1 & _ & _ & H2); [discriminate|]. rewrite H2.
  set (q := advance E (InGrpc k st sz) (seen (InGrpc k st sz) (run E fa l) p)) in *.
  exists (if f_resp (run E fa l) then EvResumeResp else EvResumeReq), (c_log (p_ctx q)). split.
  - unfold answer. destruct (kept q) as [p'|] eqn:Hk.
    + apply kept_busy in Hk as [-> _]. rewrite <- run_snoc in *.
      destruct (guard_trips E cfg fa s _ q 0 F Hs Hl2 H1 Ht) as [_ Htr]. rewrite (Htr Hg).
      destruct (p_term q) eqn:Htm; [|reflexivity]. exfalso. destruct (reach E fa _ q Hl2 H1) as (p0 & _ & HB & _). apply Ht. now apply (t_over _ _ _ _ (b_t _ _ _ _ _ HB)).
    + destruct (p_term q) eqn:Htm; [|reflexivity]. exfalso.
      destruct (reach E fa l p Hl Hp) as (p0 & _ & HB & Hlv & _). destruct (digest_star E k st sz (f_take (run E fa l) p) Hlv) as [Hst _].
      apply (estar_inv E _ (fi_step _ _ _ (B_finv E (length (p_td p0)) (nodess (p_queue p0))))) in Hst; [|exact HB].
      apply Ht. rewrite H2. destruct (proj2 (t_over _ _ _ _ (b_t _ _ _ _ _ Hst)) Htm) as (x & Hx). exists x. apply in_or_app. now right.
  - unfold resp_started. destruct (f_resp (run E fa l)); [left|right]; (split; [|reflexivity]); [now apply Hr|]. intros Hx. apply Hr in Hx. discriminate.
Qed.
Print Assumptions C72_pausing_ends_with_a_resume.
(** the guard's call is answered while the other one is still open *)
Example C72_ex : fresh_tokens Ed /\ serves Ed (dcfg ex08) (dfac Ed ex08) set08 /\ later [InReqBody 3 true] /\
  call_open (dlog Ed ex08 [InReqBody 3 true]) 0 (nat_text 0) /\
  ~ terminated (dlog Ed ex08 ([InReqBody 3 true] ++ [InGrpc 0 0 0])) /\
  (forall k, ~ guard_open Ed (dcfg ex08) set08 (dlog Ed ex08 ([InReqBody 3 true] ++ [InGrpc 0 0 0])) k) /\
  call_open (dlog Ed ex08 ([InReqBody 3 true] ++ [InGrpc 0 0 0])) 1 (nat_text 1).
Proof.
  split; [exact demo_fresh|]. split; [serve|]. split; [intros [H|[]]; discriminate|]. split; [apply call_open_spec; vm_compute; tauto|].
  split; [intros (a & H); vm_compute in H; intuition discriminate|]. split; [|apply call_open_spec; vm_compute; tauto].
  intros k (a & Ho & Hg). apply call_open_spec in Ho. vm_compute in Ho. destruct Ho as [Ho|[]]. injection Ho as _ <-. exact (ex08_guard1 Hg).
Qed.

(** * C69 *)
Lemma count_app m a b : count m (a ++ b) = count m a + count m b.
Proof. induction a as [|e a IH]; simpl; [reflexivity|]. destruct e; simpl; rewrite IH; auto. lia. Qed.
Lemma count_none m evs : ~ In (EvMetric m) evs -> count m evs = 0.
Proof. induction evs as [|e evs IH]; simpl; intros H; [reflexivity|]. rewrite IH by tauto. destruct e; auto. destruct (metric_dec m m0) as [->|]; [|reflexivity]. exfalso. apply H. now left. Qed.
Lemma answer_no_metric i f q m : ~ In (EvMetric m) (answer i f q).
Proof.
  unfold answer. destruct i; try (intros [H|[]]; discriminate). destruct (kept q); match goal with |- context [if ?b then [if f_resp f then _ else _] else _] => destruct b end; try easy;
    intros [H|[]]; destruct (f_resp f); discriminate.
Qed.
Lemma step_counts E fa f i m : i <> InReqHeaders -> m = MHits \/ m = MMisses -> count m (f_log (fstep E fa f i)) = count m (f_log f).
Proof.
  intros Hi Hm. destruct (f_dead f) eqn:Hd; [now rewrite dead_stays|]. destruct (f_pipe f) as [p|] eqn:Hp.
  - destruct (callback E fa f i p Hd Hp Hi) as (_ & _ & _ & ->). destruct (callback_log E f i p Hd Hp Hi) as (evs & -> & Hf).
    rewrite !count_app, (count_none m (answer _ _ _)) by apply answer_no_metric.
    rewrite (count_none m evs) by (intros Hx; rewrite Forall_forall in Hf; apply Hf in Hx; destruct Hm; subst m; exact Hx).
    destruct i; try easy; cbn [count ev_of app]; try reflexivity; [destruct Hm; subst m; reflexivity|]. destruct (nget _ _); reflexivity.
  - destruct (no_pipe_callback E fa f i Hd Hp Hi) as (_ & _ & _ & ->). rewrite count_app. destruct i; try easy; destruct Hm; subst m; reflexivity.
Qed.
Lemma run_counts E fa l m : later l -> m = MHits \/ m = MMisses -> count m (f_log (run E fa l)) = count m (f_log (run E fa [])).
Proof.
  intros Hl Hm. induction l as [|i l IH] using rev_ind; [reflexivity|]. destruct (later_init _ _ Hl) as [Hl' Hi]. rewrite run_snoc, step_counts; auto.
Qed.
Lemma no_pipe_counts E fa f i m : f_pipe f = None -> m <> MAllowed -> i <> InReqHeaders -> count m (f_log (fstep E fa f i)) = count m (f_log f).
Proof.
  intros Hp Hm Hi. destruct (f_dead f) eqn:Hd; [now rewrite dead_stays|].
  destruct (no_pipe_callback E fa f i Hd Hp Hi) as (_ & _ & _ & ->). rewrite count_app. destruct i; try easy; destruct m; try easy; reflexivity.
Qed.
(** Whatever the rest of the request brings, it is counted exactly once, as a hit if a pipeline
    was built, as a miss if no action set applies, as an error if building failed.
    Missing: a request on which the callback traps is not counted. *)
Theorem C69_counted_once_partial : forall E fa l, later l ->
  let n m := count m (f_log (run E fa l)) in
  match build E fa (ctx0 [EvReqHeaders]) with
  | BOk _ => n MHits = 1 /\ n MMisses = 0
  | BNone _ => n MHits = 0 /\ n MMisses = 1 /\ n MErrors = 0
  | BErr _ => n MHits = 0 /\ n MMisses = 0 /\ n MErrors = 1
  | BPanic _ => True
  end.
Proof.
  intros E fa l Hl n. unfold n. rewrite (run_counts E fa l MHits), (run_counts E fa l MMisses) by auto. pose proof (headers_log E fa) as H.
  assert (K : (forall p, build E fa (ctx0 [EvReqHeaders]) <> BOk p) -> count MErrors (f_log (run E fa l)) = count MErrors (f_log (run E fa []))).
  { intros Hb. induction l as [|i l IH] using rev_ind; [reflexivity|]. destruct (later_init _ _ Hl) as [Hl' Hi]. rewrite run_snoc, no_pipe_counts; auto; [|discriminate].
    now apply no_pipe_run. }
  destruct (build E fa (ctx0 [EvReqHeaders])) as [p0|c|c|c] eqn:Hb; [|rewrite K by discriminate..|exact Logic.I].
  - destruct (first_callback E fa p0 Hb) as (_ & _ & _ & ->). destruct (eval_added E (p_emit (EvMetric MHits) p0)) as (evs & -> & Hf).
    pose proof (build_spec E fa (ctx0 [EvReqHeaders])) as Hs. rewrite Hb in Hs. destruct Hs as (b & c1 & tds & _ & _ & _ & (Hlog & _) & _). cbn in Hlog.
    cbn [count p_emit p_with_ctx p_ctx emit with_log c_log]. rewrite Hlog, !count_app. rewrite Forall_forall in Hf.
    split; rewrite count_none; try reflexivity; intros Hx; now apply Hf in Hx.
  - destruct H as (-> & _). auto.
  - destruct H as (_ & ok & _ & ->). destruct ok; auto.
Qed.
Print Assumptions C69_counted_once_partial.
(** A quote in the client's request id makes the expression of the tracking header
    unparsable; the callback traps and the request is counted nowhere. *)
Theorem C69_counted_once_refuted : exists E cfg fa, try_from E cfg = Some fa /\
  (exists c, build E fa (ctx0 [EvReqHeaders]) = BPanic c) /\ f_dead (run E fa []) = true /\ f_log (run E fa []) = [EvReqHeaders].
Proof.
  exists (Eq "a'b"), (tcfg ex10), (match try_from (Eq "a'b") (tcfg ex10) with Some f => f | None => factory0 end).
  split; [vm_compute; reflexivity|]. split; [eexists; vm_compute; reflexivity|]. split; vm_compute; reflexivity.
Qed.
Print Assumptions C69_counted_once_refuted.
Example C69_ex : later [InGrpc 0 0 0; InRespHeaders] /\
  (exists p, build Ed (dfac Ed ex10) (ctx0 [EvReqHeaders]) = BOk p) /\ (exists c, build Ed factory0 (ctx0 [EvReqHeaders]) = BNone c).
Proof. split; [intros [H|[H|[]]]; discriminate|]. split; [eexists; vm_compute; reflexivity|]. eexists. vm_compute. reflexivity. Qed.
