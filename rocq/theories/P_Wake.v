(** No action gets lost: every action of a set is queued, in flight, completed or failed
    until processing is over, and an action left in the queue by a pass has a reason. *)
From Coq Require Import String List NArith Bool Lia Arith.
From Verif Require Import Base Value Headers AttrPath Ctx CelProps CelEval Sse Body Tasks Exec Config Legacy Blueprint Factory Filter
  P_Frame P_Apply P_Exec P_Inv P_Ids P_Run P_Plan P_Deps P_Order P_Term P_Bar P_Grow.
Import ListNotations.
Open Scope list_scope.

(** No action comes before one of its dependencies *)
Fixpoint ordered (l : list task) : Prop :=
  match l with
  | [] => True
  | t :: l' => (forall d, In d (t_deps t) -> ~ In d (map t_id l')) /\ ordered l'
  end.
Lemma ordered_app a b : ordered (a ++ b) <->
  ordered a /\ ordered b /\ (forall t d, In t a -> In d (t_deps t) -> ~ In d (map t_id b)).
Proof.
  induction a as [|t a IH]; simpl.
  - split; [intros H; repeat split; auto; easy|tauto].
  - rewrite IH, map_app. split.
    + intros [H1 (H2 & H3 & H4)]. repeat split; auto.
      * intros d Hd Hi. apply (H1 d Hd). apply in_or_app. now left.
      * intros x d [<-|Hx] Hd Hi; [|now apply (H4 x d)]. apply (H1 d Hd). apply in_or_app. now right.
    + intros [[H1 H2] [H3 H4]]. repeat split; auto.
      * intros d Hd Hi. apply in_app_or in Hi as [Hi|Hi]; [now apply (H1 d)|now apply (H4 t d (or_introl eq_refl))].
      * intros x d Hx Hd. apply (H4 x d); [now right|exact Hd].
Qed.
(** Dropping an action or replacing it by itself in another state *)
Lemma ordered_drop a t b : ordered (a ++ t :: b) -> ordered (a ++ b).
Proof.
  rewrite !ordered_app. intros (H1 & [_ H2] & H3). repeat split; auto.
  intros x d Hx Hd Hi. apply (H3 x d Hx Hd). now right.
Qed.
Lemma ordered_swap a t t' b : t_id t' = t_id t -> t_deps t' = t_deps t -> ordered (a ++ t :: b) -> ordered (a ++ t' :: b).
Proof.
  intros Hi Hd. rewrite !ordered_app. simpl. rewrite Hi, Hd. tauto.
Qed.
Lemma ordered_front l q : Forall (fun t => t_deps t = []) l -> ordered q -> ordered (l ++ q).
Proof.
  intros H Hq. induction H as [|t l Ht _ IH]; simpl; [exact Hq|]. rewrite Ht. split; [easy|exact IH].
Qed.

(** Re-queueing gives back the task *)
Lemma requeue_one t l : map norm l = [norm t] -> exists t', l = [t'] /\ norm t' = norm t /\ t_id t' = t_id t /\ t_deps t' = t_deps t.
Proof.
  destruct l as [|t' [|]]; simpl; try discriminate. intros [= H]. exists t'. repeat split; auto.
  - rewrite <- (norm_id t'), H. apply norm_id.
  - rewrite <- (norm_deps t'), H. apply norm_deps.
Qed.
Lemma requeued_one E t c l c' evs : wf_q t -> ssum E t c (ORequeued l) c' evs ->
  exists t', l = [t'] /\ norm t' = norm t /\ t_id t' = t_id t /\ t_deps t' = t_deps t.
Proof.
  intros Hq Hss. apply requeue_one. pose proof (ss_requeue _ _ _ _ _ _ Hss) as H. simpl in H.
  apply wf_q_not_pending in Hq. destruct (core t); easy.
Qed.

(** * Reasons to stay in the queue *)
Definition woken (l0 l : log) (a : text) : Prop := exists evs, l = evs ++ l0 /\ In (EvEval a) evs.
Lemma woken_grow l0 l l' a : added inner l l' -> woken l0 l a -> woken l0 l' a.
Proof.
  intros (e2 & -> & _) (e1 & -> & H). exists (e2 ++ e1). rewrite app_assoc. split; [reflexivity|]. apply in_or_app. now right.
Qed.
Lemma mem_text_In x l : mem_text x l = true <-> In x l.
Proof.
  unfold mem_text. rewrite existsb_exists. split.
  - intros (y & Hy & H). apply text_eqb_eq in H. now subst.
  - intros H. exists x. split; [exact H|]. now apply text_eqb_eq.
Qed.
Lemma blocked_true done t : blocked done t = true -> exists d, In d (t_deps t) /\ ~ In d done.
Proof.
  unfold blocked. rewrite existsb_exists. intros (d & Hd & H). exists d. split; [exact Hd|]. intros Hi.
  apply mem_text_In in Hi. rewrite Hi in H. discriminate.
Qed.

Lemma process_wake E ts : forall p b p' l0, process E ts p = (b, p') ->
  Forall wf_q ts -> ordered (p_queue p ++ ts) -> (exists e0, c_log (p_ctx p) = e0 ++ l0) ->
  (forall t, In t (p_queue p) -> woken l0 (c_log (p_ctx p)) (t_id t) \/
     exists d, In d (t_deps t) /\ ~ In d (p_done p) /\ ~ In d (map t_id ts)) ->
  forall t, In t (p_queue p') -> woken l0 (c_log (p_ctx p')) (t_id t) \/ exists d, In d (t_deps t) /\ ~ In d (p_done p').
Proof.
  induction ts as [|t ts IH]; intros p b p' l0; simpl.
  - intros [= <- <-] _ _ _ H x Hx. destruct (H x Hx) as [Hw|(d & H1 & H2 & _)]; [now left|right; eauto].
  - intros Hp Hwf Ho (e0 & He0) Hq. inversion Hwf as [|? ? Hwt Hwts]; subst.
    destruct (blocked (p_done p) t) eqn:Hb.
    + apply (IH _ _ _ l0 Hp); auto; cbn [p_with_queue p_queue p_ctx p_done].
      * rewrite <- app_assoc. exact Ho.
      * eauto.
      * intros x Hx. apply in_app_or in Hx as [Hx|[<-|[]]].
        -- destruct (Hq x Hx) as [Hw|(d & H1 & H2 & H3)]; [now left|]. right. exists d. repeat split; auto.
        -- right. apply blocked_true in Hb as (d & H1 & H2). exists d. repeat split; auto.
           apply ordered_app in Ho as (_ & [Ho _] & _). now apply Ho.
    + destruct (step E t (p_ctx p)) as [o c] eqn:Hst. pose proof (step_added _ _ _ _ _ Hst) as Hadd.
      pose proof Hst as Hst0. apply step_sum in Hst0 as (evs & Hss).
      assert (Hself : woken l0 (c_log c) (t_id t)).
      { exists (ghost t o ++ evs ++ [EvEval (t_id t)] ++ e0). rewrite (ss_log _ _ _ _ _ _ Hss), He0, <- !app_assoc. split; [reflexivity|].
        rewrite !in_app_iff. right; right; left. now left. }
      assert (Hpre : exists e, c_log c = e ++ l0) by (destruct Hself as (e & H & _); eauto).
      destruct o; cbv zeta in Hp.
      * apply (IH _ _ _ l0 Hp); auto; cbn [p_with_queue p_with_ctx p_with_done p_queue p_ctx p_done].
        -- eapply ordered_drop; eauto.
        -- intros x Hx. destruct (Hq x Hx) as [Hw|(d & H1 & H2 & H3)]; [left; eapply woken_grow; eauto|]. right.
           exists d. split; [exact H1|]. split; [intros [H|H]; [apply H3; now left|auto]|]. intros H. apply H3. now right.
      * destruct (def_insert_facts tok t0 (p_with_ctx p c)) as (F1 & F2 & F3 & F4 & F5 & F6).
        apply (IH _ _ _ l0 Hp); auto; rewrite ?F1, ?F2, ?F3; cbn [p_with_queue p_with_ctx p_queue p_ctx p_done] in *; auto.
        -- eapply ordered_drop; eauto.
        -- intros x Hx. destruct (Hq x Hx) as [Hw|(d & H1 & H2 & H3)]; [left; eapply woken_grow; eauto|]. right.
           exists d. split; [exact H1|]. split; [exact H2|]. intros H. apply H3. now right.
      * destruct (requeued_one _ _ _ _ _ _ Hwt Hss) as (t' & -> & Hn & Hi & Hd).
        apply (IH _ _ _ l0 Hp); auto; cbn [p_with_queue p_with_ctx p_queue p_ctx p_done].
        -- rewrite <- app_assoc. eapply ordered_swap; eauto.
        -- intros x Hx. apply in_app_or in Hx as [Hx|[<-|[]]]; [|left; now rewrite Hi].
           destruct (Hq x Hx) as [Hw|(d & H1 & H2 & H3)]; [left; eapply woken_grow; eauto|]. right.
           exists d. split; [exact H1|]. split; [exact H2|]. intros H. apply H3. now right.
      * apply (IH _ _ _ l0 Hp); auto; cbn [p_with_queue p_with_ctx p_queue p_ctx p_done].
        -- eapply ordered_drop; eauto.
        -- intros x Hx. destruct (Hq x Hx) as [Hw|(d & H1 & H2 & H3)]; [left; eapply woken_grow; eauto|]. right.
           exists d. split; [exact H1|]. split; [exact H2|]. intros H. apply H3. now right.
      * injection Hp as <- <-. simpl. easy.
Qed.

(** Teardown does not change the queue *)
Lemma td_keeps E a p : p_queue (td_step E p a) = p_queue p /\ p_done (td_step E p a) = p_done p.
Proof.
  destruct (td_sum E a p) as (evs & tok & T1 & T2 & T3 & T4 & T5 & _). now split.
Qed.
Lemma teardown_keeps E p : p_queue (execute_teardown E p) = p_queue p /\ p_done (execute_teardown E p) = p_done p.
Proof.
  unfold execute_teardown. set (q := mkPipe _ _ _ _ _ _).
  assert (H : forall l q, p_queue (fold_left (td_step E) l q) = p_queue q /\ p_done (fold_left (td_step E) l q) = p_done q).
  { induction l as [|a l IH]; intros r; simpl; [easy|]. destruct (IH (td_step E r a)) as [A B], (td_keeps E a r) as [C D]. split; congruence. }
  destruct (H (p_td (replace_deferred p)) q) as [A B]. split; [rewrite A|rewrite B]; reflexivity.
Qed.
Lemma eval_wake E p l0 : Forall wf_q (p_queue p) -> ordered (p_queue p) -> (exists e0, c_log (p_ctx p) = e0 ++ l0) ->
  forall t, In t (p_queue (eval_pipe E p)) ->
    woken l0 (c_log (p_ctx (eval_pipe E p))) (t_id t) \/ exists d, In d (t_deps t) /\ ~ In d (p_done (eval_pipe E p)).
Proof.
  intros Hw Ho He. unfold eval_pipe. destruct (process E (p_queue p) (p_with_queue p [])) as [b q] eqn:Hp.
  pose proof (process_wake E _ _ _ _ l0 Hp Hw Ho He) as H. specialize (H (fun t (h : In t []) => match h with end)).
  assert (K : forall t, In t (p_queue (execute_teardown E q)) ->
     woken l0 (c_log (p_ctx (execute_teardown E q))) (t_id t) \/ exists d, In d (t_deps t) /\ ~ In d (p_done (execute_teardown E q))).
  { intros t. destruct (teardown_keeps E q) as [-> ->]. intros Ht. destruct (H t Ht) as [Hk|Hk]; [left|now right].
    eapply woken_grow; [apply teardown_added|exact Hk]. }
  destruct b; [exact K|]. destruct (p_queue q) eqn:Hq; [destruct (p_def q); [destruct (p_td q); [|exact K]|]|]; rewrite <- ?Hq in *; exact H.
Qed.

(** * No action is lost *)
Definition flat (t : task) : Prop :=
  forall x d, In (x, d) (match core t with TDynamic _ _ _ _ rs _ _ _ | TPending _ _ _ rs _ => dls rs | _ => [] end) -> d = [].
Lemma flat_norm t t' : norm t = norm t' -> flat t' -> flat t.
Proof.
  unfold flat, norm. intros H. destruct (core t), (core t'); try discriminate; try easy; injection H as; subst; auto.
Qed.
Lemma flat_sub r : wf_q r -> (forall x d, In (x, d) (dl r) -> d = []) -> t_deps r = [] /\ flat r.
Proof.
  unfold flat. induction r; simpl; intros Hq H; try easy; auto.
  split; [apply (H id); now left|]. intros x d Hx. apply (H x d). right. rewrite dl_go. exact Hx.
Qed.

(** Where an action is *)
Definition tracked (ts : list task) (p : pipe) (i : text) : Prop :=
  In i (map t_id (p_queue p ++ ts)) \/ (exists k t, nget k (p_def p) = Some t /\ t_id t = i /\ ~ is_noop t) \/
  In i (p_done p) \/ In (EvFailed i) (c_log (p_ctx p)).
Record Z (E : env) (n : nat) (N0 : list node) (I : list text) (ts : list task) (p : pipe) : Prop := {
  z_b : B E n N0 ts p;
  z_flat : Forall flat (items ts p);
  z_ord : ordered (p_queue p ++ ts);
  z_done : forall d, In (EvDone d) (c_log (p_ctx p)) -> In d (p_done p);
  z_acc : fresh_tokens E -> p_term p = false -> forall i, In i I -> tracked ts p i }.

Lemma not_done evs l d : (forall x, ~ In (EvDone x) evs) -> In (EvDone d) (evs ++ l) -> In (EvDone d) l.
Proof. intros H Hi. apply in_app_or in Hi as [Hi|Hi]; [now apply H in Hi|exact Hi]. Qed.
Lemma quiet_not_done t evs : Forall (quiet t) evs -> forall x, ~ In (EvDone x) evs.
Proof. intros H x Hx. rewrite Forall_forall in H. now apply H in Hx. Qed.
Lemma final_not_done evs : Forall final_ev evs -> forall x, ~ In (EvDone x) evs.
Proof. intros H x Hx. rewrite Forall_forall in H. now apply H in Hx. Qed.
Lemma ssum_done E t c o c' evs d : ssum E t c o c' evs -> In (EvDone d) (c_log c') -> (o = ODone /\ d = t_id t) \/ In (EvDone d) (c_log c).
Proof.
  intros Hss. rewrite (ss_log _ _ _ _ _ _ Hss). pose proof (ss_evs _ _ _ _ _ _ Hss) as He. rewrite !in_app_iff. intros [H|[H|[H|H]]].
  - destruct o; simpl in H; try easy; destruct H as [H|[]]; try discriminate. injection H as ->. now left.
  - destruct o; try (exfalso; eapply quiet_not_done; eauto; fail). destruct He as (cl & -> & _). destruct H as [H|[]]. discriminate.
  - discriminate.
  - now right.
Qed.
Lemma ssum_keeps E t c o c' evs e : ssum E t c o c' evs -> In e (c_log c) -> In e (c_log c').
Proof. intros Hss H. rewrite (ss_log _ _ _ _ _ _ Hss). rewrite !in_app_iff. right; right; right. exact H. Qed.
Lemma items_flat ts p t : Forall flat (items ts p) -> In t ts \/ In t (p_queue p) \/ In t (dts p) -> flat t.
Proof. rewrite Forall_forall. intros H Hi. apply H. unfold items. rewrite !in_app_iff. tauto. Qed.

Lemma Z_run E n N0 I t ts p o c ts' p' : blocked (p_done p) t = false -> step E t (p_ctx p) = (o, c) ->
  run_next E t ts p o c = (ts', p') -> B E n N0 ts' p' -> Z E n N0 I (t :: ts) p -> Z E n N0 I ts' p'.
Proof.
  intros Hb Hst Hn HB' [HB Hf Ho Hdn Hac].
  pose proof (t_w _ _ _ _ (b_t _ _ _ _ _ HB)) as HW.
  assert (Hq : wf_q t) by (pose proof (w_ts _ _ HW) as H; now inversion H).
  apply step_sum in Hst as (evs & Hss).
  assert (Hfl : forall x, In x ts \/ In x (p_queue p) \/ In x (dts p) -> flat x).
  { intros x Hx. apply (items_flat _ _ _ Hf). simpl. tauto. }
  assert (Hft : flat t) by (apply (items_flat _ _ _ Hf); left; now left).
  assert (Hev : forall e, In e (c_log (p_ctx p)) -> In e (c_log c)) by (intros e; eapply ssum_keeps; eauto).
  assert (Hmv : forall i, In i (map t_id (p_queue p ++ t :: ts)) -> i = t_id t \/ In i (map t_id (p_queue p ++ ts))).
  { intros i. rewrite !map_app, !in_app_iff. simpl. intuition. }
  destruct o; simpl in Hn; injection Hn as <- <-; (split; [exact HB'|..]).
  - apply Forall_forall. intros x. unfold items, dts. cbn. rewrite !in_app_iff. exact (Hfl x).
  - eapply ordered_drop; eauto.
  - cbn. intros d Hd. destruct (ssum_done _ _ _ _ _ _ _ Hss Hd) as [[_ ->]|H]; auto.
  - intros F Ht i Hi. destruct (Hac F Ht i Hi) as [H|[H|[H|H]]]; unfold tracked; cbn; auto.
    destruct (Hmv _ H) as [->|H']; auto.
  - destruct (def_insert_facts tok t0 (p_with_ctx p c)) as (F1 & F2 & F3 & F4 & F5 & F6).
    apply Forall_forall. intros x. unfold items, dts. rewrite F6. cbn [def_insert p_queue p_def p_with_ctx]. rewrite !in_app_iff. intros Hx.
    assert (Hx' : x = t0 \/ In x ts \/ In x (p_queue p) \/ In x (dts p)).
    { destruct Hx as [Hx|[Hx|Hx]]; auto. apply In_nset in Hx as [->|Hx]; auto. }
    destruct Hx' as [->|Hx']; [|now apply Hfl]. destruct (ss_evs _ _ _ _ _ _ Hss) as (cl & _ & _ & _ & Hc).
    unfold flat in *. destruct (core t); try easy. now rewrite Hc.
  - eapply ordered_drop; eauto.
  - destruct (def_insert_facts tok t0 (p_with_ctx p c)) as (F1 & F2 & F3 & F4 & F5 & F6). rewrite F1. cbn.
    intros d Hd. destruct (ssum_done _ _ _ _ _ _ _ Hss Hd) as [[H _]|H]; [discriminate|auto].
  - destruct (def_insert_facts tok t0 (p_with_ctx p c)) as (F1 & F2 & F3 & F4 & F5 & F6).
    destruct (ss_evs _ _ _ _ _ _ Hss) as (cl & -> & Hid & Hdis & Hc).
    intros F Ht i Hi. unfold tracked. rewrite F1, F6. cbn [p_with_ctx def_insert p_queue p_done p_ctx p_def].
    destruct (Hac F Ht i Hi) as [H|[(k & x & H1 & H2)|[H|H]]]; auto.
    + destruct (Hmv _ H) as [->|H']; auto. right; left. exists tok, t0. split; [apply nget_nset_same|]. split; [exact Hid|]. destruct (core t); try contradiction. intros Hno. destruct t0; try contradiction. discriminate.
    + right; left. exists k, x. split; [|exact H2]. rewrite nget_nset_other; [exact H1|]. intros ->.
      eapply (fresh_def E p (EvEval (t_id t) :: c_log (p_ctx p)) cl tok); auto.
      * cbn [opens]. apply (b_open _ _ _ _ _ HB F).
      * apply aget_In in H1; [|apply N.eqb_eq]. apply in_map_iff. now exists (tok, x).
  - destruct (requeued_one _ _ _ _ _ _ Hq Hss) as (t' & -> & Hn' & Hi' & Hd').
    apply Forall_forall. intros x. unfold items, dts. cbn. rewrite !in_app_iff. intros Hx.
    assert (Hx' : x = t' \/ In x ts \/ In x (p_queue p) \/ In x (map snd (p_def p))) by (simpl in Hx; intuition).
    destruct Hx' as [->|Hx']; [|now apply Hfl]. eapply flat_norm; eauto.
  - destruct (requeued_one _ _ _ _ _ _ Hq Hss) as (t' & -> & Hn' & Hi' & Hd'). cbn. rewrite <- app_assoc. eapply ordered_swap; eauto.
  - cbn. intros d Hd. destruct (ssum_done _ _ _ _ _ _ _ Hss Hd) as [[H _]|H]; [discriminate|auto].
  - destruct (requeued_one _ _ _ _ _ _ Hq Hss) as (t' & -> & Hn' & Hi' & Hd').
    intros F Ht i Hi. destruct (Hac F Ht i Hi) as [H|[H|[H|H]]]; unfold tracked; cbn; auto.
    left. rewrite <- app_assoc. rewrite !map_app in *. simpl in *. now rewrite Hi'.
  - apply Forall_forall. intros x. unfold items, dts. cbn. rewrite !in_app_iff. exact (Hfl x).
  - eapply ordered_drop; eauto.
  - cbn. intros d Hd. destruct (ssum_done _ _ _ _ _ _ _ Hss Hd) as [[H _]|H]; [discriminate|auto].
  - intros F Ht i Hi. destruct (Hac F Ht i Hi) as [H|[H|[H|H]]]; unfold tracked; cbn; auto.
    destruct (Hmv _ H) as [->|H']; auto. right; right; right. rewrite (ss_log _ _ _ _ _ _ Hss). now left.
  - apply Forall_forall. intros x. unfold items, dts. cbn. intros Hx. apply Hfl. auto.
  - exact Logic.I.
  - pose proof (ss_final _ _ _ _ _ _ Hss) as Hfin. simpl in Hfin.
    destruct (terminal_sum E t0 c Hfin) as (evs2 & T1 & T2 & _). cbn. rewrite T1. intros d Hd.
    apply not_done in Hd; [|now apply final_not_done].
    destruct (ssum_done _ _ _ _ _ _ _ Hss Hd) as [[H _]|H]; [discriminate|auto].
  - cbn. discriminate.
Qed.

Lemma Z_handle E n N0 I tok st sz t p o c : settled p -> nget tok (p_def p) = Some t ->
  step E t (emit (EvHandle tok (t_id t)) (set_grpc st sz (emit (EvGrpcResp tok st sz) (p_ctx p)))) = (o, c) ->
  B E n N0 [] (handle_next E t (mkPipe c (p_queue p) (ndel tok (p_def p)) (p_done p) (p_td p) (p_term p)) o c) ->
  Z E n N0 I [] p ->
  Z E n N0 I [] (handle_next E t (mkPipe c (p_queue p) (ndel tok (p_def p)) (p_done p) (p_td p) (p_term p)) o c).
Proof.
  intros Hset Hn Hst HB' [HB Hf Ho Hdn Hac]. rewrite app_nil_r in Ho.
  pose proof (t_w _ _ _ _ (b_t _ _ _ _ _ HB)) as HW.
  assert (Hw : wf_d t) by (eapply Forall_nget; [apply (w_def _ _ HW)|exact Hn]).
  assert (Hin : In t (dts p)) by now apply (In_nget tok).
  apply step_sum in Hst as (evs & Hss).
  assert (Hfl : forall x, In x (p_queue p) \/ In x (map snd (ndel tok (p_def p))) -> flat x).
  { intros x Hx. apply (items_flat _ _ _ Hf). unfold dts. destruct Hx as [Hx|Hx]; [auto|]. apply In_ndel in Hx. auto. }
  assert (Hft : flat t) by (apply (items_flat _ _ _ Hf); auto).
  assert (Hev : forall e, In e (c_log (p_ctx p)) -> In e (c_log c)).
  { intros e He. eapply ssum_keeps; [exact Hss|]. cbn [emit with_log c_log]. rewrite set_grpc_log. cbn. auto. }
  assert (Hdd : forall d, In (EvDone d) (c_log c) -> (o = ODone /\ d = t_id t) \/ In d (p_done p)).
  { intros d Hd. destruct (ssum_done _ _ _ _ _ _ _ Hss Hd) as [H|H]; [now left|right].
    cbn [emit with_log c_log] in H. rewrite set_grpc_log in H. cbn in H. destruct H as [H|[H|H]]; try discriminate. auto. }
  assert (Hmv : fresh_tokens E -> p_term p = false -> forall i, In i I ->
     i = t_id t \/ In i (map t_id (p_queue p)) \/ (exists k x, nget k (ndel tok (p_def p)) = Some x /\ t_id x = i /\ ~ is_noop x) \/ In i (p_done p) \/ In (EvFailed i) (c_log c)).
  { intros F Ht i Hi. destruct (Hac F Ht i Hi) as [H|[(k & x & H1 & H2)|[H|H]]]; auto 8.
    - right; left. now rewrite app_nil_r in H.
    - destruct (N.eq_dec k tok) as [->|Hne]; [left; destruct H2; congruence|]. right; right; left. exists k, x. rewrite nget_ndel_other by exact Hne. auto. }
  unfold handle_next in *. destruct o; (split; [exact HB'|..]).
  - apply Forall_forall. intros x. unfold items, dts. cbn. rewrite in_app_iff. exact (Hfl x).
  - cbn. now rewrite app_nil_r.
  - cbn. intros d Hd. destruct (Hdd d Hd) as [[_ ->]|H]; auto.
  - intros F Ht i Hi. unfold tracked. cbn in Ht |- *. rewrite app_nil_r. destruct (Hmv F Ht i Hi) as [-> |[H|[H|[H|H]]]]; auto.
  - destruct (ss_evs _ _ _ _ _ _ Hss) as (cl & _ & _ & _ & Hc). exfalso. apply wf_d_core in Hw. destruct (core t); easy.
  - destruct (ss_evs _ _ _ _ _ _ Hss) as (cl & _ & _ & _ & Hc). exfalso. apply wf_d_core in Hw. destruct (core t); easy.
  - destruct (ss_evs _ _ _ _ _ _ Hss) as (cl & _ & _ & _ & Hc). exfalso. apply wf_d_core in Hw. destruct (core t); easy.
  - destruct (ss_evs _ _ _ _ _ _ Hss) as (cl & _ & _ & _ & Hc). exfalso. apply wf_d_core in Hw. destruct (core t); easy.
  - assert (Hsub : forall x, In x ts -> t_deps x = [] /\ flat x).
    { pose proof (ss_requeue _ _ _ _ _ _ Hss) as Hrq. simpl in Hrq. apply wf_d_core in Hw. unfold flat in Hft. destruct (core t); try easy.
      destruct Hrq as [_ Hrq]. intros x Hx. apply flat_sub.
      - pose proof (requeue_wf_p _ _ Hw Hrq) as Hall. rewrite Forall_forall in Hall. auto.
      - intros y d Hy. apply (Hft y d). apply dls_norm in Hrq. rewrite <- Hrq. apply in_dls. eauto. }
    apply Forall_forall. intros x. unfold items, dts. cbn. rewrite !in_app_iff. intros [[Hx|Hx]|Hx]; [apply Hsub; exact Hx|apply Hfl; auto|apply Hfl; auto].
  - cbn. rewrite app_nil_r. apply ordered_front; [|exact Ho].
    pose proof (ss_requeue _ _ _ _ _ _ Hss) as Hrq. simpl in Hrq. apply wf_d_core in Hw. unfold flat in Hft. destruct (core t); try easy.
    destruct Hrq as [_ Hrq]. apply Forall_forall. intros x Hx. apply flat_sub.
    + pose proof (requeue_wf_p _ _ Hw Hrq) as Hall. rewrite Forall_forall in Hall. auto.
    + intros y d Hy. apply (Hft y d). apply dls_norm in Hrq. rewrite <- Hrq. apply in_dls. eauto.
  - cbn. intros d [[= <-]|Hd]; [now left|]. destruct (Hdd d Hd) as [[H _]|H]; [discriminate|auto].
  - intros F Ht i Hi. unfold tracked. cbn in Ht |- *. rewrite app_nil_r, map_app. destruct (Hmv F Ht i Hi) as [-> |[H|[H|[H|H]]]]; auto.
    left. apply in_or_app. now right.
  - apply Forall_forall. intros x. unfold items, dts. cbn. rewrite in_app_iff. exact (Hfl x).
  - cbn. now rewrite app_nil_r.
  - cbn. intros d Hd. destruct (Hdd d Hd) as [[H _]|H]; [discriminate|auto].
  - intros F Ht i Hi. unfold tracked. cbn in Ht |- *. rewrite app_nil_r. destruct (Hmv F Ht i Hi) as [-> |[H|[H|[H|H]]]]; auto.
    right; right; right. rewrite (ss_log _ _ _ _ _ _ Hss). now left.
  - apply Forall_forall. intros x. unfold items, dts. cbn. intros Hx. apply Hfl. auto.
  - exact Logic.I.
  - pose proof (ss_final _ _ _ _ _ _ Hss) as Hfin. simpl in Hfin.
    destruct (terminal_sum E t0 c Hfin) as (evs2 & T1 & T2 & _). cbn. rewrite T1. intros d Hd.
    apply not_done in Hd; [|now apply final_not_done]. destruct (Hdd d Hd) as [[H _]|H]; [discriminate|auto].
  - cbn. discriminate.
Qed.

Lemma Z_step E n N0 I ts p ts' p' : estep E ts p ts' p' -> Z E n N0 I ts p -> Z E n N0 I ts' p'.
Proof.
  intros Hs HZ. pose proof (B_step _ _ _ _ _ _ _ Hs (z_b _ _ _ _ _ _ HZ)) as HB'.
  destruct Hs as [p Hset|t ts p Hb|t ts p o c ts' p' Hb Hst Hn|tok st sz p Hset Hn|tok st sz t p o c Hset Hn Hst|p Hq Ht|a rest p Hq Hn Ht].
  - destruct HZ as [HB Hf Ho Hdn Hac]. rewrite app_nil_r in Ho. constructor; auto.
    intros F Ht i Hi. destruct (Hac F Ht i Hi) as [H|H]; [left|right; exact H]. rewrite app_nil_r in H. exact H.
  - destruct HZ as [HB Hf Ho Hdn Hac]. constructor; auto.
    + apply Forall_forall. intros x. rewrite Forall_forall in Hf. intros Hx. apply Hf. unfold items, dts in *. cbn in *. rewrite !in_app_iff in *. simpl in *. tauto.
    + cbn. rewrite <- app_assoc. exact Ho.
    + intros F Ht i Hi. destruct (Hac F Ht i Hi) as [H|H]; [left|right; exact H]. cbn. rewrite <- app_assoc. exact H.
  - eapply Z_run; eauto.
  - destruct HZ as [HB Hf Ho Hdn Hac]. constructor; auto.
    + cbn. intros d [H|H]; [discriminate|auto].
    + intros F Ht i Hi. destruct (Hac F Ht i Hi) as [H|[H|[H|H]]]; unfold tracked; cbn; auto.
  - eapply Z_handle; eauto.
  - destruct HZ as [HB Hf Ho Hdn Hac]. constructor; auto.
    + apply Forall_forall. intros x. rewrite Forall_forall in Hf. unfold items, dts. cbn. rewrite in_app_iff, map_map. intros [Hx|Hx].
      * apply Hf. unfold items. rewrite !in_app_iff. tauto.
      * apply in_map_iff in Hx as ((k & y) & <- & _). intros z d. simpl. easy.
    + intros F Htm i Hi. destruct Ht as [Ht|Ht]; [cbn in Htm; congruence|].
      destruct (Hac F Htm i Hi) as [H|[(k & x & H & _)|H]]; [now left| |right; right; exact H]. rewrite Ht in H. discriminate.
  - destruct HZ as [HB Hf Ho Hdn Hac].
    destruct (td_sum E a (p_with_td p rest)) as (evs & tok & T1 & T2 & T3 & T4 & T5 & T6 & T7 & T8 & _).
    cbn [p_with_td p_ctx p_queue p_def p_done p_term p_td] in *. constructor; auto.
    + apply Forall_forall. intros x. rewrite Forall_forall in Hf. unfold items, dts. rewrite T3, T4. rewrite !in_app_iff. intros Hx.
      assert (Hx' : flat x \/ In x (p_queue p) \/ In x (map snd (p_def p))).
      { destruct Hx as [[]|[Hx|Hx]]; auto. destruct tok; auto. apply In_nset in Hx as [->|Hx]; auto. left. intros y d. simpl. easy. }
      destruct Hx' as [Hx'|Hx']; [exact Hx'|]. apply Hf. unfold items, dts. rewrite !in_app_iff. tauto.
    + rewrite T4. exact Ho.
    + rewrite T1, T5. intros d Hd. apply in_app_or in Hd as [Hd|[Hd|Hd]]; [|discriminate|auto].
      destruct T2 as [[-> _]|(cl & -> & _)]; [easy|]. destruct Hd as [Hd|[]]. discriminate.
    + intros F Htm i Hi. unfold tracked. rewrite T1, T3, T4, T5. assert (Htm' : p_term p = false) by congruence.
      destruct (Hac F Htm' i Hi) as [H|[(k & x & H1 & H2)|[H|H]]]; auto.
      * right; left. exists k, x. split; [|exact H2]. destruct tok as [k'|]; [|exact H1]. rewrite nget_nset_other; [exact H1|]. intros ->.
        destruct T2 as [[_ H]|(cl & _ & Hdis)]; [discriminate|].
        eapply (fresh_def E p (EvTeardown :: c_log (p_ctx p)) cl k'); auto; [apply (b_open _ _ _ _ _ HB F)|].
        apply aget_In in H1; [|apply N.eqb_eq]. apply in_map_iff. now exists (k', x).
      * right; right; right. apply in_or_app. right. now right.
Qed.

(** * At the level of the filter *)
Definition ZL (E : env) (n : nat) (I : list text) (l : log) : Prop :=
  BL E n l /\ (fresh_tokens E -> ~ over l -> forall i, In i I -> In (EvDone i) l \/ In (EvFailed i) l).
(** completion is in the history *)
Definition noted (p : pipe) : Prop := forall d, In d (p_done p) -> In (EvDone d) (c_log (p_ctx p)).
Lemma noted_step E ts p ts' p' : estep E ts p ts' p' -> noted p -> noted p'.
Proof.
  unfold noted. intros Hs HN.
  destruct Hs as [p Hset|t ts p Hb|t ts p o c ts' p' Hb Hst Hn|tok st sz p Hset Hn|tok st sz t p o c Hset Hn Hst|p Hq Ht|a rest p Hq Hn Ht].
  - exact HN.
  - exact HN.
  - apply step_sum in Hst as (evs & Hss). pose proof (ss_log _ _ _ _ _ _ Hss) as Hl.
    assert (HN' : forall d, In d (p_done p) -> In (EvDone d) (c_log c)) by (intros d Hd; eapply ssum_keeps; eauto).
    destruct o; simpl in Hn; injection Hn as <- <-.
    + cbn. intros d [<-|Hd]; [rewrite Hl; now left|auto].
    + destruct (def_insert_facts tok t0 (p_with_ctx p c)) as (F1 & _). rewrite F1. exact HN'.
    + exact HN'.
    + exact HN'.
    + pose proof (ss_final _ _ _ _ _ _ Hss) as Hfin. simpl in Hfin. destruct (terminal_sum E t0 c Hfin) as (evs2 & T1 & _).
      cbn. rewrite T1. intros d Hd. apply in_or_app. right. auto.
  - intros d Hd. cbn. right. auto.
  - apply step_sum in Hst as (evs & Hss). pose proof (ss_log _ _ _ _ _ _ Hss) as Hl.
    assert (HN' : forall d, In d (p_done p) -> In (EvDone d) (c_log c)).
    { intros d Hd. eapply ssum_keeps; eauto. cbn [emit with_log c_log]. rewrite set_grpc_log. cbn. auto. }
    unfold handle_next. destruct o.
    + cbn. intros d [<-|Hd]; [rewrite Hl; now left|auto].
    + cbv zeta. match goal with |- context [def_insert ?a ?b ?q] => destruct (def_insert_facts a b q) as (F1 & _) end. rewrite F1. exact HN'.
    + cbn. intros d [<-|Hd]; [now left|right; auto].
    + exact HN'.
    + pose proof (ss_final _ _ _ _ _ _ Hss) as Hfin. simpl in Hfin. destruct (terminal_sum E t0 c Hfin) as (evs2 & T1 & _).
      cbn. rewrite T1. intros d Hd. apply in_or_app. right. auto.
  - exact HN.
  - destruct (td_sum E a (p_with_td p rest)) as (evs & tok & T1 & T2 & T3 & T4 & T5 & _). rewrite T1, T5.
    intros d Hd. apply in_or_app. right. right. auto.
Qed.
Definition ZN (E : env) (n : nat) (N0 : list node) (I : list text) (ts : list task) (p : pipe) : Prop := Z E n N0 I ts p /\ noted p.

Lemma Z_ctx E n N0 I ts p c : c_grpc c = c_grpc (p_ctx p) -> c_log c = c_log (p_ctx p) -> c_bar c = c_bar (p_ctx p) ->
  ZN E n N0 I ts p -> ZN E n N0 I ts (p_with_ctx p c).
Proof.
  intros Hg Hlg Hb [[HB Hf Ho Hdn Hac] HN]. split; [|unfold noted; cbn; now rewrite Hlg].
  constructor; cbn [p_with_ctx p_ctx p_queue p_done]; rewrite ?Hlg; auto.
  - now apply B_ctx.
  - intros F Ht i Hi. destruct (Hac F Ht i Hi) as [H|[H|[H|H]]]; unfold tracked; cbn; rewrite ?Hlg; auto.
Qed.
Lemma over_cons e l : over (e :: l) <-> (exists a, e = EvTerminate a) \/ over l.
Proof.
  unfold over. split.
  - intros (a & [->|H]); [left; eauto|right; eauto].
  - intros [(a & ->)|(a & H)]; exists a; [now left|now right].
Qed.
Lemma ZN_finv E n N0 I : finv E (ZN E n N0 I) (ZL E n I).
Proof.
  constructor.
  - intros ts p ts' p' Hs [HZ HN]. split; [eapply Z_step; eauto|eapply noted_step; eauto].
  - intros p e He [[HB Hf Ho Hdn Hac] HN]. split.
    + constructor; auto.
      * now apply (fi_neutral _ _ _ (B_finv E n N0)).
      * cbn. intros d [->|H]; [destruct He|auto].
      * intros F Ht i Hi. destruct (Hac F Ht i Hi) as [H|[H|[H|H]]]; unfold tracked; cbn; auto.
    + intros d Hd. cbn. right. now apply HN.
  - intros p b. now apply Z_ctx.
  - intros p b. now apply Z_ctx.
  - intros p [[HB Hf Ho Hdn Hac] HN] Hlv Hq Hdf Ht. split; [now apply (fi_log _ _ _ (B_finv E n N0))|].
    intros F Hov i Hi. assert (Htm : p_term p = false).
    { destruct (p_term p) eqn:H; [|reflexivity]. exfalso. apply Hov. now apply (t_over _ _ _ _ (b_t _ _ _ _ _ HB)). }
    destruct (Hac F Htm i Hi) as [H|[(k & x & H & _)|[H|H]]].
    + rewrite Hq in H. destruct H.
    + rewrite Hdf in H. discriminate.
    + left. now apply HN.
    + now right.
  - intros l e He [L1 L2]. split; [now apply (fi_idle _ _ _ (B_finv E n N0))|].
    intros F Hov i Hi. destruct (L2 F) with (i := i) as [H|H]; auto; [|left|right]; try now right.
    intros H. apply Hov. apply over_cons. now right.
Qed.

(** * The queue a request starts with *)
Definition aflat (a : action) : Prop := forall x d, In (x, d) (tl (a_dl a)) -> d = [].
Definition aordered (l : list action) : Prop :=
  forall i a, nth_error l i = Some a -> forall d, In d (a_deps a) -> d <> tu /\ forall j b, nth_error l j = Some b -> a_id b = d -> j < i.
Lemma to_core_deps E a c t c' : to_core E a c = Some (t, c') -> t_deps t = a_deps a \/ t_deps t = [].
Proof.
  destruct a as [id p tm op d g]. destruct op as [s var m rs|x|x y|x y z|]; simpl; try (intros [= <- <-]; now right).
  match goal with |- context [match ?X with _ => _ end] => destruct X as [[ts c1]|]; [|discriminate] end.
  destruct s as [k sv|o]; [intros [= <- <-]; now left|]. cbv zeta.
  match goal with |- context [request_id E ?X] => destruct (request_id E X) as [rid c3] end.
  destruct (parse_expr E (tracker_src var rid)); [|discriminate]. intros [= <- <-]. now right.
Qed.
Lemma dl_flat t : wf_q t -> (forall x d, In (x, d) (tl (dl t)) -> d = []) -> flat t.
Proof.
  unfold flat. induction t; simpl; intros Hq H; try easy.
  - now apply IHt.
  - now apply IHt.
Qed.
Lemma action_tasks_top E rd tr a c ts tds c' : action_tasks E rd tr a c = Some (ts, tds, c') -> aflat a ->
  exists t, (ts = [t] \/ exists fs, ts = [TToken None fs; t]) /\ t_id t = a_id a /\ (t_deps t = a_deps a \/ t_deps t = []) /\ flat t.
Proof.
  unfold action_tasks, aflat. destruct (to_core E a c) as [[tk c1]|] eqn:H.
  - intros Ht Hf. pose proof (to_core_deps _ _ _ _ _ H) as Hd. apply to_core_shape in H as (A1 & A2 & A3 & A4). rewrite <- A4 in Hf.
    pose proof (dl_flat _ A2 Hf) as Hfl. revert Ht.
    destruct (a_op a) as [s v m rs|x|x y|x y z|]; try (intros [= <- <- <-]; exists tk; auto; fail).
    destruct s as [k s|[t|]]; try (intros [= <- <- <-]; exists tk; auto; fail).
    intros [= <- <- <-].
    exists (if tr then TTracing (TFailureMode tk (inst_deny (IDyn k s))) else TFailureMode tk (inst_deny (IDyn k s))).
    split; [destruct (collect_body_values rd a) as [|x fs]; [now left|right; eexists; reflexivity]|]. destruct tr; auto.
  - destruct (a_op a) as [s v m rs|x|x y|x y z|]; try discriminate. destruct s as [k s|[t|]]; discriminate.
Qed.
Lemma aordered_tail a l : aordered (a :: l) -> aordered l.
Proof.
  intros H i x Hx d Hd. destruct (H (S i) x Hx d Hd) as [H1 H2]. split; [exact H1|].
  intros j b Hj Hb. specialize (H2 (S j) b Hj Hb). lia.
Qed.
Lemma actions_tasks_top E rd tr l : forall c ts tds c', actions_tasks E rd tr l c = Some (ts, tds, c') -> Forall aflat l -> aordered l ->
  Forall flat ts /\ ordered ts /\ (forall a, In a l -> In (a_id a) (map t_id ts)) /\
  (forall t, In t ts -> t_id t = tu \/ exists a, In a l /\ t_id t = a_id a).
Proof.
  induction l as [|a l IH]; intros c ts tds c'; simpl; [intros [= <- <- <-] _ _; repeat split; easy|].
  destruct (action_tasks E rd tr a c) as [[[t1 td1] c1]|] eqn:H1; [|discriminate].
  destruct (actions_tasks E rd tr l c1) as [[[t2 td2] c2]|] eqn:H2; [|discriminate].
  intros [= <- <- <-] Hf Ho. inversion Hf as [|? ? Hfa Hfl]; subst.
  apply action_tasks_top in H1 as (t & Hts & Hid & Hdp & Hft); [|exact Hfa].
  destruct (IH _ _ _ _ H2 Hfl (aordered_tail _ _ Ho)) as (B1 & B2 & B3 & B4).
  assert (Hnt : forall d, In d (t_deps t) -> ~ In d (map t_id t2)).
  { intros d Hd Hi. assert (Hd' : In d (a_deps a)) by (destruct Hdp as [<-|Hdp]; [exact Hd|rewrite Hdp in Hd; destruct Hd]).
    destruct (Ho 0 a eq_refl d Hd') as [N1 N2]. apply in_map_iff in Hi as (x & Hx & Hxi).
    destruct (B4 x Hxi) as [Hu|(b & Hb & Hu)]; [congruence|]. apply In_nth_error in Hb as (j & Hj).
    specialize (N2 (S j) b Hj). lapply N2; [lia|congruence]. }
  assert (Hto : forall fs, flat (TToken None fs)) by (intros fs x d; simpl; easy).
  destruct Hts as [-> |(fs & ->)]; simpl.
  - split; [now constructor|]. split; [now split|]. split; [intros x [<-|Hx]; [now left|right; auto]|].
    intros x [<-|Hx]; [right; exists a; auto|]. destruct (B4 x Hx) as [H|(b & Hb & H)]; [auto|right; eauto].
  - split; [now repeat constructor|]. split; [now repeat split|]. split; [intros x [<-|Hx]; [right; now left|right; right; auto]|].
    intros x [<-|[<-|Hx]]; [now left|right; exists a; auto|]. destruct (B4 x Hx) as [H|(b & Hb & H)]; [auto|right; eauto].
Qed.
Lemma compiled_top E svs rd s l i a : compiled E svs rd s l -> nth_error l i = Some a ->
  a_id a = nat_text i /\ aflat a /\ exists d, nth_error (compute_dependencies (as_actions s)) i = Some d /\ a_deps a = d.
Proof.
  intros Hc Ha. destruct (cm_nth _ _ _ _ _ Hc i a Ha) as (cf & d & B1 & B2 & B3).
  destruct (compile_action_typed _ _ _ _ _ _ _ B3) as (t & act0 & C1 & ->).
  destruct (compile_typed_ids _ _ _ _ _ C1) as (D1 & D2 & D3 & D4 & D5).
  destruct (set_deps_facts d act0) as (F1 & F2 & F3 & F4 & F5).
  split; [congruence|]. split; [|exists d; auto].
  intros x e Hx. clear - D5 Hx. destruct act0 as [id p tm op d0 g]. destruct op as [[k s|t'] v m rs| | | |]; simpl in *; try easy.
  apply (D5 x e). now right.
Qed.
Lemma dev_top svs cfg a : In a (cfg_dev svs cfg) -> a_id a = tx "kuadrant.devMode" /\ a_deps a = [] /\ aflat a.
Proof.
  unfold cfg_dev. destruct (pc_identifier cfg); [|easy]. intros [<-|[]]. repeat split. intros x d. unfold dev_action.
  destruct (cfg_tracing svs cfg); simpl; easy.
Qed.
Lemma served_top E cfg svs b : served E cfg svs b -> Forall aflat (bp_actions b) /\ aordered (bp_actions b).
Proof.
  assert (Hdev : aordered (cfg_dev svs cfg)).
  { intros i a Ha d Hd. apply nth_error_In in Ha. apply dev_top in Ha as (_ & Ha & _). rewrite Ha in Hd. destruct Hd. }
  intros [s bp _ H|h Hh]; cbn [bp_actions].
  - apply compile_set_compiled in H. split.
    + apply Forall_app. split; apply Forall_forall; intros a Ha; [|now apply dev_top in Ha].
      apply In_nth_error in Ha as (i & Ha). now apply (compiled_top _ _ _ _ _ _ _ H Ha).
    + intros i a Ha d Hd. destruct (Nat.lt_ge_cases i (length (bp_actions bp))) as [Hlt|Hge].
      * rewrite nth_error_app1 in Ha by exact Hlt. destruct (compiled_top _ _ _ _ _ _ _ H Ha) as (Hid & _ & ds & Hds & Hdd).
        rewrite Hdd in Hd. apply (deps_spec _ _ _ Hds) in Hd as (j & -> & Hj & _). split.
        -- intros He. apply (tu_not_number j). left. symmetry. exact He.
        -- intros k b0 Hk Hb. destruct (Nat.lt_ge_cases k (length (bp_actions bp))) as [Hlk|Hgk].
           ++ rewrite nth_error_app1 in Hk by exact Hlk. destruct (compiled_top _ _ _ _ _ _ _ H Hk) as (Hidk & _).
              rewrite Hidk in Hb. apply nat_text_inj in Hb. lia.
           ++ rewrite nth_error_app2 in Hk by exact Hgk. apply nth_error_In in Hk. apply dev_top in Hk as (Hk & _).
              exfalso. apply (dev_not_number j). left. congruence.
      * rewrite nth_error_app2 in Ha by exact Hge. apply nth_error_In in Ha. apply dev_top in Ha as (_ & Ha & _). rewrite Ha in Hd. destruct Hd.
  - split; [|exact Hdev]. apply Forall_forall. intros a Ha. now apply dev_top in Ha.
Qed.
Lemma Z_start E cfg fa p b c : try_from E cfg = Some fa -> build E fa (ctx0 [EvReqHeaders]) = BOk p ->
  select E fa (ctx0 [EvReqHeaders]) = (Some (Some b), c) ->
  ZN E (length (p_td p)) (nodess (p_queue p)) (map a_id (bp_actions b)) [] (p_emit (EvMetric MHits) p).
Proof.
  intros Hf Hb Hsel. destruct (select_served E cfg fa _ _ _ Hf Hsel) as (svs & _ & Hsv). apply served_top in Hsv as [Hfl Hor].
  destruct (build_shape _ _ _ _ Hb) as (b' & HB). destruct (bt_sel _ _ _ _ _ HB) as (c' & Hsel'). rewrite Hsel in Hsel'. injection Hsel' as <- _.
  pose proof (build_spec E fa (ctx0 [EvReqHeaders])) as Hsp. rewrite Hb in Hsp.
  assert (HT : exists rd cc tds c3, to_tasks E rd b cc = Some (p_queue p, tds, c3)).
  { clear - Hb Hsel. unfold build in Hb. rewrite Hsel in Hb. cbv zeta in Hb.
    destruct (to_tasks E _ b _) as [[[ts tds] c3]|] eqn:Ht; [|discriminate]. destruct ts as [|t ts]; [discriminate|].
    injection Hb as <-. cbn. eauto 6. }
  destruct HT as (rd & cc & tds & c3 & HT). apply actions_tasks_top in HT as (A1 & A2 & A3 & A4); auto.
  destruct Hsp as (b2 & c2 & tds2 & _ & _ & _ & Hbld & _). destruct Hbld as (Hlog & _). cbn in Hlog.
  split.
  - constructor.
    + eapply B_start; eauto.
    + unfold items, dts. cbn. rewrite (bt_def _ _ _ _ _ HB). simpl. now rewrite app_nil_r.
    + cbn. now rewrite app_nil_r.
    + cbn. rewrite Hlog. intros d [H|[H|[]]]; discriminate.
    + intros _ _ i Hi. left. cbn. rewrite app_nil_r. apply in_map_iff in Hi as (a & <- & Ha). auto.
  - intros d. cbn. rewrite (bt_done _ _ _ _ _ HB). easy.
Qed.
Lemma Z_run_filter E cfg fa p b c l : try_from E cfg = Some fa -> build E fa (ctx0 [EvReqHeaders]) = BOk p ->
  select E fa (ctx0 [EvReqHeaders]) = (Some (Some b), c) -> later l ->
  holds (ZN E (length (p_td p)) (nodess (p_queue p)) (map a_id (bp_actions b))) (ZL E (length (p_td p)) (map a_id (bp_actions b))) (run E fa l).
Proof. intros Hf Hb Hs. apply pipe_invariant with (p := p); [apply ZN_finv|exact Hb|eapply Z_start; eauto]. Qed.

(** * Reasons to stay, callback by callback *)
Definition reason (l0 : log) (q : pipe) : Prop :=
  forall t, In t (p_queue q) -> woken l0 (c_log (p_ctx q)) (t_id t) \/ exists d, In d (t_deps t) /\ ~ In d (p_done q).
Lemma eval_reason E n N0 I p l0 : Z E n N0 I [] p -> (exists e0, c_log (p_ctx p) = e0 ++ l0) -> reason l0 (eval_pipe E p).
Proof.
  intros HZ He t Ht. apply eval_wake; auto.
  - apply (w_queue _ _ (t_w _ _ _ _ (b_t _ _ _ _ _ (z_b _ _ _ _ _ _ HZ)))).
  - pose proof (z_ord _ _ _ _ _ _ HZ) as H. now rewrite app_nil_r in H.
Qed.
Lemma digest_reason E n N0 I tok st sz p l0 : live p -> Z E n N0 I [] p -> (exists e0, c_log (p_ctx p) = e0 ++ l0) ->
  reason l0 (digest_pipe E tok st sz (p_emit (EvGrpcResp tok st sz) p)).
Proof.
  intros [Hset Hq] HZ (e0 & He). unfold digest_pipe. cbn [p_emit p_with_ctx p_def p_ctx p_queue p_done p_td p_term].
  destruct (nget tok (p_def p)) as [t|] eqn:Hn.
  2:{ eapply (eval_reason E n N0 I).
      - eapply Z_step; [apply es_unknown; [exact Hset|exact Hn]|exact HZ].
      - exists (EvGrpcResp tok st sz :: e0). cbn. now rewrite He. }
  destruct (step E t _) as [o c] eqn:Hst.
  pose proof (es_handle E tok st sz t p o c Hset Hn Hst) as Hh.
  pose proof (Z_step _ _ _ _ _ _ _ _ Hh HZ) as HZ'.
  assert (Hl : exists e, c_log c = e ++ l0).
  { destruct (step_added _ _ _ _ _ Hst) as (e & Hl & _). cbn [emit with_log c_log] in Hl. rewrite set_grpc_log in Hl. cbn in Hl.
    exists (e ++ EvHandle tok (t_id t) :: EvGrpcResp tok st sz :: e0). rewrite Hl, He, <- app_assoc. reflexivity. }
  unfold handle_next in HZ'. destruct o; cbn [p_with_ctx p_ctx p_queue p_done p_td p_term p_def] in *.
  - eapply eval_reason; [exact HZ'|exact Hl].
  - eapply eval_reason; [exact HZ'|]. match goal with |- context [def_insert ?a ?b ?q] => destruct (def_insert_facts a b q) as (F1 & _) end. rewrite F1. exact Hl.
  - eapply eval_reason; [exact HZ'|]. cbn. destruct Hl as (e & ->). now exists (EvDone (t_id t) :: e).
  - eapply eval_reason; [exact HZ'|exact Hl].
  - intros x Hx. exfalso. revert Hx. unfold eval_pipe. match goal with |- context [execute_teardown E ?q] => set (r := q) end.
    destruct (teardown_keeps E r) as [K1 _]. rewrite K1. cbn [r p_queue process]. cbn [p_with_queue p_queue p_def p_td].
    destruct (p_def (execute_teardown E r)); [destruct (p_td (execute_teardown E r))|]; cbn [p_queue]; try easy.
    match goal with |- context [execute_teardown E ?q] => destruct (teardown_keeps E q) as [K2 _]; rewrite K2 end. easy.
Qed.
