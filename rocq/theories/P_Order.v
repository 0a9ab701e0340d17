(** Order of evaluations and calls. *)
From Coq Require Import String List NArith Bool Lia Arith.
From Verif Require Import Base Value Headers AttrPath Ctx CelProps CelEval Sse Body Tasks Exec Config Legacy Blueprint Factory Filter
  P_Frame P_Apply P_Exec P_Inv P_Ids P_Run P_Plan.
Import ListNotations.
Open Scope list_scope.

(** A call of action [a] that got token [k] and was not answered since *)
Definition unanswered (l : log) (a : text) (k : N) : Prop :=
  exists l2 cl l1, l = l2 ++ EvDispatch a cl (Some k) :: l1 /\ Forall (fun e => ~ is_answer k e) l2.
Lemma unanswered_cons e l a k : unanswered (e :: l) a k <->
  (exists cl, e = EvDispatch a cl (Some k)) \/ (unanswered l a k /\ ~ is_answer k e).
Proof.
  split.
  - intros (l2 & cl & l1 & H & Hf). destruct l2 as [|x l2]; simpl in H; injection H as -> ->.
    + left. eauto.
    + right. inversion Hf; subst. split; [|assumption]. now exists l2, cl, l1.
  - intros [(cl & ->)|[(l2 & cl & l1 & -> & Hf) Hn]].
    + exists [], cl, l. split; [reflexivity|constructor].
    + exists (e :: l2), cl, l1. split; [reflexivity|now constructor].
Qed.
Lemma unanswered_nil a k : ~ unanswered [] a k.
Proof. intros (l2 & cl & l1 & H & _). destruct l2; discriminate. Qed.
Lemma unanswered_flight l a k : unanswered l a k -> in_flight l k.
Proof. intros (l2 & cl & l1 & -> & H). exists l1, (EvDispatch a cl (Some k)), l2. repeat split; auto. Qed.
Definition no_call (e : ev) : Prop := match e with EvDispatch _ _ (Some _) => False | _ => True end.
Lemma unanswered_app evs l a k : Forall no_call evs -> unanswered (evs ++ l) a k -> unanswered l a k.
Proof.
  induction 1 as [|e evs He _ IH]; simpl; [easy|]. rewrite unanswered_cons. intros [(cl & ->)|[H _]]; [destruct He|auto].
Qed.
Lemma quiet_no_call t evs : Forall (quiet t) evs -> Forall no_call evs.
Proof. apply Forall_impl. intros e. destruct e; simpl; try easy. destruct tok; easy. Qed.
Lemma final_no_call evs : Forall final_ev evs -> Forall no_call evs.
Proof. apply Forall_impl. intros e. destruct e; easy. Qed.
Lemma ghost_no_call t o : Forall no_call (ghost t o).
Proof. destruct o; simpl; repeat constructor. Qed.

(** Every unanswered call has its task among the deferred *)
Definition K (p : pipe) : Prop :=
  forall a k, unanswered (c_log (p_ctx p)) a k -> exists t, nget k (p_def p) = Some t /\ t_id t = a.

Lemma nget_nset_same {V} k (v : V) d : nget k (nset k v d) = Some v.
Proof. apply aget_aset_same. apply N.eqb_eq. Qed.
Lemma nget_nset_other {V} k k' (v : V) d : k <> k' -> nget k (nset k' v d) = nget k d.
Proof. apply aget_aset_other. apply N.eqb_eq. Qed.
Lemma nget_ndel_other {V} k k' (d : list (N * V)) : k <> k' -> nget k (ndel k' d) = nget k d.
Proof. apply aget_adel_other. apply N.eqb_eq. Qed.

Lemma ssum_no_call E t c o c' evs : ssum E t c o c' evs -> (forall k x, o <> ODeferred k x) ->
  exists evs', c_log c' = evs' ++ c_log c /\ Forall no_call evs'.
Proof.
  intros Hss Ho. pose proof (ss_log _ _ _ _ _ _ Hss) as Hl. pose proof (ss_evs _ _ _ _ _ _ Hss) as He.
  exists (ghost t o ++ evs ++ [EvEval (t_id t)]). split; [rewrite Hl, <- !app_assoc; reflexivity|].
  apply Forall_app. split; [apply ghost_no_call|]. apply Forall_app. split; [|now repeat constructor].
  apply quiet_no_call with t. destruct o; try exact He. now destruct (Ho tok t0).
Qed.

Lemma drop_log l c : c_log (drop_tasks l c) = c_log c.
Proof. reflexivity. Qed.

Lemma K_step E ts p ts' p' : fresh_tokens E -> estep E ts p ts' p' -> K p -> K p'.
Proof.
  intros HF Hs HK. unfold K.
  destruct Hs as [p Hset|t ts p Hb|t ts p o c ts' p' Hb Hst Hn|tok st sz p Hset Hn|tok st sz t p o c Hset Hn Hst|p Hq Ht|a rest p Hq Hn Ht].
  - exact HK.
  - exact HK.
  - apply step_sum in Hst as (evs & Hss). pose proof (ssum_no_call _ _ _ _ _ _ Hss) as Hnc.
    destruct o; simpl in Hn; injection Hn as <- <-; cbn [p_ctx p_def p_with_ctx p_with_done p_with_queue].
    + destruct Hnc as (evs' & -> & H); [discriminate|]. intros a k Hu. apply unanswered_app in Hu; auto.
    + destruct (def_insert_facts tok t0 (p_with_ctx p c)) as (F1 & F2 & F3 & F4 & F5 & F6). intros a k. rewrite F1, F6.
      cbn [p_ctx p_def p_with_ctx]. pose proof (ss_log _ _ _ _ _ _ Hss) as Hl.
      destruct (ss_evs _ _ _ _ _ _ Hss) as (cl & -> & Hi & Hdis & Hc). cbn [ghost app] in Hl. rewrite Hl.
      rewrite unanswered_cons. intros [(cl' & Heq)|[Hu _]].
      * injection Heq as H1 _ H2. exists t0. rewrite H2, nget_nset_same. split; [reflexivity|congruence].
      * apply (unanswered_app [EvEval (t_id t)]) in Hu; [|now repeat constructor].
        destruct (N.eq_dec k tok) as [->|Hne].
        -- exfalso. apply (HF _ _ _ Hdis). apply in_flight_cons; [easy|]. now apply unanswered_flight in Hu.
        -- rewrite nget_nset_other by exact Hne. auto.
    + destruct Hnc as (evs' & -> & H); [discriminate|]. intros a k Hu. apply unanswered_app in Hu; auto.
    + destruct Hnc as (evs' & -> & H); [discriminate|]. intros a k Hu. apply unanswered_app in Hu; auto.
    + pose proof (ss_final _ _ _ _ _ _ Hss) as Hf. simpl in Hf.
      destruct (terminal_sum E t0 c Hf) as (evs2 & T1 & T2 & _). rewrite drop_log, T1.
      destruct Hnc as (evs' & -> & H); [discriminate|]. intros a k Hu. apply unanswered_app in Hu; [|now apply final_no_call].
      apply unanswered_app in Hu; auto.
  - intros a k. cbn [p_emit p_ctx p_with_ctx p_def emit with_log c_log]. rewrite unanswered_cons. intros [(cl & H)|[H _]]; [discriminate|auto].
  - assert (Hold : forall a k, unanswered (EvHandle tok (t_id t) :: EvGrpcResp tok st sz :: c_log (p_ctx p)) a k ->
                    exists x, nget k (ndel tok (p_def p)) = Some x /\ t_id x = a).
    { intros a k. rewrite !unanswered_cons. intros [(cl & H)|[[(cl & H)|[H Hne]] _]]; try discriminate.
      rewrite nget_ndel_other; [auto|]. intros ->. now apply Hne. }
    apply step_sum in Hst as (evs & Hss). pose proof (ssum_no_call _ _ _ _ _ _ Hss) as Hnc.
    cbn [emit with_log c_log] in Hnc. rewrite set_grpc_log in Hnc. cbn [emit with_log c_log] in Hnc.
    unfold handle_next. destruct o.
    all: match goal with |- context [def_insert] => idtac | _ => cbn [p_ctx p_def p_with_ctx p_with_done p_with_queue emit with_log c_log] end.
    + destruct Hnc as (evs' & -> & H); [discriminate|]. intros a k Hu. apply unanswered_app in Hu; auto.
    + cbv zeta. match goal with |- context [def_insert ?a ?b ?q] => destruct (def_insert_facts a b q) as (F1 & F2 & F3 & F4 & F5 & F6) end.
      intros a k. rewrite F1, F6.
      cbn [p_ctx p_def p_with_ctx]. pose proof (ss_log _ _ _ _ _ _ Hss) as Hl.
      destruct (ss_evs _ _ _ _ _ _ Hss) as (cl & -> & Hi & Hdis & Hc). cbn [ghost app] in Hl. rewrite Hl.
      cbn [emit with_log c_log] in *. rewrite set_grpc_log in *. cbn [emit with_log c_log] in *.
      rewrite unanswered_cons. intros [(cl' & Heq)|[Hu _]].
      * injection Heq as H1 _ H2. exists t0. rewrite H2, nget_nset_same. split; [reflexivity|congruence].
      * apply (unanswered_app [EvEval (t_id t)]) in Hu; [|now repeat constructor].
        destruct (N.eq_dec k tok0) as [->|Hne].
        -- exfalso. apply (HF _ _ _ Hdis). apply in_flight_cons; [easy|]. now apply unanswered_flight in Hu.
        -- rewrite nget_nset_other by exact Hne. auto.
    + destruct Hnc as (evs' & -> & H); [discriminate|]. intros a k Hu.
      apply (unanswered_app [EvDone (t_id t)]) in Hu; [|now repeat constructor]. apply unanswered_app in Hu; auto.
    + destruct Hnc as (evs' & -> & H); [discriminate|]. intros a k Hu. apply unanswered_app in Hu; auto.
    + pose proof (ss_final _ _ _ _ _ _ Hss) as Hf. simpl in Hf.
      destruct (terminal_sum E t0 c Hf) as (evs2 & T1 & T2 & _). rewrite drop_log, T1.
      destruct Hnc as (evs' & -> & H); [discriminate|]. intros a k Hu. apply unanswered_app in Hu; [|now apply final_no_call].
      apply unanswered_app in Hu; auto.
  - intros a k Hu. cbn in Hu. apply HK in Hu as (t & H1 & H2). exists (noop_of t). split; [|exact H2].
    cbn [replace_deferred p_def]. clear -H1. induction (p_def p) as [|[k' t'] d IH]; simpl in *; [discriminate|].
    destruct (N.eqb k k'); [now injection H1 as ->|auto].
  - destruct (td_sum E a (p_with_td p rest)) as (evs & tok & T1 & T2 & T3 & _). intros b k. rewrite T1, T3. cbn [p_with_td p_ctx p_def] in *.
    intros Hu. assert (Hu' : unanswered (EvTeardown :: c_log (p_ctx p)) b k).
    { destruct T2 as [[-> _]|(cl & -> & _)]; [exact Hu|]. cbn [app] in Hu. apply (unanswered_app [EvExport cl tok]) in Hu; [exact Hu|now repeat constructor]. }
    apply (unanswered_app [EvTeardown]) in Hu'; [|now repeat constructor].
    destruct tok as [tok|]; [|auto]. destruct (N.eq_dec k tok) as [->|Hne]; [|rewrite nget_nset_other by exact Hne; auto].
    destruct T2 as [[_ H]|(cl & _ & Hdis)]; [discriminate|].
    exfalso. apply (HF _ _ _ Hdis). apply in_flight_cons; [easy|]. now apply unanswered_flight in Hu'.
Qed.

(** Dependencies under re-queueing *)
Lemma dl_core t : dl (core t) = dl t.
Proof. induction t; simpl; auto. Qed.
Lemma dl_norm t : dl (norm t) = dl t.
Proof. rewrite <- (dl_core t). unfold norm. now destruct (core t). Qed.
Lemma dls_norm l l' : map norm l = map norm l' -> dls l = dls l'.
Proof.
  revert l'. induction l as [|a l IH]; intros [|b l'] H; try discriminate; [reflexivity|].
  injection H as Ha Hl. cbn [dls flat_map]. fold (dls l). fold (dls l'). rewrite (IH _ Hl). rewrite <- (dl_norm a), <- (dl_norm b), Ha. reflexivity.
Qed.
Lemma dls_norm1 l t : map norm l = [norm t] -> dls l = dl t.
Proof. intros H. change [norm t] with (map norm [t]) in H. apply dls_norm in H. rewrite H. cbn [dls flat_map]. apply app_nil_r. Qed.

Lemma in_dls x l : In x (dls l) <-> exists t, In t l /\ In x (dl t).
Proof. apply in_flat_map. Qed.

(** a plan: dependencies of each id, one entry per id, none for the executor's own ids *)
Record plan (D : list (text * list text)) : Prop := {
  pl_fun : forall a d d', In (a, d) D -> In (a, d') D -> d = d';
  pl_tu : forall d, ~ In (tu, d) D;
  pl_td : forall k d, ~ In (tx "teardown_" ++ k, d) D }.

Definition ready (D : list (text * list text)) (l : log) (a : text) : Prop :=
  forall ds, In (a, ds) D -> forall d, In d ds -> In (EvDone d) l.
Lemma ready_app D l l' a : ready D l a -> ready D (l' ++ l) a.
Proof. intros H ds H1 d H2. apply in_or_app. right. eapply H; eauto. Qed.
Lemma ready_cons D l e a : ready D l a -> ready D (e :: l) a.
Proof. apply (ready_app D l [e]). Qed.

Definition waits (D : list (text * list text)) (e : ev) (l : log) : Prop :=
  match e with EvEval a | EvDispatch a _ _ | EvDone a | EvFailed a | EvTerminate a => ready D l a | _ => True end.

Record O (D : list (text * list text)) (ts : list task) (p : pipe) : Prop := {
  o_w : W ts p;
  o_dl : incl (dls (items ts p)) D;
  o_done : forall d, In d (p_done p) -> In (EvDone d) (c_log (p_ctx p));
  o_def : forall t, In t (dts p) -> ready D (c_log (p_ctx p)) (t_id t);
  o_hist : hist (waits D) (c_log (p_ctx p)) }.

Lemma hist_ready D evs l a : (forall e, In e evs -> waits D e [] \/ match e with EvEval b | EvDispatch b _ _ | EvDone b | EvFailed b | EvTerminate b => b = a | _ => True end) ->
  ready D l a -> hist (waits D) l -> hist (waits D) (evs ++ l).
Proof.
  intros He Hr Hh. induction evs as [|e evs IH]; simpl; [exact Hh|]. split; [|apply IH; intros; apply He; now right].
  destruct (He e) as [H|H]; [now left| |].
  - destruct e; simpl in *; try exact Logic.I; intros ds H1 d H2; exfalso; exact (H ds H1 d H2).
  - destruct e; simpl in *; try exact Logic.I; subst; now apply ready_app.
Qed.

Lemma ssum_hist D E t c o c' evs : ssum E t c o c' evs -> ready D (c_log c) (t_id t) ->
  hist (waits D) (c_log c) -> exists evs', c_log c' = evs' ++ c_log c /\ hist (waits D) (c_log c').
Proof.
  intros Hss Hr Hh. pose proof (ss_log _ _ _ _ _ _ Hss) as Hl. pose proof (ss_evs _ _ _ _ _ _ Hss) as He.
  exists (ghost t o ++ evs ++ [EvEval (t_id t)]). split; [rewrite Hl, <- !app_assoc; reflexivity|].
  rewrite Hl. replace (ghost t o ++ evs ++ EvEval (t_id t) :: c_log c) with ((ghost t o ++ evs ++ [EvEval (t_id t)]) ++ c_log c)
    by (rewrite <- !app_assoc; reflexivity).
  apply hist_ready with (t_id t); auto. intros e Hi. right.
  apply in_app_or in Hi as [Hi|Hi]; [destruct o; simpl in Hi; try easy; destruct Hi as [<-|[]]; reflexivity|].
  apply in_app_or in Hi as [Hi|[<-|[]]]; [|reflexivity].
  destruct o; try (rewrite Forall_forall in He; specialize (He e Hi); destruct e; simpl in *; try easy; destruct tok; try easy; now destruct He).
  destruct He as (cl & -> & _). destruct Hi as [<-|[]]. reflexivity.
Qed.

Lemma done_app (d : list text) l evs : (forall x, In x d -> In (EvDone x) l) -> forall x, In x d -> In (EvDone x) (evs ++ l).
Proof. intros H x Hx. apply in_or_app. right. auto. Qed.

Lemma In_nset {V} k (v : V) d x : In x (map snd (nset k v d)) -> x = v \/ In x (map snd d).
Proof.
  induction d as [|[k' v'] d IH]; simpl; [intros [<-|[]]; now left|].
  destruct (N.eqb k k'); simpl; intros [<-|H]; auto. apply IH in H as [H|H]; auto.
Qed.
Lemma In_ndel {V} k (d : list (N * V)) x : In x (map snd (ndel k d)) -> In x (map snd d).
Proof. intros H. apply in_map_iff in H as (y & <- & H). apply ndel_incl in H. now apply in_map. Qed.
Lemma In_nget {V} k (d : list (N * V)) x : nget k d = Some x -> In x (map snd d).
Proof. intros H. apply nget_In in H. apply in_map_iff. now exists (k, x). Qed.

Lemma dls_incl_tasks l D : incl (dls l) D <-> forall t, In t l -> incl (dl t) D.
Proof.
  split.
  - intros H t Ht x Hx. apply H. apply in_dls. eauto.
  - intros H x Hx. apply in_dls in Hx as (t & Ht & Hx). now apply (H t Ht).
Qed.
Lemma dl_wf t : wf_q t -> t_id t = tu \/ In (t_id t, t_deps t) (dl t).
Proof.
  rewrite <- (wf_q_core t), <- (core_id t), <- (core_deps t), <- (dl_core t). destruct (core t) eqn:Hc; simpl; auto; try tauto.
  - exfalso. assert (N : forall t, match core t with TFailureMode _ _ | TTracing _ => False | _ => True end).
    { clear. induction t; simpl; auto. } specialize (N t). now rewrite Hc in N.
  - exfalso. assert (N : forall t, match core t with TFailureMode _ _ | TTracing _ => False | _ => True end).
    { clear. induction t; simpl; auto. } specialize (N t). now rewrite Hc in N.
Qed.
Lemma blocked_false done t : blocked done t = false -> forall d, In d (t_deps t) -> In d done.
Proof.
  unfold blocked. intros H d Hd. destruct (mem_text d done) eqn:Hm; [now apply mem_text_In|].
  assert (existsb (fun d => negb (mem_text d done)) (t_deps t) = true); [|congruence].
  apply existsb_exists. exists d. now rewrite Hm.
Qed.

Lemma O_step D E ts p ts' p' : plan D -> estep E ts p ts' p' -> O D ts p -> O D ts' p'.
Proof.
  intros HP Hs [HW O1 O2 O3 O4]. pose proof (W_step _ _ _ _ _ Hs HW) as HW'. rewrite dls_incl_tasks in O1.
  destruct Hs as [p Hset|t ts p Hb|t ts p o c ts' p' Hb Hst Hn|tok st sz p Hset Hn|tok st sz t p o c Hset Hn Hst|p Hq Ht|a rest p Hq Hn Ht].
  - constructor; auto. apply dls_incl_tasks. intros x Hx. apply O1. unfold items, dts in *. cbn in *. rewrite !in_app_iff in *. tauto.
  - constructor; auto. apply dls_incl_tasks. intros x Hx. apply O1. unfold items, dts in *. cbn in *. rewrite !in_app_iff in *. simpl in *. tauto.
  - assert (Hq : wf_q t) by (pose proof (w_ts _ _ HW) as H; now inversion H).
    assert (Hr : ready D (c_log (p_ctx p)) (t_id t)).
    { intros ds Hds d Hd. destruct (dl_wf t Hq) as [Hi|Hi].
      - rewrite Hi in Hds. now apply (pl_tu _ HP) in Hds.
      - assert (ds = t_deps t). { eapply (pl_fun _ HP); [exact Hds|]. apply (O1 t); [now left|exact Hi]. }
        subst ds. apply O2. now apply (blocked_false _ _ Hb). }
    apply step_sum in Hst as (evs & Hss). destruct (ssum_hist D _ _ _ _ _ _ Hss Hr O4) as (evs' & Hl & Hh).
    destruct o; simpl in Hn; injection Hn as <- <-.
    + constructor; auto.
      * apply dls_incl_tasks. intros x Hx. apply O1. unfold items, dts in *. cbn in *. rewrite !in_app_iff in *. tauto.
      * cbn. intros d [<-|Hd]; [rewrite (ss_log _ _ _ _ _ _ Hss); now left|]. rewrite Hl. now apply (done_app (p_done p)).
      * cbn. intros x Hx. rewrite Hl. apply ready_app. now apply O3.
    + destruct (def_insert_facts tok t0 (p_with_ctx p c)) as (F1 & F2 & F3 & F4 & F5 & F6).
      destruct (ss_evs _ _ _ _ _ _ Hss) as (cl & _ & Hi & _ & Hc).
      constructor; auto.
      * apply dls_incl_tasks. intros x Hx. unfold items, dts in Hx. rewrite F6, !in_app_iff in Hx. cbn [p_queue def_insert p_with_ctx p_def] in Hx.
        assert (Hx' : x = t0 \/ In x ts \/ In x (p_queue p) \/ In x (map snd (p_def p))).
        { destruct Hx as [Hx|[Hx|Hx]]; auto. apply In_nset in Hx as [Hx|Hx]; auto. }
        destruct Hx' as [->|Hx']; [|apply O1; unfold items, dts; right; rewrite !in_app_iff; tauto].
        specialize (O1 t (or_introl eq_refl)). rewrite <- (dl_core t) in O1. rewrite <- (dl_core t0).
        destruct (core t); try easy. rewrite Hc. simpl in *. intros y Hy. apply O1. now right.
      * rewrite F1. cbn. intros d Hd. rewrite Hl. now apply (done_app (p_done p)).
      * rewrite F1. unfold dts. rewrite F6. cbn [p_ctx p_with_ctx p_def]. rewrite Hl. intros x Hx. apply ready_app.
        apply In_nset in Hx as [->|Hx]; [now rewrite Hi|now apply O3].
      * now rewrite F1.
    + pose proof (ss_requeue _ _ _ _ _ _ Hss) as Hrq. simpl in Hrq.
      assert (Hdl : dls ts0 = dl t) by (apply dls_norm1; apply wf_q_not_pending in Hq; destruct (core t); easy).
      constructor; auto.
      * apply dls_incl_tasks. intros x Hx. unfold items, dts in Hx. cbn in Hx. rewrite !in_app_iff in Hx.
        assert (Hx' : In x ts0 \/ In x ts \/ In x (p_queue p) \/ In x (map snd (p_def p))) by tauto.
        destruct Hx' as [Hx'|Hx']; [|apply O1; unfold items, dts; right; rewrite !in_app_iff; tauto].
        intros y Hy. apply (O1 t (or_introl eq_refl)). rewrite <- Hdl. apply in_dls. eauto.
      * cbn. intros d Hd. rewrite Hl. now apply (done_app (p_done p)).
      * cbn. intros x Hx. rewrite Hl. apply ready_app. now apply O3.
    + constructor; auto.
      * apply dls_incl_tasks. intros x Hx. apply O1. unfold items, dts in *. cbn in *. rewrite !in_app_iff in *. tauto.
      * cbn. intros d Hd. rewrite Hl. now apply (done_app (p_done p)).
      * cbn. intros x Hx. rewrite Hl. apply ready_app. now apply O3.
    + pose proof (ss_final _ _ _ _ _ _ Hss) as Hf. simpl in Hf.
      destruct (terminal_sum E t0 c Hf) as (evs2 & T1 & T2 & _).
      constructor; auto.
      * apply dls_incl_tasks. intros x Hx. apply O1. unfold items, dts in *. cbn in *. rewrite !in_app_iff in *. tauto.
      * cbn. intros d Hd. rewrite T1, Hl. apply in_or_app. right. apply in_or_app. right. auto.
      * cbn. intros x Hx. rewrite T1, Hl. apply ready_app, ready_app. now apply O3.
      * cbn [p_ctx]. rewrite drop_log, T1. apply hist_app; [|exact Hh]. intros e l1 Hi. rewrite Forall_forall in T2. specialize (T2 e Hi). now destruct e.
  - constructor; auto; cbn.
    + now apply dls_incl_tasks.
    + intros d Hd. right. auto.
    + intros x Hx. apply ready_cons. now apply O3.
    + now split.
  - assert (Hd : In t (dts p)) by now apply (In_nget tok).
    assert (Hw : wf_d t) by (eapply Forall_nget; [apply (w_def _ _ HW)|exact Hn]).
    apply step_sum in Hst as (evs & Hss).
    assert (Hr : ready D (EvHandle tok (t_id t) :: EvGrpcResp tok st sz :: c_log (p_ctx p)) (t_id t)).
    { apply ready_cons, ready_cons. now apply O3. }
    assert (Hh0 : hist (waits D) (EvHandle tok (t_id t) :: EvGrpcResp tok st sz :: c_log (p_ctx p))) by now repeat split.
    pose proof (ssum_hist D _ _ _ _ _ _ Hss) as Hsh. cbn [emit with_log c_log] in Hsh. rewrite set_grpc_log in Hsh. cbn [emit with_log c_log] in Hsh.
    destruct (Hsh Hr Hh0) as (evs' & Hl & Hh). clear Hsh.
    assert (Hl' : c_log c = (evs' ++ [EvHandle tok (t_id t); EvGrpcResp tok st sz]) ++ c_log (p_ctx p)) by (rewrite Hl, <- app_assoc; reflexivity).
    assert (Hdone : forall d, In d (p_done p) -> In (EvDone d) (c_log c)) by (intros d Hd0; rewrite Hl'; now apply (done_app (p_done p))).
    assert (Hdef : forall x, In x (map snd (ndel tok (p_def p))) -> ready D (c_log c) (t_id x)).
    { intros x Hx. rewrite Hl'. apply ready_app. apply O3. unfold dts. now apply In_ndel in Hx. }
    assert (Hinc : forall x, In x (p_queue p) \/ In x (map snd (ndel tok (p_def p))) -> incl (dl x) D).
    { intros x Hx. apply O1. unfold items, dts. rewrite !in_app_iff. destruct Hx as [Hx|Hx]; [tauto|]. apply In_ndel in Hx. tauto. }
    unfold handle_next. destruct o.
    + constructor; auto.
      * apply dls_incl_tasks. intros x Hx. apply Hinc. unfold items, dts in Hx. cbn in Hx. now rewrite in_app_iff in Hx.
      * cbn. intros d [<-|Hx]; [rewrite (ss_log _ _ _ _ _ _ Hss); now left|]. auto.
    + destruct (ss_evs _ _ _ _ _ _ Hss) as (cl & _ & _ & _ & Hx). exfalso. apply wf_d_core in Hw. destruct (core t); easy.
    + pose proof (ss_requeue _ _ _ _ _ _ Hss) as Hrq. simpl in Hrq.
      assert (Hdl : dls ts = dl t).
      { apply wf_d_core in Hw. rewrite <- (dl_core t). destruct (core t); try easy. destruct Hrq as [_ Hrq]. apply dls_norm in Hrq. rewrite Hrq. symmetry. apply dl_go. }
      constructor; auto; cbn.
      * apply dls_incl_tasks. intros x Hx. unfold items, dts in Hx. cbn in Hx. rewrite !in_app_iff in Hx.
        destruct Hx as [[Hx|Hx]|Hx]; [|now apply Hinc; left|now apply Hinc; right].
        intros y Hy. apply (O1 t); [unfold items; rewrite !in_app_iff; tauto|]. rewrite <- Hdl. apply in_dls. eauto.
      * intros d [<-|Hx]; [now left|]. right. auto.
      * intros x Hx. apply ready_cons. auto.
      * split; [|exact Hh]. rewrite Hl'. apply ready_app. now apply O3.
    + constructor; auto.
      apply dls_incl_tasks. intros x Hx. apply Hinc. unfold items, dts in Hx. cbn in Hx. now rewrite in_app_iff in Hx.
    + pose proof (ss_final _ _ _ _ _ _ Hss) as Hf. simpl in Hf.
      destruct (terminal_sum E t0 c Hf) as (evs2 & T1 & T2 & _).
      constructor; auto.
      * apply dls_incl_tasks. intros x Hx. apply Hinc. unfold items, dts in Hx. cbn in Hx. now right.
      * cbn. intros d Hx. rewrite T1. apply in_or_app. right. auto.
      * cbn. intros x Hx. rewrite T1. apply ready_app. auto.
      * cbn [p_ctx p_with_ctx]. rewrite drop_log, T1. apply hist_app; [|exact Hh]. intros e l1 Hi. rewrite Forall_forall in T2. specialize (T2 e Hi). now destruct e.
  - constructor; auto; cbn.
    + apply dls_incl_tasks. intros x Hx. unfold items, dts in Hx. cbn in Hx. rewrite map_map, in_app_iff in Hx.
      destruct Hx as [Hx|Hx]; [apply O1; unfold items; rewrite !in_app_iff; tauto|]. apply in_map_iff in Hx as (y & <- & _). simpl. easy.
    + unfold dts. cbn. rewrite map_map. intros x Hx. apply in_map_iff in Hx as ((k & y) & <- & Hy). simpl.
      apply O3. unfold dts. apply in_map_iff. now exists (k, y).
  - destruct (td_sum E a (p_with_td p rest)) as (evs & tok & T1 & T2 & T3 & T4 & T5 & T6 & T7 & T8 & T9 & _). cbn [p_with_td p_ctx p_def p_queue p_done] in *.
    constructor; auto.
    + apply dls_incl_tasks. intros x Hx. unfold items, dts in Hx. rewrite T3, T4, !in_app_iff in Hx.
      assert (Hx' : incl (dl x) D \/ In x (p_queue p) \/ In x (map snd (p_def p))).
      { destruct Hx as [[]|[Hx|Hx]]; auto. destruct tok; auto. apply In_nset in Hx as [->|Hx]; auto. left. simpl. easy. }
      destruct Hx' as [Hx'|Hx']; [exact Hx'|]. apply O1. unfold items, dts. rewrite !in_app_iff. tauto.
    + rewrite T5, T1. intros d Hd. apply in_or_app. right. right. auto.
    + unfold dts. rewrite T3, T1. intros x Hx.
      assert (Hx' : (exists k, t_id x = tx "teardown_" ++ k) \/ In x (map snd (p_def p))).
      { destruct tok; auto. apply In_nset in Hx as [->|Hx]; auto. left. eexists. reflexivity. }
      destruct Hx' as [(k & ->)|Hx']; [intros ds Hds; now apply (pl_td _ HP) in Hds|]. apply ready_app, ready_cons. now apply O3.
    + rewrite T1. apply hist_app; [|now split]. intros e l1 Hi. destruct T2 as [[-> _]|(cl & -> & _)]; [easy|]. destruct Hi as [<-|[]]. exact Logic.I.
Qed.

(** When a call is made, no completed action has a call on its way *)
Definition answered (e : ev) (l : log) : Prop :=
  match e with
  | EvDispatch _ _ (Some _) => forall d k, In (EvDone d) l -> ~ unanswered l d k
  | _ => True
  end.
Lemma answered_no_call evs l : Forall no_call evs -> hist answered l -> hist answered (evs ++ l).
Proof.
  intros H Hh. apply hist_app; [|exact Hh]. intros e l1 Hi. rewrite Forall_forall in H. specialize (H e Hi). destruct e; try exact Logic.I.
  destruct tok; [easy|exact Logic.I].
Qed.

Lemma done_answered ts t p : J (t :: ts) p -> K p -> forall d k, In (EvDone d) (c_log (p_ctx p)) -> ~ unanswered (c_log (p_ctx p)) d k.
Proof.
  intros HJ HK d k Hd Hu. apply HK in Hu as (x & Hx & Hid). pose proof (j_done _ _ HJ d Hd) as Hc.
  pose proof (j_w _ _ HJ) as HW. assert (Hw : wf_d x) by (eapply Forall_nget; [apply (w_def _ _ HW)|exact Hx]).
  apply In_nget in Hx. destruct Hw as [Hw|Hw].
  - destruct (w_noop _ _ HW) as (Hf & _); [|discriminate]. apply Exists_exists. exists x. now split.
  - assert (Hi : In d (idl x)). { rewrite <- (idl_core x). rewrite <- (core_id x) in Hid. unfold wf_p in Hw. destruct (core x); try easy. simpl in *. now left. }
    assert (Hin : In d (idls (items (t :: ts) p))). { apply in_flat_map. exists x. split; [|exact Hi]. unfold items, dts. rewrite !in_app_iff. tauto. }
    apply cnt_In in Hin. lia.
Qed.

Lemma answered_step E ts p ts' p' : estep E ts p ts' p' -> J ts p -> K p -> hist answered (c_log (p_ctx p)) -> hist answered (c_log (p_ctx p')).
Proof.
  intros Hs HJ HK Hh.
  destruct Hs as [p Hset|t ts p Hb|t ts p o c ts' p' Hb Hst Hn|tok st sz p Hset Hn|tok st sz t p o c Hset Hn Hst|p Hq Ht|a rest p Hq Hn Ht].
  - exact Hh.
  - exact Hh.
  - apply step_sum in Hst as (evs & Hss). pose proof (ssum_no_call _ _ _ _ _ _ Hss) as Hnc.
    destruct o; simpl in Hn; injection Hn as <- <-; cbn [p_ctx p_def p_with_ctx p_with_done p_with_queue].
    + destruct Hnc as (evs' & -> & H); [discriminate|]. now apply answered_no_call.
    + destruct (def_insert_facts tok t0 (p_with_ctx p c)) as (F1 & F2 & F3 & F4 & F5 & F6). rewrite F1.
      cbn [p_ctx p_with_ctx]. rewrite (ss_log _ _ _ _ _ _ Hss). destruct (ss_evs _ _ _ _ _ _ Hss) as (cl & -> & Hi & Hdis & Hc).
      cbn [ghost app hist answered]. split; [|now split]. intros d k [Hd|Hd]; [discriminate|]. rewrite unanswered_cons. intros [(x & Hx)|[Hu _]]; [discriminate|].
      revert Hu. eapply done_answered; eauto.
    + destruct Hnc as (evs' & -> & H); [discriminate|]. now apply answered_no_call.
    + destruct Hnc as (evs' & -> & H); [discriminate|]. now apply answered_no_call.
    + pose proof (ss_final _ _ _ _ _ _ Hss) as Hf. simpl in Hf.
      destruct (terminal_sum E t0 c Hf) as (evs2 & T1 & T2 & _). rewrite drop_log, T1.
      destruct Hnc as (evs' & -> & H); [discriminate|]. apply answered_no_call; [now apply final_no_call|]. now apply answered_no_call.
  - now split.
  - assert (Hw : wf_d t) by (eapply Forall_nget; [apply (w_def _ _ (j_w _ _ HJ))|exact Hn]).
    assert (Hh0 : hist answered (EvHandle tok (t_id t) :: EvGrpcResp tok st sz :: c_log (p_ctx p))) by now repeat split.
    apply step_sum in Hst as (evs & Hss). pose proof (ssum_no_call _ _ _ _ _ _ Hss) as Hnc.
    cbn [emit with_log c_log] in Hnc. rewrite set_grpc_log in Hnc. cbn [emit with_log c_log] in Hnc.
    unfold handle_next. destruct o.
    + cbn. destruct Hnc as (evs' & -> & H); [discriminate|]. now apply answered_no_call.
    + destruct (ss_evs _ _ _ _ _ _ Hss) as (cl & _ & _ & _ & Hx). exfalso. apply wf_d_core in Hw. destruct (core t); easy.
    + cbn. destruct Hnc as (evs' & -> & H); [discriminate|]. split; [exact Logic.I|]. now apply answered_no_call.
    + cbn. destruct Hnc as (evs' & -> & H); [discriminate|]. now apply answered_no_call.
    + pose proof (ss_final _ _ _ _ _ _ Hss) as Hf. simpl in Hf.
      destruct (terminal_sum E t0 c Hf) as (evs2 & T1 & T2 & _). cbn [p_ctx p_with_ctx]. rewrite drop_log, T1.
      destruct Hnc as (evs' & -> & H); [discriminate|]. apply answered_no_call; [now apply final_no_call|]. now apply answered_no_call.
  - exact Hh.
  - destruct (td_sum E a (p_with_td p rest)) as (evs & tok & T1 & T2 & _). rewrite T1. cbn [p_with_td p_ctx].
    apply answered_no_call; [|now split]. destruct T2 as [[-> _]|(cl & -> & _)]; repeat constructor.
Qed.

(** All together *)
Record A (E : env) (D : list (text * list text)) (ts : list task) (p : pipe) : Prop := {
  a_j : J ts p;
  a_o : O D ts p;
  a_k : fresh_tokens E -> K p;
  a_q : fresh_tokens E -> hist answered (c_log (p_ctx p)) }.
Definition AL (E : env) (D : list (text * list text)) (l : log) : Prop :=
  (forall a, calls_of a l <= 1) /\ hist (waits D) l /\ (fresh_tokens E -> hist answered l).

Lemma neutral_facts e : neutral e -> ~ marked e /\ no_call e /\ (forall D l, waits D e l) /\ (forall k, ~ is_answer k e).
Proof. destruct e; simpl; try easy. all: intros _; repeat split; easy. Qed.
Lemma idle_facts e : idle_ev e -> (forall a, is_disp_of a e = false) /\ no_call e /\ (forall D l, waits D e l).
Proof. intros [H|(tok & st & sz & ->)]; [destruct e; simpl in *; easy|easy]. Qed.

Lemma W_ctx ts p c : c_grpc c = c_grpc (p_ctx p) -> W ts p -> W ts (p_with_ctx p c).
Proof. intros Hc [W1 W2 W3 W4 W5 W6]. constructor; auto. cbn. congruence. Qed.
Lemma J_ctx ts p c : c_grpc c = c_grpc (p_ctx p) -> (forall d, In (EvDone d) (c_log c) <-> In (EvDone d) (c_log (p_ctx p))) ->
  (forall a, calls_of a (c_log c) = calls_of a (c_log (p_ctx p))) -> J ts p -> J ts (p_with_ctx p c).
Proof.
  intros Hg Hd Hc [J0 J1 J2 J3 J4 J5]. constructor; [now apply W_ctx|exact J1|exact J2| | |]; cbn [p_ctx p_with_ctx].
  - intros d H. apply Hd in H. now apply J3.
  - intros a H. rewrite Hc in H. now apply J4.
  - intros a. rewrite Hc. apply J5.
Qed.

Lemma A_AL E D ts p : A E D ts p -> AL E D (c_log (p_ctx p)).
Proof. intros [A1 A2 A3 A4]. split; [apply (j_calls _ _ A1)|]. split; [apply (o_hist _ _ _ A2)|exact A4]. Qed.
Lemma A_finv E D : plan D -> finv E (A E D) (AL E D).
Proof.
  intros HP. constructor.
  - intros ts p ts' p' Hs [A1 A2 A3 A4]. constructor.
    + eapply J_step; eauto.
    + eapply O_step; eauto.
    + intros HF. eapply K_step; eauto.
    + intros HF. eapply answered_step; eauto.
  - intros p e He [A1 A2 A3 A4]. destruct (neutral_facts e He) as (N1 & N2 & N3 & N4). constructor.
    + apply J_ctx; [reflexivity| | |exact A1]; cbn [emit with_log c_log].
      * intros d. simpl. split; [intros [->|H]; [now destruct N1|exact H]|now right].
      * intros a. rewrite calls_cons. destruct e; simpl in *; easy.
    + destruct A2 as [O0 O1 O2 O3 O4]. constructor; [now apply W_ctx|exact O1| | |]; cbn [p_emit p_ctx p_with_ctx emit with_log c_log].
      * intros d Hd. right. now apply O2.
      * intros t Ht. apply ready_cons. now apply O3.
      * now split.
    + intros HF a k Hu. cbn in Hu. apply (unanswered_app [e]) in Hu; [|now repeat constructor]. now apply (A3 HF).
    + intros HF. apply (answered_no_call [e]); [now repeat constructor|]. now apply A4.
  - intros p bd [A1 A2 A3 A4]. constructor; [|destruct A2 as [O0 O1 O2 O3 O4]; constructor; auto; now apply W_ctx|exact A3|exact A4].
    apply J_ctx; easy.
  - intros p bd [A1 A2 A3 A4]. constructor; [|destruct A2 as [O0 O1 O2 O3 O4]; constructor; auto; now apply W_ctx|exact A3|exact A4].
    apply J_ctx; easy.
  - intros p HA _ _ _ _. eapply A_AL; eauto.
  - intros l e He (L1 & L2 & L3). destruct (idle_facts e He) as (N1 & N2 & N3). split; [|split].
    + intros a. rewrite calls_cons, N1. apply L1.
    + now split.
    + intros HF. apply (answered_no_call [e]); [now repeat constructor|]. now apply L3.
Qed.

(** Plans of configurations *)
Lemma NoDup_fun {V} (l : list (text * V)) : NoDup (map fst l) -> forall a d d', In (a, d) l -> In (a, d') l -> d = d'.
Proof.
  induction l as [|[k v] l IH]; simpl; [easy|]. intros H a d d'. inversion H as [|x y Hx Hy]; subst.
  intros [H1|H1] [H2|H2].
  - congruence.
  - injection H1 as -> ->. exfalso. apply Hx. apply in_map_iff. now exists (a, d').
  - injection H2 as -> ->. exfalso. apply Hx. apply in_map_iff. now exists (a, d).
  - eapply IH; eauto.
Qed.
Lemma teardown_not_number i k : ~ below (nat_text i) (tx "teardown_" ++ k).
Proof.
  intros H. pose proof (nat_text_digits i) as Hd. pose proof (nat_text_nonempty i) as Hn. destruct (nat_text i) as [|x t]; [easy|].
  simpl in Hd. apply andb_true_iff in Hd as [Hd _].
  destruct H as [H|(r & H)]; cbn in H; injection H as <- _; discriminate.
Qed.
Lemma served_plan E cfg svs b : served E cfg svs b -> plan (b_dl (bp_actions b)).
Proof.
  intros H. destruct (served_ids _ _ _ _ H) as [H1 H2]. constructor.
  - apply NoDup_fun. now rewrite b_dl_ids.
  - intros d Hd. apply H2. rewrite <- b_dl_ids. apply in_map_iff. now exists (tu, d).
  - intros k d Hd.
    assert (Hi : In (tx "teardown_" ++ k) (b_ids (bp_actions b))) by (rewrite <- b_dl_ids; apply in_map_iff; now exists (tx "teardown_" ++ k, d)).
    clear Hd H1 H2.
    assert (Dv : forall x, In x (b_ids (cfg_dev svs cfg)) -> x = tx "kuadrant.devMode").
    { unfold cfg_dev. destruct (pc_identifier cfg); cbn [b_ids flat_map]; [|easy]. rewrite dev_ids. intros x [<-|[]]. reflexivity. }
    destruct H as [s bp Hs H|h Hh]; cbn [bp_actions] in Hi.
    + unfold b_ids in Hi. rewrite flat_map_app in Hi. apply in_app_or in Hi as [Hi|Hi].
      * apply compile_set_ids in H as [_ H]. apply H in Hi as (i & Hi). now apply teardown_not_number in Hi.
      * apply Dv in Hi. discriminate.
    + apply Dv in Hi. discriminate.
Qed.

(** The plan in force for a request *)
Lemma A_start E cfg fa p : try_from E cfg = Some fa -> build E fa (ctx0 [EvReqHeaders]) = BOk p ->
  exists b svs, built E fa (ctx0 [EvReqHeaders]) b p /\ cfg_svs cfg = Some svs /\ served E cfg svs b /\
    A E (b_dl (bp_actions b)) [] (p_emit (EvMetric MHits) p).
Proof.
  intros Hf Hb. destruct (build_shape _ _ _ _ Hb) as (b & HB). destruct (bt_sel _ _ _ _ _ HB) as (c1 & Hsel).
  destruct (select_served _ _ _ _ _ _ Hf Hsel) as (svs & Hsv & Hsd).
  exists b, svs. repeat (split; [assumption|]).
  pose proof (build_spec E fa (ctx0 [EvReqHeaders])) as Hsp. rewrite Hb in Hsp. destruct Hsp as (b' & c1' & tds & _ & _ & _ & Hbld & _).
  destruct Hbld as (Hlog & Hbar & Hgrpc & _). cbn in Hlog, Hgrpc.
  destruct (served_ids _ _ _ _ Hsd) as [Hnd Htu].
  assert (Hitems : items [] (p_emit (EvMetric MHits) p) = p_queue p).
  { unfold items, dts. cbn. rewrite (bt_def _ _ _ _ _ HB). cbn. apply app_nil_r. }
  assert (HW : W [] (p_emit (EvMetric MHits) p)).
  { constructor; cbn; auto.
    - apply (bt_wf _ _ _ _ _ HB).
    - rewrite (bt_def _ _ _ _ _ HB). constructor.
    - rewrite (bt_term _ _ _ _ _ HB). discriminate.
    - rewrite (bt_def _ _ _ _ _ HB). intros H. inversion H. }
  assert (Hl : c_log (p_ctx (p_emit (EvMetric MHits) p)) = [EvMetric MHits; EvReqHeaders]) by (cbn; now rewrite Hlog).
  constructor.
  - constructor; auto; rewrite ?Hitems, ?Hl, ?(bt_ids _ _ _ _ _ HB).
    + intros x. unfold cnt. now apply NoDup_count_occ.
    + unfold cnt. now apply count_occ_not_In.
    + intros d [H|[H|[]]]; discriminate.
    + intros a H. cbn in H. lia.
    + intros a. cbn. lia.
  - constructor; auto; rewrite ?Hitems, ?Hl, ?(bt_dl _ _ _ _ _ HB).
    + apply incl_refl.
    + cbn. rewrite (bt_done _ _ _ _ _ HB). easy.
    + unfold dts. cbn. rewrite (bt_def _ _ _ _ _ HB). easy.
    + now repeat split.
  - intros _ a k. rewrite Hl. rewrite !unanswered_cons. intros [(x & H)|[[(x & H)|[H _]] _]]; try discriminate. now apply unanswered_nil in H.
  - intros _. rewrite Hl. now repeat split.
Qed.
