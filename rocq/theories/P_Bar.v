(** Calls on their way, the pause counter, and the parts of the configured tasks that are left. *)
From Coq Require Import String List NArith Bool Lia Arith.
From Verif Require Import Base Value Headers AttrPath Ctx CelProps CelEval Sse Body Tasks Exec Config Legacy Blueprint Factory Filter
  P_Frame P_Apply P_Exec P_Run P_Inv P_Ids P_Plan P_Order P_Term.
Import ListNotations.
Open Scope list_scope.

(** * Calls on their way, from the history alone *)
Fixpoint opens (l : log) : list (N * option text) :=
  match l with
  | [] => []
  | EvDispatch a _ (Some k) :: l' => opens l' ++ [(k, Some a)]
  | EvExport _ (Some k) :: l' => opens l' ++ [(k, None)]
  | EvGrpcResp k _ _ :: l' => filter (fun x => negb (N.eqb (fst x) k)) (opens l')
  | _ :: l' => opens l'
  end.
Definition idle_call (e : ev) : Prop := match e with EvDispatch _ _ (Some _) | EvExport _ (Some _) | EvGrpcResp _ _ _ => False | _ => True end.
Lemma opens_app evs l : Forall idle_call evs -> opens (evs ++ l) = opens l.
Proof. induction 1 as [|e evs He _ IH]; simpl; [reflexivity|]. destruct e; simpl in *; try easy; destruct tok; easy. Qed.
Lemma quiet_idle t evs : Forall (quiet t) evs -> Forall idle_call evs.
Proof. apply Forall_impl. intros e. destruct e; simpl; try easy. destruct tok; easy. Qed.
Lemma final_idle evs : Forall final_ev evs -> Forall idle_call evs.
Proof. apply Forall_impl. intros e. destruct e; simpl; easy. Qed.
Lemma neutral_idle e : neutral e -> idle_call e.
Proof. destruct e; simpl; easy. Qed.

Lemma opens_flight l k : In k (map fst (opens l)) <-> in_flight l k.
Proof.
  induction l as [|e l IH]; simpl.
  - split; [easy|]. intros (l1 & x & l2 & H & _). destruct l2; discriminate.
  - assert (C : in_flight (e :: l) k <-> is_call k e \/ (in_flight l k /\ ~ is_answer k e)).
    { split.
      - intros (l1 & x & l2 & H & Hc & Hf). destruct l2 as [|y l2]; simpl in H; injection H as -> ->; [now left|right].
        inversion Hf; subst. split; [now exists l1, x, l2|assumption].
      - intros [H|[H Hn]]; [now apply in_flight_new|now apply in_flight_cons]. }
    rewrite C, <- IH. clear C IH. destruct e; simpl; try tauto.
    + rewrite !in_map_iff. split.
      * intros ((a & b) & <- & H). apply filter_In in H as [H1 H2]. right. split; [now exists (a, b)|].
        simpl in *. apply negb_true_iff, N.eqb_neq in H2. congruence.
      * intros [[]|[((a & b) & <- & H) Hn]]. exists (a, b). split; [reflexivity|]. apply filter_In. split; [exact H|].
        simpl in *. apply negb_true_iff, N.eqb_neq. congruence.
    + destruct tok; simpl; [|tauto]. rewrite map_app, in_app_iff. simpl. tauto.
    + destruct tok; simpl; [|tauto]. rewrite map_app, in_app_iff. simpl. tauto.
Qed.

(** * The configured parts of a task *)
Inductive node :=
| NCall (id : text) (s : svc) (var : text) (guard : bool) (kids : list text)
| NDyn (id : text) (msg pred : expr) (deps : list text)
| NFail (id : text) (pred : expr) (terminal : bool)
| NHdr (id : text) (pred hx : expr) (target : maptype) (terminal : bool)
| NReply (id : text) (pred deny : expr) (terminal : bool)
| NStore (id : text) (pred ex : expr) (path : text) (export terminal : bool).
Fixpoint nodes (t : task) : list node :=
  match t with
  | TDynamic id s var msg rs pred deps g =>
      NCall id s var g (map t_id rs) :: NDyn id msg pred deps ::
        (fix go l := match l with [] => [] | r :: l' => nodes r ++ go l' end) rs
  | TPending id s var rs g =>
      NCall id s var g (map t_id rs) :: (fix go l := match l with [] => [] | r :: l' => nodes r ++ go l' end) rs
  | TFailureMode t _ | TTracing t => nodes t
  | TFail id p tm => [NFail id p tm]
  | THeaders id p h m tm => [NHdr id p h m tm]
  | TReply id p d tm => [NReply id p d tm]
  | TStore id p e path ex tm _ => [NStore id p e path ex tm]
  | TPendNoop _ _ | TToken _ _ | TNoop => []
  end.
Definition nodess (l : list task) : list node := flat_map nodes l.
Lemma nodes_go l : (fix go l := match l with [] => [] | r :: l' => nodes r ++ go l' end) l = nodess l.
Proof. induction l as [|a l IH]; simpl; [reflexivity|]. now rewrite IH. Qed.
Lemma nodes_core t : nodes (core t) = nodes t.
Proof. induction t; simpl; auto. Qed.
Lemma nodes_norm t : nodes (norm t) = nodes t.
Proof. rewrite <- (nodes_core t). unfold norm. now destruct (core t). Qed.
Lemma nodess_norm l l' : map norm l = map norm l' -> nodess l = nodess l'.
Proof.
  revert l'. induction l as [|a l IH]; intros [|b l'] H; try discriminate; [reflexivity|].
  injection H as Ha Hl. cbn [nodess flat_map]. fold (nodess l). fold (nodess l'). rewrite (IH _ Hl). rewrite <- (nodes_norm a), <- (nodes_norm b), Ha. reflexivity.
Qed.
Lemma nodess_norm1 l t : map norm l = [norm t] -> nodess l = nodes t.
Proof. intros H. change [norm t] with (map norm [t]) in H. apply nodess_norm in H. rewrite H. cbn [nodess flat_map]. apply app_nil_r. Qed.
Lemma nodess_incl l N0 : incl (nodess l) N0 <-> forall t, In t l -> incl (nodes t) N0.
Proof.
  split.
  - intros H t Ht x Hx. apply H. apply in_flat_map. eauto.
  - intros H x Hx. apply in_flat_map in Hx as (t & Ht & Hx). exact (H t Ht x Hx).
Qed.

(** * The invariant *)
Definition pend_guard (t : task) : bool := match core t with TPending _ _ _ _ g => g | _ => false end.
Definition matches (o : N * option text) (d : N * task) : Prop :=
  fst o = fst d /\ match snd o with Some a => t_id (snd d) = a | None => is_noop (snd d) end.
Definition guards_in (d : list (N * task)) : N := N.of_nat (length (filter (fun x => pend_guard (snd x)) d)).

Record B (E : env) (n : nat) (N0 : list node) (ts : list task) (p : pipe) : Prop := {
  b_t : T E n ts p;
  b_nodes : incl (nodess (items ts p)) N0;
  b_open : fresh_tokens E -> Forall2 matches (opens (c_log (p_ctx p))) (p_def p);
  b_nodup : fresh_tokens E -> NoDup (map fst (p_def p));
  b_bar : fresh_tokens E -> ~ over (c_log (p_ctx p)) -> c_bar (p_ctx p) = guards_in (p_def p) }.

Lemma matches_fst l d : Forall2 matches l d -> map fst l = map fst d.
Proof. induction 1 as [|x y l d [H _] _ IH]; simpl; congruence. Qed.
Lemma nset_fresh {V} k (v : V) d : ~ In k (map fst d) -> nset k v d = d ++ [(k, v)].
Proof.
  unfold nset. induction d as [|[k' v'] d IH]; simpl; intros H; [reflexivity|].
  destruct (N.eqb_spec k k') as [->|]; [exfalso; apply H; now left|]. f_equal. apply IH. tauto.
Qed.
Lemma ndel_filter {V} k (d : list (N * V)) : ndel k d = filter (fun x => negb (N.eqb (fst x) k)) d.
Proof.
  unfold ndel. induction d as [|[k' v'] d IH]; simpl; [reflexivity|]. rewrite (N.eqb_sym k k').
  destruct (N.eqb k' k); simpl; congruence.
Qed.
Lemma matches_filter k l d : Forall2 matches l d ->
  Forall2 matches (filter (fun x => negb (N.eqb (fst x) k)) l) (ndel k d).
Proof.
  rewrite ndel_filter. induction 1 as [|[x a] [y t] l d [H1 H2] _ IH]; [constructor|]. simpl in H1. subst y. simpl.
  destruct (negb (N.eqb x k)); [constructor; [now split|exact IH]|exact IH].
Qed.
Lemma NoDup_ndel {V} k (d : list (N * V)) : NoDup (map fst d) -> NoDup (map fst (ndel k d)).
Proof.
  rewrite ndel_filter. induction d as [|x d IH]; simpl; [easy|]. intros H. inversion H; subst.
  destruct (negb (N.eqb (fst x) k)); simpl; auto. constructor; auto.
  intros Hi. apply in_map_iff in Hi as (y & Hy & Hi). apply filter_In in Hi as [Hi _]. apply H2. rewrite <- Hy. now apply in_map.
Qed.
Lemma ndel_absent {V} k (d : list (N * V)) : ~ In k (map fst d) -> ndel k d = d.
Proof.
  rewrite ndel_filter. induction d as [|x d IH]; simpl; intros H; [reflexivity|].
  destruct (N.eqb_spec (fst x) k) as [Hx|]; [exfalso; apply H; now left|]. simpl. f_equal. apply IH. tauto.
Qed.
Lemma nget_None {V} k (d : list (N * V)) : nget k d = None <-> ~ In k (map fst d).
Proof.
  unfold nget. induction d as [|[k' v'] d IH]; simpl; [tauto|]. destruct (N.eqb_spec k k') as [->|Hn].
  - split; [discriminate|]. intros H. exfalso. apply H. now left.
  - rewrite IH. split; [intros H [->|H']; auto|intros H H'; apply H; now right].
Qed.
Lemma guards_ndel k t d : NoDup (map fst d) -> nget k d = Some t ->
  guards_in d = (guards_in (ndel k d) + if pend_guard t then 1 else 0)%N.
Proof.
  unfold guards_in, nget. rewrite ndel_filter. induction d as [|[k' v] d IH]; simpl; intros Hd Hn; [discriminate|]. inversion Hd; subst.
  rewrite (N.eqb_sym k' k). destruct (N.eqb_spec k k') as [->|Hne]; simpl.
  - injection Hn as ->. rewrite <- ndel_filter, ndel_absent by assumption. destruct (pend_guard t); simpl length; lia.
  - specialize (IH H2 Hn). destruct (pend_guard v); simpl length; lia.
Qed.
Lemma guards_noop d : Forall is_noop (map snd d) -> guards_in d = 0%N.
Proof.
  unfold guards_in. induction d as [|[k t] d IH]; simpl; [reflexivity|]. intros H. inversion H; subst. destruct t; try easy. simpl. auto.
Qed.
Lemma guards_app d d' : guards_in (d ++ d') = (guards_in d + guards_in d')%N.
Proof. unfold guards_in. rewrite filter_app, app_length. lia. Qed.

Lemma handle_grpc_log tok t st sz c :
  c_log (emit (EvHandle tok (t_id t)) (set_grpc st sz (emit (EvGrpcResp tok st sz) c))) = EvHandle tok (t_id t) :: EvGrpcResp tok st sz :: c_log c.
Proof. unfold set_grpc. cbn [emit with_log c_grpc]. now destruct (c_grpc c). Qed.
Lemma handle_grpc_bar tok t st sz c :
  c_bar (emit (EvHandle tok (t_id t)) (set_grpc st sz (emit (EvGrpcResp tok st sz) c))) = c_bar c.
Proof. unfold set_grpc. cbn [emit with_log c_grpc]. now destruct (c_grpc c). Qed.

Lemma ssum_opens E t c o c' evs : ssum E t c o c' evs ->
  opens (c_log c') = match o with ODeferred k _ => opens (c_log c) ++ [(k, Some (t_id t))] | _ => opens (c_log c) end.
Proof.
  intros Hs. rewrite (ss_log _ _ _ _ _ _ Hs). pose proof (ss_evs _ _ _ _ _ _ Hs) as He.
  destruct o; try (rewrite opens_app by (repeat constructor); rewrite opens_app by (eapply quiet_idle; exact He); reflexivity).
  destruct He as (cl & -> & _). reflexivity.
Qed.
Lemma fresh_def E p l cl k : fresh_tokens E -> Forall2 matches (opens l) (p_def p) -> h_dispatch E l cl = Some k -> ~ In k (map fst (p_def p)).
Proof.
  intros HF Hm Hd Hi. apply (HF _ _ _ Hd). rewrite <- opens_flight. now rewrite (matches_fst _ _ Hm).
Qed.

Lemma B_run E n N0 t ts p o c ts' p' : blocked (p_done p) t = false -> step E t (p_ctx p) = (o, c) ->
  run_next E t ts p o c = (ts', p') -> T E n ts' p' -> B E n N0 (t :: ts) p -> B E n N0 ts' p'.
Proof.
  intros Hb Hst Hn HT' [HT HN Ho Hd Hbar].
  assert (Hq : wf_q t) by (pose proof (w_ts _ _ (t_w _ _ _ _ HT)) as H; now inversion H).
  assert (Hnov : ~ over (c_log (p_ctx p))).
  { rewrite (t_over _ _ _ _ HT). intros H. destruct (w_term _ _ (t_w _ _ _ _ HT) H). discriminate. }
  apply step_sum in Hst as (evs & Hss). pose proof (ssum_opens _ _ _ _ _ _ Hss) as Hop. pose proof (ss_bar _ _ _ _ _ _ Hss) as Hb'.
  pose proof (wf_q_not_pending _ Hq) as Hnp.
  assert (HN' : forall x, In x ts \/ In x (p_queue p) \/ In x (map snd (p_def p)) -> incl (nodes x) N0).
  { intros x Hx. eapply (proj1 (nodess_incl _ _) HN). unfold items, dts. right. rewrite !in_app_iff. tauto. }
  assert (HNt : incl (nodes t) N0) by (eapply (proj1 (nodess_incl _ _) HN); now left).
  destruct o; simpl in Hn; injection Hn as <- <-.
  - constructor; cbn [p_with_ctx p_with_done p_ctx p_def p_queue] in *; [exact HT'| | | |].
    + apply nodess_incl. intros x Hx. apply HN'. unfold items, dts in Hx. cbn in Hx. rewrite !in_app_iff in Hx. tauto.
    + intros F. rewrite Hop. now apply Ho.
    + exact Hd.
    + intros F _. rewrite Hb'. rewrite (Hbar F Hnov). now destruct (core t).
  - destruct (def_insert_facts tok t0 (p_with_ctx p c)) as (F1 & F2 & F3 & F4 & F5 & F6).
    destruct (ss_evs _ _ _ _ _ _ Hss) as (cl & -> & Hi & Hdis & Hc). cbn [p_with_ctx p_ctx p_def p_queue] in *.
    assert (Hfr : fresh_tokens E -> ~ In tok (map fst (p_def p))).
    { intros F. apply (fresh_def E p (EvEval (t_id t) :: c_log (p_ctx p)) cl); auto. }
    constructor; rewrite ?F1, ?F2, ?F6; cbn [p_with_ctx p_ctx p_def p_queue].
    + exact HT'.
    + apply nodess_incl. intros x Hx. unfold items, dts in Hx. rewrite F6 in Hx. cbn in Hx. rewrite !in_app_iff in Hx.
      assert (Hx' : x = t0 \/ (In x ts \/ In x (p_queue p) \/ In x (map snd (p_def p)))).
      { destruct Hx as [Hx|[Hx|Hx]]; auto. apply In_nset in Hx as [Hx|Hx]; auto. }
      destruct Hx' as [->|Hx']; [|now apply HN']. rewrite <- (nodes_core t) in HNt. rewrite <- (nodes_core t0).
      destruct (core t); try easy. rewrite Hc. simpl in *. intros y [<-|Hy]; apply HNt; [now left|right; now right].
    + intros F. rewrite Hop, nset_fresh by auto. apply Forall2_app; [now apply Ho|]. constructor; [|constructor]. split; [reflexivity|exact Hi].
    + intros F. rewrite nset_fresh, map_app by auto. apply NoDup_app_intro; [now apply Hd|constructor; [easy|constructor]|].
      intros x Hx [<-|[]]. now apply Hfr.
    + intros F _. rewrite nset_fresh, guards_app by auto. rewrite Hb', <- (Hbar F Hnov). unfold guards_in at 1. simpl. unfold pend_guard.
      destruct (core t); try easy. rewrite Hc. destruct guard; simpl; lia.
  - pose proof (ss_requeue _ _ _ _ _ _ Hss) as Hrq. simpl in Hrq.
    assert (Hns : nodess ts0 = nodes t) by (apply nodess_norm1; destruct (core t); easy).
    constructor; cbn [p_with_ctx p_with_queue p_ctx p_def p_queue] in *; [exact HT'| | | |].
    + apply nodess_incl. intros x Hx. unfold items, dts in Hx. cbn in Hx. rewrite !in_app_iff in Hx.
      assert (Hx' : In x ts0 \/ (In x ts \/ In x (p_queue p) \/ In x (map snd (p_def p)))) by tauto.
      destruct Hx' as [Hx'|Hx']; [|now apply HN']. apply (proj1 (nodess_incl ts0 N0)); [now rewrite Hns|exact Hx'].
    + intros F. rewrite Hop. now apply Ho.
    + exact Hd.
    + intros F _. rewrite Hb'. rewrite (Hbar F Hnov). now destruct (core t).
  - constructor; cbn [p_with_ctx p_with_done p_ctx p_def p_queue] in *; [exact HT'| | | |].
    + apply nodess_incl. intros x Hx. apply HN'. unfold items, dts in Hx. cbn in Hx. rewrite !in_app_iff in Hx. tauto.
    + intros F. rewrite Hop. now apply Ho.
    + exact Hd.
    + intros F _. rewrite Hb'. rewrite (Hbar F Hnov). now destruct (core t).
  - pose proof (ss_final _ _ _ _ _ _ Hss) as Hf. simpl in Hf.
    destruct (terminal_sum E t0 c Hf) as (evs2 & T1 & T2 & _).
    constructor; cbn [p_with_ctx p_with_done p_ctx p_def p_queue] in *; [exact HT'| | | |].
    + apply nodess_incl. intros x Hx. apply HN'. unfold items, dts in Hx. cbn in Hx. tauto.
    + intros F. rewrite drop_log, T1, opens_app, Hop by now apply final_idle. now apply Ho.
    + exact Hd.
    + intros F H. exfalso. apply H. apply (t_over _ _ _ _ HT'). reflexivity.
Qed.

Lemma B_handle E n N0 tok st sz t p o c : settled p -> nget tok (p_def p) = Some t ->
  step E t (emit (EvHandle tok (t_id t)) (set_grpc st sz (emit (EvGrpcResp tok st sz) (p_ctx p)))) = (o, c) ->
  T E n [] (handle_next E t (mkPipe c (p_queue p) (ndel tok (p_def p)) (p_done p) (p_td p) (p_term p)) o c) ->
  B E n N0 [] p -> B E n N0 [] (handle_next E t (mkPipe c (p_queue p) (ndel tok (p_def p)) (p_done p) (p_td p) (p_term p)) o c).
Proof.
  intros Hset Hn Hst HT' [HT HN Ho Hd Hbar].
  assert (Hw : wf_d t) by (eapply Forall_nget; [apply (w_def _ _ (t_w _ _ _ _ HT))|exact Hn]).
  apply step_sum in Hst as (evs & Hss). pose proof (ssum_opens _ _ _ _ _ _ Hss) as Hop. pose proof (ss_bar _ _ _ _ _ _ Hss) as Hb'.
  rewrite handle_grpc_log in Hop. rewrite handle_grpc_bar in Hb'.
  destruct (ssum_events _ _ _ _ _ _ Hss) as (g & Hlog & Hp & Hg). rewrite handle_grpc_log in Hlog.
  assert (HN' : forall x, In x (p_queue p) \/ In x (map snd (ndel tok (p_def p))) -> incl (nodes x) N0).
  { intros x Hx. eapply (proj1 (nodess_incl _ _) HN). unfold items, dts. rewrite !in_app_iff. destruct Hx as [Hx|Hx]; [tauto|]. apply In_ndel in Hx. tauto. }
  assert (HNt : incl (nodes t) N0).
  { eapply (proj1 (nodess_incl _ _) HN). unfold items, dts. rewrite !in_app_iff. right. right. eapply In_nget; eauto. }
  assert (Hop' : fresh_tokens E -> Forall2 matches (filter (fun x => negb (N.eqb (fst x) tok)) (opens (c_log (p_ctx p)))) (ndel tok (p_def p))).
  { intros F. apply matches_filter. now apply Ho. }
  assert (Hdd : fresh_tokens E -> NoDup (map fst (ndel tok (p_def p)))) by (intros F; apply NoDup_ndel; now apply Hd).
  assert (Hov : over (c_log (p_ctx p)) -> over (c_log c)).
  { intros H. rewrite Hlog. apply over_app, over_app. now apply (over_app [_; _; _]). }
  assert (Hbc : fresh_tokens E -> ~ over (c_log (p_ctx p)) -> (forall k t, o <> ODeferred k t) -> c_bar c = guards_in (ndel tok (p_def p))).
  { intros F Hno Hnd. specialize (Hbar F Hno). rewrite (guards_ndel tok t) in Hbar by auto. unfold pend_guard in Hbar. apply wf_d_core in Hw.
    assert (Hb2 : c_bar c = match core t with TPending _ _ _ _ true | TPendNoop _ true => (c_bar (p_ctx p) - 1)%N | _ => c_bar (p_ctx p) end)
      by (rewrite Hb'; destruct o; try reflexivity; now destruct (Hnd tok0 t0)).
    destruct (core t); try easy.
    - destruct guard; lia.
    - assert (Hz : guards_in (p_def p) = 0%N).
      { apply guards_noop. apply (w_noop _ _ (t_w _ _ _ _ HT)). apply Exists_exists. exists t. split; [eapply In_nget; eauto|exact Hw]. }
      assert (Hz' : guards_in (ndel tok (p_def p)) = 0%N).
      { apply guards_noop. apply Forall_ndel. apply (w_noop _ _ (t_w _ _ _ _ HT)). apply Exists_exists. exists t. split; [eapply In_nget; eauto|exact Hw]. }
      destruct guard; lia. }
  unfold handle_next in *. destruct o; cbn [p_with_ctx p_with_done p_ctx p_def p_queue p_done p_td p_term] in *.
  - constructor; cbn [p_with_ctx p_with_done p_ctx p_def p_queue] in *; [exact HT'| | |exact Hdd|].
    + apply nodess_incl. intros x Hx. apply HN'. unfold items, dts in Hx. cbn in Hx. now rewrite in_app_iff in Hx.
    + intros F. rewrite Hop. now apply Hop'.
    + intros F H. apply Hbc; auto. discriminate.
  - exfalso. destruct (ss_evs _ _ _ _ _ _ Hss) as (cl & _ & _ & _ & Hc). apply wf_d_core in Hw. destruct (core t); easy.
  - pose proof (ss_requeue _ _ _ _ _ _ Hss) as Hrq. simpl in Hrq.
    assert (Hns : incl (nodess ts) N0).
    { rewrite <- (nodes_core t) in HNt. apply wf_d_core in Hw. destruct (core t); try easy. destruct Hrq as [_ Hrq]. rewrite (nodess_norm _ _ Hrq).
      simpl in HNt. rewrite nodes_go in HNt. intros y Hy. apply HNt. now right. }
    constructor; cbn [p_with_ctx p_with_done p_ctx p_def p_queue emit with_log c_log c_bar] in *; [exact HT'| | |exact Hdd|].
    + apply nodess_incl. intros x Hx. unfold items, dts in Hx. cbn in Hx. rewrite !in_app_iff in Hx.
      destruct Hx as [[Hx|Hx]|Hx]; [|apply HN'; now left|apply HN'; now right]. exact (proj1 (nodess_incl ts N0) Hns x Hx).
    + intros F. change (opens (EvDone (t_id t) :: c_log c)) with (opens (c_log c)). rewrite Hop. now apply Hop'.
    + intros F H. apply Hbc; auto; [|discriminate]. intros H2. apply H. apply (over_app [_]). auto.
  - constructor; cbn [p_with_ctx p_with_done p_ctx p_def p_queue] in *; [exact HT'| | |exact Hdd|].
    + apply nodess_incl. intros x Hx. apply HN'. unfold items, dts in Hx. cbn in Hx. now rewrite in_app_iff in Hx.
    + intros F. rewrite Hop. now apply Hop'.
    + intros F H. apply Hbc; auto. discriminate.
  - pose proof (ss_final _ _ _ _ _ _ Hss) as Hf. simpl in Hf.
    destruct (terminal_sum E t0 c Hf) as (evs2 & T1 & T2 & _).
    constructor; cbn [p_with_ctx p_with_done p_ctx p_def p_queue] in *; [exact HT'| | |exact Hdd|].
    + apply nodess_incl. intros x Hx. apply HN'. unfold items, dts in Hx. cbn in Hx. tauto.
    + intros F. rewrite drop_log, T1, opens_app, Hop by now apply final_idle. now apply Hop'.
    + intros F H. exfalso. apply H. apply (t_over _ _ _ _ HT'). reflexivity.
Qed.

Lemma B_step E n N0 ts p ts' p' : estep E ts p ts' p' -> B E n N0 ts p -> B E n N0 ts' p'.
Proof.
  intros Hs HB. pose proof (T_step _ _ _ _ _ _ Hs (b_t _ _ _ _ _ HB)) as HT'.
  destruct Hs as [p Hset|t ts p Hb|t ts p o c ts' p' Hb Hst Hn|tok st sz p Hset Hn|tok st sz t p o c Hset Hn Hst|p Hq Ht|a rest p Hq Hn Ht].
  - destruct HB as [HT HN Ho Hd Hbar]. constructor; cbn [p_with_queue p_ctx p_def]; auto.
  - destruct HB as [HT HN Ho Hd Hbar]. constructor; cbn [p_with_queue p_ctx p_def]; auto.
    apply nodess_incl. intros x Hx. eapply (proj1 (nodess_incl _ _) HN). unfold items, dts in *. cbn in *. rewrite !in_app_iff in *. simpl in *. tauto.
  - eapply B_run; eauto.
  - destruct HB as [HT HN Ho Hd Hbar]. constructor; cbn [p_emit p_with_ctx p_ctx p_def emit with_log c_log c_bar]; auto.
    + intros F. cbn [opens]. apply nget_None in Hn. rewrite <- (ndel_absent tok (p_def p) Hn). now apply matches_filter, Ho.
    + intros F H. apply Hbar; auto. intros H2. apply H. now apply (over_app [_]).
  - eapply B_handle; eauto.
  - destruct HB as [HT HN Ho Hd Hbar]. constructor; cbn [replace_deferred p_ctx p_def p_queue]; auto.
    + apply nodess_incl. intros x Hx. unfold items, dts in Hx. cbn in Hx. rewrite map_map, in_app_iff in Hx.
      destruct Hx as [Hx|Hx]; [eapply (proj1 (nodess_incl _ _) HN); unfold items; rewrite !in_app_iff; tauto|].
      apply in_map_iff in Hx as (y & <- & _). simpl. easy.
    + intros F. rewrite drop_log. specialize (Ho F). clear - Ho. induction Ho as [|x y l d [H1 H2] _ IH]; simpl; constructor; auto.
      split; [exact H1|]. destruct (snd x); [exact H2|exact I].
    + intros F. rewrite map_map. simpl. now apply Hd.
    + intros F. rewrite drop_log. intros H. destruct Ht as [Ht|Ht]; [exfalso; apply H; now apply (t_over _ _ _ _ HT)|].
      rewrite Ht. simpl. specialize (Hbar F H). now rewrite Ht in Hbar.
  - destruct HB as [HT HN Ho Hd Hbar].
    destruct (td_sum E a (p_with_td p rest)) as (evs & tok & T1 & T2 & T3 & T4 & T5 & T6 & T7 & T8 & _).
    cbn [p_with_td p_ctx p_queue p_def p_done p_term p_td] in *.
    assert (Hfr : fresh_tokens E -> match tok with Some k => ~ In k (map fst (p_def p)) | None => True end).
    { intros F. destruct tok as [k|]; [|exact I]. destruct T2 as [[_ H]|(cl & _ & Hdis)]; [discriminate|].
      eapply (fresh_def E p (EvTeardown :: c_log (p_ctx p)) cl); eauto. }
    constructor.
    + exact HT'.
    + apply nodess_incl. intros x Hx. unfold items, dts in Hx. rewrite T3, T4 in Hx. rewrite !in_app_iff in Hx.
      assert (Hx' : nodes x = [] \/ In x (p_queue p) \/ In x (map snd (p_def p))).
      { destruct Hx as [[]|[Hx|Hx]]; auto. destruct tok; auto. apply In_nset in Hx as [->|Hx]; auto. }
      destruct Hx' as [->|Hx']; [easy|]. eapply (proj1 (nodess_incl _ _) HN). unfold items, dts. rewrite !in_app_iff. tauto.
    + intros F. specialize (Hfr F). rewrite T1, T3. destruct T2 as [[-> ->]|(cl & -> & Hdis)]; [now apply Ho|].
      destruct tok as [k|]; cbn [opens app]; [|now apply Ho]. rewrite nset_fresh by exact Hfr. apply Forall2_app; [now apply Ho|].
      constructor; [|constructor]. now split.
    + intros F. specialize (Hfr F). rewrite T3. destruct tok as [k|]; [|now apply Hd].
      rewrite nset_fresh, map_app by exact Hfr. apply NoDup_app_intro; [now apply Hd|constructor; [easy|constructor]|].
      intros x Hx [<-|[]]. now apply Hfr.
    + intros F H. rewrite T8. rewrite (Hbar F).
      * rewrite guards_noop by exact Hn. symmetry. apply guards_noop. now apply td_step_noop.
      * intros H2. apply H. rewrite T1. apply over_app. now apply (over_app [_]).
Qed.

(** * At the level of the filter *)
Definition BL (E : env) (n : nat) (l : log) : Prop := TL E n l /\ td_count l = n /\ (fresh_tokens E -> opens l = []).
Lemma B_ctx E n N0 ts p c : c_grpc c = c_grpc (p_ctx p) -> c_log c = c_log (p_ctx p) -> c_bar c = c_bar (p_ctx p) ->
  B E n N0 ts p -> B E n N0 ts (p_with_ctx p c).
Proof.
  intros Hg Hlg Hb [HT HN Ho Hd Hbar]. constructor; cbn [p_with_ctx p_ctx p_def]; rewrite ?Hlg, ?Hb; auto. now apply T_ctx.
Qed.
Lemma idle_opens e l : idle_ev e -> opens l = [] -> opens (e :: l) = [].
Proof. intros [H|(tok & st & sz & ->)] Hl; [destruct e; simpl in *; easy|]. simpl. now rewrite Hl. Qed.
Lemma B_finv E n N0 : finv E (B E n N0) (BL E n).
Proof.
  constructor.
  - apply B_step.
  - intros p e He [HT HN Ho Hd Hbar]. constructor; cbn [p_emit p_with_ctx p_ctx p_def emit with_log c_log c_bar]; auto.
    + apply (fi_neutral _ _ _ (T_finv E n)); auto.
    + intros F. change (e :: c_log (p_ctx p)) with ([e] ++ c_log (p_ctx p)). rewrite opens_app; [now apply Ho|]. constructor; [now apply neutral_idle|constructor].
    + intros F H. apply Hbar; auto. intros H2. apply H. now apply (over_app [_]).
  - intros p b. now apply B_ctx.
  - intros p b. now apply B_ctx.
  - intros p [HT HN Ho Hd Hbar] Hlv Hq Hdf Ht. destruct (fi_log _ _ _ (T_finv E n) p HT Hlv Hq Hdf Ht) as [H1 H2].
    split; [exact H1|]. split; [exact H2|]. intros F. specialize (Ho F). rewrite Hdf in Ho. now inversion Ho.
  - intros l e He (L1 & L2 & L3). destruct (fi_idle _ _ _ (T_finv E n) l e He (conj L1 L2)) as [H1 H2].
    split; [exact H1|]. split; [exact H2|]. intros F. apply idle_opens; auto.
Qed.
Lemma B_start E fa p : build E fa (ctx0 [EvReqHeaders]) = BOk p ->
  B E (length (p_td p)) (nodess (p_queue p)) [] (p_emit (EvMetric MHits) p).
Proof.
  intros Hb. pose proof (T_start E fa p Hb) as HT. destruct (build_shape _ _ _ _ Hb) as (b & HB).
  pose proof (build_spec E fa (ctx0 [EvReqHeaders])) as Hsp. rewrite Hb in Hsp. destruct Hsp as (b' & c1' & tds & _ & _ & _ & Hbld & _).
  destruct Hbld as (Hlog & Hbar & Hgrpc & _). cbn in Hlog, Hbar.
  constructor; [exact HT| | | |]; unfold items, dts; cbn [p_emit p_with_ctx p_ctx p_def p_queue emit with_log c_log c_bar]; rewrite ?(bt_def _ _ _ _ _ HB), ?Hlog, ?Hbar.
  - cbn [map app]. rewrite app_nil_r. apply incl_refl.
  - intros _. constructor.
  - intros _. constructor.
  - reflexivity.
Qed.
Lemma B_run_filter E fa p l : build E fa (ctx0 [EvReqHeaders]) = BOk p -> later l ->
  holds (B E (length (p_td p)) (nodess (p_queue p))) (BL E (length (p_td p))) (run E fa l).
Proof. intros Hb. apply pipe_invariant with (p := p); [apply B_finv|exact Hb|now apply B_start with (fa := fa)]. Qed.
