(** Accounting of action ids and call tokens. *)
From Coq Require Import String List NArith Bool Lia Arith.
From Verif Require Import Base Value Headers AttrPath Ctx CelProps CelEval Sse Body Tasks Exec P_Frame P_Apply P_Exec P_Inv.
Import ListNotations.
Open Scope list_scope.

(** Ids of the actions a task stands for; [nst] those that run on its reply *)
Fixpoint idl (t : task) : list text :=
  match t with
  | TDynamic id _ _ _ rs _ _ _ | TPending id _ _ rs _ =>
      id :: (fix go l := match l with [] => [] | r :: l' => idl r ++ go l' end) rs
  | TPendNoop _ _ | TToken _ _ | TNoop => []
  | TFailureMode t _ | TTracing t => idl t
  | TFail id _ _ | THeaders id _ _ _ _ | TReply id _ _ _ | TStore id _ _ _ _ _ _ => [id]
  end.
Definition idls (l : list task) : list text := flat_map idl l.
Definition nst (t : task) : list text :=
  match core t with TDynamic _ _ _ _ rs _ _ _ | TPending _ _ _ rs _ => idls rs | _ => [] end.

Lemma idl_go rs : (fix go l := match l with [] => [] | r :: l' => idl r ++ go l' end) rs = idls rs.
Proof. induction rs as [|r rs IH]; simpl; [reflexivity|]. now rewrite IH. Qed.
Lemma idl_core t : idl (core t) = idl t.
Proof. induction t; simpl; auto. Qed.
Lemma idl_norm t : idl (norm t) = idl t.
Proof. rewrite <- (idl_core t). unfold norm. now destruct (core t). Qed.
Lemma idls_norm l l' : map norm l = map norm l' -> idls l = idls l'.
Proof.
  revert l'. induction l as [|a l IH]; intros [|b l'] H; try discriminate; [reflexivity|].
  injection H as Ha Hl. simpl. rewrite (IH _ Hl). rewrite <- (idl_norm a), <- (idl_norm b), Ha. reflexivity.
Qed.
Lemma idls_norm1 l t : map norm l = [norm t] -> idls l = idl t.
Proof. intros H. change [norm t] with (map norm [t]) in H. apply idls_norm in H. rewrite H. simpl. apply app_nil_r. Qed.
Lemma idls_app l l' : idls (l ++ l') = idls l ++ idls l'.
Proof. unfold idls. apply flat_map_app. Qed.

Definition cnt (x : text) (l : list text) : nat := count_occ text_eq_dec l x.
Lemma cnt_app x a b : cnt x (a ++ b) = cnt x a + cnt x b.
Proof. unfold cnt. apply count_occ_app. Qed.
Lemma cnt_cons x a l : cnt x (a :: l) = (if text_eq_dec a x then 1 else 0) + cnt x l.
Proof. unfold cnt. simpl. now destruct (text_eq_dec a x). Qed.
Lemma cnt_nil x : cnt x [] = 0.
Proof. reflexivity. Qed.
Lemma cnt_self x l : cnt x (x :: l) = S (cnt x l).
Proof. rewrite cnt_cons. destruct (text_eq_dec x x); [reflexivity|easy]. Qed.
Lemma cnt_In x l : In x l <-> 0 < cnt x l.
Proof. unfold cnt. apply count_occ_In. Qed.

Definition dts (p : pipe) : list task := map snd (p_def p).
Definition items (ts : list task) (p : pipe) : list task := ts ++ p_queue p ++ dts p.

Lemma cnt_nset x k t d : cnt x (idls (map snd (nset k t d))) <= cnt x (idl t) + cnt x (idls (map snd d)).
Proof.
  induction d as [|[k' t'] d IH]; simpl.
  - rewrite app_nil_r. lia.
  - destruct (N.eqb k k'); simpl; rewrite !cnt_app; lia.
Qed.
Lemma cnt_ndel x k d t : nget k d = Some t ->
  cnt x (idls (map snd (ndel k d))) + cnt x (idl t) <= cnt x (idls (map snd d)).
Proof.
  assert (Hle : forall d, cnt x (idls (map snd (ndel k d))) <= cnt x (idls (map snd d))).
  { clear. induction d as [|[k' t'] d IH]; simpl; [lia|]. destruct (N.eqb k k'); simpl; rewrite !cnt_app; lia. }
  induction d as [|[k' t'] d IH]; simpl; [discriminate|].
  destruct (N.eqb k k'); simpl; rewrite !cnt_app.
  - intros [= ->]. specialize (Hle d). lia.
  - intros H. apply IH in H. rewrite ?cnt_app. lia.
Qed.
Definition nsts (l : list task) : list text := flat_map nst l.
Lemma nsts_nset x k t d : cnt x (nsts (map snd (nset k t d))) <= cnt x (nst t) + cnt x (nsts (map snd d)).
Proof.
  induction d as [|[k' t'] d IH]; simpl.
  - rewrite app_nil_r. lia.
  - destruct (N.eqb k k'); simpl; rewrite !cnt_app; lia.
Qed.
Lemma nsts_ndel x k d : cnt x (nsts (map snd (ndel k d))) <= cnt x (nsts (map snd d)).
Proof. induction d as [|[k' t'] d IH]; simpl; [lia|]. destruct (N.eqb k k'); simpl; rewrite !cnt_app; lia. Qed.
Lemma nsts_nget x k d t : nget k d = Some t -> cnt x (nst t) <= cnt x (nsts (map snd d)).
Proof.
  induction d as [|[k' t'] d IH]; simpl; [discriminate|]. rewrite cnt_app.
  destruct (N.eqb k k'); [intros [= ->]; lia|]. intros H. apply IH in H. lia.
Qed.
Lemma noop_idls l : Forall is_noop l -> idls l = [] /\ nsts l = [].
Proof.
  induction 1 as [|t l Ht _ [IH1 IH2]]; [now split|]. simpl. rewrite IH1, IH2. destruct t; easy.
Qed.
(** a task with ids has its own *)
Lemma idl_head t : (exists id, idl t = id :: nst t /\ id = t_id t) \/ idl t = [] /\ nst t = [].
Proof.
  induction t; simpl; try (left; eexists; split; reflexivity); try (right; split; reflexivity); try assumption.
  all: left; eexists; split; [|reflexivity]; unfold nst; simpl; now rewrite idl_go.
Qed.

Lemma nst_le x t : cnt x (nst t) <= cnt x (idl t).
Proof. destruct (idl_head t) as [(id & -> & _)|[-> ->]]; [rewrite cnt_cons|]; lia. Qed.

(** Calls on their way, per the history *)
Definition is_call (k : N) (e : ev) : Prop :=
  match e with EvDispatch _ _ (Some k') | EvExport _ (Some k') => k' = k | _ => False end.
Definition is_answer (k : N) (e : ev) : Prop := match e with EvGrpcResp k' _ _ => k' = k | _ => False end.
Definition in_flight (l : log) (k : N) : Prop :=
  exists l1 e l2, l = l2 ++ e :: l1 /\ is_call k e /\ Forall (fun e => ~ is_answer k e) l2.
(** The host never hands out the token of a call that is still on its way *)
Definition fresh_tokens (E : env) : Prop :=
  forall l c k, h_dispatch E l c = Some k -> ~ in_flight l k.

Lemma in_flight_cons l k e : ~ is_answer k e -> in_flight l k -> in_flight (e :: l) k.
Proof.
  intros He (l1 & e1 & l2 & -> & H1 & H2). exists l1, e1, (e :: l2). split; [reflexivity|]. split; [exact H1|now constructor].
Qed.
Lemma in_flight_app l k l' : Forall (fun e => ~ is_answer k e) l' -> in_flight l k -> in_flight (l' ++ l) k.
Proof. induction 1 as [|e l' He _ IH]; simpl; intros Hf; [exact Hf|]. apply in_flight_cons; auto. Qed.
Lemma in_flight_new l k e : is_call k e -> in_flight (e :: l) k.
Proof. intros H. exists l, e, []. split; [reflexivity|]. split; [exact H|constructor]. Qed.

(** Events that no application of a task, nor the terminal task, adds on its own *)
Definition marked (e : ev) : Prop :=
  match e with
  | EvDispatch _ _ (Some _) | EvExport _ _ | EvGrpcResp _ _ _ | EvDone _ | EvFailed _ | EvTerminate _
  | EvHandle _ _ | EvTeardown | EvEval _ => True
  | _ => False
  end.
Lemma quiet_unmarked t evs e : Forall (quiet t) evs -> In e evs -> ~ marked e.
Proof.
  intros Hq Hi. rewrite Forall_forall in Hq. specialize (Hq e Hi). destruct e; simpl in *; try easy. destruct tok; easy.
Qed.
Lemma final_unmarked evs e : Forall final_ev evs -> In e evs -> ~ marked e.
Proof.
  intros Hq Hi. rewrite Forall_forall in Hq. specialize (Hq e Hi). destruct e; simpl in *; easy.
Qed.
Lemma quiet_no_answer t evs k : Forall (quiet t) evs -> Forall (fun e => ~ is_answer k e) evs.
Proof.
  intros H. apply Forall_forall. intros e Hi Ha. apply (quiet_unmarked _ _ _ H Hi). destruct e; simpl in *; easy.
Qed.
Lemma final_no_answer evs k : Forall final_ev evs -> Forall (fun e => ~ is_answer k e) evs.
Proof.
  intros H. apply Forall_forall. intros e Hi Ha. apply (final_unmarked _ _ H Hi). destruct e; simpl in *; easy.
Qed.

(** Marked events added by one small step *)
Definition is_disp_of (a : text) (e : ev) : bool :=
  match e with EvDispatch a' _ (Some _) => text_eqb a a' | _ => false end.
Definition calls_of (a : text) (l : log) : nat := length (filter (is_disp_of a) l).
Lemma calls_app a l l' : calls_of a (l ++ l') = calls_of a l + calls_of a l'.
Proof. unfold calls_of. now rewrite filter_app, app_length. Qed.
Lemma calls_cons a e l : calls_of a (e :: l) = (if is_disp_of a e then 1 else 0) + calls_of a l.
Proof. unfold calls_of. simpl. now destruct (is_disp_of a e). Qed.
Lemma calls_zero a l : Forall (fun e => ~ marked e) l -> calls_of a l = 0.
Proof.
  induction 1 as [|e l He _ IH]; [reflexivity|]. rewrite calls_cons, IH. destruct e; simpl in *; try reflexivity.
  destruct tok; [now destruct He|reflexivity].
Qed.
Lemma calls_pos a l : 0 < calls_of a l -> exists cl tok, In (EvDispatch a cl (Some tok)) l.
Proof.
  induction l as [|e l IH]; [unfold calls_of; simpl; lia|]. rewrite calls_cons.
  destruct (is_disp_of a e) eqn:He.
  - intros _. destruct e; try discriminate. destruct tok; [|discriminate]. simpl in He. apply text_eqb_eq in He. subst.
    eexists _, _. now left.
  - intros H. destruct IH as (cl & tok & Hi); [lia|]. exists cl, tok. now right.
Qed.
Lemma quiet_all t evs : Forall (quiet t) evs -> Forall (fun e => ~ marked e) evs.
Proof. intros H. apply Forall_forall. intros e. now apply (quiet_unmarked t). Qed.
Lemma final_all evs : Forall final_ev evs -> Forall (fun e => ~ marked e) evs.
Proof. intros H. apply Forall_forall. intros e. now apply final_unmarked. Qed.

Definition tu : text := tx "token_usage".

Record J (ts : list task) (p : pipe) : Prop := {
  j_w : W ts p;
  j_one : forall x, cnt x (idls (items ts p)) <= 1;
  j_spec : cnt tu (idls (items ts p)) = 0;
  j_done : forall d, In (EvDone d) (c_log (p_ctx p)) -> cnt d (idls (items ts p)) = 0;
  j_disp : forall a, 0 < calls_of a (c_log (p_ctx p)) ->
      cnt a (idls ts) = 0 /\ cnt a (idls (p_queue p)) = 0 /\ cnt a (nsts (dts p)) = 0;
  j_calls : forall a, calls_of a (c_log (p_ctx p)) <= 1
}.

(** the id of a task that ran from the queue *)
Lemma task_id_cases t : wf_q t -> In (t_id t) (idl t) \/ t_id t = tu.
Proof.
  intros Hq. rewrite <- idl_core, <- core_id. apply wf_q_not_pending in Hq.
  assert (Hc : core (core t) = core t) by apply core_core.
  destruct (core t); simpl in *; auto; try (now left; left); try easy.
  - exfalso. simpl in Hc. clear -Hc. assert (K : forall t, match core t with TFailureMode _ _ | TTracing _ => False | _ => True end).
    { clear. induction t; simpl; auto. } specialize (K t0). now rewrite Hc in K.
  - exfalso. simpl in Hc. clear -Hc. assert (K : forall t, match core t with TFailureMode _ _ | TTracing _ => False | _ => True end).
    { clear. induction t; simpl; auto. } specialize (K t0). now rewrite Hc in K.
Qed.

Lemma calls_log a t o evs l : (forall tok t', o <> ODeferred tok t') -> Forall (quiet t) evs ->
  calls_of a (ghost t o ++ evs ++ EvEval (t_id t) :: l) = calls_of a l.
Proof.
  intros Ho Hq. rewrite !calls_app, calls_cons. rewrite (calls_zero a evs) by (eapply quiet_all; eauto). simpl.
  destruct o; try reflexivity.
Qed.
Lemma done_log d t o evs l : Forall (quiet t) evs -> In (EvDone d) (ghost t o ++ evs ++ EvEval (t_id t) :: l) ->
  o = ODone /\ d = t_id t \/ In (EvDone d) l.
Proof.
  intros Hq H. rewrite in_app_iff in H. destruct H as [H|H].
  - destruct o; simpl in H; try easy; destruct H as [H|[]]; try discriminate. injection H as ->. now left.
  - rewrite in_app_iff in H. destruct H as [H|[H|H]]; [|discriminate|now right].
    exfalso. apply (quiet_unmarked _ _ _ Hq H). exact I.
Qed.

Lemma idls_cons t l : idls (t :: l) = idl t ++ idls l. Proof. reflexivity. Qed.
Lemma idls_nil : idls [] = []. Proof. reflexivity. Qed.
Ltac cn := unfold items, dts in *;
  cbn [p_ctx p_queue p_def p_done p_td p_term p_with_queue p_with_ctx p_with_done p_with_td p_emit app] in *;
  rewrite ?idls_cons, ?idls_app, ?idls_cons, ?idls_app, ?idls_nil, ?app_nil_r, ?cnt_app, ?cnt_nil in *.

Lemma set_grpc_log st sz c : c_log (set_grpc st sz c) = c_log c.
Proof. unfold set_grpc. now destruct (c_grpc c). Qed.

Lemma J_step E ts p ts' p' : estep E ts p ts' p' -> J ts p -> J ts' p'.
Proof.
  intros Hs [HW J1 J2 J3 J4 J5]. pose proof (W_step _ _ _ _ _ Hs HW) as HW'.
  destruct Hs as [p Hset|t ts p Hb|t ts p o c ts' p' Hb Hst Hn|tok st sz p Hset Hn|tok st sz t p o c Hset Hn Hst|p Hq Ht|a rest p Hq Hn Ht].
  - constructor; [exact HW'| | | | |exact J5].
    + intros x. specialize (J1 x). cn. lia.
    + cn. lia.
    + intros d Hd. specialize (J3 d Hd). cn. lia.
    + intros a Ha. specialize (J4 a Ha). cn. repeat split; lia.
  - constructor; [exact HW'| | | | |exact J5].
    + intros x. specialize (J1 x). cn. lia.
    + cn. lia.
    + intros d Hd. specialize (J3 d Hd). cn. lia.
    + intros a Ha. specialize (J4 a Ha). cn. repeat split; lia.
  - pose proof (w_ts _ _ HW) as Hqs. inversion Hqs as [|x y Hq Hqs']; subst. clear Hqs.
    apply step_sum in Hst as (evs & Hss).
    pose proof (ss_log _ _ _ _ _ _ Hss) as Hl. pose proof (ss_evs _ _ _ _ _ _ Hss) as He.
    assert (Hid : cnt (t_id t) (idls (ts ++ p_queue p ++ dts p)) = 0).
    { destruct (task_id_cases t Hq) as [Hi|Hi].
      - apply cnt_In in Hi. specialize (J1 (t_id t)). cn. lia.
      - rewrite Hi. cn. lia. }
    destruct o; simpl in Hn; injection Hn as <- <-.
    + constructor; [exact HW'| | | | |].
      * intros x. specialize (J1 x). cn. lia.
      * cn. lia.
      * intros d Hd. simpl in Hd. rewrite Hl in Hd. apply done_log in Hd; [|exact He].
        destruct Hd as [[_ ->]|Hd]; [exact Hid|]. specialize (J3 d Hd). cn. lia.
      * intros a Ha. simpl in Ha. rewrite Hl, calls_log in Ha; [|discriminate|exact He]. specialize (J4 a Ha). cn. repeat split; lia.
      * intros a. simpl. rewrite Hl, calls_log; [apply J5|discriminate|exact He].
    + destruct (def_insert_facts tok t0 (p_with_ctx p c)) as (F1 & F2 & F3 & F4 & F5 & F6).
      destruct He as (cl & -> & Hi & Hdis & Hc).
      assert (Hidl : idl t0 = t_id t :: nst t /\ idl t = t_id t :: nst t /\ nst t0 = nst t).
      { rewrite <- (idl_core t0), <- (idl_core t), <- (core_id t). unfold nst. destruct (core t); try easy. rewrite Hc. simpl.
        rewrite idl_go. now repeat split. }
      destruct Hidl as (Hi1 & Hi2 & Hi3).
      assert (Hlog : c_log (p_ctx (def_insert tok t0 (p_with_ctx p c))) = EvDispatch (t_id t) cl (Some tok) :: EvEval (t_id t) :: c_log (p_ctx p)).
      { rewrite F1. simpl. rewrite Hl. reflexivity. }
      assert (Hdl : forall x, cnt x (idls (items ts (def_insert tok t0 (p_with_ctx p c)))) <= cnt x (idls (items (t :: ts) p))).
      { intros x. unfold items, dts. rewrite F6. simpl. rewrite !idls_app, !cnt_app. pose proof (cnt_nset x tok t0 (p_def p)).
        rewrite Hi2, Hi1 in *. lia. }
      constructor; [exact HW'| | | | |].
      * intros x. specialize (J1 x). specialize (Hdl x). lia.
      * specialize (Hdl tu). lia.
      * intros d Hd. rewrite Hlog in Hd. destruct Hd as [Hd|[Hd|Hd]]; try discriminate. specialize (J3 d Hd). specialize (Hdl d). lia.
      * intros a Ha. rewrite Hlog, !calls_cons in Ha. simpl in Ha.
        unfold dts. rewrite F6. simpl. pose proof (nsts_nset a tok t0 (p_def p)) as Hns. rewrite Hi3 in Hns.
        destruct (text_eqb a (t_id t)) eqn:Hat.
        -- apply text_eqb_eq in Hat. subst a. specialize (J1 (t_id t)). cn. rewrite Hi2, cnt_self in J1.
           assert (cnt (t_id t) (nsts (map snd (p_def p))) <= cnt (t_id t) (idls (map snd (p_def p)))).
           { clear. induction (map snd (p_def p)) as [|x l IH]; simpl; [lia|]. rewrite !cnt_app. pose proof (nst_le (t_id t) x). lia. }
           lia.
        -- specialize (J4 a Ha). cn. pose proof (nst_le a t). lia.
      * intros a. rewrite Hlog, !calls_cons. simpl.
        destruct (text_eqb a (t_id t)) eqn:Hat; [|apply J5].
        apply text_eqb_eq in Hat. subst a. destruct (calls_of (t_id t) (c_log (p_ctx p))) eqn:Hz; [lia|].
        destruct (J4 (t_id t)) as [H1 _]; [lia|]. cn. rewrite Hi2, cnt_self in H1. lia.
    + pose proof (ss_requeue _ _ _ _ _ _ Hss) as Hr. simpl in Hr.
      assert (Hidl : idls ts0 = idl t).
      { apply idls_norm1. apply wf_q_not_pending in Hq. destruct (core t); easy. }
      constructor; [exact HW'| | | | |].
      * intros x. specialize (J1 x). cn. rewrite Hidl. lia.
      * cn. rewrite Hidl. lia.
      * intros d Hd. simpl in Hd. rewrite Hl in Hd. apply done_log in Hd; [|exact He].
        destruct Hd as [[Hd _]|Hd]; [discriminate|]. specialize (J3 d Hd). cn. rewrite Hidl. lia.
      * intros a Ha. simpl in Ha. rewrite Hl, calls_log in Ha; [|discriminate|exact He]. specialize (J4 a Ha). cn. rewrite Hidl. lia.
      * intros a. simpl. rewrite Hl, calls_log; [apply J5|discriminate|exact He].
    + constructor; [exact HW'| | | | |].
      * intros x. specialize (J1 x). cn. lia.
      * cn. lia.
      * intros d Hd. simpl in Hd. rewrite Hl in Hd. apply done_log in Hd; [|exact He].
        destruct Hd as [[Hd _]|Hd]; [discriminate|]. specialize (J3 d Hd). cn. lia.
      * intros a Ha. simpl in Ha. rewrite Hl, calls_log in Ha; [|discriminate|exact He]. specialize (J4 a Ha). cn. repeat split; lia.
      * intros a. simpl. rewrite Hl, calls_log; [apply J5|discriminate|exact He].
    + pose proof (ss_final _ _ _ _ _ _ Hss) as Hf. simpl in Hf.
      destruct (terminal_sum E t0 c Hf) as (evs2 & T1 & T2 & T3 & T4 & _).
      assert (Hcl : forall a, calls_of a (c_log (run_terminal E t0 c)) = calls_of a (c_log (p_ctx p))).
      { intros a. rewrite T1, calls_app, (calls_zero a evs2) by now apply final_all. rewrite Hl, calls_log; [reflexivity|discriminate|exact He]. }
      constructor; [exact HW'| | | | |].
      * intros x. specialize (J1 x). cn. lia.
      * cn. lia.
      * intros d Hd. simpl in Hd. rewrite T1, in_app_iff in Hd. destruct Hd as [Hd|Hd]; [exfalso; apply (final_unmarked _ _ T2 Hd); exact I|].
        rewrite Hl in Hd. apply done_log in Hd; [|exact He].
        destruct Hd as [[Hd _]|Hd]; [discriminate|]. specialize (J3 d Hd). cn. lia.
      * intros a Ha. simpl in Ha. rewrite Hcl in Ha. specialize (J4 a Ha). cn. repeat split; lia.
      * intros a. simpl. rewrite Hcl. apply J5.
  - constructor; auto. simpl. intros d [Hd|Hd]; [discriminate|]. now apply J3.
  - assert (Hd : wf_d t) by (eapply Forall_nget; [apply (w_def _ _ HW)|exact Hn]).
    apply step_sum in Hst as (evs & Hss).
    pose proof (ss_log _ _ _ _ _ _ Hss) as Hl. pose proof (ss_evs _ _ _ _ _ _ Hss) as He.
    cbn [emit with_log c_log] in Hl. rewrite set_grpc_log in Hl. cbn [emit with_log c_log] in Hl.
    pose proof (fun x => cnt_ndel x _ _ _ Hn) as Hnd. pose proof (fun x => nsts_ndel x tok (p_def p)) as Hns.
    pose proof (fun x => nsts_nget x _ _ _ Hn) as Hng.
    assert (Hid : cnt (t_id t) (nst t) = 0 /\ cnt (t_id t) (idls (p_queue p)) = 0 /\ cnt (t_id t) (idls (map snd (ndel tok (p_def p)))) = 0).
    { destruct (idl_head t) as [(id & Hi & ->)|[Hi Hi2]].
      - specialize (J1 (t_id t)). specialize (Hnd (t_id t)). cn. rewrite Hi, cnt_self in Hnd. lia.
      - assert (Hnoop : is_noop t).
        { destruct Hd as [Hd|Hd]; [exact Hd|]. unfold wf_p in Hd. rewrite <- idl_core in Hi. destruct (core t); easy. }
        destruct (w_noop _ _ HW) as (_ & Hq & Hall).
        { apply Exists_exists. exists t. split; [|exact Hnoop]. apply in_map_iff. exists (tok, t). split; [reflexivity|now apply nget_In]. }
        rewrite Hi2, Hq. apply (ndel_noop tok), noop_idls in Hall as [-> _]. now rewrite idls_nil, !cnt_nil. }
    assert (Hcalls : forall a, (forall k x, o <> ODeferred k x) -> calls_of a (c_log c) = calls_of a (c_log (p_ctx p))).
    { intros a Ho. rewrite Hl. destruct o; try (rewrite calls_log; [reflexivity|discriminate|exact He]). now destruct (Ho tok0 t0). }
    assert (Hdone : (forall k x, o <> ODeferred k x) -> forall d, In (EvDone d) (c_log c) -> d = t_id t \/ In (EvDone d) (c_log (p_ctx p))).
    { intros Ho d Hi. rewrite Hl in Hi. assert (Hq : Forall (quiet t) evs) by (destruct o; try exact He; now destruct (Ho tok0 t0)).
      apply done_log in Hi; [|exact Hq]. destruct Hi as [[_ ->]|[Hi|[Hi|Hi]]]; try discriminate; auto. }
    destruct o; simpl.
    + constructor; [exact HW'| | | | |].
      * intros x. specialize (J1 x). specialize (Hnd x). cn. lia.
      * specialize (Hnd tu). cn. lia.
      * intros d Hi. simpl in Hi. apply Hdone in Hi; [|discriminate].
        destruct Hi as [->|Hi]; [|specialize (J3 d Hi); specialize (Hnd d)]; cn; lia.
      * intros a Ha. simpl in Ha. rewrite Hcalls in Ha by discriminate. specialize (J4 a Ha). specialize (Hns a). cn. repeat split; lia.
      * intros a. simpl. rewrite Hcalls by discriminate. apply J5.
    + destruct He as (cl & _ & _ & _ & Hx). exfalso. apply wf_d_core in Hd. destruct (core t); easy.
    + pose proof (ss_requeue _ _ _ _ _ _ Hss) as Hr. simpl in Hr.
      assert (Hidl : idls ts = nst t).
      { unfold nst. apply wf_d_core in Hd. destruct (core t); try easy. now apply idls_norm. }
      constructor; [exact HW'| | | | |].
      * intros x. specialize (J1 x). specialize (Hnd x). pose proof (nst_le x t). cn. rewrite Hidl. lia.
      * specialize (Hnd tu). pose proof (nst_le tu t). cn. rewrite Hidl. lia.
      * intros d Hi. simpl in Hi. destruct Hi as [Hi|Hi].
        -- injection Hi as <-. cn. rewrite Hidl. lia.
        -- apply Hdone in Hi; [|discriminate].
           destruct Hi as [->|Hi]; [|specialize (J3 d Hi); specialize (Hnd d); pose proof (nst_le d t)]; cn; rewrite Hidl; lia.
      * intros a Ha. simpl in Ha. rewrite calls_cons in Ha. simpl in Ha. rewrite Hcalls in Ha by discriminate. specialize (J4 a Ha).
        specialize (Hns a). specialize (Hng a). cn. rewrite Hidl. repeat split; lia.
      * intros a. simpl. rewrite calls_cons. simpl. rewrite Hcalls by discriminate. apply J5.
    + constructor; [exact HW'| | | | |].
      * intros x. specialize (J1 x). specialize (Hnd x). cn. lia.
      * specialize (Hnd tu). cn. lia.
      * intros d Hi. simpl in Hi. apply Hdone in Hi; [|discriminate].
        destruct Hi as [->|Hi]; [|specialize (J3 d Hi); specialize (Hnd d)]; cn; lia.
      * intros a Ha. simpl in Ha. rewrite Hcalls in Ha by discriminate. specialize (J4 a Ha). specialize (Hns a). cn. repeat split; lia.
      * intros a. simpl. rewrite Hcalls by discriminate. apply J5.
    + pose proof (ss_final _ _ _ _ _ _ Hss) as Hf. simpl in Hf.
      destruct (terminal_sum E t0 c Hf) as (evs2 & T1 & T2 & T3 & T4 & _).
      assert (Hcl : forall a, calls_of a (c_log (run_terminal E t0 c)) = calls_of a (c_log (p_ctx p))).
      { intros a. rewrite T1, calls_app, (calls_zero a evs2) by now apply final_all. apply Hcalls. discriminate. }
      constructor; [exact HW'| | | | |].
      * intros x. specialize (J1 x). specialize (Hnd x). cn. lia.
      * specialize (Hnd tu). cn. lia.
      * intros d Hi. simpl in Hi. rewrite T1, in_app_iff in Hi. destruct Hi as [Hi|Hi]; [exfalso; apply (final_unmarked _ _ T2 Hi); exact I|].
        apply Hdone in Hi; [|discriminate].
        destruct Hi as [->|Hi]; [|specialize (J3 d Hi); specialize (Hnd d)]; cn; lia.
      * intros a Ha. simpl in Ha. rewrite Hcl in Ha. specialize (J4 a Ha). specialize (Hns a). cn. repeat split; lia.
      * intros a. simpl. rewrite Hcl. apply J5.
  - assert (Hz : idls (dts (replace_deferred p)) = [] /\ nsts (dts (replace_deferred p)) = []).
    { apply noop_idls. unfold dts. simpl. rewrite map_map. apply Forall_forall. intros x Hi. apply in_map_iff in Hi as (y & <- & _). exact I. }
    destruct Hz as [Hz1 Hz2].
    assert (Hi : idls (items [] (replace_deferred p)) = []).
    { unfold items. rewrite !idls_app, Hz1. simpl. now rewrite Hq. }
    constructor; [exact HW'| | | | |]; try (intros; rewrite Hi; simpl; lia).
    * intros a Ha. rewrite Hz2. simpl. rewrite Hq. now repeat split.
    * exact J5.
  - destruct (td_sum E a (p_with_td p rest)) as (evs & tok & T1 & T2 & T3 & T4 & T5 & T6 & T7 & T8 & T9 & _).
    assert (Hdn : Forall is_noop (map snd (p_def (td_step E (p_with_td p rest) a)))) by now apply td_step_noop.
    apply noop_idls in Hdn as [Hz1 Hz2].
    assert (Hi : idls (items [] (td_step E (p_with_td p rest) a)) = []).
    { unfold items, dts. rewrite !idls_app, Hz1, T4. simpl. now rewrite Hq. }
    constructor; [exact HW'| | | | |]; try (intros; rewrite Hi; simpl; lia).
    * intros b Hb. unfold dts. rewrite Hz2, T4. simpl. rewrite Hq. now repeat split.
    * intros b. rewrite T1, calls_app, calls_cons. simpl.
      destruct T2 as [[-> _]|(cl & -> & _)]; rewrite ?calls_cons; apply J5.
Qed.
