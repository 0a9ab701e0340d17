(** Invariants of the filter, from invariants of the executor's small steps. *)
From Coq Require Import String List NArith Bool Lia.
From Verif Require Import Base Value Headers AttrPath Ctx CelProps CelEval Sse Body Tasks Exec Config Legacy Blueprint Factory Filter
  P_Frame P_Apply P_Exec.
Import ListNotations.
Open Scope list_scope.

(** Events of the filter that no task takes part in *)
Definition neutral (e : ev) : Prop :=
  match e with
  | EvReqHeaders | EvReqBody _ _ | EvRespHeaders | EvRespBody _ _
  | EvResumeReq | EvResumeResp | EvMetric MAllowed | EvRet _ => True
  | _ => False
  end.
Definition idle_ev (e : ev) : Prop := neutral e \/ exists tok st sz, e = EvGrpcResp tok st sz.

(** A request: the headers callback, then any other callbacks *)
Definition run (E : env) (fa : factory) (l : list fin) : flt := frun E fa (InReqHeaders :: l).
Definition later (l : list fin) : Prop := ~ In InReqHeaders l.

Lemma run_snoc E fa l i : run E fa (l ++ [i]) = fstep E fa (run E fa l) i.
Proof. unfold run, frun. simpl. rewrite fold_left_app. reflexivity. Qed.

Record finv (E : env) (I : list task -> pipe -> Prop) (L : log -> Prop) : Prop := {
  fi_step : forall ts p ts' p', estep E ts p ts' p' -> I ts p -> I ts' p';
  fi_neutral : forall p e, neutral e -> I [] p -> I [] (p_emit e p);
  fi_reqb : forall p b, I [] p -> I [] (p_with_ctx p (with_reqb (p_ctx p) b));
  fi_respb : forall p b, I [] p -> I [] (p_with_ctx p (with_respb (p_ctx p) b));
  fi_log : forall p, I [] p -> live p -> p_queue p = [] -> p_def p = [] -> p_td p = [] -> L (c_log (p_ctx p));
  fi_idle : forall l e, idle_ev e -> L l -> L (e :: l)
}.

(** A callback announcing a body: the event, then the new size *)
Definition p_body (src : source) (n : N) (e : bool) (p : pipe) : pipe :=
  match src with
  | SrcReq => p_with_ctx (p_emit (EvReqBody n e) p) (with_reqb (emit (EvReqBody n e) (p_ctx p)) (set_size n e (c_reqb (p_ctx p))))
  | SrcResp => p_with_ctx (p_emit (EvRespBody n e) p) (with_respb (emit (EvRespBody n e) (p_ctx p)) (set_size n e (c_respb (p_ctx p))))
  end.
Definition bland (e : ev) : Prop := match e with EvReqBody _ _ | EvRespBody _ _ => False | _ => neutral e end.
(** … invariants that follow what is announced of the bodies *)
Record finvb (E : env) (I : list task -> pipe -> Prop) (L : log -> Prop) : Prop := {
  fb_step : forall ts p ts' p', estep E ts p ts' p' -> I ts p -> I ts' p';
  fb_neutral : forall p e, bland e -> I [] p -> I [] (p_emit e p);
  fb_body : forall src n e p, I [] p -> I [] (p_body src n e p);
  fb_log : forall p, I [] p -> live p -> p_queue p = [] -> p_def p = [] -> p_td p = [] -> L (c_log (p_ctx p));
  fb_idle : forall l e, idle_ev e -> L l -> L (e :: l)
}.
Lemma bland_neutral e : bland e -> neutral e.
Proof. now destruct e. Qed.
Lemma finv_finvb E I L : finv E I L -> finvb E I L.
Proof.
  intros [H1 H2 H3 H4 H5 H6]. constructor; auto.
  - intros p e He. apply H2. now apply bland_neutral.
  - intros [] n e p Hp; unfold p_body; [apply (H3 (p_emit _ p))|apply (H4 (p_emit _ p))]; now apply H2.
Qed.

(** The state of the filter satisfies the invariant *)
Definition holds (I : list task -> pipe -> Prop) (L : log -> Prop) (f : flt) : Prop :=
  match f_pipe f with
  | Some p => I [] (f_take f p) /\ live p
  | None => L (f_log f)
  end.

Lemma holds_log (I : list task -> pipe -> Prop) (L : log -> Prop) f :
  (forall p, I [] p -> L (c_log (p_ctx p))) -> holds I L f -> L (f_log f).
Proof.
  intros HI H. unfold holds in H. destruct (f_pipe f) as [p|]; [|exact H]. destruct H as [H _].
  apply HI in H. exact H.
Qed.
Lemma with_log_same c : with_log c (c_log c) = c.
Proof. now destruct c. Qed.
Lemma take_same f p : f_log f = c_log (p_ctx p) -> f_take f p = p.
Proof. intros H. unfold f_take. rewrite H, with_log_same. now destruct p. Qed.

Lemma holds_emit E I L f e : finvb E I L -> bland e -> holds I L f -> holds I L (f_emit e f).
Proof.
  intros HI He. unfold holds. simpl. destruct (f_pipe f) as [p|].
  - intros [H Hl]. change (f_take (f_emit e f) p) with (p_emit e (f_take f p)). split; [|exact Hl]. now apply (fb_neutral _ _ _ HI).
  - intros H. apply (fb_idle _ _ _ HI); [left; now apply bland_neutral|exact H].
Qed.
Lemma holds_flags I L f r fo d : holds I L f -> holds I L (mkFlt (f_pipe f) r fo d (f_log f)).
Proof. intros H. exact H. Qed.
(** A pipeline that is done has run its teardown *)
Definition tidy (p : pipe) : Prop := p_queue p = [] -> p_def p = [] -> p_td p = [].
Lemma td_fold_td E l : forall p, p_td (fold_left (td_step E) l p) = p_td p.
Proof. induction l as [|a l IH]; intros p; simpl; [reflexivity|]. rewrite IH. unfold td_step. now destruct (td_exec _ _ _) as [[tok|] c]. Qed.
Lemma teardown_td E p : p_td (execute_teardown E p) = [].
Proof. unfold execute_teardown. now rewrite td_fold_td. Qed.
Lemma eval_tidy E p : tidy (eval_pipe E p).
Proof.
  unfold tidy, eval_pipe. destruct (process E (p_queue p) (p_with_queue p [])) as [b p1].
  destruct b; [intros; apply teardown_td|].
  destruct (p_queue p1) eqn:H1; [|congruence]. destruct (p_def p1) eqn:H2; [|congruence].
  destruct (p_td p1) eqn:H3; [auto|]. intros _ _. apply teardown_td.
Qed.
Lemma digest_tidy E tok st sz p : tidy (digest_pipe E tok st sz p).
Proof.
  unfold digest_pipe. destruct (nget tok (p_def p)); [|apply eval_tidy].
  match goal with |- context [step E ?t ?c] => destruct (step E t c) as [o c'] end.
  destruct o; apply eval_tidy.
Qed.
Lemma holds_state E I L f p : finvb E I L -> I [] p -> live p -> tidy p -> holds I L (f_state (to_state p) f).
Proof.
  intros HI Hp Hlv Hti. unfold to_state.
  assert (K : holds I L (f_state (InProgress p) f)).
  { unfold holds. simpl. split; [now rewrite take_same|exact Hlv]. }
  destruct (p_queue p) eqn:Hq; [|exact K]. destruct (p_def p) eqn:Hd; [|exact K].
  unfold holds. simpl. eapply fb_log; eauto.
Qed.
(** a callback: its event [e], then [upd], then the actions are looked at *)
Lemma holds_eval E I L f e upd : finvb E I L -> idle_ev e -> (forall p, I [] p -> I [] (p_with_ctx p (upd (emit e (p_ctx p))))) ->
  holds I L f -> holds I L (f_eval E upd (f_emit e f)).
Proof.
  intros HI He Hu H. unfold f_eval. simpl f_pipe. unfold holds in H. destruct (f_pipe f) as [p|] eqn:Hp.
  - destruct H as [H Hl]. set (q := p_with_ctx (f_take f p) (upd (emit e (p_ctx (f_take f p))))).
    destruct (eval_star E q) as [H1 H2]; [exact Hl|].
    change (p_with_ctx (f_take (f_emit e f) p) (upd (p_ctx (f_take (f_emit e f) p)))) with q.
    apply (holds_state E); [exact HI| |exact H2|apply eval_tidy].
    eapply (estar_inv E I (fb_step _ _ _ HI)); [exact H1|]. now apply Hu.
  - unfold holds. simpl. rewrite Hp. now apply (fb_idle _ _ _ HI).
Qed.

Lemma holds_step E fa I L f i : finvb E I L -> i <> InReqHeaders -> holds I L f -> holds I L (fstep E fa f i).
Proof.
  intros HI Hi H. unfold fstep. destruct (f_dead f); [exact H|].
  destruct i as [|n e| |n e|tok st sz]; [easy| | | |].
  - apply (holds_emit E); [exact HI|exact Logic.I|]. eapply holds_eval; [exact HI|now left| |exact H].
    intros p Hp. exact (fb_body _ _ _ HI SrcReq n e p Hp).
  - apply (holds_emit E); [exact HI|exact Logic.I|].
    apply (holds_eval E I L (mkFlt (f_pipe f) true (f_force f) (f_dead f) (EvRespHeaders :: f_log f)) (EvMetric MAllowed)); [exact HI|now left| |].
    + intros p Hp. exact (fb_neutral _ _ _ HI p (EvMetric MAllowed) Logic.I Hp).
    + apply (holds_flags I L (f_emit EvRespHeaders f)). now apply (holds_emit E).
  - unfold on_resp_body. cbv zeta.
    assert (K : holds I L (f_eval E (fun c => with_respb c (set_size n e (c_respb c))) (f_emit (ev_of (InRespBody n e)) f))).
    { eapply holds_eval; [exact HI|now left| |exact H]. intros p Hp. exact (fb_body _ _ _ HI SrcResp n e p Hp). }
    destruct (should_pause _); [now apply (holds_emit E)|].
    destruct (_ && _); apply (holds_emit E); try easy.
  - unfold on_grpc. simpl f_pipe. unfold holds in H. destruct (f_pipe f) as [p|] eqn:Hp.
    + unfold digest.
      destruct H as [H Hl]. destruct (digest_star E tok st sz (f_take f p)) as [H1 H2]; [exact Hl|].
      change (p_emit (EvGrpcResp tok st sz) (f_take f p)) with (f_take (f_emit (ev_of (InGrpc tok st sz)) f) p) in *.
      assert (K : I [] (digest_pipe E tok st sz (f_take (f_emit (ev_of (InGrpc tok st sz)) f) p))).
      { eapply (estar_inv E I (fb_step _ _ _ HI)); [|exact H]. exact H1. }
      apply (holds_state E I L (f_emit (ev_of (InGrpc tok st sz)) f)) in K; [|exact HI|exact H2|apply digest_tidy].
      match goal with |- context [if ?b then _ else _] => destruct b end; [|exact K].
      apply (holds_emit E); [exact HI| |exact K]. now destruct (f_resp _).
    + unfold holds. simpl. rewrite Hp. apply (fb_idle _ _ _ HI); [right; eauto|exact H].
Qed.

Lemma holds_run E fa I L : finvb E I L -> holds I L (fstep E fa flt0 InReqHeaders) ->
  forall l, later l -> holds I L (run E fa l).
Proof.
  intros HI H0 l Hl. unfold run, frun. simpl. revert H0. generalize (fstep E fa flt0 InReqHeaders).
  induction l as [|i l IH]; intros f Hf; simpl; [exact Hf|].
  apply IH; [intros Hx; apply Hl; now right|].
  apply holds_step; [exact HI| |exact Hf]. intros ->. apply Hl. now left.
Qed.

(** Selecting and building a pipeline logs nothing *)
Lemma get_hostname_ext E c r c' : get_hostname E c = (r, c') -> ext c c'.
Proof.
  unfold get_hostname. destruct (read_string E _ c) as [r1 c1] eqn:H. apply read_string_ext in H.
  destruct r1 as [|[h|]|]; intros [= <- <-]; exact H.
Qed.
Lemma first_match_ext E l : forall c r c', first_match E l c = (r, c') -> ext c c'.
Proof.
  induction l as [|b l IH]; intros c r c'; simpl; [intros [= <- <-]; apply ext_refl|].
  destruct (route_match E (bp_preds b) c) as [r1 c1] eqn:H. apply route_match_ext in H.
  destruct r1 as [|[]|]; try (intros [= <- <-]; exact H).
  intros H2. apply IH in H2. eapply ext_trans; eauto.
Qed.
Lemma select_ext E f c r c' : select E f c = (r, c') -> ext c c'.
Proof.
  unfold select. destruct (get_hostname E c) as [[h|] c1] eqn:H; apply get_hostname_ext in H;
    [|intros [= <- <-]; exact H].
  destruct (ancestor _ _) as [[k bps]|]; [|intros [= <- <-]; exact H].
  destruct (first_match E bps c1) as [[[b|]|] c2] eqn:H2; apply first_match_ext in H2;
    intros [= <- <-]; eapply ext_trans; eauto.
Qed.
Lemma warm_ext E id p m c : ext c (warm E id p m c).
Proof.
  unfold warm. destruct (test_in E p _ c) as [[r vs] c1] eqn:H1. apply test_in_ext in H1.
  destruct (eval_in E m vs c1) as [[r2 vs2] c2] eqn:H2. apply eval_in_ext in H2. eapply ext_trans; eauto.
Qed.

(** Induction on actions through the nested list *)
Section ActInd.
  Variable P : action -> Prop.
  Hypothesis HG : forall id p t s var m rs d g, Forall P rs -> P (mkAct id p t (BGrpc s var m rs) d g).
  Hypothesis HO : forall id p t o d g, (forall s var m rs, o <> BGrpc s var m rs) -> P (mkAct id p t o d g).
  Fixpoint action_ind' (a : action) : P a :=
    match a with
    | mkAct id p t o d g =>
        match o as o return P (mkAct id p t o d g) with
        | BGrpc s var m rs =>
            HG id p t s var m rs d g
              ((fix go l : Forall P l := match l with [] => Forall_nil P | x :: l' => Forall_cons x (action_ind' x) (go l') end) rs)
        | _ => ltac:(apply HO; discriminate)
        end
    end.
End ActInd.

(** Building: everything but the log, the pause counter, pending response, bindings and values may change *)
Definition bld (c c' : ctx) : Prop :=
  c_log c' = c_log c /\ c_bar c' = c_bar c /\ c_grpc c' = c_grpc c /\ c_vals c' = c_vals c /\ c_binds c' = c_binds c /\
  c_reqb c' = c_reqb c /\ c_respb c' = c_respb c /\ (forall i, c_rid c = Some i -> c_rid c' = Some i).
Lemma bld_refl c : bld c c. Proof. now repeat split. Qed.
Lemma bld_trans a b c : bld a b -> bld b c -> bld a c.
Proof.
  intros (A1 & A2 & A3 & A4 & A5 & A6 & A7 & A8) (B1 & B2 & B3 & B4 & B5 & B6 & B7 & B8).
  repeat split; try congruence. auto.
Qed.
Lemma ext_bld c c' : ext c c' -> bld c c'.
Proof. intros (x & -> & _). now repeat split. Qed.
Lemma xrid_bld c c' : xrid c c' -> bld c c'.
Proof. intros (x & r & -> & _ & H). now repeat split. Qed.

(** the actions of a list, in order *)
Definition to_cores (E : env) := fix go (l : list action) (c : ctx) : option (list task * ctx) :=
  match l with
  | [] => Some ([], c)
  | r :: l' => match to_core E r c with
               | Some (t, c1) => match go l' c1 with
                                 | Some (ts, c2) => Some (t :: ts, c2)
                                 | None => None
                                 end
               | None => None
               end
  end.
Lemma to_core_grpc E id pred t s var m rs d g c :
  to_core E (mkAct id pred t (BGrpc s var m rs) d g) c =
  match to_cores E rs c with
  | None => None
  | Some (ts, c1) =>
      match s with
      | IDyn _ sv => Some (TDynamic id sv var m ts pred d g, warm E id pred m c1)
      | ITrace _ =>
          let c2 := with_track c1 (Some var) in
          let (rid, c3) := request_id E c2 in
          match parse_expr E (tracker_src var rid) with
          | None => None
          | Some h => Some (THeaders id true_expr h MResp false, c3)
          end
      end
  end.
Proof. reflexivity. Qed.

Lemma to_core_bld E a : forall c t c', to_core E a c = Some (t, c') -> bld c c'.
Proof.
  induction a as [id p tm s var m rs d g IH|id p tm o d g Ho] using action_ind'; intros c t c'.
  - rewrite to_core_grpc.
    assert (K : forall c ts c1, to_cores E rs c = Some (ts, c1) -> bld c c1).
    { clear -IH. induction IH as [|r rs Hr _ IH]; intros c ts c1; simpl; [intros [= <- <-]; apply bld_refl|].
      destruct (to_core E r c) as [[t1 c2]|] eqn:H1; [|discriminate].
      destruct (to_cores E rs c2) as [[ts2 c3]|] eqn:H2; [|discriminate]. intros [= <- <-].
      eapply bld_trans; eauto. }
    destruct (to_cores E rs c) as [[ts c1]|] eqn:H1; [|discriminate]. apply K in H1.
    destruct s as [k sv|o].
    + intros [= <- <-]. eapply bld_trans; [exact H1|]. apply ext_bld, warm_ext.
    + cbv zeta. destruct (request_id E (with_track c1 (Some var))) as [rid c3] eqn:H2.
      apply request_id_xrid in H2 as [H2 _]. apply xrid_bld in H2.
      destruct (parse_expr E (tracker_src var rid)); [|discriminate]. intros [= <- <-].
      eapply bld_trans; [exact H1|]. exact H2.
  - destruct o; simpl; try (intros [= <- <-]; apply bld_refl); [edestruct Ho; reflexivity|].
    intros [= <- <-]. now repeat split.
Qed.
Lemma action_tasks_bld E rd tr a c ts tds c' : action_tasks E rd tr a c = Some (ts, tds, c') -> bld c c'.
Proof.
  unfold action_tasks. destruct (to_core E a c) as [[tk c1]|] eqn:H.
  - apply to_core_bld in H.
    destruct (a_op a) as [s v m rs|x|x y|x y z|]; try (intros [= <- <- <-]; exact H).
    destruct s as [k s|[t|]]; try (intros [= <- <- <-]; exact H).
    intros [= <- <- <-]. destruct (o_span_on E (c_log c1)); [|exact H].
    destruct (request_id E c1) as [rid c2] eqn:H2. apply request_id_xrid in H2 as [H2 _]. apply xrid_bld in H2.
    eapply bld_trans; eauto.
  - destruct (a_op a) as [s v m rs|x|x y|x y z|]; try discriminate. destruct s as [k s|[t|]]; discriminate.
Qed.
Lemma actions_tasks_bld E rd tr l : forall c ts tds c', actions_tasks E rd tr l c = Some (ts, tds, c') -> bld c c'.
Proof.
  induction l as [|a l IH]; intros c ts tds c'; simpl; [intros [= <- <- <-]; apply bld_refl|].
  destruct (action_tasks E rd tr a c) as [[[t1 td1] c1]|] eqn:H1; [|discriminate]. apply action_tasks_bld in H1.
  destruct (actions_tasks E rd tr l c1) as [[[t2 td2] c2]|] eqn:H2; [|discriminate]. apply IH in H2.
  intros [= <- <- <-]. eapply bld_trans; eauto.
Qed.

(** What [build] returns *)
Lemma build_spec E fa c :
  match build E fa c with
  | BOk p => exists b c1 tds, select E fa c = (Some (Some b), c1) /\
      to_tasks E (map (fun r => snd (snd r)) (fa_rdata fa)) b (snd (read_headers E p_req_headers c1)) = Some (p_queue p, tds, p_ctx p) /\
      p = mkPipe (p_ctx p) (p_queue p) [] [] tds false /\ bld c (p_ctx p) /\ p_queue p <> []
  | BNone c' | BErr c' | BPanic c' => bld c c'
  end.
Proof.
  unfold build. destruct (select E fa c) as [[[b|]|] c1] eqn:Hs; pose proof (select_ext _ _ _ _ _ Hs) as H1;
    apply ext_bld in H1; auto.
  destruct (read_headers E p_req_headers c1) as [r c2] eqn:Hr0. pose proof (ext_bld _ _ (read_headers_ext _ _ _ _ _ Hr0)) as Hr. simpl.
  destruct (to_tasks E _ b c2) as [[[ts tds] c3]|] eqn:Ht.
  - pose proof (actions_tasks_bld _ _ _ _ _ _ _ _ Ht) as H3.
    pose proof (bld_trans _ _ _ (bld_trans _ _ _ H1 Hr) H3) as H4.
    destruct ts as [|t ts]; [exact H4|]. exists b, c1, tds. rewrite Hr0. simpl. split; [reflexivity|]. split; [exact Ht|]. split; [reflexivity|]. split; [exact H4|discriminate].
  - eapply bld_trans; eauto.
Qed.

(** The main principle *)
Theorem request_invariant_b E fa (I : list task -> pipe -> Prop) (L : log -> Prop) :
  finvb E I L ->
  (forall p, build E fa (ctx0 [EvReqHeaders]) = BOk p -> I [] (p_emit (EvMetric MHits) p)) ->
  L [EvReqHeaders] -> L [EvMetric MMisses; EvReqHeaders] ->
  (forall ok, L (EvReply 500 [] (Some ise_body) ok :: [EvMetric MErrors; EvReqHeaders])) ->
  forall l, later l -> holds I L (run E fa l).
Proof.
  intros HI Hb Hl Hm Hr. apply holds_run; [exact HI|].
  unfold fstep. simpl f_dead. cbv iota. unfold on_req_headers. simpl f_log.
  pose proof (build_spec E fa (ctx0 [EvReqHeaders])) as Hs.
  change (ctx0 [ev_of InReqHeaders]) with (ctx0 [EvReqHeaders]).
  destruct (build E fa (ctx0 [EvReqHeaders])) as [p|c|c|c].
  - apply (holds_emit E); [exact HI|exact Logic.I|].
    destruct Hs as (b & c1 & tds & _ & _ & Hs & _).
    destruct (eval_star E (p_emit (EvMetric MHits) p)) as [H1 H2]; [rewrite Hs; split; intros Hx; discriminate|].
    apply (holds_state E); [exact HI| |exact H2|apply eval_tidy]. eapply (estar_inv E I (fb_step _ _ _ HI)); [exact H1|].
    apply Hb. reflexivity.
  - destruct Hs as [Hs _]. simpl in Hs. unfold holds. simpl. rewrite Hs.
    apply (fb_idle _ _ _ HI); [now left|]. exact Hm.
  - destruct Hs as [Hs _]. simpl in Hs. simpl. rewrite Hs.
    destruct (h_reply E _ 500 [] (Some ise_body)) eqn:Hok; unfold holds; simpl.
    + apply (fb_idle _ _ _ HI); [now left|]. apply Hr.
    + apply Hr.
  - destruct Hs as [Hs _]. simpl in Hs. unfold holds. simpl. rewrite Hs. exact Hl.
Qed.

(** For requests with a pipeline *)
Theorem pipe_invariant_b E fa (I : list task -> pipe -> Prop) (L : log -> Prop) p :
  finvb E I L -> build E fa (ctx0 [EvReqHeaders]) = BOk p -> I [] (p_emit (EvMetric MHits) p) ->
  forall l, later l -> holds I L (run E fa l).
Proof.
  intros HI Hb Hp. apply holds_run; [exact HI|].
  unfold fstep. simpl f_dead. cbv iota. unfold on_req_headers. simpl f_log.
  pose proof (build_spec E fa (ctx0 [EvReqHeaders])) as Hs. rewrite Hb in Hs.
  change (ctx0 [ev_of InReqHeaders]) with (ctx0 [EvReqHeaders]). rewrite Hb.
  apply (holds_emit E); [exact HI|exact Logic.I|].
  destruct Hs as (b & c1 & tds & _ & _ & Hs & _).
  destruct (eval_star E (p_emit (EvMetric MHits) p)) as [H1 H2]; [rewrite Hs; split; intros Hx; discriminate|].
  apply (holds_state E); [exact HI| |exact H2|apply eval_tidy]. eapply (estar_inv E I (fb_step _ _ _ HI)); [exact H1|exact Hp].
Qed.

Theorem request_invariant E fa (I : list task -> pipe -> Prop) (L : log -> Prop) :
  finv E I L ->
  (forall p, build E fa (ctx0 [EvReqHeaders]) = BOk p -> I [] (p_emit (EvMetric MHits) p)) ->
  L [EvReqHeaders] -> L [EvMetric MMisses; EvReqHeaders] ->
  (forall ok, L (EvReply 500 [] (Some ise_body) ok :: [EvMetric MErrors; EvReqHeaders])) ->
  forall l, later l -> holds I L (run E fa l).
Proof. intros HI. apply request_invariant_b. now apply finv_finvb. Qed.
Theorem pipe_invariant E fa (I : list task -> pipe -> Prop) (L : log -> Prop) p :
  finv E I L -> build E fa (ctx0 [EvReqHeaders]) = BOk p -> I [] (p_emit (EvMetric MHits) p) ->
  forall l, later l -> holds I L (run E fa l).
Proof. intros HI. apply pipe_invariant_b. now apply finv_finvb. Qed.

(** Requests without: nothing but the events of the filter itself *)
Definition bare (e : ev) : Prop := idle_ev e \/ exists st h b ok, e = EvReply st h b ok.
Lemma no_pipe_step E fa f i : f_pipe f = None -> i <> InReqHeaders ->
  f_pipe (fstep E fa f i) = None /\ exists evs, f_log (fstep E fa f i) = evs ++ f_log f /\ Forall idle_ev evs /\
    (forall b, In (EvRet b) evs -> b = false) /\ ~ In EvResumeReq evs /\ ~ In EvResumeResp evs.
Proof.
  intros Hp Hi. unfold fstep. destruct (f_dead f) eqn:Hd.
  { split; [exact Hp|]. exists []. repeat split; auto; intros b []. }
  assert (K : forall x y : ev, idle_ev x -> idle_ev y -> Forall idle_ev [x; y]) by (intros x y Hx Hy; constructor; [exact Hx|constructor; [exact Hy|constructor]]).
  destruct i as [|n e| |n e|tok st sz]; [easy| | | |]; unfold on_req_body, on_resp_headers, on_resp_body, on_grpc, f_eval, f_ret, should_pause; simpl; rewrite Hp; simpl;
    rewrite ?Hp; simpl; (split; [try exact Hp; reflexivity|]).
  - exists [EvRet false; EvReqBody n e]. repeat split; auto; [apply K; now left| | |].
    + intros b [H|[H|[]]]; congruence. + intros [H|[H|[]]]; discriminate. + intros [H|[H|[]]]; discriminate.
  - exists [EvRet false; EvMetric MAllowed; EvRespHeaders]. repeat split; auto; [repeat constructor| | |].
    + intros b [H|[H|[H|[]]]]; congruence. + intros [H|[H|[H|[]]]]; discriminate. + intros [H|[H|[H|[]]]]; discriminate.
  - exists [EvRet false; EvRespBody n e]. repeat split; auto; [apply K; now left| | |].
    + intros b [H|[H|[]]]; congruence. + intros [H|[H|[]]]; discriminate. + intros [H|[H|[]]]; discriminate.
  - exists [EvGrpcResp tok st sz]. repeat split; auto; [constructor; [right; eauto|constructor]| | |].
    + intros b [H|[]]; congruence. + intros [H|[]]; discriminate. + intros [H|[]]; discriminate.
Qed.
