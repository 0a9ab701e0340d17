(** Adding facts about the history to an invariant; responses and their handlers. *)
From Coq Require Import String List NArith Bool Lia Arith.
From Verif Require Import Base Value Headers AttrPath Ctx CelProps CelEval Sse Body Tasks Exec Config Legacy Blueprint Factory Filter
  P_Frame P_Apply P_Exec P_Run P_Inv P_Ids P_Plan P_Order P_Term P_Bar.
Import ListNotations.
Open Scope list_scope.

Definition handle_ctx (tok st sz : N) (a : text) (c : ctx) : ctx :=
  emit (EvHandle tok a) (set_grpc st sz (emit (EvGrpcResp tok st sz) c)).

Lemma finv_hist E (I : list task -> pipe -> Prop) (L : log -> Prop) (P : ev -> log -> Prop) :
  finv E I L ->
  (forall e l, idle_ev e -> P e l) ->
  (forall evs a l, Forall final_ev evs -> hist P (EvTerminate a :: l) -> hist P (evs ++ EvTerminate a :: l)) ->
  (forall a rest p, I [] p -> p_queue p = [] -> Forall is_noop (dts p) -> p_td p = a :: rest -> P EvTeardown (c_log (p_ctx p))) ->
  (forall cl tok l, P (EvExport cl tok) l) ->
  (forall t ts p o c evs, I (t :: ts) p -> ssum E t (p_ctx p) o c evs -> hist P (c_log (p_ctx p)) -> hist P (c_log c)) ->
  (forall tok st sz t p o c evs, I [] p -> settled p -> nget tok (p_def p) = Some t ->
     ssum E t (handle_ctx tok st sz (t_id t) (p_ctx p)) o c evs -> hist P (c_log (p_ctx p)) ->
     hist P (c_log c) /\ forall l, o = ORequeued l -> P (EvDone (t_id t)) (c_log c)) ->
  finv E (fun ts p => I ts p /\ hist P (c_log (p_ctx p))) (fun l => L l /\ hist P l).
Proof.
  intros HI Hidle Hfin Htd Hexp Hrun Hhan. constructor.
  - intros ts p ts' p' Hs [Hi Hh]. pose proof (fi_step _ _ _ HI _ _ _ _ Hs Hi) as Hi'. split; [exact Hi'|].
    destruct Hs as [p Hset|t ts p Hb|t ts p o c ts' p' Hb Hst Hn|tok st sz p Hset Hn|tok st sz t p o c Hset Hn Hst|p Hq Ht|a rest p Hq Hn Ht].
    + exact Hh.
    + exact Hh.
    + destruct (step_sum _ _ _ _ _ Hst) as (evs & Hss). specialize (Hrun _ _ _ _ _ _ Hi Hss Hh).
      destruct o; simpl in Hn; injection Hn as <- <-; try exact Hrun.
      * destruct (def_insert_facts tok t0 (p_with_ctx p c)) as (F1 & _). rewrite F1. exact Hrun.
      * pose proof (ss_final _ _ _ _ _ _ Hss) as Hf. simpl in Hf. destruct (terminal_sum E t0 c Hf) as (evs2 & T1 & T2 & _).
        cbn [p_ctx p_with_ctx p_queue]. rewrite drop_log, T1. rewrite (ss_log _ _ _ _ _ _ Hss) in *. simpl in *. now apply Hfin.
    + cbn [p_emit p_with_ctx p_ctx emit with_log c_log]. split; [apply Hidle; right; eauto|exact Hh].
    + destruct (step_sum _ _ _ _ _ Hst) as (evs & Hss). destruct (Hhan _ _ _ _ _ _ _ _ Hi Hset Hn Hss Hh) as [H1 H2].
      unfold handle_next. destruct o; try exact H1.
      * destruct (def_insert_facts tok0 t0 (p_with_ctx (mkPipe c (p_queue p) (ndel tok (p_def p)) (p_done p) (p_td p) (p_term p)) c)) as (F1 & _).
        rewrite F1. exact H1.
      * cbn [p_ctx p_with_ctx emit with_log c_log]. split; [now apply (H2 ts)|exact H1].
      * pose proof (ss_final _ _ _ _ _ _ Hss) as Hf. simpl in Hf. destruct (terminal_sum E t0 c Hf) as (evs2 & T1 & T2 & _).
        cbn [p_ctx p_with_ctx p_queue]. rewrite drop_log, T1. rewrite (ss_log _ _ _ _ _ _ Hss) in *. simpl in *. now apply Hfin.
    + cbn [replace_deferred p_ctx]. now rewrite drop_log.
    + destruct (td_sum E a (p_with_td p rest)) as (evs & tok & T1 & T2 & _). cbn [p_with_td p_ctx] in *. rewrite T1.
      assert (K : hist P (EvTeardown :: c_log (p_ctx p))) by (split; [eapply Htd; eauto|exact Hh]).
      destruct T2 as [[-> _]|(cl & -> & _)]; [exact K|]. split; [apply Hexp|exact K].
  - intros p e He [Hi Hh]. split; [now apply (fi_neutral _ _ _ HI)|]. split; [apply Hidle; now left|exact Hh].
  - intros p b [Hi Hh]. split; [now apply (fi_reqb _ _ _ HI)|exact Hh].
  - intros p b [Hi Hh]. split; [now apply (fi_respb _ _ _ HI)|exact Hh].
  - intros p [Hi Hh] H1 H2 H3 H4. split; [now apply (fi_log _ _ _ HI)|exact Hh].
  - intros l e He [Hl Hh]. split; [now apply (fi_idle _ _ _ HI)|]. split; [now apply Hidle|exact Hh].
Qed.

(** Tests over the events of one application *)
Lemma ssum_hist E t c o c' evs (P : ev -> log -> Prop) : ssum E t c o c' evs ->
  P (EvEval (t_id t)) (c_log c) ->
  (forall e l, In e evs -> P e l) -> (forall e l, In e (ghost t o) -> P e l) -> hist P (c_log c) -> hist P (c_log c').
Proof.
  intros Hs H1 H2 H3 Hh. rewrite (ss_log _ _ _ _ _ _ Hs). apply hist_app; [exact H3|]. apply hist_app; [exact H2|]. now split.
Qed.
Lemma ssum_evs_cases E t c o c' evs e : ssum E t c o c' evs -> In e evs ->
  quiet t e \/ exists cl tok, e = EvDispatch (t_id t) cl (Some tok).
Proof.
  intros Hs Hi. pose proof (ss_evs _ _ _ _ _ _ Hs) as H. destruct o; try (left; rewrite Forall_forall in H; now apply H).
  destruct H as (cl & -> & _). destruct Hi as [<-|[]]. eauto.
Qed.

(** * Which call a response belongs to *)
Definition opener (o : option text) (k : N) (e : ev) : Prop :=
  match o with Some a => exists cl, e = EvDispatch a cl (Some k) | None => exists cl, e = EvExport cl (Some k) end.
Lemma opens_spec l k o : In (k, o) (opens l) <->
  exists l2 e l1, l = l2 ++ e :: l1 /\ opener o k e /\ forall st sz, ~ In (EvGrpcResp k st sz) l2.
Proof.
  induction l as [|e l IH].
  - simpl. split; [easy|]. intros (l2 & e & l1 & H & _). destruct l2; discriminate.
  - assert (C : (exists l2 e0 l1, e :: l = l2 ++ e0 :: l1 /\ opener o k e0 /\ forall st sz, ~ In (EvGrpcResp k st sz) l2) <->
                opener o k e \/ (In (k, o) (opens l) /\ forall st sz, e <> EvGrpcResp k st sz)).
    { rewrite IH. split.
      - intros (l2 & x & l1 & H & Ho & Hn). destruct l2 as [|y l2]; simpl in H; injection H as -> ->; [now left|right].
        split; [exists l2, x, l1; split; [reflexivity|]; split; [exact Ho|]; intros st sz Hi; apply (Hn st sz); now right|].
        intros st sz ->. apply (Hn st sz). now left.
      - intros [H|[(l2 & x & l1 & -> & Ho & Hn) He]]; [exists [], e, l; repeat split; auto|].
        exists (e :: l2), x, l1. split; [reflexivity|]. split; [exact Ho|]. intros st sz [H|H]; [now apply (He st sz)|now apply (Hn st sz)]. }
    rewrite C. clear C IH. unfold opener. destruct e as [| | | |k0 st0 sz0|a0 cl0 [k0|]|cl0 [k0|]| | | | | | | | | | | | |]; cbn [opens];
      try (split; [intros H; right; split; [exact H|intros ? ? ?; discriminate]|intros [H|[H _]]; [destruct o; destruct H; discriminate|exact H]]).
    + rewrite filter_In. simpl. rewrite negb_true_iff, N.eqb_neq. split.
      * intros [H Hn]. right. split; [exact H|]. intros st sz [= -> _ _]. now apply Hn.
      * intros [H|[H Hn]]; [destruct o; destruct H; discriminate|]. split; [exact H|]. intros ->. now apply (Hn st0 sz0).
    + rewrite in_app_iff. simpl. split.
      * intros [H|[[= <- <-]|[]]]; [right; split; [exact H|intros ? ? ?; discriminate]|left; now exists cl0].
      * intros [H|[H _]]; [right; left|now left]. destruct o; destruct H as [cl H]; [now injection H as <- _ <-|discriminate].
    + rewrite in_app_iff. simpl. split.
      * intros [H|[[= <- <-]|[]]]; [right; split; [exact H|intros ? ? ?; discriminate]|left; now exists cl0].
      * intros [H|[H _]]; [right; left|now left]. destruct o; destruct H as [cl H]; [discriminate|now injection H as _ <-].
Qed.

(** * Handlers *)
Definition handles (E : env) (e : ev) (l : log) : Prop :=
  match e with
  | EvHandle k a => fresh_tokens E -> exists st sz l' o, l = EvGrpcResp k st sz :: l' /\ In (k, o) (opens l') /\ (o = Some a \/ o = None)
  | _ => True
  end.
Lemma matches_nget l d k t : Forall2 matches l d -> nget k d = Some t -> exists o, In (k, o) l /\ match o with Some a => a = t_id t | None => is_noop t end.
Proof.
  unfold nget. induction 1 as [|[k1 o] [k2 t'] l d [H1 H2] _ IH]; simpl; [discriminate|]. simpl in H1. subst k2.
  destruct (N.eqb_spec k k1) as [->|].
  - intros [= ->]. exists o. split; [now left|]. simpl in H2. destruct o; congruence.
  - intros H. apply IH in H as (o' & H3 & H4). exists o'. split; [now right|exact H4].
Qed.
Lemma final_handles E evs l : Forall final_ev evs -> hist (handles E) l -> hist (handles E) (evs ++ l).
Proof. intros Hf. apply hist_app. intros e l1 Hi. rewrite Forall_forall in Hf. apply Hf in Hi. destruct e; easy. Qed.
Lemma handle_log tok st sz a c : c_log (handle_ctx tok st sz a c) = EvHandle tok a :: EvGrpcResp tok st sz :: c_log c.
Proof. unfold handle_ctx, set_grpc. cbn [emit with_log c_grpc]. now destruct (c_grpc c). Qed.

Definition H (E : env) n N0 ts p := B E n N0 ts p /\ hist (handles E) (c_log (p_ctx p)).
Definition HL (E : env) n l := BL E n l /\ hist (handles E) l.
Lemma ssum_handles E t c o c' evs : ssum E t c o c' evs -> hist (handles E) (c_log c) -> hist (handles E) (c_log c').
Proof.
  intros Hs Hh. eapply ssum_hist; eauto.
  - exact I.
  - intros e l Hi. destruct (ssum_evs_cases _ _ _ _ _ _ _ Hs Hi) as [Hq|(cl & tok & ->)]; [|exact I]. destruct e; simpl in *; easy.
  - intros e l Hi. destruct o; simpl in Hi; intuition (subst; exact I).
Qed.
Lemma H_finv E n N0 : finv E (H E n N0) (HL E n).
Proof.
  apply finv_hist; [apply B_finv| | | | | |].
  - intros e l [He|(k & st & sz & ->)]; [destruct e; easy|exact I].
  - intros evs a l. apply final_handles.
  - intros a rest p _ _ _ _. exact I.
  - intros cl tok l. exact I.
  - intros t ts p o c evs _. apply ssum_handles.
  - intros tok st sz t p o c evs HB Hset Hn Hss Hh. split.
    + apply (ssum_handles _ _ _ _ _ _ Hss). rewrite handle_log. split; [|split; [exact I|exact Hh]].
      intros F. destruct (matches_nget _ _ _ _ (b_open _ _ _ _ _ HB F) Hn) as (o' & H1 & H2).
      exists st, sz, (c_log (p_ctx p)), o'. split; [reflexivity|]. split; [exact H1|]. destruct o'; [left; congruence|now right].
    + intros l _. exact I.
Qed.
Lemma H_run_filter E fa p l : build E fa (ctx0 [EvReqHeaders]) = BOk p -> later l ->
  holds (H E (length (p_td p)) (nodess (p_queue p))) (HL E (length (p_td p))) (run E fa l).
Proof.
  intros Hb. apply pipe_invariant with (p := p); [apply H_finv|exact Hb|]. split; [now apply B_start with (fa := fa)|].
  pose proof (build_spec E fa (ctx0 [EvReqHeaders])) as Hsp. rewrite Hb in Hsp. destruct Hsp as (b' & c1' & tds & _ & _ & _ & Hbld & _).
  destruct Hbld as (Hlog & _). cbn in Hlog. cbn. rewrite Hlog. now repeat split.
Qed.
(** the facts about the history alone *)
Definition HT (E : env) (n : nat) (h : log) : Prop :=
  hist silent h /\ td_count h <= n /\ (fresh_tokens E -> hist td_last h) /\ hist (handles E) h.
Lemma H_log E n N0 f : holds (H E n N0) (HL E n) f -> HT E n (f_log f).
Proof.
  intros Hh. unfold holds in Hh. destruct (f_pipe f) as [p|].
  - destruct Hh as [[HB Hha] _]. destruct (T_TL _ _ _ _ (b_t _ _ _ _ _ HB)) as (A1 & A2 & A3). now repeat split.
  - destruct Hh as [[(A1 & A2 & A3) _] Hha]. now repeat split.
Qed.

(** * Requests without a pipeline *)
Lemma headers_log E fa :
  match build E fa (ctx0 [EvReqHeaders]) with
  | BOk _ => True
  | BNone _ => f_log (run E fa []) = [EvRet false; EvMetric MMisses; EvReqHeaders] /\ f_pipe (run E fa []) = None /\ f_dead (run E fa []) = false
  | BErr _ => f_pipe (run E fa []) = None /\ exists ok, f_dead (run E fa []) = negb ok /\ f_log (run E fa []) = (if ok then [EvRet false] else []) ++ [EvReply 500 [] (Some ise_body) ok; EvMetric MErrors; EvReqHeaders]
  | BPanic _ => f_pipe (run E fa []) = None /\ f_dead (run E fa []) = true /\ f_log (run E fa []) = [EvReqHeaders]
  end.
Proof.
  pose proof (build_spec E fa (ctx0 [EvReqHeaders])) as Hs.
  unfold run, frun. cbn [fold_left]. unfold fstep. cbn [flt0 f_dead]. unfold on_req_headers. cbn [f_emit f_log ev_of flt0].
  destruct (build E fa (ctx0 [EvReqHeaders])) as [p|c|c|c]; [exact I| | |]; destruct Hs as [Hs _]; cbn in Hs.
  - cbn. rewrite Hs. auto.
  - cbn [f_log f_pipe f_resp f_force f_dead f_emit]. rewrite Hs.
    destruct (h_reply E [EvMetric MErrors; EvReqHeaders] 500 [] (Some ise_body)); (split; [reflexivity|]).
    + exists true. now split.
    + exists false. now split.
  - cbn. rewrite Hs. auto.
Qed.
