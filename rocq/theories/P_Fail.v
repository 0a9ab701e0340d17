(** Failure modes: which tasks are still under the failure mode of their service. *)
From Coq Require Import String List NArith Bool Lia Arith.
From Verif Require Import Base Value Headers AttrPath Ctx CelProps CelEval Sse Body Tasks Exec Config Legacy Blueprint Factory Filter
  P_Frame P_Apply P_Exec P_Run P_Inv P_Ids P_Plan P_Order P_Term P_Bar P_Hist P_Grow P_Wake.
Import ListNotations.
Open Scope list_scope.

(** * The wrapper around a call *)
Definition some {A} (l : list A) : bool := match l with [] => false | _ => true end.
(** failure mode (deny or not), service, whether something runs on the reply *)
Definition minfo : Type := bool * svc * bool.
Fixpoint mode (t : task) : option minfo :=
  match t with
  | TTracing t => mode t
  | TFailureMode (TDynamic _ s _ _ rs _ _ _) b => Some (b, s, some rs)
  | TFailureMode (TPending _ s _ rs _) b => Some (b, s, some rs)
  | _ => None
  end.
Definition is_eval (a : text) (e : ev) : bool := match e with EvEval b => text_eqb a b | _ => false end.
Definition evals (a : text) (l : log) : nat := length (filter (is_eval a) l).
Lemma evals_cons a e l : evals a (e :: l) = (if is_eval a e then 1 else 0) + evals a l.
Proof. unfold evals. simpl. now destruct (is_eval a e). Qed.
Lemma evals_app a l l' : evals a (l ++ l') = evals a l + evals a l'.
Proof. unfold evals. now rewrite filter_app, app_length. Qed.
Lemma evals_zero a l : Forall (fun e => ~ marked e) l -> evals a l = 0.
Proof. induction 1 as [|e l He _ IH]; [reflexivity|]. rewrite evals_cons, IH. destruct e; simpl in *; easy. Qed.
Lemma ssum_evals E t c o c' evs a : ssum E t c o c' evs -> evals a (c_log c') = (if text_eqb a (t_id t) then 1 else 0) + evals a (c_log c).
Proof.
  intros H. rewrite (ss_log _ _ _ _ _ _ H), !evals_app, evals_cons.
  assert (Hg : evals a (ghost t o) = 0) by (destruct o; reflexivity).
  assert (He : evals a evs = 0).
  { pose proof (ss_evs _ _ _ _ _ _ H) as Hq. destruct o; try (apply evals_zero; eapply quiet_all; exact Hq). destruct Hq as (cl & -> & _). reflexivity. }
  rewrite Hg, He. reflexivity.
Qed.

(** What a wrapped call does *)
Definition about (m : minfo) (t : task) : Prop :=
  match t with
  | TDynamic _ s _ _ rs _ _ _ | TPending _ s _ rs _ => s = snd (fst m) /\ some rs = snd m
  | _ => False
  end.
Lemma mode_core t m : mode t = Some m -> about m (core t).
Proof. induction t; simpl; try discriminate; auto. destruct t; try discriminate; simpl; now intros [= <-]. Qed.
Definition called (m : minfo) (x : task) : option minfo := match x with TDynamic _ s _ _ rs _ _ _ | TPending _ s _ rs _ => Some (fst (fst m), s, some rs) | _ => None end.
Lemma mode_apply E t m c o c' : mode t = Some m -> apply E t c = (o, c') ->
  let (o0, c0) := apply E (core t) c in
  match o0 with
  | OFailed => c' = emit (EvMetric MErrors) c0 /\ if fst (fst m) then exists f, o = OTerminate f /\ core f = default_reply else o = ODone
  | ODone => o = ODone /\ c' = c0
  | ODeferred k x => exists x', o = ODeferred k x' /\ core x' = core x /\ c' = c0 /\ mode x' = called m x
  | ORequeued l => exists l', o = ORequeued l' /\ map core l' = map core l /\ c' = c0
  | OTerminate f => exists f', o = OTerminate f' /\ core f' = core f /\ c' = c0
  end.
Proof.
  revert o. induction t as [| | |t IH abort|t IH| | | | | |]; intros o; try discriminate.
  - intros Hm Ha.
    assert (Hb : abort = fst (fst m)) by (destruct t; try discriminate; now injection Hm as <-).
    assert (Ht : core t = t) by (destruct t; try discriminate; reflexivity). clear Hm. subst abort.
    cbn [core]. rewrite Ht. cbn [apply] in Ha. destruct (apply E t c) as [o0 c0]. destruct o0; injection Ha as <- <-.
    + auto.
    + exists (TFailureMode t0 (fst (fst m))). repeat split.
    + exists ts. auto.
    + split; [reflexivity|]. destruct (fst (fst m)); [exists default_reply; auto|reflexivity].
    + exists t0. auto.
  - cbn [mode core apply]. intros Hm Ha. destruct (apply E t c) as [o1 c1]. 
    destruct o1; injection Ha as <- <-; specialize (IH _ Hm eq_refl); destruct (apply E (core t) c) as [o0 c0]; destruct o0.
    all: try exact IH.
    all: repeat match goal with
         | H : _ /\ _ |- _ => destruct H
         | H : exists _, _ |- _ => destruct H
         | H : (if ?b then _ else _) |- _ => destruct b
         | H : ODone = _ |- _ => discriminate H
         | H : OFailed = _ |- _ => discriminate H
         | H : ODeferred _ _ = ODeferred _ _ |- _ => injection H as -> ->
         | H : ORequeued _ = ORequeued _ |- _ => injection H as ->
         | H : OTerminate _ = OTerminate _ |- _ => injection H as ->
         | H : _ = _ |- _ => discriminate H
         end; subst.
    + eexists. repeat split; auto.
    + eexists. split; [reflexivity|]. split; [|reflexivity]. rewrite map_map. cbn [core]. assumption.
    + split; [reflexivity|]. eexists. split; [reflexivity|]. assumption.
    + eexists. split; [reflexivity|]. split; [assumption|reflexivity].
Qed.

(** * The reply that failing calls end with *)
(** The interpreter on the two constant expressions of send_reply.rs:34-47 *)
Definition cel_constants (E : env) : Prop :=
  forall l vs, o_cel E l (ALit (VBool true)) vs = Some (VBool true) /\
    exists ty, o_cel E l default_deny vs = Some (VStruct ty [(tx "status", VUInt 500); (tx "headers", VList []); (tx "body", VString ise_body)]).

Lemma default_effect E f c : cel_constants E -> is_final f -> core f = default_reply ->
  exists h ok, c_log (run_terminal E f c) = [EvReply 500 h (Some ise_body) ok; EvMetric MDenied] ++ c_log c.
Proof.
  intros HC Hf Hc. unfold run_terminal.
  assert (Ha : apply E f c = apply E default_reply c \/ exists o, snd (apply E f c) = snd (apply E default_reply c) /\ apply E f c = (o, snd (apply E default_reply c))).
  { right. induction f; simpl in Hf, Hc; try (destruct Hf; discriminate).
    - destruct (IHf Hf Hc) as (o & H1 & H2). simpl. rewrite H2. destruct o; simpl; eauto.
    - rewrite Hc. exists (fst (apply E default_reply c)). split; [reflexivity|]. apply surjective_pairing. }
  assert (Hs : snd (apply E f c) = snd (apply E default_reply c)) by (destruct Ha as [-> |(o & H & _)]; auto). clear Ha.
  cut (exists h ok, c_log (snd (apply E default_reply c)) = [EvReply 500 h (Some ise_body) ok; EvMetric MDenied] ++ c_log c).
  { rewrite <- Hs. destruct (apply E f c) as [o c1]. simpl. destruct o; auto. }
  clear f Hf Hc Hs. unfold default_reply. cbn [apply]. unfold apply_reply, test_in, eval_in.
  assert (V : forall vs c, exists vs', eval_vars E true_expr vs c = (RAvail vs', c)) by (intros; eexists; reflexivity).
  assert (V' : forall vs c, exists vs', eval_vars E (expr_of default_deny) vs c = (RAvail vs', c)) by (intros; eexists; reflexivity).
  destruct (V (scope_vars (tx "default") c) c) as (vs1 & ->). cbn [ex_ast true_expr expr_of].
  destruct (HC (c_log c) vs1) as [-> _].
  destruct (V' vs1 c) as (vs2 & ->). change (ex_ast (expr_of default_deny)) with default_deny.
  destruct (HC (c_log c) vs2) as [_ (ty & ->)].
  assert (Ht : forall tr c3, tracker E c = (tr, c3) -> c_log c3 = c_log c).
  { unfold tracker, request_id. intros tr c3. destruct (c_track c); [|now intros [= <- <-]].
    destruct (c_rid c); [now intros [= <- <-]|]. destruct (read_headers E p_req_headers c) as [r c1] eqn:Hr. pose proof (read_headers_ext _ _ _ _ _ Hr) as (x & -> & _).
    destruct r as [|h|]; [|destruct (h_get (tx "x-request-id") h)|]; now intros [= <- <-]. }
  destruct (tracker E c) as [tr c3]. specialize (Ht _ _ eq_refl). unfold send_reply. cbn [snd emit with_log c_log]. rewrite Ht.
  eexists _, _. reflexivity.
Qed.

(** * Which tasks are under a failure mode *)
Definition minfos := list (text * minfo).
Definition modes (l : list task) : minfos := flat_map (fun t => match mode t with Some m => [(t_id t, m)] | None => [] end) l.
Lemma in_modes l x m : In (x, m) (modes l) <-> exists t, In t l /\ t_id t = x /\ mode t = Some m.
Proof.
  unfold modes. rewrite in_flat_map. split.
  - intros (t & Ht & H). exists t. destruct (mode t) as [m'|]; [|destruct H]. destruct H as [[= <- <-]|[]]. auto.
  - intros (t & Ht & <- & Hm). exists t. rewrite Hm. split; [exact Ht|now left].
Qed.

(** what a failing call leaves: with [deny] a 500, otherwise the action counts as done *)
Definition fallout (deny : bool) (a : text) (l : log) : Prop :=
  if deny then exists h ok, l = [EvReply 500 h (Some ise_body) ok; EvMetric MDenied; EvTerminate a; EvMetric MErrors]
  else l = [EvDone a; EvMetric MErrors].
Definition starts (Q : log -> Prop) (post : log) : Prop := exists l' l, post = l' ++ l /\ Q l.
Definition bad (E : env) (m : minfo) (st sz : N) (l : log) : Prop :=
  st <> 0%N \/ snd m = true /\ (h_grpcresp E l sz = None \/ exists b, h_grpcresp E l sz = Some b /\ o_decode E l (snd (fst m)) b = None).
Definition is_handle (a : text) (e : ev) : bool := match e with EvHandle _ b => text_eqb a b | _ => false end.
Definition handled (a : text) (l : log) : nat := length (filter (is_handle a) l).
(** [post] came after [e], [pre] before *)
Definition consequence (E : env) (M0 : minfos) (post : log) (e : ev) (pre : log) : Prop :=
  forall a m, In (a, m) M0 ->
  match e with
  | EvHandle k b => b = a -> ~ over pre -> evals a pre = 1 -> forall st sz pre', pre = EvGrpcResp k st sz :: pre' -> bad E m st sz (EvEval a :: e :: pre) ->
        starts (fun l => exists l1, l = l1 ++ [EvEval a] /\ fallout (fst (fst m)) a l1) post
  | EvDispatch b _ None => b = a -> evals a pre = 1 -> starts (fallout (fst (fst m)) a) post
  | EvFailed b => b = a -> 2 + handled a pre <= evals a pre
  | _ => True
  end.
Definition Fw (P : log -> ev -> log -> Prop) (l : log) : Prop := forall post e pre, l = post ++ e :: pre -> P post e pre.

Lemma app_split {A} (x l post : list A) e pre : x ++ l = post ++ e :: pre ->
  (exists x1 x2, x = x1 ++ e :: x2 /\ post = x1 /\ pre = x2 ++ l) \/ (exists p2, post = x ++ p2 /\ l = p2 ++ e :: pre).
Proof.
  revert post. induction x as [|y x IH]; intros post H; simpl in H.
  - right. now exists post.
  - destruct post as [|z post]; simpl in H; injection H as -> H.
    + left. exists [], x. now subst.
    + apply IH in H as [(x1 & x2 & -> & -> & ->)|(p2 & -> & ->)].
      * left. now exists (z :: x1), x2.
      * right. now exists p2.
Qed.
Lemma starts_more Q x l : starts Q l -> starts Q (x ++ l).
Proof. intros (l' & l0 & -> & H). exists (x ++ l'), l0. now rewrite app_assoc. Qed.
Lemma Fw_app E M0 x l : (forall x1 e x2, x = x1 ++ e :: x2 -> consequence E M0 x1 e (x2 ++ l)) -> Fw (consequence E M0) l -> Fw (consequence E M0) (x ++ l).
Proof.
  intros Hx Hl post e pre H. apply app_split in H as [(x1 & x2 & -> & -> & ->)|(p2 & -> & ->)]; [now apply Hx|].
  specialize (Hl _ _ _ eq_refl). intros a m Hm. specialize (Hl a m Hm). destruct e as [| | | | |? ? [|]| | | | | | | | | | | | | |]; auto.
  - intros H1 H2. apply starts_more. auto.
  - intros H1 H2 H3 st sz pre' H4 H5. apply starts_more. eauto.
Qed.
(** events that cannot be the cause of anything here *)
Definition harmless (e : ev) : Prop := match e with EvHandle _ _ | EvFailed _ | EvDispatch _ _ None => False | _ => True end.
Lemma Fw_harmless E M0 x l : Forall harmless x -> Fw (consequence E M0) l -> Fw (consequence E M0) (x ++ l).
Proof.
  intros Hx. apply Fw_app. intros x1 e x2 ->. apply Forall_app in Hx as [_ Hx]. inversion Hx as [|? ? He _]; subst.
  intros a m _. destruct e as [| | | | |? ? [|]| | | | | | | | | | | | | |]; simpl in *; easy.
Qed.

(** * What wrapped tasks add to the log *)
Lemma dynamic_log E id s var msg rs pred deps g c o c' : apply E (TDynamic id s var msg rs pred deps g) c = (o, c') ->
  match o with
  | ODone | ORequeued _ => c_log c' = c_log c
  | OFailed => c_log c' = c_log c \/ exists cl, c_log c' = EvDispatch id cl None :: c_log c
  | ODeferred k x => x = TPending id s var rs g /\ exists cl, c_log c' = EvDispatch id cl (Some k) :: c_log c
  | OTerminate _ => False
  end.
Proof.
  cbn [apply]. unfold apply_dynamic.
  assert (X : forall a b, ext a b -> c_log b = c_log a) by now intros a b (x & -> & _).
  destruct (test_in E pred _ c) as [[r vs] c1] eqn:H1. apply test_in_ext, X in H1.
  destruct r as [|[]|].
  - destruct (body_over pred c1); intros [= <- <-]; auto.
  - destruct (eval_in E msg _ c1) as [[r2 vs2] c2] eqn:H2. apply eval_in_ext, X in H2.
    destruct r2 as [|v|].
    + destruct (body_over msg c2); intros [= <- <-]; try left; congruence.
    + destruct (o_encode E (c_log c2) s v) as [bytes|]; [|intros [= <- <-]; left; congruence].
      destruct (dispatch E _ _ _ _ _ _ c2) as [r3 c3] eqn:H3. apply dispatch_spec in H3 as (cl & c1' & Hx & -> & _).
      assert (Hl : c_log c1' = c_log c2) by (destruct Hx as (y & z & -> & _); reflexivity).
      destruct r3 as [k|]; intros [= <- <-].
      * split; [reflexivity|]. exists cl. destruct g; cbn; rewrite Hl; congruence.
      * right. exists cl. cbn. rewrite Hl. congruence.
    + intros [= <- <-]. left. congruence.
  - intros [= <- <-]. exact H1.
  - intros [= <- <-]. left. exact H1.
Qed.
Lemma pending_log E id s var rs g c o c' st sz : c_grpc c = Some (st, sz) -> apply E (TPending id s var rs g) c = (o, c') ->
  c_log c' = c_log c /\ (o = ODone \/ o = OFailed \/ o = ORequeued rs) /\
  (forall b, bad E (b, s, some rs) st sz (c_log c) -> o = OFailed).
Proof.
  intros Hg. cbn [apply]. unfold apply_pending, process_response, take_grpc. rewrite Hg.
  intros H. assert (K : forall o1 c1, (let (o, c1) := (o1, c1) in (o, if g then lower c1 else c1)) = (o, c') -> o = o1 /\ c_log c' = c_log c1).
  { intros o1 c1 [= <- <-]. now destruct g. }
  destruct (N.eqb_spec st 0) as [->|Hst]; simpl negb in H; cbv iota in H.
  2:{ apply K in H as [-> ->]. auto. }
  destruct rs as [|r rs].
  { apply K in H as [-> ->]. split; [reflexivity|]. split; [auto|]. intros b [H|[H _]]; [now elim H|discriminate]. }
  cbn [with_grpc c_log] in H. destruct (h_grpcresp E (c_log c) sz) as [by_|] eqn:Hr.
  2:{ apply K in H as [-> ->]. auto. }
  destruct (o_decode E (c_log c) s by_) as [v|] eqn:Hd.
  2:{ apply K in H as [-> ->]. auto. }
  apply K in H as [-> ->]. split; [reflexivity|]. split; [auto|]. intros b [H|[_ [H|(x & H & H')]]]; cbn in H; [now elim H|congruence|].
  rewrite Hr in H. injection H as <-. cbn in H'. congruence.
Qed.

(** A wrapped task taken from the queue *)
Lemma wrapped_run E t m c o c' : mode t = Some m -> wf_q t -> step E t c = (o, c') -> exists d,
  (d = [] \/ exists cl, d = [EvDispatch (t_id t) cl None]) /\
  match o with
  | ODone => c_log c' = EvDone (t_id t) :: EvEval (t_id t) :: c_log c \/
             fst (fst m) = false /\ c_log c' = EvDone (t_id t) :: EvMetric MErrors :: d ++ EvEval (t_id t) :: c_log c
  | ODeferred k t' => mode t' = Some m /\ exists cl, c_log c' = EvDispatch (t_id t) cl (Some k) :: EvEval (t_id t) :: c_log c
  | ORequeued _ => c_log c' = EvEval (t_id t) :: c_log c
  | OFailed => False
  | OTerminate f => fst (fst m) = true /\ core f = default_reply /\
             c_log c' = EvTerminate (t_id t) :: EvMetric MErrors :: d ++ EvEval (t_id t) :: c_log c
  end.
Proof.
  intros Hm Hq. pose proof (mode_core _ _ Hm) as Hab. unfold step.
  destruct (apply E t (emit (EvEval (t_id t)) c)) as [o1 c1] eqn:Ha. intros [= <- <-].
  pose proof (mode_apply _ _ _ _ _ _ Hm Ha) as H. apply wf_q_not_pending in Hq. 
  pose proof (core_id t) as Hid.
  destruct (core t) as [id s var msg rs pred deps g|id s var rs g| | | | | | | | |] eqn:Hc; try contradiction.
  destruct Hab as [Hs Hrs]. cbn [t_id] in Hid. subst id.
  destruct (apply E (TDynamic _ _ _ _ _ _ _ _) _) as [o0 c0] eqn:H0. apply dynamic_log in H0.
  destruct o0 as [|k x|l| |f].
  - destruct H as [-> ->]. exists []. split; [now left|]. left. cbn. now rewrite H0.
  - destruct H as (x' & -> & Hx & -> & Hmx). destruct H0 as (-> & cl & H0). exists []. split; [now left|]. split.
    + rewrite Hmx. cbn. destruct m as [[b s0] n0]. cbn [fst snd] in *. now subst s0 n0.
    + exists cl. exact H0.
  - destruct H as (l' & -> & _ & ->). exists []. split; [now left|]. exact H0.
  - destruct H as [-> H]. 
    assert (Hd : exists d, (d = [] \/ exists cl, d = [EvDispatch (t_id t) cl None]) /\ c_log c0 = d ++ EvEval (t_id t) :: c_log c).
    { destruct H0 as [H0|(cl & H0)]; [exists []|exists [EvDispatch (t_id t) cl None]]; (split; [eauto|exact H0]). }
    destruct Hd as (d & Hd & Hl). exists d. split; [exact Hd|].
    destruct (fst (fst m)).
    + destruct H as (f & -> & Hf). split; [reflexivity|]. split; [exact Hf|]. cbn. now rewrite Hl.
    + subst o1. right. split; [reflexivity|]. cbn. now rewrite Hl.
  - destruct H0.
Qed.
(** A wrapped call given its response *)
Lemma wrapped_handle E t m c o c' st sz : mode t = Some m -> wf_d t -> c_grpc c = Some (st, sz) -> step E t c = (o, c') ->
  match o with
  | ODone => c_log c' = EvDone (t_id t) :: EvEval (t_id t) :: c_log c /\ ~ bad E m st sz (EvEval (t_id t) :: c_log c) \/
             fst (fst m) = false /\ c_log c' = EvDone (t_id t) :: EvMetric MErrors :: EvEval (t_id t) :: c_log c
  | ORequeued _ => ~ bad E m st sz (EvEval (t_id t) :: c_log c)
  | OTerminate f => fst (fst m) = true /\ core f = default_reply /\
             c_log c' = EvTerminate (t_id t) :: EvMetric MErrors :: EvEval (t_id t) :: c_log c
  | _ => False
  end.
Proof.
  intros Hm Hw Hg. pose proof (mode_core _ _ Hm) as Hab. unfold step.
  destruct (apply E t (emit (EvEval (t_id t)) c)) as [o1 c1] eqn:Ha. intros [= <- <-].
  pose proof (mode_apply _ _ _ _ _ _ Hm Ha) as H. apply wf_d_core in Hw.
  pose proof (core_id t) as Hid.
  destruct (core t) as [id s var msg rs pred deps g|id s var rs g| | | | | | | | |] eqn:Hc; try contradiction.
  destruct Hab as [Hs Hrs]. cbn [t_id] in Hid. subst id. destruct m as [[b s'] n']. cbn [fst snd] in *. subst s' n'.
  destruct (apply E (TPending _ _ _ _ _) _) as [o0 c0] eqn:H0. apply (pending_log _ _ _ _ _ _ _ _ _ st sz) in H0; [|exact Hg].
  destruct H0 as (Hl & [-> |[-> | ->]] & Hb).
  - destruct H as [-> ->]. left. split; [cbn; now rewrite Hl|]. intros Hbad. discriminate (Hb b Hbad).
  - destruct H as [-> H]. destruct b.
    + destruct H as (f & -> & Hf). split; [reflexivity|]. split; [exact Hf|]. cbn. now rewrite Hl.
    + subst o1. right. split; [reflexivity|]. cbn. now rewrite Hl.
  - destruct H as (l' & -> & _ & ->). intros Hbad. discriminate (Hb b Hbad).
Qed.

Lemma handled_cons a e l : handled a (e :: l) = (if is_handle a e then 1 else 0) + handled a l.
Proof. unfold handled. simpl. now destruct (is_handle a e). Qed.
Lemma handled_app a l l' : handled a (l ++ l') = handled a l + handled a l'.
Proof. unfold handled. now rewrite filter_app, app_length. Qed.
Lemma handled_zero a l : Forall (fun e => ~ marked e) l -> handled a l = 0.
Proof. induction 1 as [|e l He _ IH]; [reflexivity|]. rewrite handled_cons, IH. destruct e; simpl in *; easy. Qed.
Lemma ssum_handled E t c o c' evs a : ssum E t c o c' evs -> handled a (c_log c') = handled a (c_log c).
Proof.
  intros H. rewrite (ss_log _ _ _ _ _ _ H), !handled_app, handled_cons.
  assert (Hg : handled a (ghost t o) = 0) by (destruct o; reflexivity).
  assert (He : handled a evs = 0).
  { pose proof (ss_evs _ _ _ _ _ _ H) as Hq. destruct o; try (apply handled_zero; eapply quiet_all; exact Hq). destruct Hq as (cl & -> & _). reflexivity. }
  rewrite Hg, He. reflexivity.
Qed.
Lemma ssum_over E t c o c' evs : ssum E t c o c' evs -> over (c_log c) -> over (c_log c').
Proof. intros H (a & Ha). exists a. rewrite (ss_log _ _ _ _ _ _ H), !in_app_iff. simpl. auto. Qed.

(** * The invariant *)
Definition fixed (M0 : minfos) : Prop := (forall m, ~ In (tu, m) M0) /\ forall k m, ~ In (tx "teardown_" ++ k, m) M0.
Record M (E : env) (M0 : minfos) (ts : list task) (p : pipe) : Prop := {
  m_j : J ts p;
  m_nst : forall x m, In (x, m) M0 -> cnt x (nsts (items ts p)) = 0;
  m_q : forall t m, In t ts \/ In t (p_queue p) -> In (t_id t, m) M0 -> evals (t_id t) (c_log (p_ctx p)) = 0 -> mode t = Some m;
  m_d : forall t m, In t (dts p) -> ~ is_noop t -> In (t_id t, m) M0 ->
     1 <= evals (t_id t) (c_log (p_ctx p)) /\ (evals (t_id t) (c_log (p_ctx p)) = 1 -> mode t = Some m);
  m_h : forall t m, In t (items ts p) -> ~ is_noop t -> In (t_id t, m) M0 -> handled (t_id t) (c_log (p_ctx p)) = 0;
  m_n : forall t m, In t (dts p) -> is_noop t -> In (t_id t, m) M0 -> p_term p = true;
  m_o : p_term p = true -> over (c_log (p_ctx p));
  m_fw : cel_constants E -> Fw (consequence E M0) (c_log (p_ctx p)) }.

Lemma own_id t M0 m : fixed M0 -> wf_q t \/ (wf_d t /\ ~ is_noop t) -> In (t_id t, m) M0 -> 0 < cnt (t_id t) (idl t).
Proof.
  intros [F1 F2] Hw Hm. apply cnt_In. destruct Hw as [Hq|[Hd Hn]].
  - destruct (task_id_cases t Hq) as [H|H]; [exact H|]. rewrite H in Hm. now apply F1 in Hm.
  - destruct (idl_head t) as [(id & -> & ->)|[H _]]; [now left|].
    destruct Hd as [Hd|Hd]; [contradiction|]. unfold wf_p in Hd. rewrite <- idl_core in H. destruct (core t); easy.
Qed.
Lemma cnt_flat {A} (f : A -> list text) x l t : In t l -> cnt x (f t) <= cnt x (flat_map f l).
Proof.
  induction l as [|y l IH]; simpl; [easy|]. rewrite cnt_app. intros [->|H]; [lia|]. apply IH in H. lia.
Qed.
Lemma other_queue M0 t ts p x m : fixed M0 -> J (t :: ts) p -> In x ts \/ In x (p_queue p) \/ In x (dts p) /\ ~ is_noop x ->
  In (t_id x, m) M0 -> text_eqb (t_id x) (t_id t) = false.
Proof.
  intros F HJ Hx Hm. destruct (text_eqb (t_id x) (t_id t)) eqn:He; [exfalso|reflexivity]. apply text_eqb_eq in He.
  pose proof (j_w _ _ HJ) as HW. pose proof (w_ts _ _ HW) as Hts. inversion Hts as [|? ? Hq Hqs]; subst.
  pose proof (own_id t M0 m F (or_introl Hq)) as H1. rewrite <- He in H1. specialize (H1 Hm).
  assert (Hw : wf_q x \/ (wf_d x /\ ~ is_noop x)).
  { rewrite Forall_forall in Hqs. pose proof (w_queue _ _ HW) as Hqq. rewrite Forall_forall in Hqq. pose proof (w_def _ _ HW) as Hdd. rewrite Forall_forall in Hdd.
    destruct Hx as [Hx|[Hx|[Hx Hn]]]; auto. }
  pose proof (own_id x M0 m F Hw Hm) as H2.
  assert (Hi : In x (ts ++ p_queue p ++ dts p)) by (rewrite !in_app_iff; tauto).
  pose proof (j_one _ _ HJ (t_id x)) as H3. change (items (t :: ts) p) with (t :: ts ++ p_queue p ++ dts p) in H3.
  rewrite idls_cons, cnt_app in H3. pose proof (cnt_flat idl (t_id x) _ _ Hi). unfold idls in H3. lia.
Qed.
Lemma other_def M0 tok t p x m : fixed M0 -> J [] p -> nget tok (p_def p) = Some t -> In x (p_queue p) \/ In x (map snd (ndel tok (p_def p))) /\ ~ is_noop x ->
  In (t_id x, m) M0 -> ~ is_noop t /\ text_eqb (t_id x) (t_id t) = false.
Proof.
  intros F HJ Hn Hx Hm. pose proof (j_w _ _ HJ) as HW.
  assert (Ht : ~ is_noop t).
  { intros Hno. destruct (w_noop _ _ HW) as (_ & Hq & Hall).
    - apply Exists_exists. exists t. split; [|exact Hno]. apply in_map_iff. exists (tok, t). split; [reflexivity|now apply nget_In].
    - rewrite Hq in Hx. destruct Hx as [[]|[Hx Hxn]]. apply Hxn. rewrite Forall_forall in Hall. apply Hall. now apply In_ndel in Hx. }
  split; [exact Ht|].
  destruct (text_eqb (t_id x) (t_id t)) eqn:He; [exfalso|reflexivity]. apply text_eqb_eq in He.
  pose proof (w_queue _ _ HW) as Hqq. rewrite Forall_forall in Hqq. pose proof (w_def _ _ HW) as Hdd. rewrite Forall_forall in Hdd.
  assert (H1 : 0 < cnt (t_id t) (idl t)).
  { apply (own_id t M0 m F); [right; split; [apply Hdd; now apply In_nget in Hn|exact Ht]|now rewrite <- He]. }
  assert (Hw : wf_q x \/ (wf_d x /\ ~ is_noop x)).
  { destruct Hx as [Hx|[Hx Hxn]]; auto. right. split; [|exact Hxn]. apply Hdd. now apply In_ndel in Hx. }
  pose proof (own_id x M0 m F Hw Hm) as H2.
  pose proof (j_one _ _ HJ (t_id x)) as H3. unfold items, dts in H3. simpl app in H3. rewrite idls_app, cnt_app in H3.
  pose proof (cnt_ndel (t_id x) _ _ _ Hn) as H4. rewrite <- He in H1.
  destruct Hx as [Hx|[Hx _]]; pose proof (cnt_flat idl (t_id x) _ _ Hx) as H5; unfold idls in *; lia.
Qed.

(** The log after a task ran from the queue *)
Lemma last_split {A} (y : list A) z x1 e x2 : y ++ [z] = x1 ++ e :: x2 -> (exists x2', x2 = x2' ++ [z] /\ y = x1 ++ e :: x2') \/ e = z /\ x2 = [] /\ x1 = y.
Proof.
  intros H. apply app_split in H as [(a & b & -> & -> & ->)|(p2 & -> & H)].
  - left. now exists b.
  - right. destruct p2 as [|q p2]; [|destruct p2; discriminate]. simpl in H. injection H as <- <-. now rewrite app_nil_r.
Qed.
Definition after (E : env) (o : outcome) (c : ctx) : log := match o with OTerminate f => c_log (run_terminal E f c) | _ => c_log c end.
Lemma final_harmless evs : Forall final_ev evs -> Forall harmless evs.
Proof. apply Forall_impl. intros e He. destruct e; simpl in *; easy. Qed.
Lemma after_final E t c o c' evs : ssum E t c o c' evs -> exists fe, after E o c' = fe ++ c_log c' /\ Forall final_ev fe.
Proof.
  intros Hss. destruct o; try (exists []; split; [reflexivity|constructor]).
  pose proof (ss_final _ _ _ _ _ _ Hss) as Hf. destruct (terminal_sum E t0 c' Hf) as (fe & T1 & T2 & _). now exists fe.
Qed.

(** a chunk of events of one task, with the evaluation first, followed by [l] *)
Lemma Fw_unwrapped E M0 t c o c' evs (Hss : ssum E t c o c' evs) :
  (forall m, In (t_id t, m) M0 -> 1 <= evals (t_id t) (c_log c) /\ (o = OFailed -> 1 + handled (t_id t) (c_log c) <= evals (t_id t) (c_log c))) ->
  Fw (consequence E M0) (c_log c) -> Fw (consequence E M0) (after E o c').
Proof.
  intros Hm Hl. destruct (after_final _ _ _ _ _ _ Hss) as (fe & -> & Hfe). apply Fw_harmless; [now apply final_harmless|].
  rewrite (ss_log _ _ _ _ _ _ Hss).
  replace (ghost t o ++ evs ++ EvEval (t_id t) :: c_log c) with (((ghost t o ++ evs) ++ [EvEval (t_id t)]) ++ c_log c) by now rewrite <- !app_assoc.
  apply Fw_app; [|exact Hl]. intros x1 e x2 H.
  apply last_split in H as [(x2' & -> & H)|(-> & -> & ->)]; [|now intros a m _].
  assert (Hin : In e (ghost t o ++ evs)) by (rewrite H; apply in_or_app; right; now left).
  apply in_app_or in Hin as [Hin|Hin].
  - destruct o; simpl in Hin; try (destruct Hin as [<-|[]]); try easy. 
    intros a m Ha <-. destruct (Hm m Ha) as [H1 H2]. specialize (H2 eq_refl).
    simpl in H. destruct x1 as [|z x1]; simpl in H.
    + injection H as <-. pose proof (ss_evs _ _ _ _ _ _ Hss) as Hq. cbv beta iota in Hq. apply quiet_all in Hq.
      rewrite handled_app, evals_app, handled_app, evals_app. rewrite (handled_zero _ evs), (evals_zero _ evs) by exact Hq.
      rewrite handled_cons, evals_cons. simpl. rewrite (proj2 (text_eqb_eq (t_id t) (t_id t)) eq_refl). lia.
    + exfalso. injection H as <- H. pose proof (ss_evs _ _ _ _ _ _ Hss) as Hq. cbv beta iota in Hq.
      rewrite Forall_forall in Hq. apply (Hq (EvFailed (t_id t))). rewrite H. apply in_or_app. right. now left.
  - destruct (ssum_evs_cases _ _ _ _ _ _ _ Hss Hin) as [Hq|(cl & k & ->)]; [|now intros a m _].
    destruct e as [| | | | |? ? [|]| | | | | | | | | | | | | |]; simpl in Hq; try (intros ? ? _; exact Logic.I); try contradiction.
    destruct Hq as [-> _]. intros a m Ha <- Hev. exfalso. destruct (Hm m Ha) as [H1 _].
    rewrite <- app_assoc, evals_app in Hev. simpl in Hev. rewrite evals_cons in Hev. simpl in Hev. rewrite (proj2 (text_eqb_eq (t_id t) (t_id t)) eq_refl) in Hev. lia.
Qed.

Lemma Fw_wrapped_run E M0 t m c o c' : cel_constants E -> mode t = Some m -> wf_q t -> step E t c = (o, c') ->
  (forall m', In (t_id t, m') M0 -> m' = m) ->
  Fw (consequence E M0) (c_log c) -> Fw (consequence E M0) (after E o c').
Proof.
  intros HC Hm Hq Hst Hu Hl. pose proof Hst as Hst'. apply step_sum in Hst' as (evs & Hss).
  destruct (wrapped_run _ _ _ _ _ _ Hm Hq Hst) as (d & Hd & H).
  assert (K : forall x, Forall harmless x -> (d = [] \/ starts (fallout (fst (fst m)) (t_id t)) x) -> Fw (consequence E M0) (x ++ d ++ EvEval (t_id t) :: c_log c)).
  { intros x Hx Hd'.
    assert (Hb : Fw (consequence E M0) ([EvEval (t_id t)] ++ c_log c)) by (apply Fw_harmless; [now repeat constructor|exact Hl]).
    simpl in Hb. destruct Hd as [-> |(cl & ->)]; [now apply Fw_harmless|].
    destruct Hd' as [?|Hd']; [discriminate|].
    simpl. replace (x ++ EvDispatch (t_id t) cl None :: EvEval (t_id t) :: c_log c) with ((x ++ [EvDispatch (t_id t) cl None]) ++ EvEval (t_id t) :: c_log c) by now rewrite <- app_assoc.
    apply Fw_app; [|exact Hb]. intros x1 e x2 He. apply last_split in He as [(x2' & -> & ->)|(-> & -> & ->)].
    - apply Forall_app in Hx as [_ Hx]. inversion Hx as [|? ? Hh _]; subst. intros a m' _. destruct e as [| | | | |? ? [|]| | | | | | | | | | | | | |]; simpl in *; easy.
    - intros a m' Ha <- _. rewrite (Hu _ Ha). exact Hd'. }
  destruct o as [|k x|l| |f]; cbn [after].
  - destruct H as [->|[Hb ->]].
    + apply (Fw_harmless E M0 [EvDone (t_id t); EvEval (t_id t)]); [now repeat constructor|exact Hl].
    + apply (K [EvDone (t_id t); EvMetric MErrors]); [now repeat constructor|]. right. exists [], [EvDone (t_id t); EvMetric MErrors]. split; [reflexivity|]. rewrite Hb. reflexivity.
  - destruct H as [_ (cl & ->)]. apply (Fw_harmless E M0 [EvDispatch (t_id t) cl (Some k); EvEval (t_id t)]); [now repeat constructor|exact Hl].
  - rewrite H. apply (Fw_harmless E M0 [EvEval (t_id t)]); [now repeat constructor|exact Hl].
  - destruct H.
  - destruct H as (Hb & Hf & Hlog). pose proof (ss_final _ _ _ _ _ _ Hss) as Hfin.
    destruct (default_effect E f c' HC Hfin Hf) as (h & ok & ->). rewrite Hlog.
    apply (K [EvReply 500 h (Some ise_body) ok; EvMetric MDenied; EvTerminate (t_id t); EvMetric MErrors]); [now repeat constructor|].
    right. eexists [], _. split; [reflexivity|]. rewrite Hb. now exists h, ok.
Qed.

(** The log after a response was handed to its task *)
Definition after_handle (E : env) (t : task) (o : outcome) (c : ctx) : log :=
  match o with ORequeued _ => EvDone (t_id t) :: c_log c | _ => after E o c end.
Lemma Fw_handle E M0 t c0 tok st sz o c' : cel_constants E -> wf_d t ->
  c_grpc c0 = Some (st, sz) -> c_log c0 = EvHandle tok (t_id t) :: EvGrpcResp tok st sz :: tl (tl (c_log c0)) ->
  step E t c0 = (o, c') ->
  (forall m, In (t_id t, m) M0 -> ~ over (tl (tl (c_log c0))) -> ~ is_noop t /\ handled (t_id t) (tl (tl (c_log c0))) = 0 /\
      1 <= evals (t_id t) (tl (tl (c_log c0))) /\ (evals (t_id t) (tl (tl (c_log c0))) = 1 -> mode t = Some m)) ->
  (forall m, In (t_id t, m) M0 -> is_noop t \/ (handled (t_id t) (tl (tl (c_log c0))) = 0 /\ 1 <= evals (t_id t) (tl (tl (c_log c0))) /\ (evals (t_id t) (tl (tl (c_log c0))) = 1 -> mode t = Some m))) ->
  Fw (consequence E M0) (tl (tl (c_log c0))) -> Fw (consequence E M0) (after_handle E t o c').
Proof.
  intros HC Hw Hg Hlog Hst Hm Hm2 Hl. set (l0 := tl (tl (c_log c0))) in *. clearbody l0.
  pose proof Hst as Hst'. apply step_sum in Hst' as (evs & Hss). pose proof (ss_log _ _ _ _ _ _ Hss) as Hlc. rewrite Hlog in Hlc.
  destruct (after_final _ _ _ _ _ _ Hss) as (fe & Hfe & Hff).
  set (done := match o with ORequeued _ => [EvDone (t_id t)] | _ => [] end).
  assert (Ha : after_handle E t o c' = done ++ fe ++ ghost t o ++ evs ++ EvEval (t_id t) :: EvHandle tok (t_id t) :: EvGrpcResp tok st sz :: l0).
  { unfold after_handle, done. rewrite <- Hlc, <- Hfe. destruct o; reflexivity. }
  assert (Hq : Forall (quiet t) evs).
  { pose proof (ss_evs _ _ _ _ _ _ Hss) as He. destruct o; try exact He. destruct He as (cl & _ & _ & _ & Hx). apply wf_d_core in Hw. destruct (core t); easy. }
  assert (Hqh : Forall harmless evs).
  { apply Forall_forall. intros e He. rewrite Forall_forall in Hq. specialize (Hq e He). apply wf_d_core in Hw. destruct e as [| | | | |? ? [|]| | | | | | | | | | | | | |]; simpl in *; try easy. destruct Hq as [_ Hq]. destruct (core t); easy. }
  rewrite Ha.
  replace (done ++ fe ++ ghost t o ++ evs ++ EvEval (t_id t) :: EvHandle tok (t_id t) :: EvGrpcResp tok st sz :: l0)
     with ((((done ++ fe ++ ghost t o) ++ evs ++ [EvEval (t_id t)]) ++ [EvHandle tok (t_id t)]) ++ EvGrpcResp tok st sz :: l0) by now rewrite <- !app_assoc.
  apply Fw_app; [|apply (Fw_harmless E M0 [EvGrpcResp tok st sz]); [now repeat constructor|exact Hl]].
  intros x1 e x2 He. apply last_split in He as [(x2' & -> & He)|(-> & -> & ->)].
  - (* events of the handler *)
    apply app_split in He as [(y1 & y2 & He & -> & ->)|(y & -> & He)].
    2:{ assert (Hh : harmless e). { assert (In e (evs ++ [EvEval (t_id t)])) as Hi by (rewrite He; apply in_or_app; right; now left). apply in_app_or in Hi as [Hi|[<-|[]]]; [|exact Logic.I]. rewrite Forall_forall in Hqh. auto. }
        intros a m' _. destruct e as [| | | | |? ? [|]| | | | | | | | | | | | | |]; simpl in *; easy. }
    assert (Hi : In e (done ++ fe ++ ghost t o)) by (rewrite He; apply in_or_app; right; now left).
    assert (Hc : harmless e \/ e = EvFailed (t_id t) /\ o = OFailed).
    { apply in_app_or in Hi as [Hi|Hi]; [left; unfold done in Hi; destruct o; simpl in Hi; try easy; destruct Hi as [<-|[]]; exact Logic.I|].
      apply in_app_or in Hi as [Hi|Hi]; [left; apply final_harmless in Hff; rewrite Forall_forall in Hff; auto|].
      destruct o; simpl in Hi; try easy; destruct Hi as [<-|[]]; try (left; exact Logic.I). now right. }
    destruct Hc as [Hh|[-> ->]].
    { intros a m' _. destruct e as [| | | | |? ? [|]| | | | | | | | | | | | | |]; simpl in *; easy. }
    intros a m' Hin <-. destruct (Hm2 m' Hin) as [Hno|(H1 & H2 & H3)].
    + exfalso. destruct t; try contradiction. unfold step in Hst. cbn in Hst. destruct guard; discriminate.
    + destruct (Nat.eq_dec (evals (t_id t) l0) 1) as [H4|H4].
      * exfalso. exact (wrapped_handle _ _ _ _ _ _ st sz (H3 H4) Hw Hg Hst).
      * assert (y2 = []).
        { cbn [after] in Hfe. assert (fe = []) by (apply (f_equal (@length ev)) in Hfe; rewrite app_length in Hfe; destruct fe; [reflexivity|simpl in Hfe; lia]). subst fe.
          unfold done in He. simpl in He. destruct y1; simpl in He; [now injection He as <-|injection He as _ He; now destruct y1]. }
        subst y2. simpl app.
        rewrite <- !app_assoc. rewrite handled_app, evals_app. rewrite (handled_zero _ evs), (evals_zero _ evs) by (eapply quiet_all; eauto).
        simpl app. rewrite !handled_cons, !evals_cons. simpl. rewrite (proj2 (text_eqb_eq (t_id t) (t_id t)) eq_refl). lia.
  - (* the response itself *)
    intros a m' Hin <- Hov Hev st' sz' pre' Heq Hbad. injection Heq as <- <- <-.
    assert (Hov' : ~ over l0). { intros (b & Hb). apply Hov. exists b. now right. }
    destruct (Hm m' Hin Hov') as (Hno & H1 & H2 & H3).
    change (evals (t_id t) l0 = 1) in Hev. specialize (H3 Hev).
    pose proof (wrapped_handle _ _ _ _ _ _ st sz H3 Hw Hg Hst) as H. simpl app in Hbad. rewrite Hlog in H.
    destruct o as [|k x|l| |f]; try contradiction.
    + destruct H as [[_ H]|[Hb H]]; [contradiction|]. rewrite Hlc in H.
      assert (Hx : (ghost t ODone ++ evs ++ [EvEval (t_id t)]) = [EvDone (t_id t); EvMetric MErrors; EvEval (t_id t)]).
      { apply (app_inv_tail (EvHandle tok (t_id t) :: EvGrpcResp tok st sz :: l0)). rewrite <- !app_assoc. exact H. }
      exists (done ++ fe), [EvDone (t_id t); EvMetric MErrors; EvEval (t_id t)]. split; [rewrite <- Hx, <- !app_assoc; reflexivity|].
      exists [EvDone (t_id t); EvMetric MErrors]. split; [reflexivity|]. now rewrite Hb.
    + destruct H as (Hb & Hf & H). rewrite Hlc in H. pose proof (ss_final _ _ _ _ _ _ Hss) as Hfin.
      destruct (default_effect E f c' HC Hfin Hf) as (h & ok & Hde). cbn [after] in Hfe. rewrite Hde in Hfe.
      assert (Hfe' : fe = [EvReply 500 h (Some ise_body) ok; EvMetric MDenied]) by (symmetry; eapply app_inv_tail; exact Hfe).
      assert (Hx : (ghost t (OTerminate f) ++ evs ++ [EvEval (t_id t)]) = [EvTerminate (t_id t); EvMetric MErrors; EvEval (t_id t)]).
      { apply (app_inv_tail (EvHandle tok (t_id t) :: EvGrpcResp tok st sz :: l0)). rewrite <- !app_assoc. exact H. }
      exists [], ([EvReply 500 h (Some ise_body) ok; EvMetric MDenied; EvTerminate (t_id t); EvMetric MErrors] ++ [EvEval (t_id t)]). split.
      * unfold done. rewrite Hfe'. transitivity ([EvReply 500 h (Some ise_body) ok; EvMetric MDenied] ++ (ghost t (OTerminate f) ++ evs ++ [EvEval (t_id t)])); [now rewrite <- !app_assoc|]. now rewrite Hx.
      * eexists. split; [reflexivity|]. rewrite Hb. now exists h, ok.
Qed.

Lemma m_unique E M0 ts p t : M E M0 ts p -> forall m m', In t ts \/ In t (p_queue p) -> In (t_id t, m) M0 -> In (t_id t, m') M0 ->
  evals (t_id t) (c_log (p_ctx p)) = 0 -> m = m'.
Proof. intros HM m m' Ht H1 H2 He. pose proof (m_q _ _ _ _ HM t m Ht H1 He). pose proof (m_q _ _ _ _ HM t m' Ht H2 He). congruence. Qed.

Lemma M_run E M0 t ts p o c ts' p' : fixed M0 -> blocked (p_done p) t = false -> step E t (p_ctx p) = (o, c) -> run_next E t ts p o c = (ts', p') ->
  J ts' p' -> M E M0 (t :: ts) p -> M E M0 ts' p'.
Proof.
  intros F Hb Hst Hn HJ' HM. pose proof HM as [HJ Hns Hq Hd Hh Hno Ho Hfw].
  pose proof (j_w _ _ HJ) as HW. assert (Hwq : wf_q t) by (pose proof (w_ts _ _ HW) as H; now inversion H).
  pose proof Hst as Hst'. apply step_sum in Hst' as (evs & Hss).
  destruct (after_final _ _ _ _ _ _ Hss) as (fe & Hfe & Hff).
  assert (Hfw' : cel_constants E -> Fw (consequence E M0) (after E o c)).
  { intros HC. specialize (Hfw HC).
    destruct (in_dec text_eq_dec (t_id t) (map fst M0)) as [Hi|Hi].
    2:{ eapply Fw_unwrapped; [exact Hss| |exact Hfw]. intros m Hm. exfalso. apply Hi. apply in_map_iff. now exists (t_id t, m). }
    apply in_map_iff in Hi as ((x & m) & Hx & Hi). simpl in Hx. subst x.
    destruct (evals (t_id t) (c_log (p_ctx p))) as [|n] eqn:He.
    - eapply Fw_wrapped_run; [exact HC|apply (Hq t m); auto; left; now left|exact Hwq|exact Hst| |exact Hfw].
      intros m' Hm'. symmetry. apply (m_unique _ _ _ _ t HM); auto. left. now left.
    - eapply Fw_unwrapped; [exact Hss| |exact Hfw]. intros m' Hm'. rewrite He. split; [lia|]. intros _.
      rewrite (Hh t m'); [lia| | |exact Hm'].
      + now left.
      + intros H. destruct t; try contradiction. }
  assert (Hev : forall a, evals a (after E o c) = (if text_eqb a (t_id t) then 1 else 0) + evals a (c_log (p_ctx p))).
  { intros a. rewrite Hfe, evals_app, (evals_zero a fe) by now apply final_all. simpl. eapply ssum_evals; eauto. }
  assert (Hhd : forall a, handled a (after E o c) = handled a (c_log (p_ctx p))).
  { intros a. rewrite Hfe, handled_app, (handled_zero a fe) by now apply final_all. simpl. eapply ssum_handled; eauto. }
  assert (Hov : over (c_log (p_ctx p)) -> over (after E o c)).
  { intros H. apply (ssum_over _ _ _ _ _ _ Hss) in H as (a & Ha). exists a. rewrite Hfe. apply in_or_app. now right. }
  (* the tasks that stay *)
  assert (Kq : forall x m, In x ts \/ In x (p_queue p) -> In (t_id x, m) M0 -> evals (t_id x) (after E o c) = 0 -> mode x = Some m).
  { intros x m Hx Hm H. rewrite Hev in H. rewrite (other_queue M0 t ts p x m F HJ) in H by tauto. apply Hq; auto. simpl; tauto. }
  assert (Kd : forall x m, In x (dts p) -> ~ is_noop x -> In (t_id x, m) M0 -> 1 <= evals (t_id x) (after E o c) /\ (evals (t_id x) (after E o c) = 1 -> mode x = Some m)).
  { intros x m Hx Hn0 Hm. rewrite Hev. rewrite (other_queue M0 t ts p x m F HJ) by tauto. apply Hd; auto. }
  assert (Kh : forall x m, In x ts \/ In x (p_queue p) \/ In x (dts p) -> ~ is_noop x -> In (t_id x, m) M0 -> handled (t_id x) (after E o c) = 0).
  { intros x m Hx Hn0 Hm. rewrite Hhd. apply (Hh x m); auto. unfold items. simpl. rewrite !in_app_iff. tauto. }
  assert (Kn : forall x m, In (x, m) M0 -> cnt x (nst t) + (cnt x (nsts ts) + (cnt x (nsts (p_queue p)) + cnt x (nsts (dts p)))) = 0).
  { intros x m Hm. specialize (Hns x m Hm). unfold items, nsts in Hns. simpl in Hns. rewrite !flat_map_app, !cnt_app in Hns. unfold nsts. lia. }
  destruct o as [|tok t0|l| |f]; simpl in Hn; injection Hn as <- <-; cbn [after] in *.
  - constructor; auto; cbn [p_with_done p_with_ctx p_ctx p_queue p_def p_term].
    + intros x m Hm. specialize (Kn x m Hm). unfold items, nsts, dts in *. cbn. rewrite !flat_map_app, !cnt_app. lia.
    + intros x m Hx. apply Kh. unfold items, dts in Hx. cbn in Hx. rewrite !in_app_iff in Hx. exact Hx.
  - destruct (def_insert_facts tok t0 (p_with_ctx p c)) as (F1 & F2 & F3 & F4 & F5 & F6).
    destruct (ss_evs _ _ _ _ _ _ Hss) as (cl & He & Hid & Hdis & Hc).
    assert (Hn0 : ~ is_noop t0) by (intros H; destruct t0; try contradiction; destruct (core t); try contradiction; discriminate).
    assert (Hnst : nst t0 = nst t) by (unfold nst; destruct (core t); try contradiction; now rewrite Hc).
    assert (Hd' : forall x, In x (dts (def_insert tok t0 (p_with_ctx p c))) -> x = t0 \/ In x (dts p)).
    { unfold dts. rewrite F6. intros x Hx. apply In_nset in Hx. exact Hx. }
    constructor; rewrite ?F1; cbn [p_with_ctx p_ctx]; auto.
    + intros x m Hm. specialize (Kn x m Hm). unfold items, nsts, dts in *. rewrite F6. cbn. rewrite !flat_map_app, !cnt_app.
      pose proof (nsts_nset x tok t0 (p_def p)) as H. unfold nsts in H. rewrite Hnst in H. lia.
    + intros x m Hx Hxn Hm. apply Hd' in Hx as [-> |Hx]; [|now apply Kd]. rewrite Hid in *. rewrite Hev. rewrite (proj2 (text_eqb_eq (t_id t) (t_id t)) eq_refl).
      split; [lia|]. intros H. assert (Hz : evals (t_id t) (c_log (p_ctx p)) = 0) by lia.
      assert (Hmt : mode t = Some m) by (apply Hq; auto; left; now left).
      destruct (wrapped_run _ _ _ _ _ _ Hmt Hwq Hst) as (d & _ & H1 & _). exact H1.
    + intros x m Hx Hxn Hm. unfold items in Hx. rewrite !in_app_iff in Hx.
      destruct Hx as [Hx|[Hx|Hx]]; [apply (Kh x m); auto|apply (Kh x m); auto|]. apply Hd' in Hx as [-> |Hx]; [|apply (Kh x m); auto].
      rewrite Hid in *. rewrite Hhd. apply (Hh t m); auto; [now left|]. intros H. destruct t; contradiction.
    + intros x m Hx Hxn Hm. apply Hd' in Hx as [-> |Hx]; [contradiction|]. now apply (Hno x m).
  - destruct (requeued_one _ _ _ _ _ _ Hwq Hss) as (t' & -> & Hn' & Hi' & Hd').
    assert (Hnst : nst t' = nst t).
    { unfold nst. assert (Hco : norm t' = norm t) by exact Hn'. unfold norm in Hco. destruct (core t'), (core t); try discriminate; try reflexivity; injection Hco; intros; subst; reflexivity. }
    assert (Hn0 : ~ is_noop t') by (intros H; apply wf_q_not_pending in Hwq; unfold norm in Hn'; destruct t'; try contradiction; simpl in Hn'; destruct (core t); try discriminate; contradiction).
    constructor; auto; cbn [p_with_queue p_with_ctx p_ctx p_queue p_def p_term].
    + intros x m Hm. specialize (Kn x m Hm). unfold items, nsts, dts in *. cbn. rewrite !flat_map_app, !cnt_app. cbn [flat_map]. rewrite !app_nil_r, Hnst. lia.
    + intros x m Hx Hm H. assert (Hx' : x = t' \/ In x ts \/ In x (p_queue p)) by (rewrite in_app_iff in Hx; simpl in Hx; intuition).
      destruct Hx' as [-> |Hx']; [|now apply Kq]. exfalso. rewrite Hi' in H. rewrite Hev in H. rewrite (proj2 (text_eqb_eq (t_id t) (t_id t)) eq_refl) in H. discriminate.
    + intros x m Hx Hxn Hm. assert (Hx' : x = t' \/ In x ts \/ In x (p_queue p) \/ In x (dts p)).
      { unfold items, dts in Hx. cbn in Hx. rewrite !in_app_iff in Hx. simpl in Hx. intuition. }
      destruct Hx' as [-> |Hx']; [|now apply (Kh x m)]. rewrite Hi' in *. rewrite Hhd. apply (Hh t m); auto; [now left|].
      intros H. destruct t; contradiction.
  - constructor; auto; cbn [p_with_ctx p_ctx p_queue p_def p_term].
    + intros x m Hm. specialize (Kn x m Hm). unfold items, nsts, dts in *. cbn. rewrite !flat_map_app, !cnt_app. lia.
    + intros x m Hx. apply Kh. unfold items, dts in Hx. cbn in Hx. rewrite !in_app_iff in Hx. exact Hx.
  - constructor; auto; cbn [p_with_ctx p_ctx p_queue p_def p_term]; rewrite ?drop_log.
    + intros x m Hm. specialize (Kn x m Hm). change (cnt x (nsts (dts p)) = 0). lia.
    + simpl. tauto.
    + intros x m Hx. apply Kh. unfold items, dts in Hx. cbn in Hx. auto.
    + intros _. exists (t_id t). rewrite Hfe. apply in_or_app. right. rewrite (ss_log _ _ _ _ _ _ Hss). now left.
Qed.

Lemma nsts_items x ts p : cnt x (nsts (items ts p)) = cnt x (nsts ts) + (cnt x (nsts (p_queue p)) + cnt x (nsts (dts p))).
Proof. unfold items, nsts. now rewrite !flat_map_app, !cnt_app. Qed.

Lemma M_handle E M0 tok st sz t p o c : fixed M0 -> settled p -> nget tok (p_def p) = Some t ->
  step E t (emit (EvHandle tok (t_id t)) (set_grpc st sz (emit (EvGrpcResp tok st sz) (p_ctx p)))) = (o, c) ->
  J [] (handle_next E t (mkPipe c (p_queue p) (ndel tok (p_def p)) (p_done p) (p_td p) (p_term p)) o c) -> M E M0 [] p ->
  M E M0 [] (handle_next E t (mkPipe c (p_queue p) (ndel tok (p_def p)) (p_done p) (p_td p) (p_term p)) o c).
Proof.
  intros F Hset Hn Hst HJ' HM. pose proof HM as [HJ Hns Hq Hd Hh Hno Ho Hfw].
  pose proof (j_w _ _ HJ) as HW. assert (Hw : wf_d t) by (eapply Forall_nget; [apply (w_def _ _ HW)|exact Hn]).
  assert (Hin : In t (dts p)) by now apply (In_nget tok).
  assert (Hini : In t (items [] p)) by (apply in_or_app; right; apply in_or_app; now right).
  set (c0 := emit (EvHandle tok (t_id t)) (set_grpc st sz (emit (EvGrpcResp tok st sz) (p_ctx p)))) in *.
  assert (Hl0 : c_log c0 = EvHandle tok (t_id t) :: EvGrpcResp tok st sz :: c_log (p_ctx p)) by (unfold c0; cbn [emit with_log c_log]; now rewrite set_grpc_log).
  assert (Hg0 : c_grpc c0 = Some (st, sz)) by (unfold c0, set_grpc; cbn; now rewrite (w_grpc _ _ HW)).
  pose proof Hst as Hst'. apply step_sum in Hst' as (evs & Hss).
  destruct (after_final _ _ _ _ _ _ Hss) as (fe & Hfe & Hff).
  assert (Hfw' : cel_constants E -> Fw (consequence E M0) (after_handle E t o c)).
  { intros HC. specialize (Hfw HC). apply (Fw_handle E M0 t c0 tok st sz o c); auto; rewrite ?Hl0; cbn [tl]; auto.
    - intros m Hm Hov. assert (Hnn : ~ is_noop t). { intros H. apply Hov, Ho. now apply (Hno t m). }
      split; [exact Hnn|]. split; [apply (Hh t m); auto|now apply Hd].
    - intros m Hm. assert (Hc : is_noop t \/ ~ is_noop t) by (destruct t; simpl; auto). destruct Hc as [Hc|Hc]; [now left|right].
      split; [apply (Hh t m); auto|now apply Hd]. }
  assert (Hev : forall a, evals a (after_handle E t o c) = (if text_eqb a (t_id t) then 1 else 0) + evals a (c_log (p_ctx p))).
  { intros a. assert (H : evals a (after E o c) = (if text_eqb a (t_id t) then 1 else 0) + evals a (c_log (p_ctx p))).
    { rewrite Hfe, evals_app, (evals_zero a fe) by now apply final_all. simpl. erewrite ssum_evals by eauto. now rewrite Hl0. }
    unfold after_handle. destruct o; exact H. }
  assert (Hhd : forall a, handled a (after_handle E t o c) = (if text_eqb a (t_id t) then 1 else 0) + handled a (c_log (p_ctx p))).
  { intros a. assert (H : handled a (after E o c) = (if text_eqb a (t_id t) then 1 else 0) + handled a (c_log (p_ctx p))).
    { rewrite Hfe, handled_app, (handled_zero a fe) by now apply final_all. simpl. erewrite ssum_handled by eauto. rewrite Hl0, !handled_cons. reflexivity. }
    unfold after_handle. destruct o; exact H. }
  assert (Hov : over (c_log (p_ctx p)) -> over (after_handle E t o c)).
  { intros (a & Ha). assert (H : over (after E o c)).
    { exists a. rewrite Hfe. apply in_or_app. right. rewrite (ss_log _ _ _ _ _ _ Hss), Hl0, !in_app_iff. simpl. auto 8. }
    unfold after_handle. destruct o; try exact H. destruct H as (b & Hb). exists b. now right. }
  assert (Kq : forall x m, In x (p_queue p) -> In (t_id x, m) M0 -> evals (t_id x) (after_handle E t o c) = 0 -> mode x = Some m).
  { intros x m Hx Hm H. rewrite Hev in H. destruct (other_def M0 tok t p x m F HJ Hn) as [_ He]; auto. rewrite He in H. apply Hq; auto. }
  assert (Kd : forall x m, In x (map snd (ndel tok (p_def p))) -> ~ is_noop x -> In (t_id x, m) M0 ->
     1 <= evals (t_id x) (after_handle E t o c) /\ (evals (t_id x) (after_handle E t o c) = 1 -> mode x = Some m)).
  { intros x m Hx Hxn Hm. rewrite Hev. destruct (other_def M0 tok t p x m F HJ Hn) as [_ He]; auto. rewrite He. apply Hd; auto. now apply In_ndel in Hx. }
  assert (Kh : forall x m, In x (p_queue p) \/ In x (map snd (ndel tok (p_def p))) -> ~ is_noop x -> In (t_id x, m) M0 -> handled (t_id x) (after_handle E t o c) = 0).
  { intros x m Hx Hxn Hm. rewrite Hhd. destruct (other_def M0 tok t p x m F HJ Hn) as [_ He]; auto; [tauto|]. rewrite He. apply (Hh x m); auto.
    unfold items, dts. simpl. rewrite in_app_iff. destruct Hx as [Hx|Hx]; [auto|]. apply In_ndel in Hx. auto. }
  assert (Kno : forall x m, In x (map snd (ndel tok (p_def p))) -> is_noop x -> In (t_id x, m) M0 -> p_term p = true).
  { intros x m Hx. apply In_ndel in Hx. now apply Hno. }
  assert (Kn : forall x m, In (x, m) M0 -> cnt x (nst t) = 0 /\ cnt x (nsts (p_queue p)) = 0 /\ cnt x (nsts (map snd (ndel tok (p_def p)))) = 0).
  { intros x m Hm. specialize (Hns x m Hm). unfold items, nsts, dts in Hns. simpl in Hns. rewrite !flat_map_app, !cnt_app in Hns.
    pose proof (nsts_nget x tok _ _ Hn). pose proof (nsts_ndel x tok (p_def p)). unfold nsts in *. lia. }
  unfold handle_next in *. destruct o as [|k t0|l| |f]; cbn [after_handle after] in *.
  - constructor; auto; cbn [p_with_done p_with_ctx p_ctx p_queue p_def p_term].
    + intros x m Hm. destruct (Kn x m Hm) as (K1 & K2 & K3). rewrite nsts_items. unfold dts. cbn [p_with_done p_with_ctx p_queue p_def]. change (cnt x (nsts [])) with 0. lia.
    + intros x m [[]|Hx]. now apply Kq.
    + intros x m Hx. apply Kh. unfold items, dts in Hx. cbn in Hx. now rewrite in_app_iff in Hx.
  - exfalso. destruct (ss_evs _ _ _ _ _ _ Hss) as (cl & _ & _ & _ & Hc). apply wf_d_core in Hw. destruct (core t); easy.
  - pose proof (ss_requeue _ _ _ _ _ _ Hss) as Hrq. simpl in Hrq.
    assert (Hids : idls l = nst t). { unfold nst. apply wf_d_core in Hw. destruct (core t); try easy. destruct Hrq as [_ Hrq]. now apply idls_norm. }
    assert (Hwl : Forall wf_q l). { apply wf_d_core in Hw. destruct (core t); try easy. destruct Hrq as [_ Hrq]. eapply requeue_wf_p; eauto. }
    assert (Hnl : forall x m, In x l -> ~ In (t_id x, m) M0).
    { intros x m Hx Hm. destruct (Kn _ m Hm) as (K1 & _). rewrite <- Hids in K1. rewrite Forall_forall in Hwl.
      pose proof (own_id x M0 m F (or_introl (Hwl x Hx)) Hm). pose proof (cnt_flat idl (t_id x) _ _ Hx). unfold idls in K1. lia. }
    constructor; auto; cbn [p_with_ctx p_ctx p_queue p_def p_term emit with_log c_log].
    + intros x m Hm. destruct (Kn x m Hm) as (K1 & K2 & K3). rewrite nsts_items. unfold dts. cbn [p_with_done p_with_ctx p_queue p_def]. change (cnt x (nsts [])) with 0.
      unfold nsts in *. rewrite flat_map_app, cnt_app.
      assert (cnt x (flat_map nst l) <= cnt x (idls l)).
      { clear. unfold idls. induction l as [|y l IH]; simpl; [lia|]. rewrite !cnt_app. pose proof (nst_le x y). lia. }
      rewrite Hids in H. lia.
    + intros x m [[]|Hx] Hm. apply in_app_or in Hx as [Hx|Hx]; [now apply Hnl in Hm|]. now apply Kq.
    + intros x m Hx Hxn Hm. unfold items, dts in Hx. cbn in Hx. rewrite !in_app_iff in Hx. destruct Hx as [[Hx|Hx]|Hx]; [now apply Hnl in Hm|apply (Kh x m); auto|apply (Kh x m); auto].
  - constructor; auto; cbn [p_with_ctx p_ctx p_queue p_def p_term].
    + intros x m Hm. destruct (Kn x m Hm) as (K1 & K2 & K3). rewrite nsts_items. unfold dts. cbn [p_with_done p_with_ctx p_queue p_def]. change (cnt x (nsts [])) with 0. lia.
    + intros x m [[]|Hx]. now apply Kq.
    + intros x m Hx. apply Kh. unfold items, dts in Hx. cbn in Hx. now rewrite in_app_iff in Hx.
  - constructor; auto; cbn [p_with_ctx p_ctx p_queue p_def p_term]; rewrite ?drop_log; auto.
    + intros x m Hm. destruct (Kn x m Hm) as (K1 & K2 & K3). exact K3.
    + simpl. tauto.
    + intros x m Hx. apply Kh. unfold items, dts in Hx. cbn in Hx. auto.
    + intros _. exists (t_id t). rewrite Hfe. apply in_or_app. right. rewrite (ss_log _ _ _ _ _ _ Hss). now left.
Qed.

Lemma M_step E M0 ts p ts' p' : fixed M0 -> estep E ts p ts' p' -> M E M0 ts p -> M E M0 ts' p'.
Proof.
  intros F Hs HM. pose proof (J_step _ _ _ _ _ Hs (m_j _ _ _ _ HM)) as HJ'.
  destruct Hs as [p Hset|t ts p Hb|t ts p o c ts' p' Hb Hst Hn|tok st sz p Hset Hn|tok st sz t p o c Hset Hn Hst|p Hq Ht|a rest p Hq Hn Ht].
  - destruct HM as [HJ Hns Hq Hd Hh Hno Ho Hfw]. constructor; auto.
    + intros t m [H|[]]. apply Hq. auto.
  - destruct HM as [HJ Hns Hq Hd Hh Hno Ho Hfw]. constructor; auto; cbn [p_with_queue p_ctx p_queue p_def p_term].
    + intros x m Hm. specialize (Hns x m Hm). rewrite nsts_items in *. unfold dts in *. cbn [p_with_queue p_queue p_def] in *. unfold nsts in *. cbn [flat_map] in *. rewrite ?flat_map_app, ?cnt_app in *. cbn [flat_map] in *. rewrite ?app_nil_r. lia.
    + intros x m Hx. apply Hq. rewrite in_app_iff in Hx. simpl in *. tauto.
    + intros x m Hx. apply Hh. unfold items, dts in *. cbn in *. rewrite !in_app_iff in *. simpl in *. tauto.
  - eapply M_run; eauto.
  - destruct HM as [HJ Hns Hq Hd Hh Hno Ho Hfw]. constructor; auto; cbn [p_emit p_with_ctx p_ctx p_queue p_def p_term emit with_log c_log].
    + intros H. destruct (Ho H) as (a & Ha). exists a. now right.
    + intros HC. apply (Fw_harmless E M0 [EvGrpcResp tok st sz]); [now repeat constructor|auto].
  - eapply M_handle; eauto.
  - destruct HM as [HJ Hns Hq' Hd Hh Hno Ho Hfw]. constructor; auto; cbn [replace_deferred p_ctx p_queue p_def p_term]; rewrite ?drop_log; auto.
    + intros x m Hm. specialize (Hns x m Hm). rewrite nsts_items in *. unfold dts in *. cbn [replace_deferred p_queue p_def] in *. unfold nsts in *.
      assert (Hz : flat_map nst (map snd (map (fun kt : N * task => (fst kt, noop_of (snd kt))) (p_def p))) = []).
      { clear. induction (p_def p) as [|y l IH]; [reflexivity|]. simpl. rewrite IH. reflexivity. }
      rewrite Hz. change (cnt x []) with 0. lia.
    + intros x m Hx Hxn. exfalso. unfold dts in Hx. cbn in Hx. rewrite map_map in Hx. apply in_map_iff in Hx as (y & <- & _). now apply Hxn.
    + intros x m Hx Hxn Hm. unfold items in Hx. rewrite !in_app_iff in Hx. destruct Hx as [[]|[Hx|Hx]].
      * apply (Hh x m); auto. unfold items. rewrite !in_app_iff. auto.
      * exfalso. unfold dts in Hx. cbn in Hx. rewrite map_map in Hx. apply in_map_iff in Hx as (y & <- & _). now apply Hxn.
    + intros x m Hx Hxn Hm. destruct Ht as [Ht|Ht]; [exact Ht|]. unfold dts in Hx. cbn in Hx. rewrite Ht in Hx. destruct Hx.
  - destruct HM as [HJ Hns Hq' Hd Hh Hno Ho Hfw].
    destruct (td_sum E a (p_with_td p rest)) as (evs & tok & T1 & T2 & T3 & T4 & T5 & T6 & T7 & T8 & _).
    cbn [p_with_td p_ctx p_queue p_def p_done p_term p_td] in *.
    assert (Hx' : forall x, In x (dts (td_step E (p_with_td p rest) a)) -> (is_noop x /\ exists k, t_id x = tx "teardown_" ++ k) \/ In x (dts p)).
    { unfold dts. rewrite T3. intros x Hx. destruct tok; [|auto]. apply In_nset in Hx as [-> |Hx]; [left|auto]. split; [exact Logic.I|]. eexists. reflexivity. }
    assert (Hh1 : Forall harmless (evs ++ [EvTeardown])).
    { apply Forall_app. split; [|repeat constructor]. destruct T2 as [[-> _]|(cl & -> & _)]; repeat constructor. }
    assert (Hlg : c_log (p_ctx (td_step E (p_with_td p rest) a)) = (evs ++ [EvTeardown]) ++ c_log (p_ctx p)) by (rewrite T1, <- app_assoc; reflexivity).
    assert (Hev : forall b, evals b (c_log (p_ctx (td_step E (p_with_td p rest) a))) = evals b (c_log (p_ctx p))).
    { intros b. rewrite T1, evals_app, evals_cons. destruct T2 as [[-> _]|(cl & -> & _)]; reflexivity. }
    assert (Hhd : forall b, handled b (c_log (p_ctx (td_step E (p_with_td p rest) a))) = handled b (c_log (p_ctx p))).
    { intros b. rewrite T1, handled_app, handled_cons. destruct T2 as [[-> _]|(cl & -> & _)]; reflexivity. }
    constructor; auto.
    + intros x m Hm. specialize (Hns x m Hm). rewrite nsts_items in *. unfold dts in *. rewrite T3, T4. unfold nsts in *.
      destruct tok as [k|]; [|lia]. pose proof (nsts_nset x k (TPendNoop (tx "teardown_" ++ nat_text (N.to_nat k)) false) (p_def p)) as H.
      unfold nsts in H. change (nst (TPendNoop (tx "teardown_" ++ nat_text (N.to_nat k)) false)) with (@nil text) in H. rewrite cnt_nil in H. lia.
    + intros x m Hx Hm. rewrite Hev. rewrite T4 in Hx. now apply Hq'.
    + intros x m Hx Hxn Hm. rewrite Hev. apply Hx' in Hx as [[Hx _]|Hx]; [contradiction|]. now apply Hd.
    + intros x m Hx Hxn Hm. rewrite Hhd. unfold items in Hx. rewrite T4 in Hx. rewrite !in_app_iff in Hx. destruct Hx as [[]|[Hx|Hx]].
      * apply (Hh x m); auto. unfold items. rewrite !in_app_iff. auto.
      * apply Hx' in Hx as [[Hx _]|Hx]; [contradiction|]. apply (Hh x m); auto. unfold items. rewrite !in_app_iff. auto.
    + intros x m Hx Hxn Hm. rewrite T6. apply Hx' in Hx as [[_ (k & Hx)]|Hx]; [|now apply (Hno x m)]. rewrite Hx in Hm. now apply F in Hm.
    + rewrite T6. intros H. destruct (Ho H) as (b & Hb). exists b. rewrite Hlg. apply in_or_app. now right.
    + intros HC. rewrite Hlg. apply Fw_harmless; auto.
Qed.

Definition ML (E : env) (M0 : minfos) (l : log) : Prop := cel_constants E -> Fw (consequence E M0) l.
Lemma neutral_harmless e : neutral e -> harmless e.
Proof. destruct e; simpl; easy. Qed.
Lemma M_ctx E M0 p c x : c_grpc c = c_grpc (p_ctx p) -> c_log c = x ++ c_log (p_ctx p) -> Forall neutral x -> M E M0 [] p -> M E M0 [] (p_with_ctx p c).
Proof.
  intros Hg Hlg Hx [HJ Hns Hq Hd Hh Hno Ho Hfw].
  assert (Hm : Forall (fun e => ~ marked e) x) by (eapply Forall_impl; [|exact Hx]; intros e He; destruct e; simpl in *; easy).
  assert (Hev : forall a, evals a (c_log c) = evals a (c_log (p_ctx p))) by (intros a; now rewrite Hlg, evals_app, (evals_zero a x Hm)).
  assert (Hhd : forall a, handled a (c_log c) = handled a (c_log (p_ctx p))) by (intros a; now rewrite Hlg, handled_app, (handled_zero a x Hm)).
  constructor; cbn [p_with_ctx p_ctx p_queue p_def p_term]; auto.
  - apply J_ctx; auto.
    + intros d. rewrite Hlg, in_app_iff. split; [|auto]. intros [H|H]; [|exact H]. rewrite Forall_forall in Hm. apply Hm in H. now elim H.
    + intros a. rewrite Hlg, calls_app, (calls_zero a x Hm). reflexivity.
  - intros t m Ht. rewrite Hev. now apply Hq.
  - intros t m Ht. rewrite Hev. now apply Hd.
  - intros t m Ht. rewrite Hhd. now apply Hh.
  - intros H. destruct (Ho H) as (a & Ha). exists a. rewrite Hlg. apply in_or_app. now right.
  - intros HC. rewrite Hlg. apply Fw_harmless; auto. eapply Forall_impl; [|exact Hx]. exact neutral_harmless.
Qed.
Lemma M_finv E M0 : fixed M0 -> finv E (M E M0) (ML E M0).
Proof.
  intros F. constructor.
  - intros ts p ts' p'. now apply M_step.
  - intros p e He. apply (M_ctx E M0 p _ [e]); [reflexivity|reflexivity|now repeat constructor].
  - intros p b. apply (M_ctx E M0 p _ []); [reflexivity|reflexivity|constructor].
  - intros p b. apply (M_ctx E M0 p _ []); [reflexivity|reflexivity|constructor].
  - intros p HM _ _ _ _. exact (m_fw _ _ _ _ HM).
  - intros l e He HL HC. apply (Fw_harmless E M0 [e]); [|now apply HL]. repeat constructor. destruct He as [He|(k & st & sz & ->)]; [now apply neutral_harmless|exact Logic.I].
Qed.

(** * The start of a request *)
Lemma mode_idl t m : mode t = Some m -> In (t_id t) (idl t).
Proof.
  intros H. destruct (idl_head t) as [(id & -> & ->)|[Hi _]]; [now left|]. apply mode_core in H. rewrite <- idl_core in Hi. destruct (core t); easy.
Qed.
Lemma M_start E cfg fa p : try_from E cfg = Some fa -> build E fa (ctx0 [EvReqHeaders]) = BOk p ->
  fixed (modes (p_queue p)) /\ M E (modes (p_queue p)) [] (p_emit (EvMetric MHits) p).
Proof.
  intros Hf Hb. destruct (A_start _ _ _ _ Hf Hb) as (b & svs & HB & Hsv & Hsd & HA).
  pose proof (served_plan _ _ _ _ Hsd) as HP. pose proof (a_j _ _ _ _ HA) as HJ.
  assert (Hitems : items [] (p_emit (EvMetric MHits) p) = p_queue p).
  { unfold items, dts. cbn. rewrite (bt_def _ _ _ _ _ HB). cbn. apply app_nil_r. }
  pose proof (build_spec E fa (ctx0 [EvReqHeaders])) as Hsp. rewrite Hb in Hsp. destruct Hsp as (b' & c1' & tds & _ & _ & _ & (Hlog & _) & _). cbn in Hlog.
  assert (Hin : forall x m, In (x, m) (modes (p_queue p)) -> exists t, In t (p_queue p) /\ t_id t = x /\ mode t = Some m /\ In x (idl t)).
  { intros x m Hx. apply in_modes in Hx as (t & Ht & <- & Hm). exists t. repeat split; auto. eapply mode_idl; eauto. }
  assert (Hnd : forall x (_ : unit), In x (idls (p_queue p)) -> exists d', In (x, d') (b_dl (bp_actions b))).
  { intros x _ Hx. rewrite (bt_ids _ _ _ _ _ HB), <- b_dl_ids in Hx. apply in_map_iff in Hx as ((y & d') & Hy & Hx). simpl in Hy. subst y. eauto. }
  split.
  { split.
    - intros m Hm. apply Hin in Hm as (t & Ht & _ & _ & Hi). destruct (Hnd tu tt) as (d & Hd); [apply in_flat_map; eauto|]. now apply (pl_tu _ HP) in Hd.
    - intros k m Hm. apply Hin in Hm as (t & Ht & _ & _ & Hi). destruct (Hnd (tx "teardown_" ++ k) tt) as (d & Hd); [apply in_flat_map; eauto|]. now apply (pl_td _ HP) in Hd. }
  assert (H1 : forall x, cnt x (idls (p_queue p)) <= 1) by (intros x; pose proof (j_one _ _ HJ x) as H; now rewrite Hitems in H).
  assert (Hsame : forall l t t', (forall x, cnt x (idls l) <= 1) -> In t l -> In t' l -> In (t_id t) (idl t) -> In (t_id t) (idl t') -> t = t').
  { clear. induction l as [|y l IH]; intros t t' Hc Ht Ht' H1 H2; [easy|].
    assert (Hc' : forall x, cnt x (idls l) <= 1) by (intros x; specialize (Hc x); rewrite idls_cons, cnt_app in Hc; lia).
    specialize (Hc (t_id t)). rewrite idls_cons, cnt_app in Hc. apply cnt_In in H1, H2.
    destruct Ht as [-> |Ht], Ht' as [-> |Ht']; auto.
    - pose proof (cnt_flat idl (t_id t) _ _ Ht') as H. unfold idls in Hc. lia.
    - pose proof (cnt_flat idl (t_id t) _ _ Ht) as H. unfold idls in Hc. lia.
    - apply IH; auto; now apply cnt_In. }
  constructor; auto.
  - rewrite Hitems. intros x m Hx. apply Hin in Hx as (t & Ht & <- & _ & Hi). specialize (H1 (t_id t)).
    revert Ht H1. clear - Hi. induction (p_queue p) as [|y l IH]; intros Ht H1; [easy|].
    rewrite idls_cons, cnt_app in H1. unfold nsts. cbn [flat_map]. rewrite cnt_app. fold (nsts l).
    assert (Hle : cnt (t_id t) (nsts l) <= cnt (t_id t) (idls l)).
    { clear. unfold nsts, idls. induction l as [|z l IH]; [reflexivity|]. cbn [flat_map]. rewrite !cnt_app. pose proof (nst_le (t_id t) z). lia. }
    destruct Ht as [-> |Ht].
    + apply cnt_In in Hi. assert (Hc : cnt (t_id t) (nst t) + 1 <= cnt (t_id t) (idl t)).
      { destruct (idl_head t) as [(id & -> & ->)|[H _]]; [rewrite cnt_self; lia|rewrite H in Hi; cbn in Hi; lia]. }
      lia.
    + pose proof (cnt_flat idl (t_id t) _ _ Ht) as Hc. apply cnt_In in Hi. unfold idls in H1.
      assert (cnt (t_id t) (idl y) = 0) by lia. pose proof (nst_le (t_id t) y). rewrite IH; [lia|exact Ht|unfold idls; lia].
  - intros t m [[]|Ht] Hm _. cbn in Ht. apply Hin in Hm as (t' & Ht' & Hi & Hm & Hid).
    assert (t' = t); [|congruence]. rewrite <- Hi in Hid. apply (Hsame (p_queue p)); auto.
    pose proof (bt_wf _ _ _ _ _ HB) as Hwf. rewrite Forall_forall in Hwf. destruct (task_id_cases t (Hwf t Ht)) as [H|H]; [now rewrite Hi|].
    exfalso. destruct (Hnd tu tt) as (d & Hd); [|now apply (pl_tu _ HP) in Hd]. apply in_flat_map. exists t'. split; [exact Ht'|]. congruence.
  - unfold dts. cbn. rewrite (bt_def _ _ _ _ _ HB). easy.
  - intros x m _ _ _. cbn. rewrite Hlog. reflexivity.
  - unfold dts. cbn. rewrite (bt_def _ _ _ _ _ HB). easy.
  - cbn. rewrite (bt_term _ _ _ _ _ HB). discriminate.
  - intros _. cbn. rewrite Hlog. intros post e pre He. apply (Fw_harmless E _ [EvMetric MHits; EvReqHeaders] []); [now repeat constructor| |exact He].
    intros ? ? ? H. destruct post0; discriminate.
Qed.
Lemma M_run_filter E cfg fa p l : try_from E cfg = Some fa -> build E fa (ctx0 [EvReqHeaders]) = BOk p -> later l ->
  cel_constants E -> Fw (consequence E (modes (p_queue p))) (f_log (run E fa l)).
Proof.
  intros Hf Hb Hl HC. destruct (M_start _ _ _ _ Hf Hb) as [F HM].
  pose proof (pipe_invariant E fa _ _ p (M_finv E _ F) Hb HM l Hl) as H. unfold holds in H.
  destruct (f_pipe (run E fa l)) as [q|]; [|now apply H]. destruct H as [H _]. exact (m_fw _ _ _ _ H HC).
Qed.
