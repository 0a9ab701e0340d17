(** What applying a task can do: events, outcome, context. *)
From Coq Require Import String List NArith ZArith Bool Lia.
From Verif Require Import Base Value Headers AttrPath Ctx CelProps CelEval Sse Body ValueBytes Tasks P_Frame.
Import ListNotations.
Open Scope list_scope.

(** The task under the wrappers *)
Fixpoint core (t : task) : task :=
  match t with TFailureMode t _ | TTracing t => core t | _ => t end.
Lemma core_id t : t_id (core t) = t_id t.
Proof. induction t; simpl; auto. Qed.
Lemma core_deps t : t_deps (core t) = t_deps t.
Proof. induction t; simpl; auto. Qed.
Lemma core_core t : core (core t) = core t.
Proof. induction t; simpl; auto. Qed.

(** ... without the parser state that re-queueing may change *)
Definition norm (t : task) : task :=
  match core t with
  | TStore id p e pa ex tm _ => TStore id p e pa ex tm BSNone
  | TToken _ fs => TToken None fs
  | x => x
  end.
Lemma norm_id t : t_id (norm t) = t_id t.
Proof. unfold norm. rewrite <- (core_id t). now destruct (core t). Qed.
Lemma norm_deps t : t_deps (norm t) = t_deps t.
Proof. unfold norm. rewrite <- (core_deps t). now destruct (core t). Qed.
Lemma norm_core t : norm (core t) = norm t.
Proof. unfold norm. now rewrite core_core. Qed.

(** Tasks as they sit in the queue / among the deferred *)
Fixpoint wf_q (t : task) : Prop :=
  match t with
  | TDynamic _ _ _ _ rs _ _ _ => (fix go l := match l with [] => True | r :: l' => wf_q r /\ go l' end) rs
  | TPending _ _ _ _ _ | TPendNoop _ _ | TNoop => False
  | TFailureMode t _ | TTracing t => wf_q t
  | _ => True
  end.
Definition wf_qs (l : list task) : Prop := (fix go l := match l with [] => True | r :: l' => wf_q r /\ go l' end) l.
Lemma wf_qs_Forall l : wf_qs l <-> Forall wf_q l.
Proof.
  induction l as [|a l IH]; simpl; [split; [constructor|easy]|]. split.
  - intros [H1 H2]. constructor; [exact H1|now apply IH].
  - inversion 1; subst. split; [assumption|now apply IH].
Qed.
Definition is_noop (t : task) : Prop := match t with TPendNoop _ _ => True | _ => False end.
Definition wf_p (t : task) : Prop :=
  match core t with TPending _ _ _ rs _ => Forall wf_q rs | _ => False end.
Definition wf_d (t : task) : Prop := is_noop t \/ wf_p t.
Lemma wf_q_core t : wf_q (core t) <-> wf_q t.
Proof. induction t; simpl; tauto. Qed.
Lemma wf_q_norm t : wf_q (norm t) <-> wf_q t.
Proof. rewrite <- (wf_q_core t). unfold norm. destruct (core t); simpl; tauto. Qed.
(** The terminal tasks *)
Fixpoint is_final (t : task) : Prop :=
  match t with
  | TTracing t => is_final t
  | _ => t = default_reply \/ t = TNoop
  end.

(** Events a task may add besides a successful call *)
Definition quiet (t : task) (e : ev) : Prop :=
  match e with
  | EvDispatch a _ None => a = t_id t /\ match core t with TDynamic _ _ _ _ _ _ _ _ => True | _ => False end
  | EvReply _ _ _ _ => match core t with TReply _ _ _ _ => True | _ => False end
  | EvSetMap m _ _ => match core t with THeaders _ _ _ m' _ => m = m' | _ => False end
  | EvSetProp _ _ _ => match core t with TStore _ _ _ _ ex _ _ => ex = true | _ => False end
  | EvMetric MErrors => True
  | EvMetric MDenied => match core t with TReply _ _ _ _ => True | _ => False end
  | _ => False
  end.
Lemma quiet_core t e : quiet (core t) e <-> quiet t e.
Proof. unfold quiet. rewrite core_core, core_id. tauto. Qed.

(** [grows c c' evs]: the events added, newest first *)
Definition grows (c c' : ctx) (evs : list ev) : Prop := c_log c' = evs ++ c_log c.

(** The other fields that stay, up to the request id *)
Definition keeps (c c' : ctx) : Prop :=
  c_res c' = c_res c /\ c_track c' = c_track c /\ (forall i, c_rid c = Some i -> c_rid c' = Some i).
Lemma keeps_refl c : keeps c c. Proof. now repeat split. Qed.
Lemma keeps_trans a b c : keeps a b -> keeps b c -> keeps a c.
Proof. intros (A1 & A2 & A3) (B1 & B2 & B3). repeat split; try congruence. intros i H. auto. Qed.
Lemma ext_keeps c c' : ext c c' -> keeps c c'.
Proof. intros (x & -> & _). now repeat split. Qed.
Lemma xrid_keeps c c' : xrid c c' -> keeps c c'.
Proof. intros (x & r & -> & _ & H). now repeat split. Qed.

(** Summary of one [apply].  [gd] is what it does to the pause counter. *)
Record summary (E : env) (t : task) (c : ctx) (o : outcome) (c' : ctx) : Prop := {
  s_log : match o with
          | ODeferred tok t' =>
              exists cl, c_log c' = EvDispatch (t_id t) cl (Some tok) :: c_log c /\ t_id t' = t_id t /\
                h_dispatch E (c_log c) cl = Some tok /\
                match core t with
                | TDynamic id s var msg rs pred deps g => core t' = TPending id s var rs g /\
                    c_bar c' = (if g then c_bar c + 1 else c_bar c)%N
                | _ => False
                end
          | _ => exists evs, grows c c' evs /\ Forall (quiet t) evs /\
                 c_bar c' = match core t with
                            | TPending _ _ _ _ true | TPendNoop _ true => (c_bar c - 1)%N
                            | _ => c_bar c
                            end
          end;
  s_keeps : keeps c c';
  s_grpc : match core t with TPending _ _ _ _ _ | TPendNoop _ _ => c_grpc c' = None | _ => c_grpc c' = c_grpc c end;
  s_final : match o with OTerminate f => is_final f | _ => True end;
  s_requeue : match o with
              | ORequeued l =>
                  match core t with
                  | TPending _ _ _ rs _ => l <> [] /\ map norm l = map norm rs
                  | TPendNoop _ _ => False
                  | _ => map norm l = [norm t]
                  end
              | _ => True
              end
}.

Lemma grows_ext c c' : ext c c' -> grows c c' [].
Proof. intros H. unfold grows. now rewrite (ext_log _ _ H). Qed.

(** A summary for outcomes that are not deferred *)
Lemma mk_summary E t c o c' evs :
  (forall tok t', o <> ODeferred tok t') ->
  grows c c' evs -> Forall (quiet t) evs ->
  c_bar c' = match core t with TPending _ _ _ _ true | TPendNoop _ true => (c_bar c - 1)%N | _ => c_bar c end ->
  keeps c c' ->
  match core t with TPending _ _ _ _ _ | TPendNoop _ _ => c_grpc c' = None | _ => c_grpc c' = c_grpc c end ->
  match o with OTerminate f => is_final f | _ => True end ->
  match o with
  | ORequeued l =>
      match core t with
      | TPending _ _ _ rs _ => l <> [] /\ map norm l = map norm rs
      | TPendNoop _ _ => False
      | _ => map norm l = [norm t]
      end
  | _ => True
  end -> summary E t c o c'.
Proof.
  intros Hd Hg Hq Hb Hk Hgr Hf Hr. constructor; try assumption.
  destruct o; try (exists evs; now repeat split). exfalso. eapply Hd; reflexivity.
Qed.

(** Split a hypothesis [... = (o, c')] of a task without calls *)
Ltac fin_ext H :=
  eapply mk_summary with (evs := []);
  [ discriminate | apply grows_ext; exact H | apply Forall_nil | first [reflexivity | now rewrite (ext_bar _ _ H)]
  | apply ext_keeps; exact H | first [reflexivity | now rewrite (ext_grpc _ _ H)]
  | simpl; auto | simpl; eauto ].

Lemma dispatch_spec E mk u s m msg to c r c' :
  dispatch E mk u s m msg to c = (r, c') ->
  exists cl c1, xrid c c1 /\ c' = emit (mk cl r) c1 /\ r = h_dispatch E (c_log c1) cl /\
    cl_upstream cl = u /\ cl_service cl = s /\ cl_method cl = m /\ cl_msg cl = msg /\ cl_timeout cl = to /\
    exists rid, c_rid c1 = Some rid /\ cl_headers cl = o_trace E (c_log c) ++ [(tx "x-request-id", rid)].
Proof.
  unfold dispatch. destruct (request_id E c) as [rid c1] eqn:H. intros [= <- <-].
  apply request_id_xrid in H as [H1 H2].
  eexists _, c1. split; [exact H1|]. split; [reflexivity|]. repeat split. exists rid. now split.
Qed.

Lemma apply_dynamic_summary E id s var msg rs pred deps g c o c' :
  apply_dynamic E id s var msg rs pred deps g c = (o, c') ->
  summary E (TDynamic id s var msg rs pred deps g) c o c'.
Proof.
  unfold apply_dynamic. destruct (test_in E pred _ c) as [[r vs] c1] eqn:H1. apply test_in_ext in H1.
  destruct r as [|[]|].
  - destruct (body_over pred c1); intros [= <- <-]; fin_ext H1.
  - destruct (eval_in E msg _ c1) as [[r2 vs2] c2] eqn:H2. apply eval_in_ext in H2.
    pose proof (ext_trans _ _ _ H1 H2) as H3.
    destruct r2 as [|v|].
    + destruct (body_over msg c2); intros [= <- <-]; fin_ext H3.
    + destruct (o_encode E (c_log c2) s v) as [bytes|]; [|intros [= <- <-]; fin_ext H3].
      destruct (dispatch E _ _ _ _ _ _ c2) as [r3 c3] eqn:Hd. apply dispatch_spec in Hd.
      destruct Hd as (cl & c4 & Hx & -> & Hdis & _). apply ext_xrid in H3.
      pose proof (xrid_trans _ _ _ H3 Hx) as H5. destruct r3 as [tok|]; intros [= <- <-].
      * constructor; simpl; auto.
        -- exists cl. rewrite <- (xrid_log _ _ H5) at 2. destruct g; simpl; rewrite ?(xrid_log _ _ H5), ?(xrid_bar _ _ H5) in *; repeat split; congruence.
        -- destruct g; apply (xrid_keeps _ _ H5).
        -- destruct g; apply (xrid_grpc _ _ H5).
      * eapply mk_summary with (evs := [EvDispatch id cl None]); simpl; auto; try discriminate.
        -- unfold grows. simpl. now rewrite (xrid_log _ _ H5).
        -- constructor; [simpl; auto|constructor].
        -- now rewrite (xrid_bar _ _ H5).
        -- apply (xrid_keeps _ _ H5).
        -- now rewrite (xrid_grpc _ _ H5).
    + intros [= <- <-]; fin_ext H3.
  - intros [= <- <-]; fin_ext H1.
  - intros [= <- <-]; fin_ext H1.
Qed.

Lemma apply_pending_summary E id s var rs g c o c' :
  apply_pending E id s var rs g c = (o, c') -> summary E (TPending id s var rs g) c o c'.
Proof.
  unfold apply_pending, process_response, take_grpc.
  assert (K : forall o c1 bs, (forall tok t', o <> ODeferred tok t') ->
     match o with OTerminate _ => False | ORequeued l => l = rs /\ rs <> [] | _ => True end ->
     c1 = with_binds (with_grpc c None) bs ->
     summary E (TPending id s var rs g) c o (if g then lower c1 else c1)).
  { intros o0 c1 bs Hd Hr ->. eapply mk_summary with (evs := []); simpl; auto.
    - destruct g; reflexivity.
    - destruct g; reflexivity.
    - destruct g; now repeat split.
    - destruct g; reflexivity.
    - destruct o0; auto. easy.
    - destruct o0; auto. destruct Hr as [-> Hr]. now split. }
  destruct (c_grpc c) as [[status size]|].
  2:{ intros [= <- <-]. apply K with (bs := c_binds c); auto; try discriminate; try (now destruct c). }
  destruct (negb (N.eqb status 0)).
  { intros [= <- <-]. apply K with (bs := c_binds c); auto; try discriminate; try (now destruct c). }
  destruct rs as [|r0 rs'] eqn:Hrs.
  { intros [= <- <-]. apply K with (bs := c_binds c); auto; try discriminate; try (now destruct c). }
  rewrite <- Hrs in *.
  destruct (h_grpcresp E _ size) as [bts|].
  2:{ intros [= <- <-]. apply K with (bs := c_binds c); auto; try discriminate; try (now destruct c). }
  destruct (o_decode E _ s bts) as [v|].
  2:{ intros [= <- <-]. apply K with (bs := c_binds c); auto; try discriminate; try (now destruct c). }
  intros [= <- <-]. unfold add_binding. eapply K; auto; try discriminate. split; [reflexivity|]. now rewrite Hrs.
Qed.

Lemma apply_noop_summary E id g c o c' : apply_noop g c = (o, c') -> summary E (TPendNoop id g) c o c'.
Proof.
  unfold apply_noop, take_grpc. intros [= <- <-]. eapply mk_summary with (evs := []); simpl; auto; try discriminate.
  - destruct g; reflexivity.
  - destruct g; reflexivity.
  - destruct g; now repeat split.
Qed.

Lemma default_final : is_final default_reply.
Proof. now left. Qed.

Lemma apply_fail_summary E id pred term c o c' :
  apply_fail E id pred term c = (o, c') -> summary E (TFail id pred term) c o c'.
Proof.
  unfold apply_fail. destruct (test_in E pred _ c) as [[r vs] c1] eqn:H1. apply test_in_ext in H1.
  destruct r as [|[]|].
  - destruct (body_over pred c1); intros [= <- <-]; fin_ext H1.
  - destruct term; intros [= <- <-]; [|fin_ext H1].
    eapply mk_summary with (evs := [EvMetric MErrors]); simpl; auto; try discriminate.
    + unfold grows. simpl. now rewrite (ext_log _ _ H1).
    + repeat constructor.
    + now rewrite (ext_bar _ _ H1).
    + apply (ext_keeps _ _ H1).
    + now rewrite (ext_grpc _ _ H1).
  - intros [= <- <-]; fin_ext H1.
  - intros [= <- <-]; fin_ext H1.
Qed.

Lemma set_headers_spec E m h c r c' : set_headers E m h c = (r, c') ->
  exists ok x, c' = with_cache (emit (EvSetMap m h ok) c) x /\ (ok = true <-> r = RAvail tt) /\
    (r = RAvail tt -> c' = cache_put (target_path m) (CHeaders h) (emit (EvSetMap m h true) c)) /\
    (r <> RAvail tt -> x = c_cache c).
Proof.
  unfold set_headers. destruct (h_setmap E _ _ _) as [[]| |]; intros H.
  - injection H as <- <-. eexists true, _. split; [reflexivity|]. repeat split; easy.
  - exists false, (c_cache c). destruct m; injection H as <- <-; (split; [now destruct c|]; repeat split; easy).
  - exists false, (c_cache c). destruct m; injection H as <- <-; (split; [now destruct c|]; repeat split; easy).
Qed.

Lemma apply_headers_summary E id pred hx tg term c o c' :
  apply_headers E id pred hx tg term c = (o, c') -> summary E (THeaders id pred hx tg term) c o c'.
Proof.
  unfold apply_headers. destruct (test_in E pred _ c) as [[r vs] c1] eqn:H1. apply test_in_ext in H1.
  destruct r as [|[]|]; try (intros [= <- <-]; fin_ext H1).
  destruct (eval_in E hx vs c1) as [[r2 vs2] c2] eqn:H2. apply eval_in_ext in H2.
  pose proof (ext_trans _ _ _ H1 H2) as H3.
  destruct r2 as [|v|]; try (intros [= <- <-]; fin_ext H3).
  destruct (header_pairs v) as [|p0 ps] eqn:Hp; [intros [= <- <-]; fin_ext H3|]. rewrite <- Hp.
  destruct (read_headers E (target_path tg) c2) as [r3 c3] eqn:H4. apply read_headers_ext in H4.
  pose proof (ext_trans _ _ _ H3 H4) as H5.
  destruct r3 as [|h|]; try (intros [= <- <-]; fin_ext H5).
  destruct (set_headers E tg _ c3) as [r4 c4] eqn:H6. apply set_headers_spec in H6.
  destruct H6 as (ok & x & -> & _ & _ & _).
  assert (K : forall o, (forall tok t', o <> ODeferred tok t') ->
     match o with OTerminate f => is_final f | ORequeued l => l = [THeaders id pred hx tg term] | _ => True end ->
     summary E (THeaders id pred hx tg term) c o (with_cache (emit (EvSetMap tg (h_set_all (header_pairs v) h) ok) c3) x)).
  { intros o0 Hd Ho. eapply mk_summary with (evs := [EvSetMap tg (h_set_all (header_pairs v) h) ok]); simpl; auto.
    - unfold grows. simpl. now rewrite (ext_log _ _ H5).
    - repeat constructor.
    - now rewrite (ext_bar _ _ H5).
    - destruct (ext_keeps _ _ H5) as (A & B & C). now repeat split.
    - now rewrite (ext_grpc _ _ H5).
    - destruct o0; auto.
    - destruct o0; auto. subst. eauto. }
  destruct r4 as [| |].
  - intros [= <- <-]. apply K; auto; try discriminate.
  - destruct term; intros [= <- <-]; apply K; simpl; auto; discriminate.
  - intros [= <- <-]. apply K; auto; try discriminate.
Qed.

Lemma apply_reply_summary E id pred deny term c o c' :
  apply_reply E id pred deny term c = (o, c') -> summary E (TReply id pred deny term) c o c'.
Proof.
  unfold apply_reply. destruct (test_in E pred _ c) as [[r vs] c1] eqn:H1. apply test_in_ext in H1.
  destruct r as [|[]|]; try (intros [= <- <-]; fin_ext H1).
  destruct (eval_in E deny vs c1) as [[r2 vs2] c2] eqn:H2. apply eval_in_ext in H2.
  pose proof (ext_trans _ _ _ H1 H2) as H3.
  destruct r2 as [|v|]; try (intros [= <- <-]; fin_ext H3).
  destruct v; try (intros [= <- <-]; fin_ext H3).
  destruct (tracker E c2) as [tr c3] eqn:H4. apply tracker_xrid in H4. apply ext_xrid in H3.
  pose proof (xrid_trans _ _ _ H3 H4) as H5. unfold send_reply.
  set (hd := deny_headers fields ++ _). generalize (h_reply E (c_log (emit (EvMetric MDenied) c3)) (deny_status fields) hd (deny_body fields)); intros okb.
  assert (K : forall o, (forall tok t', o <> ODeferred tok t') ->
     match o with OTerminate f => is_final f | ORequeued l => False | _ => True end ->
     summary E (TReply id pred deny term) c o
       (emit (EvReply (deny_status fields) hd (deny_body fields) okb) (emit (EvMetric MDenied) c3))).
  { intros o0 Hd Ho. eapply mk_summary with (evs := [EvReply (deny_status fields) hd (deny_body fields) okb; EvMetric MDenied]); simpl; auto.
    - unfold grows. simpl. now rewrite (xrid_log _ _ H5).
    - repeat constructor.
    - now rewrite (xrid_bar _ _ H5).
    - destruct (xrid_keeps _ _ H5) as (A & B & C). now repeat split.
    - now rewrite (xrid_grpc _ _ H5).
    - destruct o0; auto.
    - destruct o0; auto. easy. }
  destruct okb eqn:Hok; [destruct term|]; intros [= <- <-]; apply K; simpl; auto; discriminate.
Qed.

Lemma set_attribute_spec E p v c r c' : set_attribute E p v c = (r, c') ->
  exists ok x, c' = with_cache (emit (EvSetProp (kuadrant_host_path p) v ok) c) x /\ (ok = true <-> r = RAvail tt).
Proof.
  unfold set_attribute. destruct (h_setprop E _ _ _) as [[]| |]; intros [= <- <-].
  - eexists true, _. split; [reflexivity|]. easy.
  - exists false, (c_cache c). split; [now destruct c|]. easy.
  - exists false, (c_cache c). split; [now destruct c|]. easy.
Qed.

Lemma store_value_summary E bs bs' id pred ex path export term c o c' :
  store_value E (TStore id pred ex path export term bs') id pred ex path export term c = (o, c') ->
  summary E (TStore id pred ex path export term bs) c o c'.
Proof.
  unfold store_value. destruct (test_in E pred _ c) as [[r vs] c1] eqn:H1. apply test_in_ext in H1.
  destruct r as [|[]|]; try (intros [= <- <-]; fin_ext H1).
  destruct (eval_in E ex vs c1) as [[r2 vs2] c2] eqn:H2. apply eval_in_ext in H2.
  pose proof (ext_trans _ _ _ H1 H2) as H3.
  destruct r2 as [|v|]; try (intros [= <- <-]; fin_ext H3).
  assert (Kx : forall evs o c4, (forall tok t', o <> ODeferred tok t') -> Forall (quiet (TStore id pred ex path export term bs)) evs ->
     grows c c4 evs -> c_bar c4 = c_bar c -> keeps c c4 -> c_grpc c4 = c_grpc c ->
     match o with OTerminate f => is_final f | ORequeued l => False | _ => True end ->
     summary E (TStore id pred ex path export term bs) c o c4).
  { intros evs o0 c4 Hd Hq Hg Hb Hk Hgr Ho. eapply mk_summary with (evs := evs); simpl; auto; destruct o0; auto; easy. }
  destruct export.
  - destruct (value_bytes v) as [bytes|]; [|intros [= <- <-]; fin_ext H3].
    destruct (set_attribute E _ bytes c2) as [r4 c4] eqn:H6. apply set_attribute_spec in H6.
    destruct H6 as (ok & x & -> & _).
    destruct r4 as [| |]; try destruct term; intros [= <- <-];
      (eapply Kx with (evs := [EvSetProp (kuadrant_host_path (path_parse path)) bytes ok]); simpl; auto; try discriminate;
       [ now repeat constructor | unfold grows; simpl; now rewrite (ext_log _ _ H3) | now rewrite (ext_bar _ _ H3)
       | destruct (ext_keeps _ _ H3) as (A & B & C); now repeat split | now rewrite (ext_grpc _ _ H3) ]).
  - destruct term; intros [= <- <-];
      (eapply Kx with (evs := []); simpl; auto; try discriminate;
       [ unfold grows; simpl; now rewrite (ext_log _ _ H3) | now rewrite (ext_bar _ _ H3)
       | destruct (ext_keeps _ _ H3) as (A & B & C); now repeat split | now rewrite (ext_grpc _ _ H3) ]).
Qed.

(** [feed_parser] changes only the body values *)
Lemma feed_parser_frame E src p c p' c' : feed_parser E src p c = RAvail (p', c') ->
  exists b, c' = src_set src b c.
Proof.
  unfold feed_parser. destruct (_ && _); [discriminate|].
  set (fed := if (bp_consumed p <? _)%N then _ else _).
  destruct fed as [|p1|]; try discriminate.
  set (fin := if b_eos _ then _ else _). destruct fin as [p2|]; [|discriminate].
  intros [= <- <-]. eauto.
Qed.

Lemma summary_pre E t c c1 o c' :
  c_log c1 = c_log c -> c_bar c1 = c_bar c -> keeps c c1 -> c_grpc c1 = c_grpc c ->
  summary E t c1 o c' -> summary E t c o c'.
Proof.
  intros Hl Hb Hk Hg [S1 S2 S3 S4 S5]. constructor; auto.
  - rewrite Hl, Hb in S1. unfold grows in *. rewrite Hl in S1. exact S1.
  - eapply keeps_trans; eauto.
  - now rewrite Hg in S3.
Qed.

Lemma summary_store_bs E id pred ex path export term bs bs' c o c' :
  summary E (TStore id pred ex path export term bs) c o c' -> summary E (TStore id pred ex path export term bs') c o c'.
Proof. intros [S1 S2 S3 S4 S5]. now constructor. Qed.

Lemma apply_store_summary E id pred ex path export term bs c o c' :
  apply_store E id pred ex path export term bs c = (o, c') -> summary E (TStore id pred ex path export term bs) c o c'.
Proof.
  unfold apply_store.
  cbv zeta. set (run := fun (src : source) (p : bparser) (c : ctx) =>
    match feed_parser E src p c with
    | RPending => (ORequeued [TStore id pred ex path export term (BSActive src p)], c)
    | RErr => (OFailed, c)
    | RAvail (p', c') => store_value E (TStore id pred ex path export term (BSActive src p')) id pred ex path export term c'
    end).
  assert (R : forall src p c o c', run src p c = (o, c') -> summary E (TStore id pred ex path export term bs) c o c').
  { intros src p c0 o0 c0'. unfold run. destruct (feed_parser E src p c0) as [|[p' c1]|] eqn:Hf.
    - intros [= <- <-]. fin_ext (ext_refl c0).
    - apply feed_parser_frame in Hf as (b & ->). intros H. apply store_value_summary with (bs := bs) in H.
      eapply summary_pre; [| | | |exact H]; destruct src; try reflexivity; now repeat split.
    - intros [= <- <-]. fin_ext (ext_refl c0). }
  destruct bs as [|src fields|src p].
  - apply store_value_summary.
  - unfold create_parser. destruct src.
    + destruct (jp_new E fields); [apply R|intros [= <- <-]; fin_ext (ext_refl c)].
    + destruct (read_headers E p_resp_headers c) as [r c1] eqn:Hr. apply read_headers_ext in Hr.
      assert (R' : forall src p o c', run src p c1 = (o, c') -> summary E (TStore id pred ex path export term (BSPending SrcResp fields)) c o c').
      { intros src p o0 c0 H. eapply summary_pre; [| | | |eapply R; exact H].
        - apply (ext_log _ _ Hr). - apply (ext_bar _ _ Hr). - apply (ext_keeps _ _ Hr). - apply (ext_grpc _ _ Hr). }
      destruct r as [|h|].
      * intros [= <- <-]. fin_ext Hr.
      * destruct (is_sse_type h); [apply R'|]. destruct (jp_new E fields); [apply R'|intros [= <- <-]; fin_ext Hr].
      * destruct (jp_new E fields); [apply R'|intros [= <- <-]; fin_ext Hr].
  - apply R.
Qed.

Lemma apply_token_summary E st fs c o c' : apply_token E st fs c = (o, c') -> summary E (TToken st fs) c o c'.
Proof.
  unfold apply_token. cbv zeta. set (go := fun (s : strategy) (c : ctx) =>
    match (if (0 <? b_size (c_respb c))%N then
        match h_respbody E (c_log c) 0 (b_size (c_respb c)) with
        | HOk (Some bytes) => RAvail (st_feed bytes s)
        | HOk None => RAvail s
        | HNotAvail => RPending
        | HErr => RErr
        end
      else RAvail s) with
    | RPending => (ORequeued [TToken (Some s) fs], c)
    | RErr => (OFailed, c)
    | RAvail s' =>
        if b_eos (c_respb c) then (ODone, with_respb c (st_populate E fs s' (c_respb c)))
        else (ORequeued [TToken (Some s') fs], c)
    end).
  assert (R : forall s c o c', go s c = (o, c') -> summary E (TToken st fs) c o c').
  { intros s c0 o0 c0'. unfold go. set (fed := if (0 <? _)%N then _ else _).
    destruct fed as [|s'|]; [intros [= <- <-]; fin_ext (ext_refl c0)| |intros [= <- <-]; fin_ext (ext_refl c0)].
    destruct (b_eos (c_respb c0)); intros [= <- <-]; [|fin_ext (ext_refl c0)].
    eapply mk_summary with (evs := []); simpl; auto; try discriminate; try reflexivity. now repeat split. }
  destruct st as [s|]; [apply R|].
  destruct (read_headers E p_resp_headers c) as [r c1] eqn:Hr. apply read_headers_ext in Hr.
  destruct r as [|h|]; try (intros [= <- <-]; fin_ext Hr).
  intros H. eapply summary_pre; [| | | |eapply R; exact H].
  - apply (ext_log _ _ Hr). - apply (ext_bar _ _ Hr). - apply (ext_keeps _ _ Hr). - apply (ext_grpc _ _ Hr).
Qed.

Lemma Forall_quiet_wrap t t' evs : core t' = core t -> t_id t' = t_id t -> Forall (quiet t) evs -> Forall (quiet t') evs.
Proof. intros Hc Hi. apply Forall_impl. intros e. unfold quiet. now rewrite Hc, Hi. Qed.

Theorem apply_summary E t : forall c o c', apply E t c = (o, c') -> summary E t c o c'.
Proof.
  induction t; intros c o c'; simpl.
  - apply apply_dynamic_summary.
  - apply apply_pending_summary.
  - apply apply_noop_summary.
  - destruct (apply E t c) as [o1 c1] eqn:Ha. specialize (IHt _ _ _ Ha). destruct IHt as [S1 S2 S3 S4 S5].
    destruct o1; intros [= <- <-].
    + constructor; auto.
    + constructor; auto.
    + constructor; auto.
    + destruct S1 as (evs & G & Q & B).
      assert (K : forall o, (forall tok t', o <> ODeferred tok t') ->
        match o with OTerminate f => is_final f | ORequeued _ => False | _ => True end ->
        summary E (TFailureMode t abort) c o (emit (EvMetric MErrors) c1)).
      { intros o Hd Ho. eapply mk_summary with (evs := EvMetric MErrors :: evs); simpl; auto.
        - unfold grows in *. simpl. now rewrite G.
        - destruct o; easy.
        - destruct o; easy. }
      destruct abort; apply K; simpl; auto; discriminate.
    + constructor; auto.
  - destruct (apply E t c) as [o1 c1] eqn:Ha. specialize (IHt _ _ _ Ha). destruct IHt as [S1 S2 S3 S4 S5].
    destruct o1; intros [= <- <-].
    + constructor; auto.
    + constructor; auto.
    + constructor; auto.
      cbn [core]. destruct (core t).
        2:{ destruct S5 as (N & M). split; [now destruct ts|]. rewrite map_map. exact M. }
        2:{ exact S5. }
        all: rewrite map_map; exact S5.
    + constructor; auto.
    + constructor; auto.
  - apply apply_fail_summary.
  - apply apply_headers_summary.
  - apply apply_reply_summary.
  - apply apply_store_summary.
  - apply apply_token_summary.
  - intros [= <- <-]. eapply mk_summary with (evs := []); simpl; auto; try discriminate; try reflexivity. apply keeps_refl.
Qed.
