(** C17, C34, C75, C79: what the evaluation of an action leads to. *)
From Coq Require Import String List NArith ZArith Bool Lia Arith.
From Verif Require Import Base Value Headers AttrPath Ctx CelProps CelEval Sse Body Tasks Exec Config Legacy Blueprint Factory Filter
  P_Frame P_Apply P_Exec P_Run P_Inv P_Ids P_Plan P_Deps P_Order P_Term P_Bar P_Cfg P_Hist P_Grow P_Wake P_Fail P_Told P_Eff P_Rid Demo DemoCfg
  Prop_Order Prop_Term Prop_Guard Prop_Wake Prop_Fail Prop_Know.
From Verif Require Prop_Headers.
Import ListNotations.
Open Scope list_scope.

(** * Specifications *)
Definition sent (e : ev) : bool := match e with EvReply _ _ _ true => true | _ => false end.
(** number of replies the host accepted *)
Definition sent_replies (h : log) : nat := length (filter sent h).
(** every configured deny action (also among the reply actions) is terminal; the ones legacy
    actions stand for are not mentioned *)
Definition denies_terminal (s : action_set) : Prop :=
  forall i t a p tm g sq d, nth_error (as_actions s) i = Some (CTyped t) ->
    within (nat_text i) t a (mkT p tm g sq (OpDeny d)) -> tm = true.
Definition field (n : string) (fs : list (text * value)) : option value := tget (tx n) fs.
(** the reply [st], [hd], [body] says what the evaluated response [fs] says, up to 32 bits of status *)
Definition says (fs : list (text * value)) (st : N) (hd : headers) (body : option text) : Prop :=
  (forall n, field "status" fs = Some (VUInt n) -> (n < 4294967296)%N -> st = n) /\
  ((forall n, field "status" fs <> Some (VUInt n)) -> st = 500%N) /\
  (forall items, field "headers" fs = Some (VList items) -> Prop_Headers.converted items hd) /\
  (field "headers" fs = None -> hd = []) /\
  (forall b, field "body" fs = Some (VString b) -> b <> [] -> body = Some b) /\
  ((forall b, field "body" fs = Some (VString b) -> b = []) -> body = None).
Definition default_response : list (text * value) :=
  [(tx "status", VUInt 500); (tx "headers", VList []); (tx "body", VString ise_body)].

(** name of the header that carries the request id: the configured identifier, unless the tracing
    service names a service that is not a tracing one *)
Definition tracker_name (cfg : plugin_cfg) : option text :=
  match pc_identifier cfg, pc_tracing cfg with
  | Some n, Some t => match tget t (pc_services cfg) with
                      | Some c => match sc_type c with STracing => Some n | _ => None end
                      | None => Some n
                      end
  | Some n, None => Some n
  | None, _ => None
  end.
Definition tracker_header (cfg : plugin_cfg) (tr : headers) : Prop :=
  match tracker_name cfg with None => tr = [] | Some n => exists r, tr = [(n, r)] end.
Definition is_call (op : toper) : Prop := match op with OpGrpc _ _ _ _ => True | _ => False end.

(** * Lemmas *)
Lemma request_nodes E cfg fa p : try_from E cfg = Some fa -> build E fa (ctx0 [EvReqHeaders]) = BOk p ->
  forall nd, In nd (nodess (p_queue p)) ->
    (exists s svs a x, In s (pc_sets cfg) /\ cfg_svs cfg = Some svs /\ configured svs (cfg_rsrc E cfg) s a x /\ describes E svs a x nd) \/ dev_node nd.
Proof.
  intros Hf Hb nd Hi. pose proof (build_spec E fa (ctx0 [EvReqHeaders])) as Hsp. rewrite Hb in Hsp.
  destruct Hsp as (b & c1 & tds & Hs & Ht & _). destruct (select_served _ _ _ _ _ _ Hf Hs) as (svs & Hsv & Hser).
  inversion Hser as [s bp Hin Hc Heq|h Hh Heq]; subst b.
  - destruct (built_nodes E cfg fa s svs bp c1 p Hsv Hc Hs Hb nd Hi) as [(a & x & H1 & H2)|H]; [|now right].
    left. exists s, svs, a, x. auto.
  - right. unfold to_tasks in Ht. destruct (actions_tasks_nodes _ _ _ _ _ _ _ _ Ht nd Hi) as (a & c2 & tk & c3 & Ha & Htc & Hn).
    cbn [bp_actions] in Ha. unfold cfg_dev in Ha. rewrite Hh in Ha. destruct Ha as [<-|[]]. eapply dev_nodes; eauto.
Qed.
(** a reply action of a reply action is found below the first *)
Lemma legacy_deny svs rd l t id a p tm g sq d : meaning svs rd (CLegacy l) = Some t -> within id t a (mkT p tm g sq (OpDeny d)) -> tm = true.
Proof.
  cbn [meaning]. destruct (tget (la_service l) svs) as [[k s|]|]; try discriminate.
  assert (K : forall p0 tm0 g0 sq0 v n m rs, (forall i r, nth_error rs i = Some r -> match r with mkT _ tm' _ _ (OpDeny _) => tm' = true | mkT _ _ _ _ (OpGrpc _ _ _ _) => False | _ => True end) ->
    within id (mkT p0 tm0 g0 sq0 (OpGrpc v n m rs)) a (mkT p tm g sq (OpDeny d)) -> tm = true).
  { intros p0 tm0 g0 sq0 v n m rs Hr Hw. inversion Hw as [|? ? ? ? ? ? ? ? ? i r ? ? Hn Hw']; subst. specialize (Hr i r Hn).
    inversion Hw' as [|? ? ? ? ? ? ? ? ? i' r' ? ? Hn' Hw'']; subst; [exact Hr|destruct Hr]. }
  assert (Kn : forall v, forall i r, nth_error (rl_on_reply v) i = Some r -> match r with mkT _ tm' _ _ (OpDeny _) => tm' = true | mkT _ _ _ _ (OpGrpc _ _ _ _) => False | _ => True end).
  { intros v i r H. apply nth_error_In in H. repeat (destruct H as [<-|H]; [cbn; auto|]). destruct H. }
  assert (Ka : forall v, forall i r, nth_error (auth_on_reply v) i = Some r -> match r with mkT _ tm' _ _ (OpDeny _) => tm' = true | mkT _ _ _ _ (OpGrpc _ _ _ _) => False | _ => True end).
  { intros v i r H. apply nth_error_In in H. repeat (destruct H as [<-|H]; [cbn; auto|]). destruct H. }
  destruct k; try discriminate; intros [= <-]; unfold translate_auth, translate_ratelimit, translate_report; cbv zeta; apply K; try exact (Kn _); try exact (Ka _);
    intros [|i] r H; [injection H as <-; exact Logic.I|destruct i; discriminate].
Qed.
Lemma sent_is_reply h : sent_replies h = replies h.
Proof. unfold sent_replies, replies. f_equal. induction h as [|e h IH]; [reflexivity|]. simpl. rewrite IH. destruct e; try reflexivity. now destruct ok. Qed.
Lemma says_deny fs : says fs (deny_status fs) (deny_headers fs) (deny_body fs).
Proof.
  unfold says, field, deny_status, deny_headers, deny_body. split; [|split; [|split; [|split; [|split]]]].
  - intros n -> H. now apply N.mod_small.
  - intros H. destruct (tget (tx "status") fs) as [[]|]; try reflexivity. now destruct (H n).
  - intros items ->. exact (Prop_Headers.C68_header_lists_converted_faithfully (VList items)).
  - intros ->. reflexivity.
  - intros b -> Hb. now destruct b.
  - intros H. destruct (tget (tx "body") fs) as [[]|]; try reflexivity. rewrite (H s eq_refl). reflexivity.
Qed.

Lemma track_name cfg svs : cfg_svs cfg = Some svs -> cfg_track svs cfg = tracker_name cfg.
Proof.
  intros Hs. unfold cfg_track, cfg_tracing, tracker_name. destruct (pc_identifier cfg) as [n|]; [|reflexivity].
  destruct (pc_tracing cfg) as [t|]; [|reflexivity]. destruct (svs_service cfg svs t Hs) as [-> H].
  destruct (tget t (pc_services cfg)) as [c|]; [|reflexivity]. specialize (H c eq_refl). unfold inst_of in *.
  destruct (sc_type c); try reflexivity. destruct (sc_grpc_service c), (sc_grpc_method c); try reflexivity; easy.
Qed.
Lemma request_tracked E cfg fa p tr : try_from E cfg = Some fa -> build E fa (ctx0 [EvReqHeaders]) = BOk p ->
  tracked (c_track (p_ctx p)) tr -> tracker_header cfg tr.
Proof.
  intros Hf Hb H. destruct (built_rid _ _ _ _ Hf Hb) as (svs & Hs & Ht & _). unfold tracker_header. rewrite <- (track_name _ _ Hs), <- Ht. exact H.
Qed.
(** requests without actions to run *)
Definition bare (e : ev) (past : log) : Prop :=
  match e with
  | EvReply st hd b _ => st = 500%N /\ hd = [] /\ b = Some ise_body /\ past = [EvMetric MErrors; EvReqHeaders]
  | EvDone _ | EvFailed _ | EvTerminate _ | EvDispatch _ _ _ | EvExport _ _ | EvSetMap _ _ _ | EvSetProp _ _ _ => False
  | _ => True
  end.
Lemma no_pipe_replies E fa l : (forall p, build E fa (ctx0 [EvReqHeaders]) <> BOk p) -> later l ->
  hist bare (f_log (run E fa l)) /\ replies (f_log (run E fa l)) <= 1.
Proof.
  intros Hn Hl.
  assert (HI : finv E (fun _ _ => False) (fun h => hist bare h /\ replies h <= 1)).
  { constructor; try tauto. intros h e He [H1 H2]. split; [split; [|exact H1]|].
    - destruct He as [He|(k & st & sz & ->)]; [destruct e; cbn in *; easy|exact Logic.I].
    - rewrite replies_cons. destruct He as [He|(k & st & sz & ->)]; [destruct e; cbn in *; easy|exact H2]. }
  pose proof (request_invariant E fa _ _ HI) as K.
  assert (Hh : holds (fun _ _ => False) (fun h => hist bare h /\ replies h <= 1) (run E fa l)).
  { apply K; [intros p Hb; now destruct (Hn p)| | | |exact Hl].
    - split; [repeat split|cbn; lia].
    - split; [repeat split|cbn; lia].
    - intros ok. split; [repeat split|]. rewrite !replies_cons. destruct ok; cbn; lia. }
  unfold holds in Hh. destruct (f_pipe (run E fa l)); [destruct Hh as [[] _]|exact Hh].
Qed.
Lemma pipe_or_not E fa : (exists p, build E fa (ctx0 [EvReqHeaders]) = BOk p) \/ (forall p, build E fa (ctx0 [EvReqHeaders]) <> BOk p).
Proof. destruct (build E fa (ctx0 [EvReqHeaders])); [left; eauto|right; discriminate..]. Qed.

(** * C17 *)
Theorem C17_at_most_one_reply : forall E cfg fa l,
  try_from E cfg = Some fa -> (forall s, In s (pc_sets cfg) -> denies_terminal s) -> later l ->
  sent_replies (f_log (run E fa l)) <= 1.
Proof.
  intros E cfg fa l Hf Hd Hl. rewrite sent_is_reply. destruct (pipe_or_not E fa) as [(p & Hb)|Hn]; [|now apply no_pipe_replies].
  apply (F_log _ _ _ _ _ _ (F_run_filter E fa p l Hb Hl)). intros id pr d tm Hi.
  destruct (request_nodes _ _ _ _ Hf Hb _ Hi) as [(s & svs & a & x & Hin & Hsv & Hc & Hds)|[]].
  destruct x as [px tmx g sq op]. cbn in Hds. destruct Hds as (pe & _ & Hds). destruct op; try easy.
  destruct Hds as (_ & _ & _ & ->). destruct Hc as (i & c & t & H1 & H2 & H3). destruct c as [t'|lg].
  - injection H2 as ->. exact (Hd s Hin _ _ _ _ _ _ _ _ H1 H3).
  - eapply legacy_deny; eauto.
Qed.
Print Assumptions C17_at_most_one_reply.

(** * C34 *)
(** Every attempt to send a reply during a request that the set [s] serves is one of: that of a
    deny action whose condition holds and which says what its evaluated response says; the
    default reply of a request that was rejected; the reply to a request whose actions could not
    be set up.  The first two are counted and carry the tracker header, if there is one. *)
Theorem C34_replies_say_what_was_configured : forall E cfg fa s l st hd b ok past,
  try_from E cfg = Some fa -> serves E cfg fa s -> later l -> cel_constants E ->
  occurs (f_log (run E fa l)) (EvReply st hd b ok) past ->
  (exists hd0 tr, hd = hd0 ++ tr /\ tracker_header cfg tr /\
    ((exists a p tm g sq d ty fs past', past = EvMetric MDenied :: EvEval a :: past' /\
        has_action E cfg s a (mkT p tm g sq (OpDeny d)) /\
        evaluates E cfg s a p (VBool true) (EvEval a :: past') /\ evaluates E cfg s a d (VStruct ty fs) (EvEval a :: past') /\
        says fs st hd0 b) \/
     (exists a past', past = EvMetric MDenied :: EvTerminate a :: past' /\ says default_response st hd0 b))) \/
  (st = 500%N /\ hd = [] /\ b = Some ise_body /\ past = [EvMetric MErrors; EvReqHeaders]).
Proof.
  intros E cfg fa s l st hd b ok past Hf Hs Hl HC Ho. destruct (pipe_or_not E fa) as [(p & Hb)|Hn].
  2:{ right. destruct (no_pipe_replies E fa l Hn Hl) as [H _]. rewrite occurs_hist in H. exact (H _ _ Ho). }
  left. destruct (F_log _ _ _ _ _ _ (F_run_filter E fa p l Hb Hl)) as [H _]. rewrite occurs_hist in H. specialize (H _ _ Ho). cbn [eff] in H.
  destruct H as [(nd & evs & l' & k & Hi & Heq & Hne & Hd)|(a & evs & l' & k & Heq & Hne & _ & Hd)].
  - remember (EvEval (n_id nd) :: l') as L eqn:HL. destruct Hd; try (now destruct Hne); try (discriminate Heq).
    + cbn [app n_id] in *. subst L. injection Heq as -> -> -> -> ->. exists (deny_headers fs), tr.
      split; [reflexivity|]. split; [eapply request_tracked; eauto|]. left.
      destruct (serves_nodes _ _ _ _ _ Hs Hb _ Hi) as [(svs & a & [px tmx g sq op] & Hsv & Hc & Hds)|[]].
      cbn in Hds. destruct Hds as (pe & Hp & Hds).
      destruct op; try easy. destruct Hds as (-> & -> & Hdp & ->). assert (Ha : has_action E cfg s a (mkT px tmx g sq (OpDeny deny_with))) by now exists svs.
      exists a, px, tmx, g, sq, deny_with, ty, fs, l'. split; [reflexivity|]. split; [exact Ha|]. split; [eapply pred_told; eauto|].
      split; [eapply expr_told; eauto; now right; left|apply says_deny].
    + exfalso. destruct H as [|e evs He _]; [now destruct Hne|]. cbn [app] in Heq. injection Heq as <- _. destruct He.
  - remember default_node as nd eqn:Hnd. destruct Hd; try discriminate Hnd; try (now destruct Hne).
    injection Hnd as -> -> -> ->. cbn [app] in Heq. injection Heq as -> -> -> -> ->. exists (deny_headers fs), tr.
    split; [reflexivity|]. split; [eapply request_tracked; eauto|]. right. exists a, l'. split; [reflexivity|].
    destruct H0 as (c0 & c & vs' & vs0 & c' & _ & _ & _ & _ & H0). destruct (proj2 (HC (EvTerminate a :: l') vs0)) as (ty' & H2).
    change (ex_ast (expr_of default_deny)) with default_deny in H0. rewrite H2 in H0. injection H0 as _ <-. apply says_deny.
Qed.
Print Assumptions C34_replies_say_what_was_configured.

Lemma teardown_not_number k i : ~ below (nat_text i) (tx "teardown_" ++ nat_text k).
Proof.
  intros [H|(r & H)]; pose proof (nat_text_digits i) as Hd.
  - rewrite <- H in Hd. cbn in Hd. discriminate.
  - pose proof (nat_text_nonempty i) as Hn. destruct (nat_text i) as [|x t]; [easy|].
    cbn in H. injection H as <- _. simpl in Hd. discriminate.
Qed.

(** * C75 *)
(** A terminal action that is not a call and completes, so that processing goes on: its condition
    was false, or it had no header to set.  Otherwise it ends processing (C79), and C04 says that
    nothing is evaluated after that. *)
Theorem C75_terminal_actions_end_processing_partial : forall E cfg fa s l a p g sq op past,
  try_from E cfg = Some fa -> serves E cfg fa s -> later l ->
  has_action E cfg s a (mkT p true g sq op) -> ~ is_call op ->
  occurs (f_log (run E fa l)) (EvDone a) past ->
  exists past', past = EvEval a :: past' /\
    (evaluates E cfg s a p (VBool false) past \/
     exists m hx v, op = OpHeaders m hx /\ evaluates E cfg s a hx v past /\ header_pairs v = []).
Proof.
  intros E cfg fa s l a p g sq op past Hf Hs Hl (svs & Hsv & Hc) Hop Ho. destruct (pipe_or_not E fa) as [(pp & Hb)|Hn].
  2:{ exfalso. destruct (no_pipe_replies E fa l Hn Hl) as [H _]. rewrite occurs_hist in H. exact (H _ _ Ho). }
  assert (Hnode : forall nd, In nd (nodess (p_queue pp)) -> n_id nd = a -> describes E svs a (mkT p true g sq op) nd).
  { intros nd Hi Hid. destruct (serves_nodes _ _ _ _ _ Hs Hb _ Hi) as [(svs' & a' & x & Hsv' & Hc' & Hd)|Hd].
    - assert (svs' = svs) as -> by congruence. assert (a' = a) as ->.
      { rewrite <- Hid. destruct x as [? ? ? ? o]. destruct Hd as (pe & _ & Hd). destruct o, nd; try easy; symmetry; apply Hd. }
      rewrite (configured_unique _ _ _ _ _ _ Hc Hc'). exact Hd.
    - exfalso. apply (configured_not_dev svs (cfg_rsrc E cfg) s (mkT p true g sq op)). replace dev_id with a; [exact Hc|].
      rewrite <- Hid. destruct nd; cbn in Hd; cbn; try easy; apply Hd. }
  destruct (F_log _ _ _ _ _ _ (F_run_filter E fa pp l Hb Hl)) as [H _]. rewrite occurs_hist in H. specialize (H _ _ Ho). cbn [eff] in H.
  destruct (configured_number _ _ _ _ _ Hc) as (i & Hbel).
  destruct H as [->|[(_ & [(sv & var & g' & kids & Hi)|(k & ->)])|(nd & evs & l' & Hi & Hid & -> & Hd)]].
  - exfalso. now apply tu_not_number in Hbel.
  - exfalso. specialize (Hnode _ Hi eq_refl). destruct Hnode as (pe & _ & Hd). destruct op; try easy. now apply Hop.
  - exfalso. now apply teardown_not_number in Hbel.
  - specialize (Hnode nd Hi Hid). destruct Hnode as (pe & Hp & Hds).
    assert (Kf : forall pr, pr = pe -> pval E (at_work E fa) a pr false (EvEval a :: l') -> evaluates E cfg s a p (VBool false) (EvEval a :: l')).
    { intros pr -> H. eapply pred_told; eauto. exists svs; eauto. }
    remember (EvEval a :: l') as L eqn:HL. remember KDone as k eqn:Hk.
    destruct Hd; try (exfalso; match goal with H : idle_kind _ |- _ => destruct H; subst k; discriminate end); cbn [n_id] in Hid; match type of Hid with ?i = _ => subst i end; destruct op; try easy; cbn in Hds.
    + exists l'. split; [exact HL|]. left. now apply (Kf p0).
    + exfalso. destruct Hds as (_ & _ & _ & ->). now destruct ok.
    + exists l'. split; [exact HL|]. left. now apply (Kf p0).
    + exists l'. split; [exact HL|]. right. destruct Hds as (_ & -> & Hh & _). exists target, headers, v. split; [reflexivity|]. split; [|exact H1]. eapply expr_told; [exact Hs|exists svs; split; eassumption|exact Hp|now right; left|exact Hh|exact H0].
    + exfalso. destruct Hds as (_ & _ & _ & _ & ->). destruct ok; [subst k; discriminate|]. destruct H3; subst k; discriminate.
    + exists l'. split; [exact HL|]. left. now apply (Kf p0).
    + exfalso. destruct Hds as (_ & _ & _ & _ & _ & ->). discriminate.
    + exfalso. destruct Hds as (_ & _ & _ & _ & _ & ->). discriminate.
    + exists l'. split; [exact HL|]. left. now apply (Kf p0).
    + exfalso. now apply Hop.
Qed.
Print Assumptions C75_terminal_actions_end_processing_partial.

(** * C79 *)
(** What ends processing: a terminal action whose condition holds, or a call that failed of a
    service whose failure mode is deny (possibly the dev-mode call, if its tracing service is
    an ordinary one) *)
Theorem C79_what_ends_processing : forall E cfg fa s l a past,
  try_from E cfg = Some fa -> serves E cfg fa s -> later l ->
  occurs (f_log (run E fa l)) (EvTerminate a) past ->
  (exists p g sq op evs past', has_action E cfg s a (mkT p true g sq op) /\ ~ is_call op /\
     past = evs ++ EvEval a :: past' /\ evaluates E cfg s a p (VBool true) (EvEval a :: past')) \/
  (exists p tm g sq var service m rs sc past', has_action E cfg s a (mkT p tm g sq (OpGrpc var service m rs)) /\
     tget service (pc_services cfg) = Some sc /\ sc_deny sc = true /\ past = EvMetric MErrors :: past') \/
  (a = dev_id /\ tracker_name cfg = None /\ exists past', past = EvMetric MErrors :: past').
Proof.
  intros E cfg fa s l a past Hf Hs Hl Ho. destruct (pipe_or_not E fa) as [(pp & Hb)|Hn].
  2:{ exfalso. destruct (no_pipe_replies E fa l Hn Hl) as [H _]. rewrite occurs_hist in H. exact (H _ _ Ho). }
  destruct (F_log _ _ _ _ _ _ (F_run_filter E fa pp l Hb Hl)) as [H _]. rewrite occurs_hist in H. specialize (H _ _ Ho). cbn [eff] in H.
  destruct H as (b & nd & evs & l' & Hi & Hid & -> & Hd).
  destruct (serves_nodes _ _ _ _ _ Hs Hb _ Hi) as [(svs & a' & x & Hsv & Hc & Hds)|Hdev].
  - assert (a' = a) as ->.
    { rewrite <- Hid. destruct x as [? ? ? ? o]. destruct Hds as (pe & _ & Hds). destruct o, nd; try easy; symmetry; apply Hds. }
    destruct x as [p tm g sq op]. destruct Hds as (pe & Hp & Hds).
    assert (Kt : forall pr, tm = true -> ~ is_call op -> pr = pe -> pval E (at_work E fa) a pr true (EvEval a :: l') ->
      exists p0 g0 sq0 op0 evs0 past', has_action E cfg s a (mkT p0 true g0 sq0 op0) /\ ~ is_call op0 /\
        evs ++ EvEval a :: l' = evs0 ++ EvEval a :: past' /\ evaluates E cfg s a p0 (VBool true) (EvEval a :: past')).
    { intros pr -> Hnc -> H. exists p, g, sq, op, evs, l'. split; [now exists svs|]. split; [exact Hnc|]. split; [reflexivity|]. eapply pred_told; eauto. exists svs; eauto. }
    remember (EvEval a :: l') as L eqn:HL. remember (KTerm b) as k eqn:Hk.
    destruct Hd; try (exfalso; match goal with H : idle_kind _ |- _ => destruct H; subst k; discriminate end); try discriminate Hk; cbn [n_id] in Hid; match type of Hid with ?i = _ => subst i end; destruct op; try easy; cbn in Hds.
    + left. apply (Kt p0); try easy. destruct Hds as (_ & _ & _ & ->). destruct tm, ok; easy.
    + left. apply (Kt p0); try easy. destruct Hds as (_ & _ & _ & _ & ->). destruct ok; [subst k; now destruct tm|]. destruct H3; subst k; discriminate.
    + left. apply (Kt p0); try easy. destruct Hds as (_ & _ & _ & _ & _ & ->). now destruct tm.
    + left. apply (Kt p0); try easy. destruct Hds as (_ & _ & _ & _ & _ & ->). now destruct tm.
    + left. apply (Kt p0); easy.
    + right. left. destruct Hds as (_ & -> & -> & (kd & Hsv') & _). destruct (H0 b Hk) as (-> & Hdeny & evs' & ->).
      destruct (svs_service cfg svs service Hsv) as [Hx _]. rewrite Hsv' in Hx. destruct (tget service (pc_services cfg)) as [sc|] eqn:Hsc; [|discriminate].
      exists p, tm, g, sq, var0, service, message, on_reply, sc, (evs' ++ L). split; [now exists svs|]. split; [exact Hsc|]. split; [|reflexivity].
      unfold inst_of in Hx. destruct (sc_type sc); try (injection Hx as _ ->; exact Hdeny); try discriminate.
      destruct (sc_grpc_service sc); [|discriminate]. destruct (sc_grpc_method sc); [|discriminate]. injection Hx as _ ->. exact Hdeny.
  - right. right. assert (a = dev_id) as ->.
    { rewrite <- Hid. destruct nd; cbn in Hdev |- *; try easy; apply Hdev. }
    split; [reflexivity|].
    assert (Hk : (forall r x, nd <> NHdr dev_id true_expr x MResp r) /\ exists evs', evs = EvMetric MErrors :: evs').
    { remember (EvEval dev_id :: l') as L eqn:HL. remember (KTerm b) as k eqn:Hk.
      destruct Hd; try easy; try (exfalso; match goal with H : idle_kind _ |- _ => destruct H; subst k; discriminate end).
      - exfalso. destruct Hdev as (_ & _ & ->). destruct ok; [subst k; discriminate|]. destruct H3; subst k; discriminate.
      - split; [discriminate|]. destruct (H0 b Hk) as (_ & _ & Hx). exact Hx. }
    destruct Hk as [Hk (evs' & ->)]. split; [|now exists (evs' ++ EvEval dev_id :: l')].
    destruct (built_rid _ _ _ _ Hf Hb) as (svs & Hsv & _ & Hx & _). rewrite <- (track_name _ _ Hsv).
    destruct (cfg_track svs cfg) as [h|]; [|reflexivity]. destruct (Hx h eq_refl) as (rid & hx & _ & _ & Hall).
    exfalso. exact (Hk _ _ (Hall nd Hi Hid)).
Qed.
Print Assumptions C79_what_ends_processing.

(** * Examples and counterexamples *)
Ltac acts i := eexists; split; [vm_compute; reflexivity|]; exists i; eexists _, _; split; [reflexivity|]; split; [reflexivity|constructor].
(** a deny action among the reply actions of a call, and one that comes later *)
Definition ex17 : list action_cfg := [dcall "soft" false [ddeny "true" true false]; CTyped (ddeny "true" true true)].
Example C17_ex :
  try_from Ed (dcfg ex17) = Some (dfac Ed ex17) /\ (forall s, In s (pc_sets (dcfg ex17)) -> denies_terminal s) /\
  later [InGrpc 0 0 0] /\ sent_replies (f_log (run Ed (dfac Ed ex17) [InGrpc 0 0 0])) = 1.
Proof.
  split; [vm_compute; reflexivity|]. split; [|split; [intros [H|[]]; discriminate|vm_compute; reflexivity]].
  intros s [<-|[]] i t a p tm g sq d Hn Hw. destruct i as [|[|[|i]]]; try discriminate; cbn in Hn; injection Hn as <-.
  - inversion Hw as [|? ? ? ? ? ? ? ? ? j r ? ? Hj Hw']; subst. destruct j as [|[|j]]; try discriminate. cbn in Hj. injection Hj as <-.
    inversion Hw'; reflexivity.
  - inversion Hw; reflexivity.
Qed.
(** without the hypothesis two replies are sent *)
Definition ex17b : list action_cfg := [CTyped (ddeny "true" false false); CTyped (ddeny "true" false true)].
Example C17_nonterminal : sent_replies (f_log (run Ed (dfac Ed ex17b) [])) = 2.
Proof. vm_compute. reflexivity. Qed.

Definition hd34 : headers := match find (fun e => match e with EvReply _ _ _ _ => true | _ => false end) (f_log (run Et (tfac ex17) [InGrpc 0 0 0])) with Some (EvReply _ h _ _) => h | _ => [] end.
Example C34_ex : In (EvReply 403 hd34 (Some (tx "no")) true) (f_log (run Et (tfac ex17) [InGrpc 0 0 0])) /\
  try_from Et (tcfg ex17) = Some (tfac ex17) /\ serves Et (tcfg ex17) (tfac ex17) (set_of ex17) /\ cel_constants Et /\
  exists n r, tracker_name (tcfg ex17) = Some n /\ hd34 = [(n, r)].
Proof.
  split; [find|]. split; [vm_compute; reflexivity|]. split; [serve|]. split; [now apply demo_constants|].
  eexists _, _. split; [reflexivity|]. vm_compute. reflexivity.
Qed.
(** the text [x] has the value [v] whatever the variables are *)
Definition always (E : env) (x : text) (v : value) : Prop :=
  exists e, parse_expr E x = Some e /\ forall past vs, o_cel E past (ex_ast e) vs = Some v.
(** a status that does not fit in 32 bits is cut off *)
Definition Ebig : env := e_parse Ed (fun s => if text_eqb s (tx "deny")
  then Some (AStruct (tx "DenyResponse") [(tx "status", ALit (VUInt 4294967496)); (tx "headers", AList []); (tx "body", ALit (VString (tx "no")))])
  else parse_demo s).
Definition ex34 : list action_cfg := [CTyped (ddeny "true" true true)].
Theorem C34_status_is_cut_off_refuted : exists E cfg fa s a p d ty fs n st hd b past,
  try_from E cfg = Some fa /\ serves E cfg fa s /\ has_action E cfg s a (mkT p true false true (OpDeny d)) /\
  occurs (f_log (run E fa [])) (EvReply st hd b true) (EvMetric MDenied :: EvEval a :: past) /\
  always E d (VStruct ty fs) /\ field "status" fs = Some (VUInt n) /\ st <> n /\ st = 200%N.
Proof.
  exists Ebig, (dcfg ex34), (dfac Ebig ex34), (set_of ex34), (tx "0"), (tx "true"), (tx "deny"), (tx "DenyResponse").
  eexists _, 4294967496%N, 200%N, [], (Some (tx "no")), _.
  split; [vm_compute; reflexivity|]. split; [serve|]. split; [acts 0|].
  split; [exists [EvRet false; EvTerminate (tx "0")]; vm_compute; reflexivity|].
  split; [eexists; split; [vm_compute; reflexivity|intros; reflexivity]|]. split; [reflexivity|]. split; [discriminate|reflexivity].
Qed.
Print Assumptions C34_status_is_cut_off_refuted.

(** a call marked terminal completes and the next action is evaluated *)
Definition ex75 : list action_cfg := [CTyped (mkT (tx "true") true true true (OpGrpc (tx "r") (tx "hard") (tx "msg") [])); dcall "soft" true []].
Theorem C75_terminal_call_refuted : exists E cfg fa s a b p g sq op past,
  try_from E cfg = Some fa /\ serves E cfg fa s /\ has_action E cfg s a (mkT p true g sq op) /\
  (exists x, has_action E cfg s b x) /\ a <> b /\
  let h := f_log (run E fa [InGrpc 0 0 0]) in
  always E p (VBool true) /\ (exists cl, In (EvDispatch a cl (Some 0%N)) past) /\
  In (EvDone a) past /\ occurs h (EvEval b) past.
Proof.
  exists Ed, (dcfg ex75), (dfac Ed ex75), (set_of ex75), (tx "0"), (tx "1"), (tx "true"), true, true, (OpGrpc (tx "r") (tx "hard") (tx "msg") []).
  exists (skipn 2 (f_log (run Ed (dfac Ed ex75) [InGrpc 0 0 0]))). split; [vm_compute; reflexivity|]. split; [serve|]. split; [acts 0|]. split; [eexists; acts 1|].
  split; [discriminate|]. cbv zeta. split; [eexists; split; [vm_compute; reflexivity|intros; reflexivity]|].
  split; [|split; [|exists (firstn 1 (f_log (run Ed (dfac Ed ex75) [InGrpc 0 0 0]))); vm_compute; reflexivity]].
  - eexists. find.
  - find.
Qed.
Print Assumptions C75_terminal_call_refuted.
(** a terminal headers action with nothing to set does not end processing either *)
Definition Enil : env := e_parse Ed (fun s => if text_eqb s (tx "nil") then Some (AList []) else parse_demo s).
Definition ex75b : list action_cfg := [CTyped (mkT (tx "true") true false true (OpHeaders MReq (tx "nil"))); CTyped (dhdr "true" true)].
Theorem C75_terminal_empty_headers_refuted : exists E cfg fa s a b p g sq m hx past,
  try_from E cfg = Some fa /\ serves E cfg fa s /\ has_action E cfg s a (mkT p true g sq (OpHeaders m hx)) /\
  (exists x, has_action E cfg s b x) /\ a <> b /\
  let h := f_log (run E fa []) in
  always E p (VBool true) /\ always E hx (VList []) /\ In (EvDone a) past /\ occurs h (EvEval b) past.
Proof.
  exists Enil, (dcfg ex75b), (dfac Enil ex75b), (set_of ex75b), (tx "0"), (tx "1"), (tx "true"), false, true, MReq, (tx "nil").
  exists (skipn 4 (f_log (run Enil (dfac Enil ex75b) []))). split; [vm_compute; reflexivity|]. split; [serve|]. split; [acts 0|]. split; [eexists; acts 1|].
  split; [discriminate|]. cbv zeta. split; [eexists; split; [vm_compute; reflexivity|intros; reflexivity]|]. split; [eexists; split; [vm_compute; reflexivity|intros; reflexivity]|].
  split; [|exists (firstn 3 (f_log (run Enil (dfac Enil ex75b) []))); vm_compute; reflexivity]. find.
Qed.
Print Assumptions C75_terminal_empty_headers_refuted.
(** the theorem's case: a terminal deny action whose condition is false *)
Definition ex75c : list action_cfg := [CTyped (ddeny "false" true true); CTyped (dhdr "true" true)].
Example C75_ex : try_from Ed (dcfg ex75c) = Some (dfac Ed ex75c) /\ serves Ed (dcfg ex75c) (dfac Ed ex75c) (set_of ex75c) /\
  has_action Ed (dcfg ex75c) (set_of ex75c) (tx "0") (ddeny "false" true true) /\ ~ is_call (OpDeny (tx "deny")) /\
  In (EvDone (tx "0")) (f_log (run Ed (dfac Ed ex75c) [])) /\ In (EvEval (tx "1")) (f_log (run Ed (dfac Ed ex75c) [])).
Proof. split; [vm_compute; reflexivity|]. split; [serve|]. split; [acts 0|]. split; [auto|]. split; find. Qed.
Example C79_ex : exists past, occurs (f_log (run Ed (dfac Ed ex34) [])) (EvTerminate (tx "0")) past /\ serves Ed (dcfg ex34) (dfac Ed ex34) (set_of ex34).
Proof. eexists. split; [exists [EvRet false]; vm_compute; reflexivity|serve]. Qed.
(** a call whose response is a failure *)
Definition ex79 : list action_cfg := [dcall "hard" false []].
Example C79_ex_call : exists past, occurs (f_log (run Ed (dfac Ed ex79) [InGrpc 0 13 0])) (EvTerminate (tx "0")) past /\
  serves Ed (dcfg ex79) (dfac Ed ex79) (set_of ex79).
Proof.
  assert (H : In (EvTerminate (tx "0")) (f_log (run Ed (dfac Ed ex79) [InGrpc 0 13 0]))) by find.
  apply In_occurs in H as (past & H). exists past. split; [exact H|serve].
Qed.
