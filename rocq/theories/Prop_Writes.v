(** C94, C95, C96: what is written to the host, and that completed actions wrote it. *)
From Coq Require Import String Ascii List NArith ZArith Bool Lia Arith.
From Verif Require Import Base Value Headers AttrPath Ctx CelProps CelEval Sse Body ValueBytes Tasks Exec Config Legacy Blueprint Factory Filter
  P_Frame P_Apply P_Exec P_Run P_Inv P_Ids P_Plan P_Deps P_Order P_Term P_Bar P_Cfg P_Hist P_Grow P_Wake P_Fail P_Head P_Told P_Eff P_Rid Demo DemoCfg
  Prop_Headers Prop_Order Prop_Term Prop_Guard Prop_Wake Prop_Fail Prop_Know Prop_Eff.
From Verif Require Prop_Export Prop_Paths.
Import ListNotations.
Open Scope list_scope.

(** * Specifications *)
(** [bytes] is what is exported for [v]: a reader of google.protobuf.Value / Struct gets its content *)
Definition exports (v : value) (bytes : text) : Prop :=
  Prop_Export.cel_ok v -> Prop_Export.portable v -> exists d, Prop_Export.shows v d /\ Prop_Export.read_back v bytes d.
(** [h] is [h0] with the entries of [pairs] in the place of the ones with the same names *)
Definition changed (pairs h0 h : headers) : Prop := h = untouched (map fst pairs) h0 ++ last_entries pairs.
(** * Lemmas *)
Lemma value_exports v bytes : value_bytes v = Some bytes -> exports v bytes.
Proof.
  intros Hb Hok Hp. destruct (Prop_Export.C91_exported_values_read_back_partial v Hok Hp) as (s & d & H1 & H2 & H3). exists d. split; [exact H2|congruence].
Qed.
(** * C94 *)
(** Every property set on the host is the value of a configured store action with export, whose
    condition holds, under the action's path in the namespace kuadrant. *)
Theorem C94_properties_come_from_store_actions : forall E cfg fa s l p bytes ok past,
  try_from E cfg = Some fa -> serves E cfg fa s -> later l ->
  occurs (f_log (run E fa l)) (EvSetProp p bytes ok) past ->
  exists a past' c tm g sq path x v, past = EvEval a :: past' /\
    has_action E cfg s a (mkT c tm g sq (OpStore path x true)) /\
    evaluates E cfg s a c (VBool true) past /\ evaluates E cfg s a x v past /\ exports v bytes /\ exported_as path p.
Proof.
  intros E cfg fa s l p bytes ok past Hf Hs Hl Ho. destruct (pipe_or_not E fa) as [(pp & Hb)|Hn].
  2:{ exfalso. destruct (no_pipe_replies E fa l Hn Hl) as [H _]. rewrite occurs_hist in H. exact (H _ _ Ho). }
  destruct (F_log _ _ _ _ _ _ (F_run_filter E fa pp l Hb Hl)) as [H _]. rewrite occurs_hist in H. specialize (H _ _ Ho). cbn [eff] in H.
  destruct H as [(nd & evs & l' & k & Hi & Heq & Hne & Hd)|(a & evs & l' & k & Heq & Hne & _ & Hd)].
  - assert (KK : forall id pr x path tm v, nd = NStore id pr x path true tm -> pval E (at_work E fa) id pr true (EvEval (n_id nd) :: l') -> eval_to E (at_work E fa) id [pr] x v (EvEval (n_id nd) :: l') ->
      value_bytes v = Some bytes -> p = kuadrant_host_path (path_parse path) -> past = EvEval (n_id nd) :: l' ->
      exists a past' c tm g sq path x v, past = EvEval a :: past' /\ has_action E cfg s a (mkT c tm g sq (OpStore path x true)) /\
      evaluates E cfg s a c (VBool true) past /\ evaluates E cfg s a x v past /\ exports v bytes /\ exported_as path p).
    { intros id pr x path tm v -> H1 H2 Hv -> ->. destruct (serves_nodes _ _ _ _ _ Hs Hb _ Hi) as [(svs & a & [px tmx g sq op] & Hsv & Hc & Hds)|[]].
      cbn in Hds. destruct Hds as (pe & Hp & Hds). destruct op; try easy. destruct Hds as (-> & -> & Hx & -> & <- & ->). cbn [n_id] in *.
      assert (Ha : has_action E cfg s a (mkT px tmx g sq (OpStore path0 value true))) by now exists svs.
      exists a, l', px, tmx, g, sq, path0, value, v. split; [reflexivity|]. split; [exact Ha|]. split; [eapply pred_told; eauto|].
      split; [eapply expr_told; [exact Hs|exact Ha|exact Hp|now right; left|exact Hx|exact H2]|].
      split; [now apply value_exports|apply host_name]. }
    remember (EvEval (n_id nd) :: l') as L eqn:HL. destruct Hd; try (now destruct Hne); try (discriminate Heq).
    + cbn [app] in Heq. injection Heq as -> -> -> ->. eapply KK; eauto.
    + cbn [app] in Heq. injection Heq as -> -> -> ->. eapply KK; eauto.
    + exfalso. destruct H as [|e evs He _]; [now destruct Hne|]. cbn [app] in Heq. injection Heq as <- _. destruct He.
  - exfalso. remember default_node as nd eqn:Hnd. destruct Hd; try discriminate Hnd; try (now destruct Hne).
Qed.
Print Assumptions C94_properties_come_from_store_actions.

(** * C95 *)
(** Every attempt to write headers is that of a configured headers action whose condition holds,
    or of the dev-mode tracker on the response.  What is written are the current headers, with
    the pairs of the action in the place of the headers with the same names. *)
Theorem C95_header_changes_add_up : forall E cfg fa s l m h ok past,
  try_from E cfg = Some fa -> serves E cfg fa s -> later l ->
  occurs (f_log (run E fa l)) (EvSetMap m h ok) past ->
  exists a past' pairs h0, past = EvEval a :: past' /\ pairs <> [] /\ current E m past h0 /\ changed pairs h0 h /\
    ((exists c tm g sq x items, has_action E cfg s a (mkT c tm g sq (OpHeaders m x)) /\
        evaluates E cfg s a c (VBool true) past /\ evaluates E cfg s a x (VList items) past /\ converted items pairs) \/
     (a = dev_id /\ m = MResp)).
Proof.
  intros E cfg fa s l m h ok past Hf Hs Hl Ho. destruct (pipe_or_not E fa) as [(pp & Hb)|Hn].
  2:{ exfalso. destruct (no_pipe_replies E fa l Hn Hl) as [H _]. rewrite occurs_hist in H. exact (H _ _ Ho). }
  destruct (F_log _ _ _ _ _ _ (F_run_filter E fa pp l Hb Hl)) as [H _]. rewrite occurs_hist in H. specialize (H _ _ Ho). cbn [eff] in H.
  destruct H as [(nd & evs & l' & k & Hi & Heq & Hne & Hd)|(a & evs & l' & k & Heq & Hne & _ & Hd)].
  - remember (EvEval (n_id nd) :: l') as L eqn:HL. destruct Hd; try (now destruct Hne); try (discriminate Heq).
    + cbn [app] in Heq. injection Heq as -> -> -> ->. exists (n_id (NHdr id p hx m0 tm)), l', (header_pairs v), h0.
      split; [exact HL|]. split; [assumption|]. split; [now apply basis_current|]. split; [apply h_set_all_spec|].
      destruct (serves_nodes _ _ _ _ _ Hs Hb _ Hi) as [(svs & a & [px tmx g sq op] & Hsv & Hc & Hds)|(-> & -> & _)]; [|now right].
      left. cbn in Hds. destruct Hds as (pe & Hp & Hds). destruct op; try easy. destruct Hds as (-> & -> & Hx & -> & ->).
      assert (Ha : has_action E cfg s a (mkT px tmx g sq (OpHeaders target headers))) by now exists svs. pose proof (C68_header_lists_converted_faithfully v) as Hcv.
      destruct v as [| | | | | | |items| | | |]; try (now rewrite Hcv in H1). exists px, tmx, g, sq, headers, items. cbn [n_id] in *. subst L.
      split; [exact Ha|]. split; [eapply pred_told; eauto|]. split; [eapply expr_told; [exact Hs|exact Ha|exact Hp|now right; left|exact Hx|exact H0]|exact Hcv].
    + exfalso. destruct H as [|e evs He _]; [now destruct Hne|]. cbn [app] in Heq. injection Heq as <- _. destruct He.
  - exfalso. remember default_node as nd eqn:Hnd. destruct Hd; try discriminate Hnd; try (now destruct Hne).
Qed.
Print Assumptions C95_header_changes_add_up.

(** * C96 *)
(** An action that is not a call and completes has done its job, unless its condition was false:
    the headers were accepted by the host (or the action had none), the value was accepted by the
    host (if it is to be exported), the reply was accepted.  An action that always fails does not
    complete if it is terminal.  This needs a host that does not answer "not available" when a
    property is set. *)
Definition accomplished (E : env) (cfg : plugin_cfg) (s : action_set) (a : text) (tm : bool) (op : toper) (past : log) : Prop :=
  match op with
  | OpGrpc _ _ _ _ => False
  | OpHeaders m x => exists past' v, evaluates E cfg s a x v (EvEval a :: past') /\
      ((past = EvEval a :: past' /\ forall items, v = VList items -> converted items []) \/
       exists h, past = EvSetMap m h true :: EvEval a :: past')
  | OpStore path x ex => exists past' v, evaluates E cfg s a x v (EvEval a :: past') /\
      if ex then exists p bytes, past = EvSetProp p bytes true :: EvEval a :: past' /\ exported_as path p /\ exports v bytes
      else past = EvEval a :: past'
  | OpDeny d => exists past' ty fs st hd b, evaluates E cfg s a d (VStruct ty fs) (EvEval a :: past') /\
      past = EvReply st hd b true :: EvMetric MDenied :: EvEval a :: past'
  | OpFail _ => tm = false
  end.
Theorem C96_completed_actions_did_their_job_partial : forall E cfg fa s l a c tm g sq op past,
  (forall h p v, h_setprop E h p v <> HNotAvail) ->
  try_from E cfg = Some fa -> serves E cfg fa s -> later l ->
  has_action E cfg s a (mkT c tm g sq op) -> ~ is_call op ->
  occurs (f_log (run E fa l)) (EvDone a) past ->
  (exists past', past = EvEval a :: past' /\ evaluates E cfg s a c (VBool false) past) \/ accomplished E cfg s a tm op past.
Proof.
  intros E cfg fa s l a c tm g sq op past HN Hf Hs Hl (svs & Hsv & Hc) Hop Ho. destruct (pipe_or_not E fa) as [(pp & Hb)|Hn].
  2:{ exfalso. destruct (no_pipe_replies E fa l Hn Hl) as [H _]. rewrite occurs_hist in H. exact (H _ _ Ho). }
  pose proof (action_node _ _ _ _ _ _ _ _ _ _ _ _ Hsv Hs Hb Hc) as Hnode.
  destruct (F_log _ _ _ _ _ _ (F_run_filter E fa pp l Hb Hl)) as [H _]. rewrite occurs_hist in H. specialize (H _ _ Ho). cbn [eff] in H.
  destruct (configured_number _ _ _ _ _ Hc) as (i & Hbel).
  destruct H as [->|[(_ & [(sv & var & g' & kids & Hi)|(k & ->)])|(nd & evs & l' & Hi & Hid & -> & Hd)]].
  - exfalso. now apply tu_not_number in Hbel.
  - exfalso. specialize (Hnode _ Hi eq_refl). destruct Hnode as (pe & _ & Hd). destruct op; try easy. now apply Hop.
  - exfalso. now apply teardown_not_number in Hbel.
  - specialize (Hnode nd Hi Hid). destruct Hnode as (pe & Hp & Hds).
    assert (Kf : forall pr, pr = pe -> pval E (at_work E fa) a pr false (EvEval a :: l') -> (exists past', EvEval a :: l' = EvEval a :: past' /\ evaluates E cfg s a c (VBool false) (EvEval a :: l'))).
    { intros pr -> H. exists l'. split; [reflexivity|]. eapply pred_told; eauto. exists svs; eauto. }
    assert (Kx : forall x e v, In x (texts (mkT c tm g sq op)) -> parse_expr E x = Some e -> eval_to E (at_work E fa) a [pe] e v (EvEval a :: l') -> evaluates E cfg s a x v (EvEval a :: l')).
    { intros x e v Hx He H. eapply expr_told; [exact Hs|exists svs; split; eassumption|exact Hp|exact Hx|exact He|exact H]. }
    remember (EvEval a :: l') as L eqn:HL. remember KDone as k eqn:Hk.
    destruct Hd; try (exfalso; match goal with H : idle_kind _ |- _ => destruct H; subst k; discriminate end); cbn [n_id] in Hid; match type of Hid with ?i = _ => subst i end; destruct op; try easy; cbn in Hds; cbn [accomplished app].
    + left. now apply (Kf p).
    + right. destruct Hds as (_ & -> & Hd & ->). exists l', ty, fs. eexists _, _, _. rewrite <- HL.
      split; [now apply (Kx _ d); [right; left| |]|]. destruct ok; [reflexivity|discriminate].
    + left. now apply (Kf p).
    + right. destruct Hds as (_ & -> & Hh & _). exists l', v. rewrite <- HL. split; [now apply (Kx _ hx); [right; left| |]|]. left. split; [reflexivity|].
      intros items ->. pose proof (C68_header_lists_converted_faithfully (VList items)) as Hcv. cbv beta iota in Hcv. now rewrite H1 in Hcv.
    + right. destruct Hds as (_ & -> & Hh & -> & ->). exists l', v. rewrite <- HL. split; [now apply (Kx _ hx); [right; left| |]|]. right.
      destruct ok; [|destruct H3; subst k; discriminate]. eexists. reflexivity.
    + left. now apply (Kf p).
    + right. destruct Hds as (_ & -> & Hx & -> & <- & ->). exists l', v. rewrite <- HL. split; [now apply (Kx _ x); [right; left| |]|reflexivity].
    + right. destruct Hds as (_ & -> & Hx & -> & <- & ->). exists l', v. rewrite <- HL. split; [now apply (Kx _ x); [right; left| |]|].
      destruct ok; [|now apply HN in H2]. eexists _, _. split; [reflexivity|]. split; [apply host_name|now apply value_exports].
    + left. now apply (Kf p).
    + right. now destruct Hds as (_ & _ & ->).
    + exfalso. now apply Hop.
Qed.
Print Assumptions C96_completed_actions_did_their_job_partial.

(** * Examples and counterexamples *)
Definition dexp (name : string) : taction := mkT (tx "true") false false true (OpStore (tx name) (tx "msg") true).
Definition drsp : taction := mkT (tx "true") false false true (OpHeaders MReq (tx "more")).
(** a host with some request headers; [more] sets two headers *)
Definition Ew : env := e_map (e_parse Ed (fun s => if text_eqb s (tx "more")
  then Some (AList [AList [ALit (VString (tx "x-b")); ALit (VString (tx "2"))]; AList [ALit (VString (tx "a")); ALit (VString (tx "3"))]]) else parse_demo s))
  (fun _ _ => HOk [(tx "a", tx "0"); (tx "host", tx "h")]).
Definition ex94 : list action_cfg := [CTyped (dexp "auth.identity"); CTyped (dhdr "true" true); CTyped drsp].
Definition headers94 : headers := [(tx "host", tx "h"); (tx "x-a", tx "1"); (tx "x-b", tx "2"); (tx "a", tx "3")].
Example C94_ex : try_from Ew (dcfg ex94) = Some (dfac Ew ex94) /\ serves Ew (dcfg ex94) (dfac Ew ex94) (set_of ex94) /\
  (forall h p v, h_setprop Ew h p v <> HNotAvail) /\
  has_action Ew (dcfg ex94) (set_of ex94) (tx "0") (dexp "auth.identity") /\ has_action Ew (dcfg ex94) (set_of ex94) (tx "1") (dhdr "true" true) /\
  In (EvSetProp [tx "kuadrant.auth.identity"] [ascii_of_nat 26; ascii_of_nat 1; "m"%char] true) (f_log (run Ew (dfac Ew ex94) [])) /\
  In (EvSetMap MReq headers94 true) (f_log (run Ew (dfac Ew ex94) [])) /\
  In (EvDone (tx "0")) (f_log (run Ew (dfac Ew ex94) [])) /\ In (EvDone (tx "1")) (f_log (run Ew (dfac Ew ex94) [])).
Proof. split; [vm_compute; reflexivity|]. split; [serve|]. split; [discriminate|]. split; [acts 0|]. split; [acts 1|]. split; [find|]. split; [find|]. split; find. Qed.

(** a host that answers "not available" when the property is set: the action completes *)
Definition e_setprop (E : env) f := mkEnv (h_prop E) (h_map E) (h_reqheader E) f (h_setmap E) (h_reqbody E) (h_respbody E) (h_dispatch E) (h_grpcresp E) (h_reply E) (o_parse E) (o_cel E) (o_json E) (o_pointer E) (o_jshow E) (o_f64 E) (o_jnew E) (o_jfeed E) (o_jraw E) (o_jfinish E) (o_encode E) (o_decode E) (o_uuid E) (o_trace E) (o_span_on E) (o_spans E) (o_alpha E).
Definition En : env := e_setprop Ed (fun _ _ _ => HNotAvail).
Definition ex96 : list action_cfg := [CTyped (dexp "auth.identity")].
Definition unfailed (e : ev) : bool := match e with EvFailed _ | EvSetProp _ _ true => false | _ => true end.
Lemma absent (P : ev -> bool) l e : forallb P l = true -> P e = false -> ~ In e l.
Proof. rewrite forallb_forall. intros H He Hi. apply H in Hi. congruence. Qed.
Theorem C96_unavailable_exports_complete_refuted : exists E cfg fa s a c g sq path x past,
  try_from E cfg = Some fa /\ serves E cfg fa s /\ has_action E cfg s a (mkT c false g sq (OpStore path x true)) /\
  always E c (VBool true) /\ (forall c0, ~ In (EvFailed c0) (f_log (run E fa []))) /\
  occurs (f_log (run E fa [])) (EvDone a) past /\ forall p bytes, ~ In (EvSetProp p bytes true) (f_log (run E fa [])).
Proof.
  exists En, (dcfg ex96), (dfac En ex96), (set_of ex96), (tx "0"), (tx "true"), false, true, (tx "auth.identity"), (tx "msg").
  exists (skipn 2 (f_log (run En (dfac En ex96) []))).
  split; [vm_compute; reflexivity|]. split; [serve|]. split; [acts 0|]. split; [eexists; split; [vm_compute; reflexivity|intros; reflexivity]|].
  split; [intros c0; apply (absent unfailed); [vm_compute; reflexivity|reflexivity]|].
  split; [exists (firstn 1 (f_log (run En (dfac En ex96) []))); vm_compute; reflexivity|].
  intros p bytes. apply (absent unfailed); [vm_compute; reflexivity|reflexivity].
Qed.
Print Assumptions C96_unavailable_exports_complete_refuted.
