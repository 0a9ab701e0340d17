(** C118: header changes that have to wait. *)
From Coq Require Import String List NArith ZArith Bool Lia Arith Sorting.Sorted.
From Verif Require Import Base Value Headers AttrPath Ctx CelProps CelEval Sse Body ValueBytes Tasks Exec Config Legacy Blueprint Factory Filter
  P_Frame P_Apply P_Exec P_Run P_Inv P_Ids P_Plan P_Deps P_Order P_Term P_Bar P_Cfg P_Hist P_Grow P_Wake P_Fail P_Head P_Fed P_Told P_Eff P_Scope P_Props P_Eval P_Verdict Demo DemoCfg
  Prop_Headers Prop_Order Prop_Term Prop_Guard Prop_Wake Prop_Fail Prop_Know Prop_Eff Prop_Scope Prop_Reply Prop_Verdict.
From Verif Require Prop_Paths Prop_Export Prop_Writes.
Import ListNotations.
Open Scope list_scope.

(** * Specifications *)
Definition name_of (m : maptype) : text := match m with MReq => tx "request.headers" | MResp => tx "response.headers" end.
(** the host will not give the headers [m], or something was exported in their place *)
Definition refused (E : env) (m : maptype) (past : log) : Prop :=
  h_map E past m = HErr \/ (m = MReq /\ h_map E past m = HNotAvail) \/
  exists hp b, In (EvSetProp hp b true) past /\ exported_as (name_of m) hp.
(** the reply action [id] of [a] made its changes to the headers *)
Definition made (E : env) (a id : text) (m : maptype) (pairs : headers) (h : log) : Prop :=
  exists after h0 h1 ok past, h = after ++ EvSetMap m h1 ok :: EvEval id :: past /\ In (EvDone a) past /\
    current E m (EvEval id :: past) h0 /\ Prop_Writes.changed pairs h0 h1.
(** it could not *)
Definition gave_up (E : env) (a id : text) (m : maptype) (h : log) : Prop :=
  exists after past, h = after ++ EvFailed id :: EvEval id :: past /\ In (EvDone a) past /\ refused E m (EvEval id :: past).
(** whenever it was evaluated the response headers were not there yet *)
Definition too_early (E : env) (id : text) (m : maptype) (h : log) : Prop :=
  forall after past, h = after ++ EvEval id :: past -> m = MResp /\ h_map E (EvEval id :: past) MResp = HNotAvail.

(** * Lemmas *)
Lemma made_more E a id m pairs h evs : made E a id m pairs h -> made E a id m pairs (evs ++ h).
Proof. intros (after & h0 & h1 & ok & past & -> & H). exists (evs ++ after), h0, h1, ok, past. split; [now rewrite app_assoc|exact H]. Qed.
Lemma gave_up_more E a id m h evs : gave_up E a id m h -> gave_up E a id m (evs ++ h).
Proof. intros (after & past & -> & H). exists (evs ++ after), past. split; [now rewrite app_assoc|exact H]. Qed.
Lemma too_early_more E id m h evs : ~ In (EvEval id) evs -> too_early E id m h -> too_early E id m (evs ++ h).
Proof.
  intros Hn H after past. revert after. induction evs as [|e evs IH]; intros after He; [exact (H after past He)|]. destruct after as [|e' after].
  - injection He as -> _. exfalso. apply Hn. now left.
  - injection He as _ He. eapply IH; [|exact He]. intros Hi. apply Hn. now right.
Qed.
Section Case.
  Variables (E : env) (cfg : plugin_cfg) (fa : factory) (s : action_set) (n : text) (v : value) (t : task) (ts : list task) (p : pipe) (o : outcome) (c : ctx).
  Hypothesis Hs : serves E cfg fa s.
  Hypothesis Hn : own_name E cfg s n.
  Hypothesis Hg : goes E fa (t :: ts) p.
  Hypothesis Hv : tget n (scope_vars (t_id t) (p_ctx p)) = Some v.
  Hypothesis Hst : step E t (p_ctx p) = (o, c).
  Lemma headers_case px tm g sq m y items : has_action E cfg s (t_id t) (mkT px tm g sq (OpHeaders m y)) -> says_of E n v px (Some (VBool true)) -> says_of E n v y (Some (VList items)) ->
    header_pairs (VList items) <> [] -> let past := EvEval (t_id t) :: c_log (p_ctx p) in
    (exists h0 h ok, c_log c = ghost t o ++ EvSetMap m h ok :: past /\ current E m past h0 /\ Prop_Writes.changed (header_pairs (VList items)) h0 h) \/
    (m = MResp /\ h_map E past MResp = HNotAvail /\ c_log c = past /\ exists l, o = ORequeued l) \/
    (refused E m past /\ o = OFailed /\ c_log c = EvFailed (t_id t) :: past).
  Proof.
    intros Hx Hb Hv1 Hne past. destruct (leaf_core E cfg fa s t ts p o c Hs Hg Hst _ Hx Logic.I) as [(pe & Hp & xe & Hxp & Hc) (o0 & c1 & Ha & Hk & Hl & _)].
    set (c0 := emit (EvEval (t_id t)) (p_ctx p)) in *. change past with (c_log c0).
    destruct (said E cfg fa s n v t ts p Hs Hn Hg Hv _ _ _ Hb Hp) as (vs1 & V1 & E1). destruct (said_next E cfg fa s n v t ts p Hs Hn Hg _ _ _ _ Hv1 Hxp V1) as (vs2 & V2 & E2). fold c0 in E1, E2.
    rewrite Hc in Ha. cbn [apply] in Ha. unfold apply_headers, test_in in Ha. rewrite E1 in Ha. rewrite E2 in Ha.
    destruct (facts_at_work _ _ _ _ Hs (t_id t) c0) as [F1 F2 _ _ _ _]; [now exists t, ts, p|].
    destruct (header_pairs (VList items)) as [|kv pairs]; [easy|]. destruct (read_headers E (target_path m) c0) as [r c2] eqn:Hr.
    pose proof (ext_log _ _ (read_headers_ext _ _ _ _ _ Hr)) as Hlg.
    destruct r as [|h|].
    - right. left. injection Ha as <- <-. assert (Hm : m = MResp /\ h_map E (c_log c0) MResp = HNotAvail).
      { revert Hr. unfold read_headers, read_attr. destruct (cache_get (target_path m) c0) as [[b|h]|]; try discriminate. destruct (fetch E (c_log c0) (target_path m)) as [[b|h]| |] eqn:Hfe; try discriminate. intros _.
        revert Hfe. destruct m; unfold fetch, target_path; change (path_eqb p_req_headers p_req_headers) with true; change (path_eqb p_resp_headers p_req_headers) with false; change (path_eqb p_resp_headers p_resp_headers) with true; cbv iota.
        - destruct (h_map E (c_log c0) MReq); discriminate.
        - destruct (h_map E (c_log c0) MResp); try discriminate. auto. }
      destruct Hm as [-> Hm]. split; [reflexivity|]. split; [exact Hm|]. cbn [kind_of] in Hk. destruct o as [|tok t'|l| |f]; try discriminate Hk. split; [rewrite Hl; exact Hlg|eauto].
    - left. pose proof (hc_read _ _ _ _ _ Hr F2) as Hba. destruct (set_headers E m (h_set_all (kv :: pairs) h) c2) as [r4 c4] eqn:H4.
      assert (H5 : exists ok, c_log c4 = EvSetMap m (h_set_all (kv :: pairs) h) ok :: c_log c2).
      { unfold set_headers in H4. cbv zeta in H4; destruct (h_setmap E (c_log c2) m _) as [[]| |]; destruct m; injection H4 as _ <-; eexists; reflexivity. }
      destruct H5 as (ok & H5). exists h, (h_set_all (kv :: pairs) h), ok. split; [|split; [|apply h_set_all_spec]].
      + rewrite Hl. f_equal. rewrite <- Hlg, <- H5. destruct r4; injection Ha as _ <-; reflexivity.
      + destruct Hba as [(after & past' & B1 & B2)|(B1 & after & past' & B2 & B3)]; [left|right]; [exists after, past'; split; [exact B1|exact B2]|]. split; [exact B1|]. now exists after, past'.
    - right. right. injection Ha as <- <-. cbn [kind_of] in Hk. destruct o as [|tok t'|l| |f]; try discriminate Hk. split; [|split; [reflexivity|rewrite Hl, Hlg; reflexivity]].
      revert Hr. unfold read_headers, read_attr. destruct (cache_get (target_path m) c0) as [cv|] eqn:Hg0.
      + destruct cv as [b|h]; [|discriminate]. intros _. right. right.
        apply (cache_supplied E) in Hg0; [|exact F1|exact F2|destruct m; (split; [discriminate|]); intros z [<-|[<-|[]]]; vm_compute; intuition discriminate].
        inversion Hg0 as [| ? ? q ? _ Hq1 Hq2 Hh | hp b' Hi He]; subst.
        * exfalso. assert (Hq : q = target_path m) by (apply Hq2; destruct m; vm_compute; intuition discriminate). subst q.
          destruct m; inversion Hh as [? ? Hn0 _ _|? ? ? _ _ He|? _ He]; subst; cbn in *; try (apply Hn0; auto; fail); discriminate.
        * exists hp, b'. split; [exact Hi|]. destruct m; exact He.
      + destruct (fetch E (c_log c0) (target_path m)) as [cv| |] eqn:Hfe; [| |].
        * destruct (fetch_target _ _ _ _ Hfe) as (h & -> & _). discriminate.
        * discriminate.
        * intros _. revert Hfe. unfold refused. destruct m; unfold fetch, target_path; change (path_eqb p_req_headers p_req_headers) with true; change (path_eqb p_resp_headers p_req_headers) with false; change (path_eqb p_resp_headers p_resp_headers) with true; cbv iota.
          -- destruct (h_map E (c_log c0) MReq); try discriminate; auto.
          -- destruct (h_map E (c_log c0) MResp); try discriminate; auto.
  Qed.
End Case.
Lemma in_evaluated id h : In (EvEval id) h <-> In id (evaluated h).
Proof.
  induction h as [|e h IH]; [easy|]. cbn [In]. destruct e; cbn [evaluated]; rewrite ?in_app_iff, <- ?IH; try (split; [intros [H|H]; [discriminate|exact H]|now right]).
  cbn [In]. split; [intros [[= ->]|H]; auto|intros [H|[->|[]]]; auto].
Qed.
Lemma goes_J E cfg fa ts p : try_from E cfg = Some fa -> goes E fa ts p -> J ts p.
Proof.
  intros Hf Hg. destruct (reach_build _ _ _ _ Hg) as (p0 & Hb). destruct (A_start E cfg fa p0 Hf Hb) as (b & svs & _ & _ & Hsd & HA).
  refine (a_j _ _ _ _ (reach_inv E fa _ _ (A_finv E (b_dl (bp_actions b)) (served_plan _ _ _ _ Hsd)) _ ts p Hg)).
  intros p1 Hb1. assert (p1 = p0) as -> by congruence. exact HA.
Qed.
Lemma run_binds E t c o c' : wf_q t -> step E t c = (o, c') -> c_binds c' = c_binds c.
Proof.
  intros Hw Hst. apply step_apply in Hst as (c1 & Ha & K1 & _). rewrite K1. apply wf_q_not_pending in Hw.
  pose proof (core_store_binds E t (emit (EvEval (t_id t)) c) o c1) as Hs. pose proof (apply_kept E (fun _ _ => True) t (emit (EvEval (t_id t)) c) o c1 Logic.I) as H. unfold store_fed in H.
  destruct (core t); try easy; try exact (proj1 (H Logic.I Ha)). exact (Hs Logic.I Ha).
Qed.
Section Kept.
  Variables (E : env) (cfg : plugin_cfg) (fa : factory) (s : action_set) (n : text) (v : value) (a : text) (j : nat).
  Variables (pr : text) (tm0 g0 sq0 : bool) (service msg : text) (rs : list taction) (px : text) (tm g sq : bool) (m : maptype) (y : text) (items : list value).
  Let id := reply_id a j.
  Let pairs := header_pairs (VList items).
  Hypothesis Hf : try_from E cfg = Some fa.
  Hypothesis Hs : serves E cfg fa s.
  Hypothesis Hn : own_name E cfg s n.
  Hypothesis Hx : has_action E cfg s a (mkT pr tm0 g0 sq0 (OpGrpc n service msg rs)).
  Hypothesis Hj : nth_error rs j = Some (mkT px tm g sq (OpHeaders m y)).
  Hypothesis Hb : says_of E n v px (Some (VBool true)).
  Hypothesis Hy : says_of E n v y (Some (VList items)).
  Hypothesis Hne : pairs <> [].
  Definition settles (ts : list task) (p : pipe) : Prop :=
    made E a id m pairs (c_log (p_ctx p)) \/ gave_up E a id m (c_log (p_ctx p)) \/
    (In id (map t_id (ts ++ p_queue p)) /\ too_early E id m (c_log (p_ctx p))).
  Definition kept_on (ts : list task) (p : pipe) : Prop :=
    (forall v', bound a n v' (c_binds (p_ctx p)) -> In (EvDone a) (c_log (p_ctx p))) /\
    (bound a n v (c_binds (p_ctx p)) -> (forall v', bound a n v' (c_binds (p_ctx p)) -> v' = v) /\ (p_term p = false -> settles ts p)).
  Lemma action_at : has_action E cfg s id (mkT px tm g sq (OpHeaders m y)).
  Proof.
    destruct Hx as (svs & Hsv & (i0 & c1 & t1 & C1 & C2 & C3)). exists svs. split; [exact Hsv|]. exists i0, c1, t1. split; [exact C1|]. split; [exact C2|].
    apply (within_trans _ _ _ _ _ _ C3). eapply wi_reply; [exact Hj|apply wi_self].
  Qed.
  Lemma in_scope ts p : goes E fa ts p -> bound a n v (c_binds (p_ctx p)) -> (forall v', bound a n v' (c_binds (p_ctx p)) -> v' = v) -> tget n (scope_vars id (p_ctx p)) = Some v.
  Proof.
    intros Hg Hbd Hu. assert (Ha : below a id) by (right; now exists (nat_text j)).
    destruct (tget n (scope_vars id (p_ctx p))) as [w|] eqn:Hw.
    - f_equal. pose proof (scope_last _ _ _ _ (reach_ordered _ _ _ _ Hg) Hw) as (z & Hz & Hbz & Hmax). apply is_ancestor_below in Hz.
      pose proof (proj1 (bound_replies _ _ _ _ _ _ Hs Hg z n w) Hbz) as (x1 & pr1 & tm1 & g1 & sq1 & service1 & msg1 & r1 & rs1 & svs & k & sv & Hx1 & -> & _).
      assert (Hle : text_leb a z = true) by (apply (Hmax a v); [now apply is_ancestor_below|exact Hbd]).
      destruct (Nat.le_gt_cases (length z) (length a)) as [Hlen|Hgt].
      + assert (Hza : text_leb z a = true) by (destruct (below_both _ _ _ Hz Ha Hlen) as [->|(w1 & ->)]; [rewrite <- (app_nil_r z) at 2|]; apply leb_prefix).
        pose proof (leb_antisym _ _ Hza Hle) as ->. now apply Hu.
      + exfalso. assert (Hb1 : below a z) by (eapply below_both; [exact Ha|exact Hz|lia]). assert (z = id) as -> by (apply dotted_suffix; [destruct Hz as [H|(w1 & H)]; [now left|right; now exists w1]|exact Hgt|exact Hb1]).
        destruct action_at as (svs1 & S1 & C1), Hx1 as (svs2 & S2 & C2). assert (svs2 = svs1) as -> by congruence. pose proof (configured_unique _ _ _ _ _ _ C1 C2) as H. discriminate.
    - exfalso. assert (Hv : visible id n v (p_ctx p)) by (apply visible_bound; now exists a). apply (aget_None text_eqb text_eqb_eq) in Hw. apply Hw. apply in_map_iff. exists (n, v). split; [reflexivity|exact Hv].
  Qed.
  Lemma kept_grow ts p ts' p' evs : kept_on ts p -> c_log (p_ctx p') = evs ++ c_log (p_ctx p) -> (forall v', bound a n v' (c_binds (p_ctx p')) <-> bound a n v' (c_binds (p_ctx p))) ->
    (p_term p' = false -> p_term p = false) -> (p_term p' = false -> In id (map t_id (ts ++ p_queue p)) -> In id (map t_id (ts' ++ p_queue p')) /\ ~ In (EvEval id) evs) -> kept_on ts' p'.
  Proof.
    intros [K1 K2] Hl Hbi Ht Hi. unfold kept_on, settles. rewrite Hl. split; [intros v' Hv'; apply Hbi in Hv'; apply in_or_app; right; eauto|]. intros Hbd. apply Hbi in Hbd. destruct (K2 Hbd) as [U K]. split; [intros v' Hv'; apply U; now apply Hbi|].
    intros Hnt. destruct (K (Ht Hnt)) as [H|[H|[H1 H2]]]; [left; now apply made_more|right; left; now apply gave_up_more|right; right]. destruct (Hi Hnt H1) as [H3 H4]. split; [exact H3|]. now apply too_early_more.
  Qed.
  (** a task that took up a response is no header action *)
  Lemma not_deferred ts p k t : goes E fa ts p -> nget k (p_def p) = Some t -> t_id t <> id.
  Proof.
    intros Hg Hd Hid. destruct (reach_build _ _ _ _ Hg) as (p0 & Hb0). pose proof (f_ids _ _ _ _ _ _ _ (goes_F _ _ _ _ _ Hb0 Hg)) as Hc. rewrite Forall_forall in Hc.
    assert (Hi : In t (dts p)) by (apply nget_In in Hd; now apply (in_map snd) in Hd). destruct action_at as (svs & Hsv & Hca).
    destruct (Hc t Hi) as [(sv & var & gg & kids & Hnd)|(q & Hq)].
    - rewrite Hid in Hnd. destruct (serves_nodes _ _ _ _ _ Hs Hb0 _ Hnd) as [(svs' & a' & [p1 t1 g1 s1 op] & Hsv' & Hc' & (pe & _ & Hds))|Hds].
      + assert (svs' = svs) as -> by congruence. destruct op; try easy. destruct Hds as (<- & _). pose proof (configured_unique _ _ _ _ _ _ Hca Hc'). discriminate.
      + destruct Hds as (Hd' & _). rewrite Hd' in Hca. now apply configured_not_dev in Hca.
    - rewrite Hid in Hq. rewrite Hq in Hca. apply configured_number in Hca as (i & Hca). now apply teardown_not_number in Hca.
  Qed.

  (** the header action is there only once the reply is *)
  Definition done_first (ts : list task) (p : pipe) : Prop := In id (map t_id (ts ++ p_queue p)) \/ In (EvEval id) (c_log (p_ctx p)) -> In (EvDone a) (c_log (p_ctx p)).
  Lemma first_grow ts p ts' p' evs : done_first ts p -> c_log (p_ctx p') = evs ++ c_log (p_ctx p) -> ~ In (EvEval id) evs ->
    (In id (map t_id (ts' ++ p_queue p')) -> In id (map t_id (ts ++ p_queue p))) -> done_first ts' p'.
  Proof.
    intros H Hl Hn0 Hi. unfold done_first. rewrite Hl. intros H1. apply in_or_app. right. apply H. destruct H1 as [H1|H1]; [left; auto|right]. apply in_app_or in H1 as [H1|H1]; [contradiction|exact H1].
  Qed.
  Lemma not_top p0 : build E fa (ctx0 [EvReqHeaders]) = BOk p0 -> ~ In id (map t_id (p_queue p0)).
  Proof.
    intros Hb0 Hi. destruct (build_shape _ _ _ _ Hb0) as (b & HB). destruct (bt_sel _ _ _ _ _ HB) as (c & Hsel). destruct action_at as (svs & Hsv & Hca).
    pose proof Hs as (Hin & svs' & bp & c' & H1 & H2 & H3). rewrite Hsel in H3. injection H3 as Hbp _.
    assert (HT : exists rd cc tds c3, to_tasks E rd b cc = Some (p_queue p0, tds, c3)).
    { clear - Hb0 Hsel. unfold build in Hb0. rewrite Hsel in Hb0. cbv zeta in Hb0.
      destruct (to_tasks E _ b _) as [[[ts tds] c3]|] eqn:Ht; [|discriminate]. destruct ts as [|t ts]; [discriminate|]. injection Hb0 as <-. cbn. eauto 6. }
    destruct HT as (rd & cc & tds & c3 & HT). destruct (select_served E cfg fa _ _ _ Hf Hsel) as (svs2 & _ & Hsd). apply served_top in Hsd as [Hfl Hor].
    apply actions_tasks_top in HT as (_ & _ & _ & A4); auto. apply in_map_iff in Hi as (t & Hid & Ht). apply configured_number in Hca as (i & Hca). destruct (A4 t Ht) as [Htu|(x & Hx0 & Hx1)].
    - rewrite <- Hid, Htu in Hca. now apply tu_not_number in Hca.
    - rewrite Hbp in Hx0. cbn [bp_actions] in Hx0. apply in_app_or in Hx0 as [Hx0|Hx0].
      + apply compile_set_compiled in H2. apply In_nth_error in Hx0 as (k & Hk). destruct (compiled_top _ _ _ _ _ _ _ H2 Hk) as (Hk1 & _). rewrite Hk1, Hid in Hx1. apply (nat_text_nodot k). rewrite <- Hx1. unfold id, reply_id. apply in_or_app. right. now left.
      + apply dev_top in Hx0 as (Hx0 & _). rewrite Hx0 in Hx1. rewrite <- Hid, Hx1 in Hca. now apply dev_not_number in Hca.
  Qed.
  Lemma first_run t ts p o c ts' p' : goes E fa (t :: ts) p -> step E t (p_ctx p) = (o, c) -> run_next E t ts p o c = (ts', p') -> done_first (t :: ts) p -> done_first ts' p'.
  Proof.
    intros Hg Hst Hnx HK. pose proof (goes_J _ _ _ _ _ Hf Hg) as HJ. assert (Hw : wf_q t) by (pose proof (w_ts _ _ (j_w _ _ HJ)) as H; now inversion H).
    destruct (step_sum _ _ _ _ _ Hst) as (evs & Hss). destruct (step_evaluated _ _ _ _ _ Hst) as (new & N1 & N2 & N3).
    assert (Hlog : exists more, c_log (p_ctx p') = more ++ c_log c /\ (forall b, ~ In (EvEval b) more)).
    { unfold run_next in Hnx. destruct o as [|tok t'|l| |f]; injection Hnx as <- <-; try (exists []; split; [reflexivity|easy]).
      - exists []. destruct (def_insert_facts tok t' (p_with_ctx p c)) as (F1 & _). split; [exact F1|easy].
      - cbn [p_ctx p_with_ctx]. destruct N3 as [N3 _]. destruct (terminal_sum E f c N3) as (e2 & T1 & T2 & _). exists e2. rewrite drop_log. split; [exact T1|].
        intros b Hb1. rewrite Forall_forall in T2. now apply T2 in Hb1. }
    destruct Hlog as (more & L1 & L2). rewrite N1, app_assoc in L1.
    destruct (text_eqb (t_id t) id) eqn:He; [apply text_eqb_eq in He; intros _; rewrite L1; apply in_or_app; right; apply HK; left; now left|].
    assert (Hne1 : t_id t <> id) by (intros H; rewrite H, text_eqb_refl in He; discriminate).
    eapply (first_grow _ _ _ _ _ HK L1).
    - rewrite in_app_iff. intros [H|H]; [now apply L2 in H|]. apply in_evaluated in H. rewrite N2 in H. destruct H as [H|[]]. contradiction.
    - unfold run_next in Hnx. destruct o as [|tok t'|l| |f]; injection Hnx as <- <-; cbn [app map]; intros Hi; try (right; exact Hi).
      + cbn [p_with_queue p_with_ctx p_queue] in Hi. rewrite app_assoc, map_app, in_app_iff in Hi. destruct Hi as [Hi|Hi]; [right; exact Hi|].
        pose proof (ss_requeue _ _ _ _ _ _ Hss) as Hrq. cbn in Hrq. assert (Hl : map norm l = [norm t]) by (apply wf_q_not_pending in Hw; destruct (core t); easy).
        destruct l as [|t' [|]]; try discriminate. injection Hl as Hl. destruct Hi as [Hi|[]]. left. rewrite <- Hi, <- (norm_id t'), Hl. symmetry. apply norm_id.
      + destruct Hi.
  Qed.
  Lemma first_handle tok st sz t p o c : goes E fa [] p -> settled p -> nget tok (p_def p) = Some t ->
    step E t (emit (EvHandle tok (t_id t)) (set_grpc st sz (emit (EvGrpcResp tok st sz) (p_ctx p)))) = (o, c) -> done_first [] p ->
    done_first [] (handle_next E t (mkPipe c (p_queue p) (ndel tok (p_def p)) (p_done p) (p_td p) (p_term p)) o c).
  Proof.
    intros Hg Hset Hd Hst HK. pose proof (goes_J _ _ _ _ _ Hf Hg) as HJ. pose proof (not_deferred _ _ _ _ Hg Hd) as Hnid.
    destruct (reach_build _ _ _ _ Hg) as (p0 & Hb0). pose proof (f_b _ _ _ _ _ _ _ (goes_F _ _ _ _ _ Hb0 Hg)) as HB.
    set (c0 := emit (EvHandle tok (t_id t)) (set_grpc st sz (emit (EvGrpcResp tok st sz) (p_ctx p)))) in *.
    assert (L0 : c_log c0 = EvHandle tok (t_id t) :: EvGrpcResp tok st sz :: c_log (p_ctx p)) by (unfold c0, set_grpc; cbn [emit with_log c_grpc]; destruct (c_grpc (p_ctx p)) as [[? ?]|]; reflexivity).
    clearbody c0. destruct (step_sum _ _ _ _ _ Hst) as (evs & Hss).
    destruct (step_evaluated _ _ _ _ _ Hst) as (new & N1 & N2 & N3). rewrite L0 in N1.
    set (q := mkPipe c (p_queue p) (ndel tok (p_def p)) (p_done p) (p_td p) (p_term p)). set (p' := handle_next E t q o c).
    assert (Hlog : exists more, c_log (p_ctx p') = more ++ c_log c /\ (forall b, ~ In (EvEval b) more)).
    { unfold p', handle_next. destruct o as [|tok' t'|l| |f]; try (exists []; split; [reflexivity|easy]).
      - exists []. destruct (def_insert_facts tok' t' (p_with_ctx q c)) as (F1 & _). split; [exact F1|easy].
      - exists [EvDone (t_id t)]. split; [reflexivity|]. intros b [H|[]]; discriminate.
      - cbn [p_ctx p_with_ctx]. destruct N3 as [N3 _]. destruct (terminal_sum E f c N3) as (e2 & T1 & T2 & _). exists e2. rewrite drop_log. split; [exact T1|].
        intros b Hb1. rewrite Forall_forall in T2. now apply T2 in Hb1. }
    destruct Hlog as (more & L1 & L2).
    assert (Hall : c_log (p_ctx p') = (more ++ new ++ [EvHandle tok (t_id t); EvGrpcResp tok st sz]) ++ c_log (p_ctx p)) by (rewrite L1, N1, <- !app_assoc; reflexivity).
    assert (Hev : ~ In (EvEval id) (more ++ new ++ [EvHandle tok (t_id t); EvGrpcResp tok st sz])).
    { rewrite !in_app_iff. intros [H|[H|[H|[H|[]]]]]; try discriminate; [now apply L2 in H|]. apply in_evaluated in H. rewrite N2 in H. destruct H as [H|[]]. now apply Hnid. }
    destruct (text_eqb (t_id t) a) eqn:He; [apply text_eqb_eq in He|].
    - destruct o as [|tok' t'|l| |f]; try (eapply (first_grow _ _ _ _ _ HK Hall Hev); unfold p', handle_next; cbn [app]; auto; intros []; fail).
      intros _. unfold p', handle_next. cbn. left. now rewrite He.
    - eapply (first_grow _ _ _ _ _ HK Hall Hev). unfold p', handle_next. destruct o as [|tok' t'|l| |f]; cbn [app]; auto; [|intros []].
      cbn [p_with_ctx p_queue q]. rewrite map_app, in_app_iff. intros [Hi|Hi]; [|exact Hi]. exfalso.
      pose proof (Forall_nget _ _ _ _ (w_def _ _ (j_w _ _ HJ)) Hd) as Hwd. apply wf_d_core in Hwd. pose proof (ss_requeue _ _ _ _ _ _ Hss) as Hrq. cbn in Hrq.
      destruct (core t) as [|id0 sv0 var0 rs0 g1| | | | | | | | |] eqn:Hct; try easy. destruct Hrq as [_ Hrq].
      assert (Hid0 : id0 = t_id t) by (rewrite <- (core_id t), Hct; reflexivity). subst id0.
      assert (Hnode : In (NCall (t_id t) sv0 var0 g1 (map t_id rs0)) (nodess (p_queue p0))).
      { apply (b_nodes _ _ _ _ _ HB). apply in_flat_map. exists t. split; [unfold P_Ids.items, dts; apply in_or_app; right; apply in_or_app; right; apply nget_In in Hd; now apply (in_map snd) in Hd|]. rewrite <- nodes_core, Hct. now left. }
      assert (Hids : map t_id l = map t_id rs0).
      { clear - Hrq. revert rs0 Hrq. induction l as [|x l IH]; intros [|r0 rs0] H; try discriminate; [reflexivity|]. injection H as H1 H2. cbn. f_equal; [|now apply IH]. now rewrite <- (norm_id x), H1, norm_id. }
      rewrite Hids in Hi. destruct (serves_nodes _ _ _ _ _ Hs Hb0 _ Hnode) as [(svs' & a' & x & Hsv' & Hc' & Hds)|Hds].
      + destruct x as [pr' tm' g'' sq' op]. destruct Hds as (pred & _ & Hds). destruct op; try contradiction. destruct Hds as (<- & _ & _ & _ & Hkids). rewrite Hkids in Hi. apply in_map_iff in Hi as (k & Hk & _).
        assert (t_id t = a) as Ha; [|rewrite Ha, text_eqb_refl in He; discriminate].
        unfold id, reply_id in Hk. clear - Hk. assert (Hrev : rev (t_id t ++ dot :: nat_text k) = rev (a ++ dot :: nat_text j)) by now rewrite Hk. rewrite !rev_app_distr in Hrev. cbn [rev] in Hrev. rewrite <- !app_assoc in Hrev.
        assert (Hgen : forall (x y u w : text), ~ In dot x -> ~ In dot y -> x ++ dot :: u = y ++ dot :: w -> u = w).
        { clear. induction x as [|c x IH]; intros [|d y] u w Hx Hy H; [now injection H|injection H as H _; exfalso; apply Hy; now left|injection H as H _; exfalso; apply Hx; now left|].
          injection H as _ H. eapply IH; [| |exact H]; intros Hi; [apply Hx|apply Hy]; now right. }
        apply Hgen in Hrev; [|rewrite <- in_rev; apply nat_text_nodot|rewrite <- in_rev; apply nat_text_nodot]. rewrite <- (rev_involutive (t_id t)), Hrev. apply rev_involutive.
      + destruct Hds as (_ & _ & Hds). rewrite Hds in Hi. destruct Hi.
  Qed.

  Lemma start_log p0 : build E fa (ctx0 [EvReqHeaders]) = BOk p0 -> c_log (p_ctx (p_emit (EvMetric MHits) p0)) = [EvMetric MHits; EvReqHeaders] /\ c_binds (p_ctx (p_emit (EvMetric MHits) p0)) = [].
  Proof.
    intros Hb0. pose proof (build_spec E fa (ctx0 [EvReqHeaders])) as Hsp. rewrite Hb0 in Hsp.
    destruct Hsp as (b & c1 & tds & _ & _ & _ & (Hl & _ & _ & _ & Hbi & _) & _). cbn in Hl, Hbi |- *. now rewrite Hl, Hbi.
  Qed.
  Lemma neutral_eval e : neutral e -> ~ In (EvEval id) [e].
  Proof. intros He [->|[]]. exact He. Qed.
  Lemma first_finvb : finvb E (fun ts p => goes E fa ts p /\ done_first ts p) (fun _ => True).
  Proof.
    constructor; try (intros; exact Logic.I).
    - intros ts p ts' p' He [Hg HK]. split; [eapply re_step; eauto|]. destruct He as [p Hset|t ts p Hbl|t ts p o c ts' p' Hbl Hst Hnx|tok st sz p Hset Hnn|tok st sz t p o c Hset Hnn Hst|p Hq Ht|d rest p Hq Hnn Ht].
      + eapply (first_grow _ _ _ _ [] HK); [reflexivity|easy|]. cbn. now rewrite app_nil_r.
      + eapply (first_grow _ _ _ _ [] HK); [reflexivity|easy|]. cbn [p_with_queue p_queue]. rewrite !map_app, !in_app_iff. cbn. tauto.
      + exact (first_run _ _ _ _ _ _ _ Hg Hst Hnx HK).
      + eapply (first_grow _ _ _ _ [EvGrpcResp tok st sz] HK); [reflexivity|intros [H|[]]; discriminate|auto].
      + exact (first_handle _ _ _ _ _ _ _ Hg Hset Hnn Hst HK).
      + eapply (first_grow _ _ _ _ [] HK); [reflexivity|easy|auto].
      + destruct (td_sum E d (p_with_td p rest)) as (evs & tk & T1 & T2 & T3 & T4 & T5 & T6 & T7). cbn [p_with_td p_ctx p_queue p_def p_term] in *.
        eapply (first_grow _ _ _ _ (evs ++ [EvTeardown]) HK); [rewrite T1, <- app_assoc; reflexivity|..].
        * rewrite in_app_iff. destruct T2 as [[-> _]|(cl & -> & _)]; cbn; intuition discriminate.
        * unfold td_step. destruct (td_exec _ _ _) as [[tk'|] c]; auto.
    - intros p e He [Hg HK]. split; [now apply re_neutral|]. eapply (first_grow _ _ _ _ [e] HK); [reflexivity|now apply neutral_eval, bland_neutral|auto].
    - intros src k e p [Hg HK]. split; [now apply re_body|]. destruct src; [eapply (first_grow _ _ _ _ [EvReqBody k e] HK)|eapply (first_grow _ _ _ _ [EvRespBody k e] HK)]; try reflexivity; auto; intros [H|[]]; discriminate.
  Qed.
  Lemma after_done ts p : goes E fa ts p -> done_first ts p.
  Proof.
    intros Hg. refine (proj2 (reach_inv_b _ _ _ _ first_finvb _ _ _ Hg)). intros p0 Hb0. split; [now apply re_start|].
    destruct (start_log _ Hb0) as [Hl _]. unfold done_first. rewrite Hl. intros [H|[H|[H|[]]]]; try discriminate. exfalso. exact (not_top _ Hb0 H).
  Qed.

  Lemma kept_run t ts p o c ts' p' : goes E fa (t :: ts) p -> blocked (p_done p) t = false -> step E t (p_ctx p) = (o, c) -> run_next E t ts p o c = (ts', p') ->
    kept_on (t :: ts) p -> kept_on ts' p'.
  Proof.
    intros Hg Hnb Hst Hnx HK. pose proof (goes_J _ _ _ _ _ Hf Hg) as HJ. assert (Hw : wf_q t) by (pose proof (w_ts _ _ (j_w _ _ HJ)) as H; now inversion H).
    pose proof (run_binds _ _ _ _ _ Hw Hst) as Hbi. destruct (step_sum _ _ _ _ _ Hst) as (evs & Hss). destruct (step_evaluated _ _ _ _ _ Hst) as (new & N1 & N2 & N3).
    assert (Hlog : exists more, c_log (p_ctx p') = more ++ c_log c /\ (forall b, ~ In (EvEval b) more) /\ c_binds (p_ctx p') = c_binds c).
    { unfold run_next in Hnx. destruct o as [|tok t'|l| |f]; injection Hnx as <- <-; try (exists []; split; [reflexivity|split; [easy|reflexivity]]).
      - exists []. destruct (def_insert_facts tok t' (p_with_ctx p c)) as (F1 & _). split; [exact F1|]. split; [easy|]. exact (proj1 (def_insert_kept tok t' (p_with_ctx p c))).
      - cbn [p_ctx p_with_ctx]. destruct N3 as [N3 _]. destruct (terminal_sum E f c N3) as (e2 & T1 & T2 & _). exists e2. rewrite drop_log. split; [exact T1|]. split.
        + intros b Hb1. rewrite Forall_forall in T2. now apply T2 in Hb1.
        + rewrite (proj1 (drop_kept _ _)). exact (proj1 (terminal_kept E f c N3)). }
    destruct Hlog as (more & L1 & L2 & L3). rewrite N1, app_assoc in L1. rewrite Hbi in L3.
    destruct (text_eqb (t_id t) id) eqn:He; [apply text_eqb_eq in He|].
    - (* the header action itself *)
      destruct HK as [K1 K2]. unfold kept_on. rewrite L3. split; [intros v' Hv'; rewrite L1; apply in_or_app; right; eauto|]. intros Hbd. destruct (K2 Hbd) as [U K]. split; [exact U|]. intros Hnt.
      assert (Hnt0 : p_term p = false) by (destruct (p_term p) eqn:Hp; [|reflexivity]; destruct (w_term _ _ (j_w _ _ HJ) Hp) as [H _]; discriminate).
      pose proof (in_scope _ _ Hg Hbd U) as Hsc. rewrite <- He in Hsc. pose proof action_at as Hac. rewrite <- He in Hac.
      assert (Hd : In (EvDone a) (c_log (p_ctx p))) by eauto.
      assert (KK : settles (t :: ts) p) by auto.
      destruct KK as [KK|[KK|[_ KK]]]; [left; rewrite L1; now apply made_more|right; left; rewrite L1; now apply gave_up_more|].
      destruct (headers_case E cfg fa s n v t ts p o c Hs Hn Hg Hsc Hst px tm g sq m y items Hac Hb Hy Hne) as [(h0 & h & ok & H1 & H2 & H3)|[(Hm & H1 & H2 & l & Ho)|(H1 & Ho & H2)]].
      + left. rewrite L1, <- app_assoc, <- N1. apply made_more. exists (ghost t o), h0, h, ok, (c_log (p_ctx p)). rewrite <- He. auto.
      + right. right. subst o. unfold run_next in Hnx. injection Hnx as <- <-. split.
        * pose proof (ss_requeue _ _ _ _ _ _ Hss) as Hrq. cbn in Hrq. assert (Hl : map norm l = [norm t]) by (apply wf_q_not_pending in Hw; destruct (core t); easy).
          destruct l as [|t' [|]]; try discriminate. injection Hl as Hl. rewrite map_app, in_app_iff. right. cbn [p_with_queue p_with_ctx p_queue]. rewrite map_app, in_app_iff. right. cbn. left.
          rewrite <- He, <- (norm_id t'), Hl. apply norm_id.
        * cbn [p_with_queue p_with_ctx p_ctx]. rewrite H2. intros after past Hl. destruct after as [|e after]; [injection Hl as _ <-; rewrite <- He; split; [exact Hm|exact H1]|]. injection Hl as _ Hl. exact (KK after past Hl).
      + right. left. rewrite L1, <- app_assoc, <- N1, H2. apply gave_up_more. exists [], (c_log (p_ctx p)). rewrite <- He. split; [reflexivity|]. split; [exact Hd|]. exact H1.
    - eapply (kept_grow _ _ _ _ _ HK L1); [intros v'; now rewrite L3|..].
      + intros _. destruct (p_term p) eqn:Hp; [|reflexivity]. destruct (w_term _ _ (j_w _ _ HJ) Hp) as [H _]. discriminate.
      + intros Hnt Hi. assert (Hi' : In id (map t_id (ts ++ p_queue p))) by (cbn in Hi; destruct Hi as [Hi|Hi]; [rewrite Hi, text_eqb_refl in He; discriminate|exact Hi]). split.
        * unfold run_next in Hnx. destruct o as [|tok t'|l| |f]; injection Hnx as <- <-; try exact Hi'; [cbn [p_with_queue p_with_ctx p_queue]; rewrite app_assoc, map_app; apply in_or_app; now left|discriminate].
        * intros H. apply in_app_iff in H as [H|H]; [now apply L2 in H|]. apply in_evaluated in H. rewrite N2 in H. destruct H as [H|[]]. rewrite H, text_eqb_refl in He. discriminate.
  Qed.

  Lemma kept_handle tok st sz t p o c : goes E fa [] p -> settled p -> nget tok (p_def p) = Some t ->
    step E t (emit (EvHandle tok (t_id t)) (set_grpc st sz (emit (EvGrpcResp tok st sz) (p_ctx p)))) = (o, c) -> kept_on [] p ->
    kept_on [] (handle_next E t (mkPipe c (p_queue p) (ndel tok (p_def p)) (p_done p) (p_td p) (p_term p)) o c).
  Proof.
    intros Hg Hset Hd Hst HK. pose proof (goes_J _ _ _ _ _ Hf Hg) as HJ. pose proof (not_deferred _ _ _ _ Hg Hd) as Hnid.
    destruct (reach_build _ _ _ _ Hg) as (p0 & Hb0). pose proof (f_b _ _ _ _ _ _ _ (goes_F _ _ _ _ _ Hb0 Hg)) as HB.
    set (c0 := emit (EvHandle tok (t_id t)) (set_grpc st sz (emit (EvGrpcResp tok st sz) (p_ctx p)))) in *.
    assert (Hc0 : c_log c0 = EvHandle tok (t_id t) :: EvGrpcResp tok st sz :: c_log (p_ctx p) /\ c_grpc c0 = Some (st, sz) /\ c_binds c0 = c_binds (p_ctx p)).
    { unfold c0. pose proof (w_grpc _ _ (j_w _ _ HJ)) as Hgr. unfold set_grpc. cbn [emit with_log c_grpc]. rewrite Hgr. split; [|split]; reflexivity. }
    destruct Hc0 as (L0 & G0 & B0). clearbody c0.
    destruct (step_evaluated _ _ _ _ _ Hst) as (new & N1 & N2 & N3). rewrite L0 in N1.
    set (q := mkPipe c (p_queue p) (ndel tok (p_def p)) (p_done p) (p_td p) (p_term p)). set (p' := handle_next E t q o c).
    assert (Hlog : exists more, c_log (p_ctx p') = more ++ c_log c /\ (forall b, ~ In (EvEval b) more) /\ c_binds (p_ctx p') = c_binds c).
    { unfold p', handle_next. destruct o as [|tok' t'|l| |f]; try (exists []; split; [reflexivity|split; [easy|reflexivity]]).
      - exists []. destruct (def_insert_facts tok' t' (p_with_ctx q c)) as (F1 & _). split; [exact F1|]. split; [easy|]. exact (proj1 (def_insert_kept tok' t' (p_with_ctx q c))).
      - exists [EvDone (t_id t)]. split; [reflexivity|]. split; [intros b [H|[]]; discriminate|reflexivity].
      - cbn [p_ctx p_with_ctx]. destruct N3 as [N3 _]. destruct (terminal_sum E f c N3) as (e2 & T1 & T2 & _). exists e2. rewrite drop_log. split; [exact T1|]. split.
        + intros b Hb1. rewrite Forall_forall in T2. now apply T2 in Hb1.
        + rewrite (proj1 (drop_kept _ _)). exact (proj1 (terminal_kept E f c N3)). }
    destruct Hlog as (more & L1 & L2 & L3).
    assert (Hall : c_log (p_ctx p') = (more ++ new ++ [EvHandle tok (t_id t); EvGrpcResp tok st sz]) ++ c_log (p_ctx p)) by (rewrite L1, N1, <- !app_assoc; reflexivity).
    assert (Hev : ~ In (EvEval id) (more ++ new ++ [EvHandle tok (t_id t); EvGrpcResp tok st sz])).
    { rewrite !in_app_iff. intros [H|[H|[H|[H|[]]]]]; try discriminate; [now apply L2 in H|]. apply in_evaluated in H. rewrite N2 in H. destruct H as [H|[]]. now apply Hnid. }
    assert (Htm : p_term p' = false -> p_term p = false) by (unfold p', handle_next; destruct o; cbn; auto; discriminate).
    assert (Hqu : p_term p' = false -> In id (map t_id ([] ++ p_queue p)) -> In id (map t_id ([] ++ p_queue p'))).
    { unfold p', handle_next. destruct o as [|tok' t'|l| |f]; cbn [app]; auto; [|discriminate]. cbn. intros _ H. rewrite map_app. apply in_or_app. now right. }
    assert (Hrest : (forall v', bound a n v' (c_binds c) <-> bound a n v' (c_binds (p_ctx p))) -> kept_on [] p').
    { intros Hbi. eapply (kept_grow _ _ _ _ _ HK Hall); [rewrite L3; exact Hbi|exact Htm|auto]. }
    (* what is bound *)
    pose proof Hst as Hst'. apply step_apply in Hst' as (c1 & Ha & K1 & _). rewrite K1 in *. 
    pose proof (Forall_nget _ _ _ _ (w_def _ _ (j_w _ _ HJ)) Hd) as Hwd. apply wf_d_core in Hwd.
    pose proof (apply_kept E (fun _ _ => True) t (emit (EvEval (t_id t)) c0) o c1 Logic.I) as Hk. unfold store_fed in Hk.
    destruct (core t) as [|id0 sv0 var0 rs0 g1| | | | | | | | |] eqn:Hct; try easy.
    2:{ apply Hrest. intros v'. destruct (Hk Logic.I Ha) as [Hk1 _]. rewrite Hk1. cbn [emit with_log c_binds]. now rewrite B0. }
    assert (Hid0 : id0 = t_id t) by (rewrite <- (core_id t), Hct; reflexivity). subst id0.
    destruct (Hk Logic.I Ha) as (_ & _ & Hk2). specialize (Hk2 st sz G0). cbn [emit with_log c_binds c_log] in Hk2. rewrite B0 in Hk2.
    destruct (reply_value E sv0 (length rs0) st sz (EvEval (t_id t) :: c_log c0)) as [v0|] eqn:Hrv; [|apply Hrest; intros v'; now rewrite Hk2].
    destruct (text_eqb (t_id t) a) eqn:He; [apply text_eqb_eq in He|].
    2:{ apply Hrest. intros v'. rewrite Hk2, bound_insert. split; [intros [H|(H & _)]; [exact H|]|now left]. rewrite <- H, text_eqb_refl in He. discriminate. }
    (* the reply of [a] *)
    assert (Hit : In t (P_Ids.items [] p)) by (unfold P_Ids.items, dts; apply in_or_app; right; apply in_or_app; right; apply nget_In in Hd; now apply (in_map snd) in Hd).
    assert (Hnd0 : ~ In (EvDone a) (c_log (p_ctx p))).
    { intros H. apply (j_done _ _ HJ) in H. assert (Hc : In a (idls (P_Ids.items [] p))) by (apply in_flat_map; exists t; split; [exact Hit|]; rewrite <- idl_core, Hct, He; now left).
      apply cnt_In in Hc. lia. }
    destruct HK as [HK1 HK2]. assert (Hnb : forall v', ~ bound a n v' (c_binds (p_ctx p))) by (intros v' H; now apply Hnd0, (HK1 v')).
    assert (Hnode : In (NCall (t_id t) sv0 var0 g1 (map t_id rs0)) (nodess (p_queue p0))).
    { apply (b_nodes _ _ _ _ _ HB). apply in_flat_map. exists t. split; [exact Hit|]. rewrite <- nodes_core, Hct. now left. }
    assert (Hcfg : var0 = n /\ map t_id rs0 = reply_ids a rs).
    { destruct Hx as (svs & Hsv & Hc). destruct (serves_nodes _ _ _ _ _ Hs Hb0 _ Hnode) as [(svs' & a' & x & Hsv' & Hc' & Hds)|Hds].
      - rewrite Hsv in Hsv'. injection Hsv' as <-. destruct x as [pr' tm' g'' sq' op]. destruct Hds as (pred & _ & Hds). destruct op; try contradiction.
        destruct Hds as (<- & Hva & _ & _ & Hkids). rewrite He in Hc'. pose proof (configured_unique _ _ _ _ _ _ Hc Hc') as Hu. injection Hu as <- <- <- <- <- <- <- <-. rewrite He in Hkids. split; [now rewrite Hva|exact Hkids].
      - destruct Hds as (Hds & _). rewrite He in Hds. rewrite Hds in Hc. now apply configured_not_dev in Hc. }
    destruct Hcfg as [-> Hkids].
    assert (Hap : rs0 <> [] /\ apply E (core t) (emit (EvEval (t_id t)) c0) = (ORequeued rs0, snd (apply E (core t) (emit (EvEval (t_id t)) c0)))).
    { unfold reply_value in Hrv. destruct (N.eqb_spec st 0) as [->|]; [|discriminate]. destruct rs0 as [|r0 rs0]; [discriminate|]. split; [discriminate|]. cbn [length Nat.eqb] in Hrv.
      destruct (h_grpcresp E (EvEval (t_id t) :: c_log c0) sz) as [body|] eqn:Hbody; [|discriminate].
      rewrite Hct. cbn [apply]. unfold apply_pending, process_response, take_grpc. cbn [emit with_log c_grpc]. rewrite G0. cbn [N.eqb negb].
      cbn [with_grpc emit with_log c_log]. rewrite Hbody, Hrv. destruct g1; reflexivity. }
    destruct Hap as [Hrs0 Hap]. destruct (wrapped_success E t _ _ _ Hap Logic.I) as (o' & H1 & l' & -> & I1 & _). rewrite H1 in Ha. injection Ha as <- Hc1. 
    assert (Hlc : c_log c = new ++ EvHandle tok (t_id t) :: EvGrpcResp tok st sz :: c_log (p_ctx p)) by exact N1.
    assert (Hnew : ~ In (EvDone a) (c_log c)).
    { destruct (step_sum _ _ _ _ _ Hst) as (evs & Hss). rewrite (ss_log _ _ _ _ _ _ Hss), L0. cbn [ghost app]. pose proof (ss_evs _ _ _ _ _ _ Hss) as Hq. cbn in Hq. rewrite Forall_forall in Hq.
      rewrite in_app_iff. intros [H|[H|[H|[H|H]]]]; try discriminate; [now apply Hq in H|contradiction]. }
    unfold kept_on, p', handle_next. cbn [p_with_ctx p_ctx emit with_log c_binds c_log p_term p_queue q]. rewrite K1, Hk2, He. split; [intros v' _; now left|]. intros Hbd. split.
    - intros v' Hv'. apply bound_insert in Hbd as [Hbd|(_ & _ & ->)]; [now apply Hnb in Hbd|]. apply bound_insert in Hv' as [Hv'|(_ & _ & ->)]; [now apply Hnb in Hv'|reflexivity].
    - intros _. right. right. cbn [p_ctx emit with_log c_log p_queue app]. split.
      + rewrite map_app, I1, Hkids. apply in_or_app. left. unfold reply_ids. apply in_map_iff. exists j. split; [reflexivity|]. apply in_seq. split; [lia|]. cbn. apply nth_error_Some. rewrite Hj. discriminate.
      + intros after past Hl. exfalso. assert (Hi : In (EvEval id) (c_log (p_ctx p'))) by (unfold p', handle_next; cbn [p_with_ctx p_ctx emit with_log c_log q]; rewrite He, Hl; apply in_or_app; right; now left).
        rewrite Hall in Hi. apply in_app_or in Hi as [Hi|Hi]; [now apply Hev|]. apply Hnd0. apply (after_done _ _ Hg). now right.
  Qed.

  Lemma kept_finvb : finvb E (fun ts p => goes E fa ts p /\ kept_on ts p) (fun _ => True).
  Proof.
    constructor; try (intros; exact Logic.I).
    - intros ts p ts' p' He [Hg HK]. split; [eapply re_step; eauto|]. destruct He as [p Hset|t ts p Hbl|t ts p o c ts' p' Hbl Hst Hnx|tok st sz p Hset Hnn|tok st sz t p o c Hset Hnn Hst|p Hq Ht|d rest p Hq Hnn Ht].
      + eapply (kept_grow _ _ _ _ [] HK); [reflexivity|reflexivity|auto|]. cbn. rewrite app_nil_r. auto.
      + eapply (kept_grow _ _ _ _ [] HK); [reflexivity|reflexivity|auto|]. cbn [p_with_queue p_queue]. rewrite !map_app, !in_app_iff. cbn. tauto.
      + exact (kept_run _ _ _ _ _ _ _ Hg Hbl Hst Hnx HK).
      + eapply (kept_grow _ _ _ _ [EvGrpcResp tok st sz] HK); [reflexivity|reflexivity|auto|]. intros _ Hi. split; [exact Hi|]. intros [H|[]]; discriminate.
      + exact (kept_handle _ _ _ _ _ _ _ Hg Hset Hnn Hst HK).
      + eapply (kept_grow _ _ _ _ [] HK); [reflexivity|reflexivity|auto|auto].
      + destruct (td_sum E d (p_with_td p rest)) as (evs & tk & T1 & T2 & T3 & T4 & T5 & T6 & T7). pose proof (td_kept E d (p_with_td p rest)) as Hk. cbn [p_with_td p_ctx p_queue p_def p_term] in *.
        eapply (kept_grow _ _ _ _ (evs ++ [EvTeardown]) HK); [rewrite T1, <- app_assoc; reflexivity|intros v'; now rewrite (proj1 Hk)|rewrite T6; auto|].
        cbn [app]. rewrite Hq. intros _ [].
    - intros p e He [Hg HK]. split; [now apply re_neutral|]. eapply (kept_grow _ _ _ _ [e] HK); [reflexivity|reflexivity|auto|]. intros _ Hi. split; [exact Hi|]. now apply neutral_eval, bland_neutral.
    - intros src k e p [Hg HK]. split; [now apply re_body|]. destruct src; [eapply (kept_grow _ _ _ _ [EvReqBody k e] HK)|eapply (kept_grow _ _ _ _ [EvRespBody k e] HK)]; try reflexivity; auto; intros _ Hi; (split; [exact Hi|]); intros [H|[]]; discriminate.
  Qed.
  Lemma kept_goes ts p : goes E fa ts p -> kept_on ts p.
  Proof.
    intros Hg. refine (proj2 (reach_inv_b _ _ _ _ kept_finvb _ _ _ Hg)). intros p0 Hb0. split; [now apply re_start|].
    destruct (start_log _ Hb0) as [Hl Hbi]. unfold kept_on. rewrite Hbi. split; [intros v' (bs & [] & _)|intros (bs & [] & _)].
  Qed.
End Kept.

(** * C118 *)
Lemma got_reply_idle E sv a v e l : idle_ev e -> got_reply E sv a v (e :: l) -> got_reply E sv a v l.
Proof.
  intros He (after & now & past & k & sz & body & H1 & H2 & H3). destruct after as [|e' after]; [|injection H1 as _ ->; now exists after, now, past, k, sz, body].
  exfalso. cbn in H1. rewrite <- H1 in H2. injection H2 as -> _. destruct He as [He|(? & ? & ? & He)]; [exact He|discriminate].
Qed.
(** The header changes called for by a reply are made, with what the headers are then; or the host would not give
    the headers; or they are the headers of a response that is not there yet, and the action was
    evaluated again in the last callback, to find out. They are never forgotten. *)
Theorem C118_header_changes_are_made_or_wait : forall E cfg fa s l a pr tm0 g0 sq0 n service msg rs sc k sv v j px tm g sq m y items,
  try_from E cfg = Some fa -> serves E cfg fa s -> later l ->
  has_action E cfg s a (mkT pr tm0 g0 sq0 (OpGrpc n service msg rs)) -> tget service (pc_services cfg) = Some sc -> inst_of sc = Some (IDyn k sv) -> own_name E cfg s n ->
  nth_error rs j = Some (mkT px tm g sq (OpHeaders m y)) -> says_of E n v px (Some (VBool true)) -> says_of E n v y (Some (VList items)) ->
  got_reply E sv a v (f_log (run E fa l)) -> ~ terminated (f_log (run E fa l)) ->
  exists pairs, converted items pairs /\ (pairs <> [] ->
    made E a (reply_id a j) m pairs (f_log (run E fa l)) \/ gave_up E a (reply_id a j) m (f_log (run E fa l)) \/
    (just_evaluated E fa l (reply_id a j) /\ too_early E (reply_id a j) m (f_log (run E fa l)))).
Proof.
  intros E cfg fa s l a pr tm0 g0 sq0 n service msg rs sc k sv v j px tm g sq m y items Hf Hs Hl Hx Hsc Hi Hn Hj Hb Hy Hgot Hnt.
  exists (header_pairs (VList items)). split; [exact (C68_header_lists_converted_faithfully (VList items))|]. intros Hne.
  assert (Hbound : forall ts p, goes E fa ts p -> got_reply E sv a v (c_log (p_ctx p)) -> bound a n v (c_binds (p_ctx p))).
  { intros ts p Hg Hgr. destruct rs as [|r rs]; [destruct j; discriminate|]. destruct Hx as (svs & Hsv & Hc). apply (bound_replies _ _ _ _ _ _ Hs Hg).
    exists (mkT pr tm0 g0 sq0 (OpGrpc n service msg (r :: rs))), pr, tm0, g0, sq0, service, msg, r, rs, svs, k, sv. split; [now exists svs|]. split; [reflexivity|]. split; [exact Hsv|]. split; [|exact Hgr].
    destruct (svs_service cfg svs service Hsv) as [S1 _]. rewrite Hsc in S1. now rewrite S1. }
  assert (Hset : forall p, goes E fa [] p -> got_reply E sv a v (c_log (p_ctx p)) -> ~ over (c_log (p_ctx p)) -> settles E a j m items [] p).
  { intros p Hg Hgr Ho. destruct (kept_goes E cfg fa s n v a j pr tm0 g0 sq0 service msg rs px tm g sq m y items Hf Hs Hn Hx Hj Hb Hy Hne _ _ Hg) as [_ K].
    destruct (K (Hbound _ _ Hg Hgr)) as [_ K']. apply K'. destruct (reach_build _ _ _ _ Hg) as (p0 & Hb0). pose proof (f_b _ _ _ _ _ _ _ (goes_F _ _ _ _ _ Hb0 Hg)) as HB.
    destruct (p_term p) eqn:Hpt; [|reflexivity]. exfalso. apply Ho, (t_over _ _ _ _ (b_t _ _ _ _ _ HB)), Hpt. }
  set (L := fun h => got_reply E sv a v h -> ~ over h -> made E a (reply_id a j) m (header_pairs (VList items)) h \/ gave_up E a (reply_id a j) m h).
  assert (HL : finvb E (goes E fa) L).
  { pose proof (reach_finv E fa) as HF. constructor; [exact (fb_step _ _ _ HF)|exact (fb_neutral _ _ _ HF)|exact (fb_body _ _ _ HF)| |].
    - intros p Hg _ Hq _ _ Hgr Ho. destruct (Hset p Hg Hgr Ho) as [H|[H|[H _]]]; [now left|now right|]. rewrite Hq in H. destruct H.
    - intros h e He IH Hgr Ho. destruct IH as [H|H]; [now apply got_reply_idle in Hgr|intros (z & Hz); apply Ho; exists z; now right|left; now apply (made_more _ _ _ _ _ _ [e])|right; now apply (gave_up_more _ _ _ _ _ [e])]. }
  assert (Hno : forall h, (forall z, ~ In (EvEval z) h) -> L h).
  { intros h Hh (after & now & past & kk & sz & body & -> & -> & _) _. exfalso. apply (Hh a). apply in_or_app. right. now left. }
  assert (HR : holds (goes E fa) L (run E fa l)).
  { apply request_invariant_b; [exact HL|exact (re_start E fa)|apply Hno; cbn; intuition discriminate|apply Hno; cbn; intuition discriminate|intros ok; apply Hno; cbn; intuition discriminate|exact Hl]. }
  unfold holds in HR. destruct (f_pipe (run E fa l)) as [p|] eqn:Hp.
  2:{ destruct (HR Hgot Hnt) as [H|H]; auto. }
  destruct HR as [Hg _]. destruct (Hset _ Hg Hgot Hnt) as [H|[H|[H1 H2]]]; [now left|right; now left|right; right]. split; [|exact H2].
  cbn [app f_take p_with_ctx p_queue] in H1. apply in_map_iff in H1 as (t & Hid & Hin). destruct (queue_reason E cfg fa l p Hf Hl Hp) as [Hr (e2 & He)].
  destruct (Hr t Hin) as [(e1 & R1 & R2)|(d & R1 & _)].
  - exists (e2 ++ e1). rewrite He, R1, app_assoc. split; [reflexivity|]. apply in_or_app. right. now rewrite <- Hid.
  - exfalso. destruct (queued_top E cfg fa s l p t d Hf Hs Hl Hp Hin R1) as (i & Hti). apply (nat_text_nodot i). rewrite <- Hti, Hid. unfold reply_id. apply in_or_app. right. now left.
Qed.
Print Assumptions C118_header_changes_are_made_or_wait.

(** evaluations of the response's callbacks come after its headers *)
Lemma resp_headers_logged E fa l : later l -> f_dead (run E fa l) = false -> In InRespHeaders l -> In EvRespHeaders (f_log (run E fa l)).
Proof.
  induction l as [|i l IH] using rev_ind; intros Hl Hd Hi; [destruct Hi|]. destruct (later_init _ _ Hl) as [Hl' Hi']. rewrite run_snoc in *.
  assert (Hd' : f_dead (run E fa l) = false) by (destruct (f_dead (run E fa l)) eqn:H; [unfold fstep in Hd; rewrite H in Hd; congruence|reflexivity]).
  assert (Hor : In EvRespHeaders (f_log (run E fa l)) \/ i = InRespHeaders) by (apply in_app_or in Hi as [Hi|[Hi|[]]]; [left; auto|now right]).
  destruct (f_pipe (run E fa l)) as [p|] eqn:Hp.
  - destruct (callback E fa _ i p Hd' Hp Hi') as (_ & _ & _ & H). destruct (callback_log E _ i p Hd' Hp Hi') as (evs & He & _). cbv zeta in *. rewrite H, He. apply in_or_app. right. apply in_or_app. right. apply in_or_app. right.
    destruct Hor as [Hor| ->]; [now right|now left].
  - destruct (no_pipe_callback E fa _ i Hd' Hp Hi') as (_ & _ & _ & H). rewrite H. apply in_or_app. destruct Hor as [Hor| ->]; [now right|left; cbn; auto].
Qed.
Lemma evaluated_after_headers E fa l id : later l -> f_dead (run E fa l) = false -> In InRespHeaders l -> just_evaluated E fa l id ->
  exists after past, f_log (run E fa l) = after ++ EvEval id :: past /\ In EvRespHeaders past.
Proof.
  destruct l as [|i l _] using rev_ind; intros Hl Hd Hi (evs & He & Hin); [destruct Hi|]. rewrite before_snoc in He. destruct (later_init _ _ Hl) as [Hl' Hi'].
  assert (Hd' : f_dead (run E fa l) = false) by (rewrite run_snoc in Hd; destruct (f_dead (run E fa l)) eqn:H; [unfold fstep in Hd; rewrite H in Hd; congruence|reflexivity]).
  apply in_app_or in Hi as [Hi|[->|[]]].
  - apply in_split in Hin as (x & y & ->). exists x, (y ++ f_log (run E fa l)). split; [rewrite He, <- app_assoc; reflexivity|]. apply in_or_app. right. now apply resp_headers_logged.
  - rewrite run_snoc in *. destruct (f_pipe (run E fa l)) as [p|] eqn:Hp.
    + destruct (callback E fa _ _ p Hd' Hp Hi') as (_ & _ & _ & H). destruct (callback_log E _ _ p Hd' Hp Hi') as (ev2 & H2 & _). cbv zeta in *. rewrite H, H2 in He. rewrite H, H2.
      assert (He' : evs = answer InRespHeaders (run E fa l) (advance E InRespHeaders (seen InRespHeaders (run E fa l) p)) ++ ev2 ++ [EvMetric MAllowed; EvRespHeaders]).
      { apply (app_inv_tail (f_log (run E fa l))). rewrite <- He, <- !app_assoc. reflexivity. }
      rewrite He', !in_app_iff in Hin. destruct Hin as [Hin|[Hin|[Hin|[Hin|[]]]]]; try discriminate.
      * pose proof (answer_silent InRespHeaders (run E fa l) (advance E InRespHeaders (seen InRespHeaders (run E fa l) p))) as Hs. rewrite Forall_forall in Hs. now apply Hs in Hin.
      * apply in_split in Hin as (x & y & ->). eexists (answer _ _ _ ++ x), _. split; [rewrite <- !app_assoc; reflexivity|]. apply in_or_app. right. right. now left.
    + destruct (no_pipe_callback E fa _ _ Hd' Hp Hi') as (_ & _ & _ & H). rewrite H in He. apply (app_inv_tail) in He. subst evs. cbn in Hin. intuition discriminate.
Qed.
(** Once the response headers have arrived, changes to them are made: where the host gives them
    from then on, and nothing was exported in their place. *)
Theorem C118_changes_of_response_headers_are_made : forall E cfg fa s l a pr tm0 g0 sq0 n service msg rs sc k sv v j px tm g sq y items,
  try_from E cfg = Some fa -> serves E cfg fa s -> later l ->
  has_action E cfg s a (mkT pr tm0 g0 sq0 (OpGrpc n service msg rs)) -> tget service (pc_services cfg) = Some sc -> inst_of sc = Some (IDyn k sv) -> own_name E cfg s n ->
  nth_error rs j = Some (mkT px tm g sq (OpHeaders MResp y)) -> says_of E n v px (Some (VBool true)) -> says_of E n v y (Some (VList items)) ->
  got_reply E sv a v (f_log (run E fa l)) -> ~ terminated (f_log (run E fa l)) ->
  (forall past, h_map E past MResp <> HErr) -> (forall past, In EvRespHeaders past -> h_map E past MResp <> HNotAvail) ->
  (forall hp b, In (EvSetProp hp b true) (f_log (run E fa l)) -> ~ exported_as (tx "response.headers") hp) ->
  f_dead (run E fa l) = false -> In InRespHeaders l ->
  exists pairs, converted items pairs /\ (pairs <> [] -> made E a (reply_id a j) MResp pairs (f_log (run E fa l))).
Proof.
  intros E cfg fa s l a pr tm0 g0 sq0 n service msg rs sc k sv v j px tm g sq y items Hf Hs Hl Hx Hsc Hi Hn Hj Hb Hy Hgot Hnt HE HA Hex Hd Hin.
  destruct (C118_header_changes_are_made_or_wait E cfg fa s l a pr tm0 g0 sq0 n service msg rs sc k sv v j px tm g sq MResp y items Hf Hs Hl Hx Hsc Hi Hn Hj Hb Hy Hgot Hnt) as (pairs & Hc & H).
  exists pairs. split; [exact Hc|]. intros Hne. destruct (H Hne) as [H1|[H1|[H1 H2]]]; [exact H1|exfalso|exfalso].
  - destruct H1 as (after & past & Hl1 & _ & [Hr|[[Hr _]|(hp & b & Hr1 & Hr2)]]); [now apply HE in Hr|discriminate|]. apply (Hex hp b); [|exact Hr2]. rewrite Hl1. apply in_or_app. right. now right.
  - destruct (evaluated_after_headers E fa l _ Hl Hd Hin H1) as (after & past & Hl1 & Hp). destruct (H2 after past Hl1) as [_ H3]. revert H3. apply HA. now right.
Qed.
Print Assumptions C118_changes_of_response_headers_are_made.

(** * C119 *)
From Verif Require Import Prop_Legacy.
(** the call [a] to the service was answered with [v] *)
Definition heard (E : env) (sc : svc_cfg) (a : text) (v : value) (h : log) : Prop :=
  exists k sv, inst_of sc = Some (IDyn k sv) /\ got_reply E sv a v h.
Lemma rl_ok_says E v items p tm g sq op : speaks_cel E -> rl_says v 1 (VList items) -> nth_error (rl_on_reply (tx "ratelimit_response")) 1 = Some (mkT p tm g sq op) ->
  exists x, op = OpHeaders MResp x /\ says_of E (tx "ratelimit_response") v p (Some (VBool true)) /\ says_of E (tx "ratelimit_response") v x (Some (VList items)).
Proof.
  intros HE (ty & fs & -> & K1 & K2) Hn. norm K1. norm K2. injection Hn as <- <- <- <- <-. eexists. split; [reflexivity|]. split; value_of.
Qed.
(** The headers a rate limit service sends with its approval are set on the response: once the response headers have
    arrived, whenever the approval came. *)
Theorem C119_rate_limit_headers_reach_the_response : forall E cfg fa s l i la sc v items,
  speaks_cel E -> try_from E cfg = Some fa -> serves E cfg fa s -> later l ->
  legacy_action cfg s i la sc -> sc_type sc = SRateLimit \/ sc_type sc = SRateLimitCheck -> own_name E cfg s (tx "ratelimit_response") ->
  heard E sc (nat_text i) v (f_log (run E fa l)) -> rl_says v 1 (VList items) -> ~ terminated (f_log (run E fa l)) ->
  (forall past, h_map E past MResp <> HErr) -> (forall past, In EvRespHeaders past -> h_map E past MResp <> HNotAvail) ->
  (forall hp b, In (EvSetProp hp b true) (f_log (run E fa l)) -> ~ exported_as (tx "response.headers") hp) ->
  f_dead (run E fa l) = false -> In InRespHeaders l ->
  exists pairs, converted items pairs /\ (pairs <> [] -> made E (nat_text i) (reply_id (nat_text i) 1) MResp pairs (f_log (run E fa l))).
Proof.
  intros E cfg fa s l i la sc v items HE Hf Hs Hl Hla Hk Hown (k & sv & Hi & Hg) Hr Ht H1 H2 H3 Hd Hin.
  pose proof (legacy_means E cfg s i la sc Hla ltac:(congruence)) as Hm. assert (Hm' : has_action E cfg s (nat_text i) (translate_ratelimit la (cfg_rsrc E cfg))) by (destruct Hk as [Hk|Hk]; now rewrite Hk in Hm).
  clear Hm. unfold translate_ratelimit in Hm'. cbv zeta in Hm'. destruct (rl_ok_says E v items _ _ _ _ _ HE Hr eq_refl) as (x & Hx & S1 & S2). injection Hx as <-.
  exact (C118_changes_of_response_headers_are_made E cfg fa s l _ _ _ _ _ _ _ _ _ sc k sv v 1 _ _ _ _ _ items Hf Hs Hl Hm' (proj2 Hla) Hi Hown eq_refl S1 S2 Hg Ht H1 H2 H3 Hd Hin).
Qed.
Print Assumptions C119_rate_limit_headers_reach_the_response.

(** * Examples *)
(** the host has response headers once they have arrived *)
Definition resp_there (h : log) : bool := existsb (fun e => match e with EvRespHeaders => true | _ => false end) h.
Definition El : env := e_map (Er (limit 1)) (fun h m => match m with MReq => HOk [] | MResp => if resp_there h then HOk [(tx "server", tx "x")] else HNotAvail end).
Lemma El_cel : speaks_cel El.
Proof.
  split.
  - intros s e H. change (parse_ref s = Some e). unfold parse_ref. now rewrite H.
  - intros past e vs. change (o_cel El past e vs) with (cel_ref past e vs). unfold cel_ref. destruct (aeval vs e); auto.
Qed.
Lemma El_gives : (forall past, h_map El past MResp <> HErr) /\ (forall past, In EvRespHeaders past -> h_map El past MResp <> HNotAvail).
Proof.
  split; intros past; unfold El; cbn [e_map h_map]; destruct (resp_there past) eqn:H; try discriminate. intros Hi _.
  assert (resp_there past = true); [|congruence]. apply existsb_exists. now exists EvRespHeaders.
Qed.
Lemma no_set h : existsb (fun e => match e with EvSetProp _ _ _ => true | _ => false end) h = false -> forall hp b, In (EvSetProp hp b true) h -> ~ exported_as (tx "response.headers") hp.
Proof. intros H hp b Hi. exfalso. assert (existsb (fun e => match e with EvSetProp _ _ _ => true | _ => false end) h = true); [|congruence]. apply existsb_exists. now exists (EvSetProp hp b true). Qed.
Ltac heard_at n := do 2 eexists; split; [vm_compute; reflexivity|]; eexists (firstn n _), _, _, _, _, _; split; [symmetry; apply (firstn_skipn n)|]; split; [vm_compute; reflexivity|]; split; [vm_compute; intros e H; repeat (destruct H as [<-|H]; [exact Logic.I|]); destruct H|split; vm_compute; reflexivity].
(** approved before the response is there: the header action waits, and is evaluated at each callback *)
Example C118_wait_ex : try_from El (dcfg exr) = Some (dfac El exr) /\ serves El (dcfg exr) (dfac El exr) (set_of exr) /\ later [InGrpc 0 0 0; InReqBody 3 true] /\
  has_action El (dcfg exr) (set_of exr) (nat_text 0) (translate_ratelimit (match exr with CLegacy la :: _ => la | _ => mkLaction [] [] [] [] end) (cfg_rsrc El (dcfg exr))) /\
  own_name El (dcfg exr) (set_of exr) (tx "ratelimit_response") /\ heard El rsvc (nat_text 0) (limit 1) (dlog El exr [InGrpc 0 0 0; InReqBody 3 true]) /\ ~ terminated (dlog El exr [InGrpc 0 0 0; InReqBody 3 true]) /\
  In (EvEval (reply_id (nat_text 0) 1)) (firstn 3 (dlog El exr [InGrpc 0 0 0; InReqBody 3 true])) /\
  (forall h ok, ~ In (EvSetMap MResp h ok) (dlog El exr [InGrpc 0 0 0; InReqBody 3 true])).
Proof.
  split; [vm_compute; reflexivity|]. split; [serve|]. split; [intros [H|[H|[]]]; discriminate|]. split; [acts 0|]. split; [eapply own_name_check; vm_compute; reflexivity|].
  split; [heard_at 10|]. split; [apply no_end_spec; vm_compute; reflexivity|]. split; [find|]. intros h ok. vm_compute. intros H. repeat (destruct H as [H|H]; [discriminate|]). exact H.
Qed.
(** … until the response headers arrive *)
Example C119_ex : speaks_cel El /\ try_from El (dcfg exr) = Some (dfac El exr) /\ serves El (dcfg exr) (dfac El exr) (set_of exr) /\ later [InGrpc 0 0 0; InRespHeaders] /\
  legacy_action (dcfg exr) (set_of exr) 0 (match exr with CLegacy la :: _ => la | _ => mkLaction [] [] [] [] end) rsvc /\ (sc_type rsvc = SRateLimit \/ sc_type rsvc = SRateLimitCheck) /\
  own_name El (dcfg exr) (set_of exr) (tx "ratelimit_response") /\ heard El rsvc (nat_text 0) (limit 1) (dlog El exr [InGrpc 0 0 0; InRespHeaders]) /\
  rl_says (limit 1) 1 (VList [hdr "x-left" "0"]) /\ ~ terminated (dlog El exr [InGrpc 0 0 0; InRespHeaders]) /\
  (forall past, h_map El past MResp <> HErr) /\ (forall past, In EvRespHeaders past -> h_map El past MResp <> HNotAvail) /\
  (forall hp b, In (EvSetProp hp b true) (dlog El exr [InGrpc 0 0 0; InRespHeaders]) -> ~ exported_as (tx "response.headers") hp) /\
  f_dead (run El (dfac El exr) [InGrpc 0 0 0; InRespHeaders]) = false /\ In InRespHeaders [InGrpc 0 0 0; InRespHeaders] /\
  In (EvSetMap MResp [(tx "server", tx "x"); (tx "x-left", tx "0")] true) (dlog El exr [InGrpc 0 0 0; InRespHeaders]).
Proof.
  split; [exact El_cel|]. split; [vm_compute; reflexivity|]. split; [serve|]. split; [intros [H|[H|[]]]; discriminate|]. split; [split; reflexivity|]. split; [now left|].
  split; [eapply own_name_check; vm_compute; reflexivity|]. split; [heard_at 13|]. split; [do 2 eexists; repeat split; reflexivity|]. split; [apply no_end_spec; vm_compute; reflexivity|].
  split; [apply El_gives|]. split; [apply El_gives|]. split; [apply no_set; vm_compute; reflexivity|]. split; [vm_compute; reflexivity|]. split; [right; now left|find].
Qed.
