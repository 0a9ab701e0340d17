(** C109, C110: what has to happen before a request is passed on. *)
From Coq Require Import String List NArith ZArith Bool Lia Arith.
From Verif Require Import Base Value Headers AttrPath Ctx CelProps CelEval Sse Body Tasks Exec Config Legacy Blueprint Factory Filter
  P_Frame P_Apply P_Exec P_Run P_Inv P_Ids P_Plan P_Deps P_Order P_Term P_Bar P_Cfg P_Hist P_Grow P_Wake P_Fail P_Head P_Told P_Eff Demo DemoCfg
  Prop_Order Prop_Term Prop_Guard Prop_Wake Prop_Fail Prop_Eff.
Import ListNotations.
Open Scope list_scope.

(** * Specifications *)
(** the host tells of the body of a response only after its headers *)
Definition bodies_after_headers (l : list fin) : Prop :=
  forall l1 n e l2, l = l1 ++ InRespBody n e :: l2 -> In InRespHeaders l1.
(** a reply was sent to the client *)
Definition replied (h : log) : Prop := exists st hd b, In (EvReply st hd b true) h.
(** the last callback let the request (or its response) go on *)
Definition passed_on (h : log) : Prop := exists past, h = EvRet false :: past \/ h = EvResumeReq :: past.
(** action [j] is [i], or [i] may not start before some action between the two is done *)
Inductive behind (acts : list action_cfg) : nat -> nat -> Prop :=
| behind_self i : behind acts i i
| behind_dep i j k : depends acts i j -> behind acts j k -> behind acts i k.

(** answers to the host: what a callback returns, and resuming *)
Definition is_answer (e : ev) : bool := match e with EvRet _ | EvResumeReq | EvResumeResp => true | _ => false end.
(** the host was last told to wait *)
Definition paused (h : log) : Prop := exists mid past, h = mid ++ EvRet true :: past /\ Forall (fun e => is_answer e = false) mid.
(** responses come only to calls that are open *)
Definition answers_open_calls (E : env) (fa : factory) (l : list fin) : Prop :=
  forall l1 k st sz l2, l = l1 ++ InGrpc k st sz :: l2 -> awaited (f_log (run E fa l1)) k.

(** * Lemmas *)
Lemma bodies_init l i : bodies_after_headers (l ++ [i]) -> bodies_after_headers l.
Proof. intros H l1 n e l2 ->. apply (H l1 n e (l2 ++ [i])). now rewrite <- app_assoc. Qed.
Lemma f_state_force s f : f_force (f_state s f) = f_force f. Proof. now destruct s. Qed.
Lemma f_eval_force E u f : f_force (f_eval E u f) = f_force f.
Proof. unfold f_eval. destruct (f_pipe f); [apply f_state_force|reflexivity]. Qed.
Lemma step_force E fa f i : f_force (fstep E fa f i) = true -> f_force f = true \/ (f_dead f = false /\ exists n e, i = InRespBody n e).
Proof.
  unfold fstep. destruct (f_dead f) eqn:Hd; [now left|]. destruct i as [|n e| |n e|k st sz]; intros H; [left..|right; split; [reflexivity|eauto]|left].
  - unfold on_req_headers in H. destruct (build _ _ _); cbn [f_ret f_emit f_force] in H; try exact H.
    + unfold f_ret, f_emit in H. cbn [f_force] in H. now rewrite f_state_force in H.
    + match type of H with context [if ?b then _ else _] => destruct b end; exact H.
  - unfold on_req_body, f_ret in H. cbn [f_emit f_force] in H. rewrite f_eval_force in H. exact H.
  - unfold on_resp_headers, f_ret in H. cbn [f_emit f_force] in H. rewrite f_eval_force in H. exact H.
  - unfold on_grpc in H. destruct (f_pipe _); [|exact H]. cbv zeta in H.
    match type of H with context [if ?b then f_emit _ _ else _] => destruct b end; cbn [f_emit f_force] in H; rewrite f_state_force in H; exact H.
Qed.
Lemma resp_seen E fa l : later l -> f_dead (run E fa l) = false -> In InRespHeaders l -> f_resp (run E fa l) = true.
Proof.
  induction l as [|i l IH] using rev_ind; intros Hl Hd Hi; [destruct Hi|]. destruct (later_init _ _ Hl) as [Hl' Hni]. rewrite run_snoc in *.
  destruct (f_dead (run E fa l)) eqn:Hd0; [rewrite dead_stays in Hd by exact Hd0; congruence|].
  assert (R : f_resp (fstep E fa (run E fa l) i) = in_resp i (run E fa l)).
  { destruct (f_pipe (run E fa l)) as [p|] eqn:Hp; [now destruct (callback E fa _ i p Hd0 Hp Hni) as (_ & H & _)|now destruct (no_pipe_callback E fa _ i Hd0 Hp Hni) as (H & _)]. }
  rewrite R. apply in_app_or in Hi as [Hi|[->|[]]]; [|reflexivity]. specialize (IH Hl' eq_refl Hi). now destruct i.
Qed.
Lemma resp_stays E fa l i : later (l ++ [i]) -> f_resp (run E fa l) = true -> f_resp (run E fa (l ++ [i])) = true.
Proof.
  intros Hl Hr. destruct (later_init _ _ Hl) as [Hl' Hni]. rewrite run_snoc.
  destruct (f_dead (run E fa l)) eqn:Hd0; [rewrite dead_stays by exact Hd0; exact Hr|].
  destruct (f_pipe (run E fa l)) as [p|] eqn:Hp; [destruct (callback E fa _ i p Hd0 Hp Hni) as (_ & -> & _)|destruct (no_pipe_callback E fa _ i Hd0 Hp Hni) as (-> & _)]; now destruct i.
Qed.
Lemma force_resp E fa l : later l -> bodies_after_headers l -> f_force (run E fa l) = true -> f_resp (run E fa l) = true.
Proof.
  induction l as [|i l IH] using rev_ind; intros Hl Hb Hf.
  - exfalso. change (run E fa []) with (fstep E fa flt0 InReqHeaders) in Hf. apply step_force in Hf as [Hf|(_ & n & e & Hf)]; discriminate.
  - destruct (later_init _ _ Hl) as [Hl' Hni]. apply resp_stays; [exact Hl|]. rewrite run_snoc in Hf. apply step_force in Hf as [Hf|(Hd & n & e & ->)].
    + apply IH; [exact Hl'|now apply bodies_init in Hb|exact Hf].
    + apply resp_seen; [exact Hl'|exact Hd|]. now apply (Hb l n e []).
Qed.
(** where a request is resumed *)
Lemma resumed_by E fa l past : later l -> occurs (f_log (run E fa l)) EvResumeReq past ->
  exists l1 k st sz l2 p, l = l1 ++ InGrpc k st sz :: l2 /\ f_pipe (run E fa l1) = Some p /\ f_dead (run E fa l1) = false /\
    f_resp (run E fa l1) = false /\
    let q := advance E (InGrpc k st sz) (seen (InGrpc k st sz) (run E fa l1) p) in
    past = c_log (p_ctx q) /\ (p_term q = false \/ f_force (run E fa l1) = true).
Proof.
  assert (NI : forall evs, Forall inner evs -> ~ In EvResumeReq evs). { intros evs H Hi. rewrite Forall_forall in H. exact (H _ Hi). }
  assert (SK : forall evs h, ~ In EvResumeReq evs -> occurs (evs ++ h) EvResumeReq past -> occurs h EvResumeReq past).
  { induction evs as [|e evs IH]; intros h Hn Ho; [exact Ho|]. destruct Ho as (after & Ho). destruct after as [|e' after]; [injection Ho as -> _; exfalso; apply Hn; now left|].
    injection Ho as -> Ho. apply IH; [intros H; apply Hn; now right|]. now exists after. }
  induction l as [|i l IH] using rev_ind; intros Hl Ho.
  - exfalso. assert (Hn : ~ In EvResumeReq (f_log (run E fa []))); [|destruct Ho as (after & Ho); apply Hn; rewrite Ho; apply in_or_app; right; now left]. clear Ho.
    pose proof (headers_log E fa) as H. destruct (build E fa (ctx0 [EvReqHeaders])) as [p0|c|c|c] eqn:Hb.
    + destruct (first_callback E fa p0 Hb) as (_ & _ & _ & H2). rewrite H2. intros [Hx|Hx]; [discriminate|].
      destruct (eval_added E (p_emit (EvMetric MHits) p0)) as (evs & He & Hf). rewrite He in Hx. apply in_app_or in Hx as [Hx|Hx]; [now apply NI in Hf|].
      pose proof (build_spec E fa (ctx0 [EvReqHeaders])) as Hs. rewrite Hb in Hs. destruct Hs as (b & c1 & tds & _ & _ & _ & (Hlog & _) & _).
      cbn in Hlog, Hx. rewrite Hlog in Hx. destruct Hx as [Hx|[Hx|[]]]; discriminate.
    + destruct H as (H1 & _). rewrite H1. simpl. intuition discriminate.
    + destruct H as (_ & ok & _ & H1). rewrite H1. destruct ok; simpl; intuition discriminate.
    + destruct H as (_ & _ & H1). rewrite H1. simpl. intuition discriminate.
  - destruct (later_init _ _ Hl) as [Hl' Hi]. rewrite run_snoc in Ho.
    assert (Old : occurs (f_log (run E fa l)) EvResumeReq past -> exists l1 k st sz l2 p, l ++ [i] = l1 ++ InGrpc k st sz :: l2 /\ f_pipe (run E fa l1) = Some p /\ f_dead (run E fa l1) = false /\
      f_resp (run E fa l1) = false /\ let q := advance E (InGrpc k st sz) (seen (InGrpc k st sz) (run E fa l1) p) in past = c_log (p_ctx q) /\ (p_term q = false \/ f_force (run E fa l1) = true)).
    { intros H. destruct (IH Hl' H) as (l1 & k & st & sz & l2 & p & -> & H1). exists l1, k, st, sz, (l2 ++ [i]), p. split; [now rewrite <- app_assoc|exact H1]. }
    destruct (f_dead (run E fa l)) eqn:Hd0; [rewrite dead_stays in Ho by exact Hd0; now apply Old|].
    destruct (f_pipe (run E fa l)) as [p|] eqn:Hp.
    2:{ destruct (no_pipe_callback E fa _ i Hd0 Hp Hi) as (_ & _ & _ & H2). rewrite H2 in Ho. apply SK in Ho; [now apply Old|]. destruct i; simpl; intuition discriminate. }
    destruct (callback E fa _ i p Hd0 Hp Hi) as (_ & _ & _ & H2). rewrite H2 in Ho.
    destruct (callback_log E _ i p Hd0 Hp Hi) as (evs & H3 & H4). set (q := advance E i (seen i (run E fa l) p)) in *.
    assert (Old2 : occurs (c_log (p_ctx q)) EvResumeReq past -> occurs (f_log (run E fa l)) EvResumeReq past).
    { rewrite H3. intros H. apply SK in H; [|now apply NI]. apply SK in H; [|destruct i; try (destruct (nget _ _)); simpl; intuition discriminate].
      apply (SK [ev_of i]) in H; [exact H|]. destruct i; simpl; intuition discriminate. }
    assert (D : (exists k st sz, i = InGrpc k st sz) \/ ~ In EvResumeReq (answer i (run E fa l) q)).
    { unfold answer. destruct i; [easy| | | |left; eauto]; right; simpl; intuition discriminate. }
    destruct D as [(k & st & sz & ->)|D]; [|apply SK in Ho; [now apply Old, Old2|exact D]].
    unfold answer in Ho.
    destruct (f_resp (run E fa l)) eqn:Hr.
    { apply Old, Old2. destruct (kept q); match type of Ho with occurs ((if ?b then _ else _) ++ _) _ _ => destruct b end; try exact Ho;
        (apply SK in Ho; [exact Ho|simpl; intuition discriminate]). }
    assert (G : (p_term q = false \/ f_force (run E fa l) = true) /\ occurs ([EvResumeReq] ++ c_log (p_ctx q)) EvResumeReq past \/ occurs (c_log (p_ctx q)) EvResumeReq past).
    { destruct (kept q) eqn:Hk; destruct (p_term q); cbn [andb orb negb] in Ho.
      - right. exact Ho.
      - match type of Ho with occurs ((if ?b then _ else _) ++ _) _ _ => destruct b end; [left|right]; auto.
      - destruct (f_force (run E fa l)); cbn in Ho; [left|right]; auto.
      - left. auto. }
    destruct G as [[G1 (after & G2)]|G]; [|now apply Old, Old2]. destruct after as [|e after]; [|injection G2 as _ G2; apply Old, Old2; now exists after].
    injection G2 as G2. exists l, k, st, sz, [], p. subst past. repeat split; auto.
Qed.
Lemma resumed_state E fa p0 l past : build E fa (ctx0 [EvReqHeaders]) = BOk p0 -> later l -> bodies_after_headers l -> occurs (f_log (run E fa l)) EvResumeReq past ->
  ~ over past /\ (all_final (nodess (p_queue p0)) -> replies past = 0).
Proof.
  intros Hb0 Hl Hb Ho. destruct (resumed_by E fa l past Hl Ho) as (l1 & k & st & sz & l2 & p & -> & Hp & Hd & Hr & Hq).
  set (q := advance E (InGrpc k st sz) (seen (InGrpc k st sz) (run E fa l1) p)) in *. destruct Hq as [-> Hq].
  assert (Hl1 : later l1) by (intros H; apply Hl; apply in_or_app; now left).
  assert (Hb1 : bodies_after_headers l1). { intros a n e b ->. apply (Hb a n e (b ++ InGrpc k st sz :: l2)). now rewrite <- app_assoc. }
  assert (Ht : p_term q = false) by (destruct Hq as [Hq|Hq]; [exact Hq|apply (force_resp E fa l1 Hl1 Hb1) in Hq; congruence]).
  pose proof (F_run_filter E fa p0 l1 Hb0 Hl1) as H. unfold holds in H. rewrite Hp in H. destruct H as [HF Hlv].
  destruct (digest_star E k st sz (f_take (run E fa l1) p) Hlv) as [Hst _].
  apply (estar_inv E _ (fb_step _ _ _ (F_finv E fa (length (p_td p0)) (nodess (p_queue p0)) (c_track (p_ctx p0))))) in Hst; [|exact HF].
  change (digest_pipe E k st sz (p_emit (EvGrpcResp k st sz) (f_take (run E fa l1) p))) with q in Hst. destruct Hst as [_ Hst].
  pose proof (t_over _ _ _ _ (b_t _ _ _ _ _ (f_b _ _ _ _ _ _ _ Hst))) as Hov.
  assert (Hno : ~ over (c_log (p_ctx q))) by (intros H; apply Hov in H; congruence).
  split; [exact Hno|]. intros Ha. now apply (proj2 (f_rep _ _ _ _ _ _ _ Hst Ha)).
Qed.

Lemma no_resume E fa l past : (forall p, build E fa (ctx0 [EvReqHeaders]) <> BOk p) -> later l -> ~ occurs (f_log (run E fa l)) EvResumeReq past.
Proof.
  intros Hn Hl Ho. destruct (resumed_by E fa l past Hl Ho) as (l1 & k & st & sz & l2 & p & -> & Hp & _).
  destruct (no_pipe_run E fa l1 Hn) as [H _]; [intros H; apply Hl; apply in_or_app; now left|congruence].
Qed.
Lemma replied_count h : replied h -> replies h <> 0.
Proof.
  intros (st & hd & b & H) H0. unfold replies in H0. apply length_zero_iff_nil in H0.
  assert (Hi : In (EvReply st hd b true) (filter is_reply h)) by now apply filter_In. now rewrite H0 in Hi.
Qed.
Lemma behind_le acts i j : behind acts i j -> j <= i.
Proof. induction 1 as [i|i j k H _ IH]; [lia|]. apply depends_lt in H. lia. Qed.

Lemma in_done_dec a (h : log) : In (EvDone a) h \/ ~ In (EvDone a) h.
Proof.
  induction h as [|e h [IH|IH]]; [now right|left; now right|]. destruct e; try (right; intros [H|H]; [discriminate|contradiction]).
  destruct (text_eqb id a) eqn:H; [apply text_eqb_eq in H as ->; left; now left|]. right. intros [H1|H1]; [|contradiction]. injection H1 as ->.
  assert (text_eqb a a = true) by now apply text_eqb_eq. congruence.
Qed.
Lemma in_failed_dec a (h : log) : In (EvFailed a) h \/ ~ In (EvFailed a) h.
Proof.
  induction h as [|e h [IH|IH]]; [now right|left; now right|]. destruct e; try (right; intros [H|H]; [discriminate|contradiction]).
  destruct (text_eqb id a) eqn:H; [apply text_eqb_eq in H as ->; left; now left|]. right. intros [H1|H1]; [|contradiction]. injection H1 as ->.
  assert (text_eqb a a = true) by now apply text_eqb_eq. congruence.
Qed.
Lemma call_open_dec h a : (exists k, call_open h k a) \/ (forall k, ~ call_open h k a).
Proof.
  assert (G : forall os : list (N * option text), (exists k, In (k, Some a) os) \/ (forall k, ~ In (k, Some a) os)).
  { induction os as [|[k o] os [(k' & IH)|IH]]; [right; intros k []|left; exists k'; now right|].
    destruct o as [b|]; [|right; intros k' [H|H]; [discriminate|now apply IH in H]].
    destruct (text_eqb b a) eqn:H; [apply text_eqb_eq in H as ->; left; exists k; now left|]. right. intros k' [H1|H1]; [|now apply IH in H1]. injection H1 as _ ->.
    assert (text_eqb a a = true) by now apply text_eqb_eq. congruence. }
  destruct (G (opens h)) as [(k & H)|H]; [left; exists k; now apply call_open_spec|right; intros k Hk; apply call_open_spec in Hk; now apply H in Hk].
Qed.

(** * C109 *)
(** Once an action has ended the processing of a request by rejecting it, the request is not
    resumed; where all deny actions are terminal, it is not resumed once a reply was sent. *)
Theorem C109_rejected_request_is_not_resumed : forall E fa l a past,
  later l -> bodies_after_headers l -> occurs (f_log (run E fa l)) EvResumeReq past -> ~ In (EvTerminate a) past.
Proof.
  intros E fa l a past Hl Hb Ho Ht. destruct (pipe_or_not E fa) as [(p & Hp)|Hn]; [|now apply no_resume in Ho].
  destruct (resumed_state E fa p l past Hp Hl Hb Ho) as [H _]. apply H. now exists a.
Qed.
Print Assumptions C109_rejected_request_is_not_resumed.
Theorem C109_answered_request_is_not_resumed : forall E cfg fa l past,
  try_from E cfg = Some fa -> (forall s, In s (pc_sets cfg) -> denies_terminal s) -> later l -> bodies_after_headers l ->
  occurs (f_log (run E fa l)) EvResumeReq past -> ~ replied past.
Proof.
  intros E cfg fa l past Hf Hd Hl Hb Ho Hr. destruct (pipe_or_not E fa) as [(p & Hp)|Hn]; [|now apply no_resume in Ho].
  destruct (resumed_state E fa p l past Hp Hl Hb Ho) as [_ H]. apply replied_count in Hr. apply Hr, H. intros id pr d tm Hi.
  destruct (request_nodes _ _ _ _ Hf Hp _ Hi) as [(s & svs & a & x & Hin & Hsv & Hc & Hds)|[]].
  destruct x as [px tmx g sq op]. cbn in Hds. destruct Hds as (pe & _ & Hds). destruct op; try easy.
  destruct Hds as (_ & _ & _ & ->). destruct Hc as (i & c & t & H1 & H2 & H3). destruct c as [t'|lg].
  - injection H2 as ->. exact (Hd s Hin _ _ _ _ _ _ _ _ H1 H3).
  - eapply legacy_deny; eauto.
Qed.
Print Assumptions C109_answered_request_is_not_resumed.

(** * C110 *)
(** When the host is told that the request may go on, each action of the set has completed, or
    is held up by an action (itself or one it is behind) that failed, or whose call the set does
    not guard is still open, or that was put off when it was last evaluated. *)
Theorem C110_guards_decide_before_the_request_passes_partial : forall E cfg fa s l i,
  fresh_tokens E -> try_from E cfg = Some fa -> serves E cfg fa s -> later l ->
  matched (f_log (run E fa l)) -> ~ terminated (f_log (run E fa l)) -> passed_on (f_log (run E fa l)) ->
  i < length (as_actions s) ->
  In (EvDone (nat_text i)) (f_log (run E fa l)) \/
  exists j, behind (as_actions s) i j /\ ~ In (EvDone (nat_text j)) (f_log (run E fa l)) /\
    (In (EvFailed (nat_text j)) (f_log (run E fa l)) \/
     (exists k, call_open (f_log (run E fa l)) k (nat_text j) /\ ~ guard E cfg s (nat_text j)) \/
     just_evaluated E fa l (nat_text j)).
Proof.
  intros E cfg fa s l i F Hf Hs Hl Hm Ht Hpass. induction i as [i IH] using lt_wf_ind. intros Hi.
  destruct (in_done_dec (nat_text i) (f_log (run E fa l))) as [Hd|Hd]; [now left|right].
  destruct (in_failed_dec (nat_text i) (f_log (run E fa l))) as [Hx|Hx]; [exists i; split; [constructor|auto]|].
  destruct (call_open_dec (f_log (run E fa l)) (nat_text i)) as [(k & Hk)|Hk].
  { exists i. split; [constructor|]. split; [exact Hd|]. right; left. exists k. split; [exact Hk|]. intros Hg.
    destruct (C09_phase_held_by_guard_calls E cfg fa s l k F Hs Hl) as [H1 H2]; [now exists (nat_text i)|exact Ht|].
    destruct Hpass as (past & [H|H]); [now apply H1 in H|now apply H2 in H]. }
  destruct (f_pipe (run E fa l)) as [p|] eqn:Hp.
  2:{ destruct (C21_none_skipped_unless_failed_partial E cfg fa s l i F Hf Hs Hl Hm Hp Ht Hi) as [H|H]; contradiction. }
  destruct (C18_no_lost_wakeup E cfg fa s l i F Hf Hs Hl) as [H|(j & Hj & Hnd)]; [congruence|exact Ht|exact Hi|now repeat split| |].
  - exists i. split; [constructor|]. auto.
  - pose proof (depends_lt _ _ _ Hj) as [Hlt _]. destruct (IH j Hlt) as [H|(k & Hb & H)]; [lia|contradiction|]. exists k. split; [now apply behind_dep with j|exact H].
Qed.
Print Assumptions C110_guards_decide_before_the_request_passes_partial.

(** the guards of the set are only actions that wait for no data and are behind no others *)
Definition ex110a : list action_cfg := [CTyped (mkT (tx "reqbody") false true true (OpGrpc (tx "r") (tx "hard") (tx "msg") []))].
Definition ex110b : list action_cfg := [CTyped (mkT (tx "true") false false true (OpGrpc (tx "r") (tx "hard") (tx "msg") [])); dcall "soft" true []].
Ltac nothing := intros H; match type of H with In _ ?h => assert (Hx : forallb (fun e => match e with EvDone _ | EvFailed _ => false | _ => true end) h = true) by (vm_compute; reflexivity); rewrite forallb_forall in Hx; now apply Hx in H end.
(** a guard whose condition needs the body: the headers pass before the guard made its call *)
Theorem C110_guard_waiting_for_the_body_is_passed_refuted : exists E cfg fa s,
  fresh_tokens E /\ try_from E cfg = Some fa /\ serves E cfg fa s /\ later [] /\ matched (f_log (run E fa [])) /\ ~ terminated (f_log (run E fa [])) /\
  passed_on (f_log (run E fa [])) /\ call_at (as_actions s) 0 /\ guard E cfg s (nat_text 0) /\
  ~ In (EvDone (nat_text 0)) (f_log (run E fa [])) /\ ~ In (EvFailed (nat_text 0)) (f_log (run E fa [])).
Proof.
  exists Ed, (dcfg ex110a), (dfac Ed ex110a), (set_of ex110a).
  split; [exact demo_fresh|]. split; [vm_compute; reflexivity|]. split; [serve|]. split; [intros []|].
  split; [find|]. split; [apply no_end_spec; vm_compute; reflexivity|].
  split; [exists (tl (f_log (run Ed (dfac Ed ex110a) []))); left; vm_compute; reflexivity|].
  split; [eexists; split; [reflexivity|exact Logic.I]|]. split; [right; eexists _, _; split; [vm_compute; reflexivity|]; split; [exists 0; eexists _, _; split; [reflexivity|]; split; [reflexivity|constructor]|reflexivity]|].
  split; nothing.
Qed.
Print Assumptions C110_guard_waiting_for_the_body_is_passed_refuted.
(** a sequential guard behind a call that is none: the headers pass before the guard was looked at *)
Theorem C110_guard_behind_another_call_is_passed_refuted : exists E cfg fa s,
  fresh_tokens E /\ try_from E cfg = Some fa /\ serves E cfg fa s /\ later [] /\ matched (f_log (run E fa [])) /\ ~ terminated (f_log (run E fa [])) /\
  passed_on (f_log (run E fa [])) /\ call_at (as_actions s) 1 /\ guard E cfg s (nat_text 1) /\
  ~ In (EvDone (nat_text 1)) (f_log (run E fa [])) /\ ~ In (EvFailed (nat_text 1)) (f_log (run E fa [])) /\
  (forall cl r, ~ In (EvDispatch (nat_text 1) cl r) (f_log (run E fa []))).
Proof.
  exists Ed, (dcfg ex110b), (dfac Ed ex110b), (set_of ex110b).
  split; [exact demo_fresh|]. split; [vm_compute; reflexivity|]. split; [serve|]. split; [intros []|].
  split; [find|]. split; [apply no_end_spec; vm_compute; reflexivity|].
  split; [exists (tl (f_log (run Ed (dfac Ed ex110b) []))); left; vm_compute; reflexivity|].
  split; [eexists; split; [reflexivity|exact Logic.I]|]. split; [right; eexists _, _; split; [vm_compute; reflexivity|]; split; [exists 1; eexists _, _; split; [reflexivity|]; split; [reflexivity|constructor]|reflexivity]|].
  split; [nothing|]. split; [nothing|]. intros cl r H.
  assert (Hx : forallb (fun e => match e with EvDispatch a _ _ => negb (text_eqb a (nat_text 1)) | _ => true end) (f_log (run Ed (dfac Ed ex110b) [])) = true) by (vm_compute; reflexivity).
  rewrite forallb_forall in Hx. now apply Hx in H.
Qed.
Print Assumptions C110_guard_behind_another_call_is_passed_refuted.
(** a guard in front: it has decided when the request is resumed; its successor has not *)
Definition ex110c : list action_cfg := [dcall "hard" false []; CTyped (mkT (tx "true") false false true (OpGrpc (tx "r") (tx "soft") (tx "msg") [])); dcall "soft" true []].
Example C110_ex : fresh_tokens Ed /\ try_from Ed (dcfg ex110c) = Some (dfac Ed ex110c) /\ serves Ed (dcfg ex110c) (dfac Ed ex110c) (set_of ex110c) /\ later [InGrpc 0 0 0] /\
  matched (dlog Ed ex110c [InGrpc 0 0 0]) /\ ~ terminated (dlog Ed ex110c [InGrpc 0 0 0]) /\ passed_on (dlog Ed ex110c [InGrpc 0 0 0]) /\
  In (EvDone (nat_text 0)) (dlog Ed ex110c [InGrpc 0 0 0]) /\ ~ In (EvDone (nat_text 2)) (dlog Ed ex110c [InGrpc 0 0 0]).
Proof.
  split; [exact demo_fresh|]. split; [vm_compute; reflexivity|]. split; [serve|]. split; [intros [H|[]]; discriminate|].
  split; [find|]. split; [apply no_end_spec; vm_compute; reflexivity|].
  split; [exists (tl (f_log (run Ed (dfac Ed ex110c) [InGrpc 0 0 0]))); right; vm_compute; reflexivity|]. split; [find|].
  intros H. assert (Hx : forallb (fun e => match e with EvDone a => negb (text_eqb a (nat_text 2)) | _ => true end) (dlog Ed ex110c [InGrpc 0 0 0]) = true) by (vm_compute; reflexivity).
  rewrite forallb_forall in Hx. now apply Hx in H.
Qed.

(** * C109, examples *)
Definition ex109 (p : string) : list action_cfg := [dcall "hard" false [ddeny p true false]].
Lemma ex109_terminal p : forall s, In s (pc_sets (dcfg (ex109 p))) -> denies_terminal s.
Proof.
  intros s [<-|[]] i t a q tm g sq d Hn Hw. destruct i as [|[|i]]; try discriminate. cbn in Hn. injection Hn as <-.
  inversion Hw as [|? ? ? ? ? ? ? ? ? j r ? ? Hj Hw']; subst. destruct j as [|[|j]]; try discriminate. cbn in Hj. injection Hj as <-. inversion Hw'; reflexivity.
Qed.
(** the service lets one request go on, and not the other *)
Example C109_ex :
  try_from Ed (dcfg (ex109 "false")) = Some (dfac Ed (ex109 "false")) /\ (forall s, In s (pc_sets (dcfg (ex109 "false"))) -> denies_terminal s) /\ later [InGrpc 0 0 0] /\
  bodies_after_headers [InGrpc 0 0 0] /\ In EvResumeReq (dlog Ed (ex109 "false") [InGrpc 0 0 0]) /\
  replied (dlog Ed (ex109 "true") [InGrpc 0 0 0]) /\ In (EvTerminate (tx "0.0")) (dlog Ed (ex109 "true") [InGrpc 0 0 0]).
Proof.
  split; [vm_compute; reflexivity|]. split; [apply ex109_terminal|]. split; [intros [H|[]]; discriminate|].
  split; [intros l1 n e l2 H; destruct l1 as [|? [|? ?]]; discriminate|]. split; [find|].
  split; [exists 403%N, [], (Some (tx "no")); find|find].
Qed.
(** without the hypothesis: a reply was sent and the request is resumed nevertheless *)
Definition ex109b : list action_cfg := [CTyped (ddeny "true" false false); dcall "hard" false []].
Theorem C109_answered_request_is_not_resumed_refuted : exists E cfg fa s l past,
  fresh_tokens E /\ try_from E cfg = Some fa /\ serves E cfg fa s /\ later l /\ bodies_after_headers l /\
  occurs (f_log (run E fa l)) EvResumeReq past /\ replied past.
Proof.
  exists Ed, (dcfg ex109b), (dfac Ed ex109b), (set_of ex109b), [InGrpc 0 0 0], (tl (f_log (run Ed (dfac Ed ex109b) [InGrpc 0 0 0]))).
  split; [exact demo_fresh|]. split; [vm_compute; reflexivity|]. split; [serve|]. split; [intros [H|[]]; discriminate|].
  split; [intros l1 n e l2 H; destruct l1 as [|? [|? ?]]; discriminate|]. split; [exists []; vm_compute; reflexivity|].
  exists 403%N, [], (Some (tx "no")); find.
Qed.
Print Assumptions C109_answered_request_is_not_resumed_refuted.

(** * C111 *)
Lemma held_paused E cfg fa s l k :
  fresh_tokens E -> serves E cfg fa s -> later l -> answers_open_calls E fa l ->
  (forall a cl r, In (EvDispatch a cl r) (f_log (run E fa l)) -> guard E cfg s a) -> (forall cl r, ~ In (EvExport cl r) (f_log (run E fa l))) ->
  ~ terminated (f_log (run E fa l)) -> awaited (f_log (run E fa l)) k -> paused (f_log (run E fa l)).
Proof.
  intros F Hs. assert (G : forall h, (forall a cl r, In (EvDispatch a cl r) h -> guard E cfg s a) -> (forall cl r, ~ In (EvExport cl r) h) -> forall k, awaited h k -> guard_open E cfg s h k).
  { intros h H1 H2 k' [(a & Ha)|(after & cl & before & -> & _)].
    - exists a. split; [exact Ha|]. destruct Ha as (after & cl & before & -> & _). apply (H1 a cl (Some k')). apply in_or_app. right. now left.
    - exfalso. apply (H2 cl (Some k')). apply in_or_app. right. now left. }
  revert k. induction l as [|i l IH] using rev_ind; intros k Hl Ha Hg Hx Ht Hk.
  - destruct (C09_phase_held_by_guard_calls E cfg fa s [] k F Hs Hl (G _ Hg Hx _ Hk) Ht) as [H1 _].
    destruct (open_pipe E fa [] k F Hl Hk) as (p & Hp). destruct (reach E fa [] p Hl Hp) as (p0 & Hb & _).
    destruct (first_callback E fa p0 Hb) as (_ & _ & _ & H2). pose proof (H1 _ _ H2) as H3. rewrite H3 in H2. rewrite H2. now exists [], (c_log (p_ctx (eval_pipe E (p_emit (EvMetric MHits) p0)))).
  - destruct (later_init _ _ Hl) as [Hl' Hi]. destruct (open_pipe E fa _ k F Hl Hk) as (p' & Hp').
    destruct (C09_phase_held_by_guard_calls E cfg fa s _ k F Hs Hl (G _ Hg Hx _ Hk) Ht) as [H1 H2].
    assert (Hd : f_dead (run E fa (l ++ [i])) = false) by (apply pipe_alive; [exact Hl|congruence]). rewrite run_snoc in *.
    destruct (f_dead (run E fa l)) eqn:Hd0; [rewrite dead_stays in Hd by exact Hd0; congruence|].
    destruct (f_pipe (run E fa l)) as [p|] eqn:Hp; [|destruct (no_pipe_callback E fa _ i Hd0 Hp Hi) as (_ & H & _); congruence].
    destruct (callback E fa _ i p Hd0 Hp Hi) as (_ & _ & _ & H3). destruct (callback_log E _ i p Hd0 Hp Hi) as (evs & H4 & H5).
    set (q := advance E i (seen i (run E fa l) p)) in *.
    assert (D : (exists k st sz, i = InGrpc k st sz) \/ exists b, answer i (run E fa l) q = [EvRet b]).
    { unfold answer. destruct i; [easy| | | |left; eauto]; right; eauto. }
    destruct D as [(k' & st & sz & ->)|(b & D)].
    2:{ rewrite D in H3. pose proof (H1 _ _ H3) as ->. rewrite H3. now exists [], (c_log (p_ctx q)). }
    assert (Ans : answer (InGrpc k' st sz) (run E fa l) q = []).
    { revert H3. unfold answer. destruct (kept q); match goal with |- context [(if ?b then [if ?c then _ else _] else _)] => destruct b; [|reflexivity]; destruct c end;
        intros H3; exfalso; [apply (proj2 (H2 _) H3)|apply (proj1 (H2 _) H3)|apply (proj2 (H2 _) H3)|apply (proj1 (H2 _) H3)]. }
    rewrite Ans in H3. cbn [app] in H3.
    assert (Sub : exists pre, f_log (fstep E fa (run E fa l) (InGrpc k' st sz)) = pre ++ f_log (run E fa l) /\ Forall (fun e => is_answer e = false) pre).
    { rewrite H3, H4. exists (evs ++ (match nget k' (p_def p) with Some t => [EvHandle k' (t_id t)] | None => [] end) ++ [EvGrpcResp k' st sz]). split; [now rewrite <- !app_assoc|].
      apply Forall_app. split; [|apply Forall_app; split; [destruct (nget _ _)|]; repeat constructor]. revert H5. apply Forall_impl. intros e He. now destruct e. }
    destruct Sub as (pre & Hsub & Hpre). rewrite Hsub in *.
    destruct (IH k' Hl') as (mid & past & Hm & Hf).
    + intros l1 k1 st1 sz1 l2 ->. apply (Ha l1 k1 st1 sz1 (l2 ++ [InGrpc k' st sz])). now rewrite <- app_assoc.
    + intros a cl r H. apply (Hg a cl r). apply in_or_app. now right.
    + intros cl r H. apply (Hx cl r). apply in_or_app. now right.
    + intros (a & H). apply Ht. exists a. apply in_or_app. now right.
    + apply (Ha l k' st sz []). reflexivity.
    + exists (pre ++ mid), past. split; [rewrite Hm; now rewrite <- app_assoc|]. apply Forall_app. auto.
Qed.
(** Where the only calls made are those of guards, and the host answers only open calls, each
    response comes while the host is waiting, so that a request or response that is not rejected
    is resumed only when it was paused, and only once. *)
Theorem C111_only_what_waits_is_resumed_partial : forall E cfg fa s l k st sz,
  fresh_tokens E -> serves E cfg fa s -> later l -> answers_open_calls E fa (l ++ [InGrpc k st sz]) ->
  (forall a cl r, In (EvDispatch a cl r) (f_log (run E fa l)) -> guard E cfg s a) -> (forall cl r, ~ In (EvExport cl r) (f_log (run E fa l))) ->
  ~ terminated (f_log (run E fa l)) -> paused (f_log (run E fa l)).
Proof.
  intros E cfg fa s l k st sz F Hs Hl Ha Hg Hx Ht. apply (held_paused E cfg fa s l k); auto.
  - intros l1 k1 st1 sz1 l2 ->. apply (Ha l1 k1 st1 sz1 (l2 ++ [InGrpc k st sz])). now rewrite <- app_assoc.
  - apply (Ha l k st sz []). reflexivity.
Qed.
Print Assumptions C111_only_what_waits_is_resumed_partial.
Example C111_ex : fresh_tokens Ed /\ serves Ed (dcfg (ex109 "false")) (dfac Ed (ex109 "false")) (set_of (ex109 "false")) /\ later [] /\
  answers_open_calls Ed (dfac Ed (ex109 "false")) ([] ++ [InGrpc 0 0 0]) /\
  (forall a cl r, In (EvDispatch a cl r) (dlog Ed (ex109 "false") []) -> guard Ed (dcfg (ex109 "false")) (set_of (ex109 "false")) a) /\
  (forall cl r, ~ In (EvExport cl r) (dlog Ed (ex109 "false") [])) /\ ~ terminated (dlog Ed (ex109 "false") []) /\
  In EvResumeReq (dlog Ed (ex109 "false") ([] ++ [InGrpc 0 0 0])).
Proof.
  split; [exact demo_fresh|]. split; [serve|]. split; [intros []|].
  split; [intros l1 k st sz l2 H; destruct l1 as [|? [|? ?]]; [|discriminate..]; injection H as <- <- <- <-; left; exists (nat_text 0); apply call_open_spec; find|].
  split. { intros a cl r H. assert (Hx : forallb (fun e => match e with EvDispatch a _ _ => text_eqb a (nat_text 0) | _ => true end) (dlog Ed (ex109 "false") []) = true) by (vm_compute; reflexivity).
    rewrite forallb_forall in Hx. apply Hx in H. apply text_eqb_eq in H as ->. right. eexists _, _. split; [vm_compute; reflexivity|]. split; [exists 0; eexists _, _; split; [reflexivity|]; split; [reflexivity|constructor]|reflexivity]. }
  split. { intros cl r H. assert (Hx : forallb (fun e => match e with EvExport _ _ => false | _ => true end) (dlog Ed (ex109 "false") []) = true) by (vm_compute; reflexivity).
    rewrite forallb_forall in Hx. now apply Hx in H. }
  split; [apply no_end_spec; vm_compute; reflexivity|find].
Qed.
(** the call of an action that is no guard: the request is resumed though it was never paused *)
Definition ex111 : list action_cfg := [CTyped (mkT (tx "true") false false true (OpGrpc (tx "r") (tx "hard") (tx "msg") []))].
Theorem C111_unguarded_call_resumes_what_does_not_wait_refuted : exists E cfg fa s l k st sz,
  fresh_tokens E /\ try_from E cfg = Some fa /\ serves E cfg fa s /\ later (l ++ [InGrpc k st sz]) /\ answers_open_calls E fa (l ++ [InGrpc k st sz]) /\
  ~ terminated (f_log (run E fa (l ++ [InGrpc k st sz]))) /\ ~ paused (f_log (run E fa l)) /\
  exists past, f_log (run E fa (l ++ [InGrpc k st sz])) = EvResumeReq :: past.
Proof.
  exists Ed, (dcfg ex111), (dfac Ed ex111), (set_of ex111), [], 0%N, 0%N, 0%N.
  split; [exact demo_fresh|]. split; [vm_compute; reflexivity|]. split; [serve|]. split; [intros [H|[]]; discriminate|].
  split; [intros l1 k st sz l2 H; destruct l1 as [|? [|? ?]]; [|discriminate..]; injection H as <- <- <- <-; left; exists (nat_text 0); apply call_open_spec; find|].
  split; [apply no_end_spec; vm_compute; reflexivity|].
  split; [|exists (tl (dlog Ed ex111 ([] ++ [InGrpc 0 0 0]))); vm_compute; reflexivity].
  intros (mid & past & H & _).
  assert (Hx : forallb (fun e => match e with EvRet true => false | _ => true end) (f_log (run Ed (dfac Ed ex111) [])) = true) by (vm_compute; reflexivity).
  rewrite forallb_forall in Hx. assert (Hi : In (EvRet true) (f_log (run Ed (dfac Ed ex111) []))) by (rewrite H; apply in_or_app; right; now left). now apply Hx in Hi.
Qed.
Print Assumptions C111_unguarded_call_resumes_what_does_not_wait_refuted.
(** the export of the trace: the request is resumed a second time *)
Definition ex111b : list action_cfg := [dcall "hard" true []].
Theorem C111_trace_export_resumes_twice_refuted : exists E cfg fa s l k st sz,
  fresh_tokens E /\ try_from E cfg = Some fa /\ serves E cfg fa s /\ later (l ++ [InGrpc k st sz]) /\ answers_open_calls E fa (l ++ [InGrpc k st sz]) /\
  ~ terminated (f_log (run E fa (l ++ [InGrpc k st sz]))) /\ (forall a cl r, In (EvDispatch a cl r) (f_log (run E fa (l ++ [InGrpc k st sz]))) -> guard E cfg s a) /\
  (exists past, f_log (run E fa l) = EvResumeReq :: past) /\ exists past, f_log (run E fa (l ++ [InGrpc k st sz])) = EvResumeReq :: past.
Proof.
  exists Et, (tcfg ex111b), (tfac ex111b), (set_of ex111b), [InGrpc 0 0 0], 1%N, 0%N, 0%N.
  split; [intros l c k [= <-] H; apply next_token_above in H; Lia.lia|]. split; [vm_compute; reflexivity|]. split; [serve|]. split; [intros [H|[H|[]]]; discriminate|].
  split. { intros l1 k st sz l2 H. destruct l1 as [|x [|y [|? ?]]]; try discriminate; [injection H as <- <- <- <-; left; exists (nat_text 0); apply call_open_spec; find|].
    injection H as <- <- <- <- <-. right. apply export_open_spec. find. }
  split; [apply no_end_spec; vm_compute; reflexivity|].
  split. { intros a cl r H. assert (Hx : forallb (fun e => match e with EvDispatch a _ _ => text_eqb a (nat_text 0) | _ => true end) (f_log (run Et (tfac ex111b) ([InGrpc 0 0 0] ++ [InGrpc 1 0 0]))) = true) by (vm_compute; reflexivity).
    rewrite forallb_forall in Hx. apply Hx in H. apply text_eqb_eq in H as ->. right. eexists _, _. split; [vm_compute; reflexivity|]. split; [exists 0; eexists _, _; split; [reflexivity|]; split; [reflexivity|constructor]|reflexivity]. }
  split; [exists (tl (f_log (run Et (tfac ex111b) [InGrpc 0 0 0])))|exists (tl (f_log (run Et (tfac ex111b) ([InGrpc 0 0 0] ++ [InGrpc 1 0 0]))))]; vm_compute; reflexivity.
Qed.
Print Assumptions C111_trace_export_resumes_twice_refuted.
