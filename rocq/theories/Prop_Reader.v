(** C128: fields of the request body in the conditions and messages of calls. *)
From Coq Require Import String Ascii List NArith ZArith Bool Lia Arith.
From Verif Require Import Base Value Headers AttrPath Ctx CelProps CelEval Sse Body ValueBytes Tasks Exec Config Legacy Blueprint Factory Filter
  P_Frame P_Apply P_Exec P_Run P_Inv P_Ids P_Plan P_Deps P_Order P_Term P_Bar P_Cfg P_Hist P_Grow P_Wake P_Fail P_Head P_Eval P_Fed P_Told P_Eff P_Wait P_Scope
  Demo DemoCfg Prop_Order Prop_Term Prop_Guard Prop_Wake Prop_Fail Prop_Eval Prop_Know Prop_Body Prop_Fed Prop_Wait Prop_Seek.
From Verif Require Prop_Later.
Import ListNotations.
Open Scope list_scope.

(** * Specifications *)
(** one of the store actions of the set, nested ones included, asks for a field of the request body *)
Definition body_reader (E : env) (cfg : plugin_cfg) (s : action_set) : Prop :=
  exists a p tm g sq path v ex x f, has_action E cfg s a (mkT p tm g sq (OpStore path v ex)) /\ In x [p; v] /\ asks_for E SrcReq f x.
(** expressions are given a value for the field [f] of the request body *)
Definition req_known (f : text) (c : ctx) : Prop := tget f (b_vals (c_reqb c)) <> None.
(** what an action does to the outside: calls, replies, changes of headers and of the host's state *)
Definition effect (e : ev) : Prop :=
  match e with EvDispatch _ _ _ | EvReply _ _ _ _ | EvSetMap _ _ _ | EvSetProp _ _ _ | EvMetric MDenied => True | _ => False end.
(** the action whose turn it was last, unless that turn ended the request *)
Fixpoint turn (l : log) : option text :=
  match l with
  | [] => None
  | EvEval i :: _ => Some i
  | EvTerminate _ :: _ => None
  | _ :: l' => turn l'
  end.

(** * Lemmas *)
(** no store action among the nodes asks for the request body *)
Definition unread (l : list node) : Prop := forall id p x path ex tm, In (NStore id p x path ex tm) l -> ex_req p ++ ex_req x = [].
Definition silent (c : ctx) : Prop := b_vals (c_reqb c) = [].
Lemma unheard_silent c c' : unheard c c' -> silent c -> silent c'.
Proof. unfold silent. intros [-> _]. auto. Qed.
Lemma apply_silent E t : forall c o c', shaped t -> unread (nodes t) -> apply E t c = (o, c') -> silent c -> silent c'.
Proof.
  induction t as [id s var msg rs pred deps g|id s var rs g|id g|t IH b|t IH|id p tm|id p hx m tm|id p d tm|id p x path ex tm bs|st fs|]; intros c o c' Hsh Hu Ha;
    try (apply apply_unheard in Ha; exact (unheard_silent _ _ Ha)).
  - revert Ha. cbn [apply]. destruct (apply E t c) as [o1 c1] eqn:Ha. specialize (IH _ _ _ Hsh Hu Ha). destruct o1; intros [= <- <-]; exact IH.
  - revert Ha. cbn [apply]. destruct (apply E t c) as [o1 c1] eqn:Ha. specialize (IH _ _ _ Hsh Hu Ha). destruct o1; intros [= <- <-]; exact IH.
  - intros Hk. revert Ha. cbn [apply]. unfold apply_store. cbn [shaped] in Hsh.
    assert (KK : forall q c1 o c', silent c1 ->
      match feed_parser E SrcResp q c1 with
      | RPending => (ORequeued [TStore id p x path ex tm (BSActive SrcResp q)], c1)
      | RErr => (OFailed, c1)
      | RAvail (p', c') => store_value E (TStore id p x path ex tm (BSActive SrcResp p')) id p x path ex tm c'
      end = (o, c') -> silent c').
    { intros q c1 o0 c0 Hk1. destruct (feed_parser E SrcResp q c1) as [|[q' c2]|] eqn:Hp; try (intros [= <- <-]; exact Hk1).
      intros Hs. apply store_value_unheard in Hs. apply (unheard_silent _ _ Hs). revert Hp. unfold feed_parser. cbv zeta.
      destruct (_ && _); [discriminate|]. match goal with |- match ?y with _ => _ end = _ -> _ => destruct y as [|q1|] end; try discriminate.
      match goal with |- match ?y with _ => _ end = _ -> _ => destruct y as [q2|] end; try discriminate. intros [= <- <-]. exact Hk1. }
    assert (Hib : initial_body p x = BSNone \/ exists fs, initial_body p x = BSPending SrcResp fs).
    { unfold initial_body. rewrite (Hu id p x path ex tm (or_introl eq_refl)). destruct (ex_resp p ++ ex_resp x); eauto. }
    unfold bs_for in Hsh. destruct Hib as [Hib|(fs & Hib)]; rewrite Hib in Hsh.
    + subst bs. intros Hs. apply store_value_unheard in Hs. exact (unheard_silent _ _ Hs Hk).
    + destruct Hsh as [->|(q & -> & _)]; [|now apply KK].
      destruct (create_parser E SrcResp fs c) as [r c1] eqn:Hc.
      assert (Hx : silent c1).
      { revert Hc. unfold create_parser. destruct (read_headers E p_resp_headers c) as [r1 c2] eqn:Hr.
        apply read_headers_ext, ext_unheard in Hr. cbv zeta. destruct r1; intros [= _ <-]; exact (unheard_silent _ _ Hr Hk). }
      destruct r as [|q|]; try (intros [= <- <-]; exact Hx). now apply KK.
  - intros Hk. revert Ha. cbn [apply]. unfold apply_token. cbv zeta.
    assert (KK : forall s c1 o c', silent c1 -> match (if (0 <? b_size (c_respb c1))%N then
        match h_respbody E (c_log c1) 0 (b_size (c_respb c1)) with
        | HOk (Some bytes) => RAvail (st_feed bytes s) | HOk None => RAvail s | HNotAvail => RPending | HErr => RErr end else RAvail s) with
      | RPending => (ORequeued [TToken (Some s) fs], c1)
      | RErr => (OFailed, c1)
      | RAvail s' => if b_eos (c_respb c1) then (ODone, with_respb c1 (st_populate E fs s' (c_respb c1))) else (ORequeued [TToken (Some s') fs], c1)
      end = (o, c') -> silent c').
    { intros s c1 o0 c0 Hk1. match goal with |- match ?y with _ => _ end = _ -> _ => destruct y as [|s'|] end; try (intros [= <- <-]; exact Hk1).
      destruct (b_eos (c_respb c1)); intros [= <- <-]; exact Hk1. }
    destruct st as [s|]; [now apply KK|]. destruct (read_headers E p_resp_headers c) as [r c1] eqn:Hr. apply read_headers_ext, ext_unheard in Hr.
    pose proof (unheard_silent _ _ Hr Hk) as Hk1. destruct r as [|h|]; try (intros [= <- <-]; exact Hk1). now apply KK.
Qed.
Lemma step_silent E t c o c' : shaped t -> unread (nodes t) -> step E t c = (o, c') -> silent c -> silent c'.
Proof.
  unfold step. destruct (apply E t (emit (EvEval (t_id t)) c)) as [o1 c1] eqn:Ha. intros H1 H2 H Hk. apply apply_silent in Ha; auto.
  destruct o1; injection H as <- <-; exact Ha.
Qed.
Lemma final_plain t : is_final t -> shaped t /\ unread (nodes t) /\ match core t with TReply _ _ _ _ | TNoop => True | _ => False end.
Proof.
  induction t; cbn [is_final shaped nodes core]; intros Hf; try (destruct Hf as [Hf|Hf]; discriminate Hf); [now apply IHt| |].
  - split; [exact Logic.I|]. split; [|exact Logic.I]. intros ? ? ? ? ? ? [H|[]]. discriminate.
  - split; [exact Logic.I|]. split; [|exact Logic.I]. intros ? ? ? ? ? ? [].
Qed.
Lemma terminal_silent E t c : is_final t -> silent c -> silent (run_terminal E t c).
Proof.
  intros Hf Hk. unfold run_terminal. destruct (apply E t c) as [o c1] eqn:Ha. destruct (final_plain t Hf) as (H1 & H2 & _).
  exact (apply_silent _ _ _ _ _ H1 H2 Ha Hk).
Qed.
Lemma step_final E t c t' c' : step E t c = (OTerminate t', c') -> is_final t'.
Proof.
  unfold step. destruct (apply E t (emit (EvEval (t_id t)) c)) as [o1 c1] eqn:Ha. intros H. apply apply_summary in Ha as [_ _ _ Hs _].
  destruct o1; try discriminate. injection H as -> _. exact Hs.
Qed.
Lemma insert_silent k t p : silent (p_ctx p) -> silent (p_ctx (def_insert k t p)).
Proof. unfold def_insert. cbn [p_ctx]. destruct (nget k (p_def p)); auto. Qed.
Lemma estep_silent E ts p ts' p' : shapedI ts p -> unread (nodess (items ts p)) -> estep E ts p ts' p' -> silent (p_ctx p) -> silent (p_ctx p').
Proof.
  intros Hsh Hu Hs Hk.
  assert (HT : forall t, In t (items ts p) -> shaped t /\ unread (nodes t)).
  { intros t Ht. split; [eapply Forall_forall in Hsh; eauto|]. intros id q x path ex tm H. apply (Hu id q x path ex tm). apply in_flat_map. eauto. }
  destruct Hs as [p Hset|t ts p Hb|t ts p o c ts' p' Hb Hst Hn|tok st sz p Hset Hn|tok st sz t p o c Hset Hn Hst|p Hq Ht|a rest p Hq Hn Ht]; try exact Hk.
  - destruct (HT t (or_introl eq_refl)) as [H1 H2]. assert (Hf : forall t', o = OTerminate t' -> is_final t') by (intros t' ->; eapply step_final; exact Hst).
    apply step_silent in Hst; auto. unfold run_next in Hn. destruct o; injection Hn as <- <-; try exact Hst.
    + now apply insert_silent.
    + exact (terminal_silent E t0 c (Hf _ eq_refl) Hst).
  - assert (Hi : In t (items [] p)) by (unfold items, dts; apply in_or_app; right; apply in_or_app; right; apply nget_In in Hn; now apply (in_map snd) in Hn).
    destruct (HT t Hi) as [H1 H2]. assert (Hf : forall t', o = OTerminate t' -> is_final t') by (intros t' ->; eapply step_final; exact Hst).
    apply step_silent in Hst; auto; [|unfold set_grpc; destruct (c_grpc _); exact Hk]. unfold handle_next. destruct o; try exact Hst.
    + now apply insert_silent.
    + exact (terminal_silent E t0 c (Hf _ eq_refl) Hst).
  - assert (Hx : unheard (p_ctx p) (p_ctx (td_step E (p_with_td p rest) a))).
    { unfold td_step. destruct (td_exec E a (emit EvTeardown (p_ctx (p_with_td p rest)))) as [r c] eqn:Htd.
      assert (Hc : unheard (p_ctx p) c).
      { unfold td_exec in Htd. destruct (o_spans E _); [|injection Htd as <- <-; now split]. now apply dispatch_unheard in Htd. }
      destruct r as [k|]; [|exact Hc]. unfold def_insert. cbn. destruct (nget k (p_def p)); exact Hc. }
    exact (unheard_silent _ _ Hx Hk).
Qed.
(** the nodes of a set without readers *)
Lemma set_unread E cfg fa s p : serves E cfg fa s -> build E fa (ctx0 [EvReqHeaders]) = BOk p -> ~ body_reader E cfg s -> unread (nodess (p_queue p)).
Proof.
  intros Hs Hb Hn id pr x path ex tm Hi. destruct (store_node _ _ _ _ _ _ _ _ _ _ _ Hs Hb Hi) as (px & tmx & g & sq & y & Ha & Hp & Hy).
  destruct (ex_req pr) as [|f fs] eqn:H1; [destruct (ex_req x) as [|f fs] eqn:H2; [reflexivity|]|]; exfalso; apply Hn; exists id, px, tmx, g, sq, path, y, ex.
  - exists y, f. split; [exact Ha|]. split; [right; now left|]. apply (asked_iff E y x SrcReq f Hy). cbn [asked_of]. rewrite H2. now left.
  - exists px, f. split; [exact Ha|]. split; [now left|]. apply (asked_iff E px pr SrcReq f Hp). cbn [asked_of]. rewrite H1. now left.
Qed.
Lemma goes_unread E cfg fa s ts p : serves E cfg fa s -> ~ body_reader E cfg s -> goes E fa ts p -> unread (nodess (items ts p)).
Proof.
  intros Hs Hn Hg. destruct (reach_build _ _ _ _ Hg) as (p0 & Hb). pose proof (served_V _ _ _ _ _ Hs Hb _ _ Hg) as HV.
  intros id pr x path ex tm Hi. apply (set_unread E cfg fa s p0 Hs Hb Hn id pr x path ex tm). apply (b_nodes _ _ _ _ _ (v_b _ _ _ _ _ _ HV)). exact Hi.
Qed.
Lemma goes_silent E cfg fa s ts p : serves E cfg fa s -> ~ body_reader E cfg s -> goes E fa ts p -> silent (p_ctx p).
Proof.
  intros Hs Hn Hg. induction Hg as [p Hb|ts p ts' p' Hg IH Hst|p e Hg IH He|src n e p Hg IH].
  - pose proof (build_spec E fa (ctx0 [EvReqHeaders])) as Hsp. rewrite Hb in Hsp. destruct Hsp as (b & c1 & tds & _ & _ & _ & (_ & _ & _ & _ & _ & H & _) & _).
    unfold silent. cbn. rewrite H. reflexivity.
  - eapply estep_silent; eauto; [eapply shaped_goes; eauto|eapply goes_unread; eauto].
  - exact IH.
  - destruct src; exact IH.
Qed.
(** evaluating asks for what is not known *)
Lemma test_unasked E x vs c b vs' c' : silent c -> test_in E x vs c = (RAvail b, vs', c') -> ex_req x = [].
Proof.
  intros Hk. unfold test_in. destruct (eval_in E x vs c) as [[r vs1] c1] eqn:He. intros H. assert (exists v, r = RAvail v) as (v & ->) by (destruct r; try discriminate; eauto). clear H.
  pose proof (eval_in_ext _ _ _ _ _ _ _ He) as Hx. revert He. unfold eval_in. destruct (eval_vars E x vs c) as [[|vs2|] c2] eqn:Hv; try discriminate. intros [= _ _ <-].
  revert Hv. unfold eval_vars. destruct (data_map E x _) as [[|m|] c3]; try discriminate. destruct (request_value E x m c3) as [rv c4]. destruct (body_map (ex_resp x) _ _); [|discriminate].
  destruct (body_map (ex_req x) (c_reqb c4) []) as [qj|] eqn:Hb; [|discriminate]. intros [= _ <-].
  apply ext_unheard in Hx. pose proof (unheard_silent _ _ Hx Hk) as Hk2. unfold silent in Hk2.
  destruct (ex_req x) as [|f fs]; [reflexivity|]. cbn [body_map] in Hb. rewrite Hk2 in Hb. discriminate.
Qed.
Lemma eval_unasked E x vs c v vs' c' : silent c -> eval_in E x vs c = (RAvail v, vs', c') -> ex_req x = [].
Proof.
  intros Hk He. pose proof (eval_in_ext _ _ _ _ _ _ _ He) as Hx. revert He. unfold eval_in. destruct (eval_vars E x vs c) as [[|vs2|] c2] eqn:Hv; try discriminate. intros [= _ _ <-].
  revert Hv. unfold eval_vars. destruct (data_map E x _) as [[|m|] c3]; try discriminate. destruct (request_value E x m c3) as [rv c4]. destruct (body_map (ex_resp x) _ _); [|discriminate].
  destruct (body_map (ex_req x) (c_reqb c4) []) as [qj|] eqn:Hb; [|discriminate]. intros [= _ <-].
  apply ext_unheard in Hx. pose proof (unheard_silent _ _ Hx Hk) as Hk2. unfold silent in Hk2.
  destruct (ex_req x) as [|f fs]; [reflexivity|]. cbn [body_map] in Hb. rewrite Hk2 in Hb. discriminate.
Qed.
(** a call made by a task, no field of the request body being known *)
Definition bare_call (a : text) (t : task) : Prop := exists msg pred deps, In (NDyn a msg pred deps) (nodes t) /\ ex_req msg = [] /\ ex_req pred = [].
Lemma apply_bare E a cl r t : forall c o c', silent c -> apply E t c = (o, c') -> In (EvDispatch a cl r) (c_log c') -> In (EvDispatch a cl r) (c_log c) \/ bare_call a t.
Proof.
  assert (KK : forall t c o c', core t = t -> match t with TDynamic _ _ _ _ _ _ _ _ => False | _ => True end -> apply E t c = (o, c') -> In (EvDispatch a cl r) (c_log c') -> In (EvDispatch a cl r) (c_log c)).
  { clear t. intros t c o c' Hc Ht Ha Hi. apply apply_summary in Ha as [Hl _ _ _ _]. rewrite Hc in Hl.
    assert (K : (exists evs, grows c c' evs /\ Forall (quiet t) evs) -> In (EvDispatch a cl r) (c_log c)).
    { intros (evs & Hg & Hq). unfold grows in Hg. rewrite Hg in Hi. apply in_app_or in Hi as [Hi|Hi]; [|exact Hi]. exfalso.
      eapply Forall_forall in Hq; [|exact Hi]. unfold quiet in Hq. rewrite Hc in Hq. destruct r; [exact Hq|]. destruct Hq as [_ Hq]. destruct t; try exact Hq. exact Ht. }
    destruct o; try (destruct Hl as (evs & H1 & H2 & _); apply K; eauto; fail). destruct Hl as (cl' & _ & _ & _ & Hl). exfalso. destruct t; try exact Hl. exact Ht. }
  induction t as [id s var msg rs pred deps g|id s var rs g|id g|t IH b|t IH|id p tm|id p hx m tm|id p d tm|id p x path ex tm bs|st fs|]; intros c o c' Hk Ha Hi;
    try (left; refine (KK _ _ _ _ _ _ Ha Hi); [reflexivity|exact Logic.I]).
  - revert Ha. cbn [apply]. unfold apply_dynamic. destruct (test_in E pred _ c) as [[rr vs] c1] eqn:H1. pose proof (test_in_ext _ _ _ _ _ _ _ H1) as X1.
    assert (L1 : c_log c1 = c_log c) by exact (ext_log _ _ X1).
    destruct rr as [|[]|]; try (intros [= _ <-]; left; rewrite <- L1; exact Hi).
    destruct (eval_in E msg _ c1) as [[r2 vs2] c2] eqn:H2. pose proof (eval_in_ext _ _ _ _ _ _ _ H2) as X2. assert (L2 : c_log c2 = c_log c) by (rewrite (ext_log _ _ X2); exact L1).
    destruct r2 as [|v|]; try (intros [= _ <-]; left; rewrite <- L2; exact Hi). destruct (o_encode E _ s v) as [bytes|]; [|intros [= _ <-]; left; rewrite <- L2; exact Hi].
    pose proof (test_unasked _ _ _ _ _ _ _ Hk H1) as A1. pose proof (eval_unasked _ _ _ _ _ _ _ (unheard_silent _ _ (ext_unheard _ _ X1) Hk) H2) as A2.
    intros Hd. destruct (dispatch E (EvDispatch id) _ _ _ bytes _ c2) as [r3 c3] eqn:H3.
    assert (Hc : exists w, c_log c3 = EvDispatch id w r3 :: c_log c2).
    { apply dispatch_spec in H3 as (w & c4 & Hr & -> & _). exists w. cbn [emit with_log c_log]. f_equal. exact (xrid_log _ _ Hr). }
    destruct Hc as (w & Hc). assert (Hl : c_log c' = EvDispatch id w r3 :: c_log c) by (rewrite <- L2, <- Hc; destruct r3; injection Hd as _ <-; [destruct g|]; reflexivity).
    rewrite Hl in Hi. destruct Hi as [Hi|Hi]; [|now left]. injection Hi as -> _ _. right. exists msg, pred, deps. split; [right; now left|now split].
  - revert Ha. cbn [apply]. destruct (apply E t c) as [o1 c1] eqn:Ha. pose proof (IH _ _ _ Hk Ha) as H.
    destruct o1; intros [= _ <-]; apply H; try exact Hi; destruct Hi as [Hi|Hi]; try discriminate Hi; exact Hi.
  - revert Ha. cbn [apply]. destruct (apply E t c) as [o1 c1] eqn:Ha. pose proof (IH _ _ _ Hk Ha) as H.
    destruct o1; intros [= _ <-]; apply H; try exact Hi; destruct Hi as [Hi|Hi]; try discriminate Hi; exact Hi.
Qed.
Lemma step_bare E a cl r t c o c' : silent c -> step E t c = (o, c') -> In (EvDispatch a cl r) (c_log c') -> In (EvDispatch a cl r) (c_log c) \/ bare_call a t.
Proof.
  unfold step. destruct (apply E t (emit (EvEval (t_id t)) c)) as [o1 c1] eqn:Ha. intros Hk H Hi.
  assert (Hi1 : In (EvDispatch a cl r) (c_log c1)).
  { destruct o1; injection H as _ <-; try exact Hi; destruct Hi as [Hi|Hi]; try discriminate Hi; exact Hi. }
  destruct (apply_bare E a cl r t _ _ _ (Hk : silent (emit (EvEval (t_id t)) c)) Ha Hi1) as [[Hd|Hd]|Hd]; [discriminate|auto|auto].
Qed.
Lemma terminal_bare E a cl r t c : is_final t -> In (EvDispatch a cl r) (c_log (run_terminal E t c)) -> In (EvDispatch a cl r) (c_log c).
Proof.
  intros Hf. unfold run_terminal. destruct (apply E t c) as [o c1] eqn:Ha. change (c_log (drop_tasks ?l ?y)) with (c_log y).
  destruct (final_plain t Hf) as (_ & _ & Hc). apply apply_summary in Ha as [Hl _ _ _ _]. intros Hi.
  assert (K : (exists evs, grows c c1 evs /\ Forall (quiet t) evs) -> In (EvDispatch a cl r) (c_log c)).
  { intros (evs & Hg & Hq). unfold grows in Hg. rewrite Hg in Hi. apply in_app_or in Hi as [Hi|Hi]; [|exact Hi]. exfalso.
    eapply Forall_forall in Hq; [|exact Hi]. unfold quiet in Hq. destruct r; [exact Hq|]. destruct Hq as [_ Hq]. now destruct (core t). }
  destruct o; try (destruct Hl as (evs & H1 & H2 & _); apply K; eauto; fail). destruct Hl as (cl' & _ & _ & _ & Hl). exfalso. now destruct (core t).
Qed.
Lemma insert_log k t p : c_log (p_ctx (def_insert k t p)) = c_log (p_ctx p).
Proof. unfold def_insert. cbn [p_ctx]. now destruct (nget k (p_def p)). Qed.
Lemma estep_bare E a cl r ts p ts' p' : silent (p_ctx p) -> estep E ts p ts' p' -> In (EvDispatch a cl r) (c_log (p_ctx p')) ->
  In (EvDispatch a cl r) (c_log (p_ctx p)) \/ exists t, In t (items ts p) /\ bare_call a t.
Proof.
  intros Hk Hs.
  destruct Hs as [p Hset|t ts p Hb|t ts p o c ts' p' Hb Hst Hn|tok st sz p Hset Hn|tok st sz t p o c Hset Hn Hst|p Hq Ht|a0 rest p Hq Hn Ht]; intros Hi; try (left; exact Hi).
  - assert (Hf : forall t', o = OTerminate t' -> is_final t') by (intros t' ->; eapply step_final; exact Hst).
    assert (Hi1 : In (EvDispatch a cl r) (c_log c)).
    { unfold run_next in Hn. destruct o; injection Hn as <- <-; try exact Hi.
      - rewrite insert_log in Hi. exact Hi.
      - exact (terminal_bare E a cl r _ c (Hf _ eq_refl) Hi). }
    destruct (step_bare E a cl r t _ _ _ Hk Hst Hi1) as [H|H]; [now left|right]. exists t. split; [now left|exact H].
  - destruct Hi as [Hi|Hi]; [discriminate|now left].
  - assert (Hf : forall t', o = OTerminate t' -> is_final t') by (intros t' ->; eapply step_final; exact Hst).
    assert (Hi1 : In (EvDispatch a cl r) (c_log c)).
    { unfold handle_next in Hi. destruct o; try exact Hi.
      - rewrite insert_log in Hi. exact Hi.
      - destruct Hi as [Hi|Hi]; [discriminate|exact Hi].
      - exact (terminal_bare E a cl r _ c (Hf _ eq_refl) Hi). }
    assert (Hit : In t (items [] p)) by (unfold items, dts; apply in_or_app; right; apply in_or_app; right; apply nget_In in Hn; now apply (in_map snd) in Hn).
    eapply step_bare in Hst; [|unfold set_grpc; destruct (c_grpc _); exact Hk|exact Hi1]. destruct Hst as [H|H]; [|right; eauto].
    left. unfold set_grpc in H. destruct (c_grpc _); cbn in H; repeat (destruct H as [H|H]; [discriminate H|]); exact H.
  - destruct (td_sum E a0 (p_with_td p rest)) as (evs & tok & T1 & T2 & _). rewrite T1 in Hi. apply in_app_or in Hi as [Hi|[Hi|Hi]]; [exfalso|discriminate|now left].
    destruct T2 as [[-> _]|(w & -> & _)]; [exact Hi|]. destruct Hi as [Hi|[]]. discriminate.
Qed.
Lemma goes_bare E cfg fa s ts p p0 a cl r : serves E cfg fa s -> ~ body_reader E cfg s -> build E fa (ctx0 [EvReqHeaders]) = BOk p0 -> goes E fa ts p ->
  In (EvDispatch a cl r) (c_log (p_ctx p)) -> exists msg pred deps, In (NDyn a msg pred deps) (nodess (p_queue p0)) /\ ex_req msg = [] /\ ex_req pred = [].
Proof.
  intros Hs Hn Hb Hg. induction Hg as [p Hb'|ts p ts' p' Hg IH Hst|p e Hg IH He|src n e p Hg IH]; intros Hi.
  - exfalso. pose proof (build_spec E fa (ctx0 [EvReqHeaders])) as Hsp. rewrite Hb' in Hsp. destruct Hsp as (b & c1 & tds & _ & _ & _ & (H & _) & _).
    cbn in Hi. rewrite H in Hi. cbn in Hi. intuition discriminate.
  - destruct (estep_bare E a cl r _ _ _ _ (goes_silent _ _ _ _ _ _ Hs Hn Hg) Hst Hi) as [H|(t & Ht & msg & pred & deps & H1 & H2)]; [auto|].
    exists msg, pred, deps. split; [|exact H2]. pose proof (served_V _ _ _ _ _ Hs Hb _ _ Hg) as HV. apply (b_nodes _ _ _ _ _ (v_b _ _ _ _ _ _ HV)). apply in_flat_map. eauto.
  - apply IH. destruct Hi as [->|Hi]; [destruct He|exact Hi].
  - apply IH. destruct src, Hi as [Hi|Hi]; try discriminate; exact Hi.
Qed.

(** ** no effects *)
Definition harmless (e : ev) : Prop := ~ effect e.
Definition calm (evs : list ev) : Prop := Forall (fun e => match e with EvEval _ => False | _ => True end) evs.
Definition inert (a : text) (l : log) : Prop := forall e past, occurs l e past -> turn past = Some a -> harmless e.
Lemma inert_cons a e l : inert a l -> harmless e \/ turn l <> Some a -> inert a (e :: l).
Proof.
  intros Hl He x past ([|y after] & H) Ht; cbn in H; injection H as -> Hx.
  - destruct He as [He|He]; [exact He|]. exfalso. apply He. now rewrite Hx.
  - apply (Hl x past); [now exists after|exact Ht].
Qed.
Lemma inert_harmless a evs l : inert a l -> Forall harmless evs -> inert a (evs ++ l).
Proof. intros Hl. induction 1 as [|e evs He _ IH]; [exact Hl|]. cbn. apply inert_cons; auto. Qed.
Lemma inert_calm a evs l : inert a l -> calm evs -> turn l <> Some a -> inert a (evs ++ l) /\ turn (evs ++ l) <> Some a.
Proof.
  intros Hl Hc Hh. induction Hc as [|e evs He _ [IH1 IH2]]; [now split|]. cbn. split; [apply inert_cons; auto|]. destruct e; try exact IH2; [destruct He|discriminate].
Qed.
Lemma turn_none l : (forall i, ~ In (EvEval i) l) -> turn l = None.
Proof. induction l as [|e l IH]; [reflexivity|]. intros H. cbn. destruct e; try (apply IH; intros i Hi; apply (H i); now right); [|reflexivity]. exfalso. eapply H. now left. Qed.
Lemma quiet_calm t evs : Forall (quiet t) evs -> calm evs.
Proof. apply Forall_impl. intros e. now destruct e. Qed.
Lemma apply_events E t c o c' : apply E t c = (o, c') -> exists evs, c_log c' = evs ++ c_log c /\ calm evs /\
  (match core t with TDynamic _ _ _ _ _ _ _ _ | THeaders _ _ _ _ _ | TReply _ _ _ _ | TStore _ _ _ _ _ _ _ => True | _ => Forall harmless evs end).
Proof.
  intros Ha. apply apply_summary in Ha as [Hl _ _ _ _].
  assert (K : (exists evs, grows c c' evs /\ Forall (quiet t) evs) -> exists evs, c_log c' = evs ++ c_log c /\ calm evs /\
    (match core t with TDynamic _ _ _ _ _ _ _ _ | THeaders _ _ _ _ _ | TReply _ _ _ _ | TStore _ _ _ _ _ _ _ => True | _ => Forall harmless evs end)).
  { intros (evs & Hg & Hq). exists evs. split; [exact Hg|]. split; [eapply quiet_calm; exact Hq|].
    assert (Q : match core t with TDynamic _ _ _ _ _ _ _ _ | THeaders _ _ _ _ _ | TReply _ _ _ _ | TStore _ _ _ _ _ _ _ => False | _ => True end -> Forall harmless evs).
    { intros Hc. revert Hq. apply Forall_impl. intros e. unfold quiet, harmless, effect. destruct (core t); destruct e; try easy; try (destruct m; easy); destruct tok; try easy; now intros [_ []]. }
    destruct (core t); auto. }
  destruct o; try (destruct Hl as (evs & H1 & H2 & _); apply K; eauto; fail).
  destruct Hl as (cl & H1 & _ & _ & H2). exists [EvDispatch (t_id t) cl (Some tok)]. split; [exact H1|]. split; [repeat constructor|]. destruct (core t); try destruct H2; exact Logic.I.
Qed.
(** the task asks for a field of the request body *)
Definition asking (t : task) : Prop :=
  match core t with
  | TDynamic _ _ _ msg _ pred _ _ => ex_req pred ++ ex_req msg <> []
  | THeaders _ pred h _ _ => ex_req pred ++ ex_req h <> []
  | TReply _ pred d _ => ex_req pred ++ ex_req d <> []
  | TStore _ _ _ _ _ _ _ => False
  | _ => True
  end.
Lemma apply_harmless E t : forall c o c', silent c -> asking t -> apply E t c = (o, c') -> exists evs, c_log c' = evs ++ c_log c /\ Forall harmless evs.
Proof.
  assert (EXT : forall c c1, ext c c1 -> exists evs, c_log c1 = evs ++ c_log c /\ Forall harmless evs) by (intros c c1 H; exists []; split; [exact (ext_log _ _ H)|constructor]).
  induction t as [id s var msg rs pred deps g|id s var rs g|id g|t IH b|t IH|id p tm|id p hx m tm|id p d tm|id p x path ex tm bs|st fs|]; intros c o c' Hk Ha H;
    try (pose proof (apply_events _ _ _ _ _ H) as (evs & H1 & _ & H2); exists evs; now split).
  - cbn [asking core] in Ha. revert H. cbn [apply]. unfold apply_dynamic. destruct (test_in E pred _ c) as [[r vs] c1] eqn:H1. pose proof (test_in_ext _ _ _ _ _ _ _ H1) as X1.
    destruct r as [|[]|]; try (intros [= _ <-]; now apply EXT). pose proof (test_unasked _ _ _ _ _ _ _ Hk H1) as A1.
    destruct (eval_in E msg _ c1) as [[r2 vs2] c2] eqn:H2. pose proof (eval_in_ext _ _ _ _ _ _ _ H2) as X2.
    destruct r2 as [|v|]; try (intros [= _ <-]; apply EXT; exact (ext_trans _ _ _ X1 X2)).
    exfalso. apply Ha. rewrite A1. exact (eval_unasked _ _ _ _ _ _ _ (unheard_silent _ _ (ext_unheard _ _ X1) Hk) H2).
  - revert H. cbn [apply]. destruct (apply E t c) as [o1 c1] eqn:H. destruct (IH _ _ _ Hk Ha H) as (evs & G1 & G2).
    destruct o1; intros [= _ <-]; try (exists evs; now split). exists (EvMetric MErrors :: evs). split; [cbn; now rewrite G1|]. constructor; [easy|exact G2].
  - revert H. cbn [apply]. destruct (apply E t c) as [o1 c1] eqn:H. destruct (IH _ _ _ Hk Ha H) as (evs & G1 & G2).
    destruct o1; intros [= _ <-]; exists evs; now split.
  - cbn [asking core] in Ha. revert H. cbn [apply]. unfold apply_headers. destruct (test_in E p _ c) as [[r vs] c1] eqn:H1. pose proof (test_in_ext _ _ _ _ _ _ _ H1) as X1.
    destruct r as [|[]|]; try (intros [= _ <-]; now apply EXT). pose proof (test_unasked _ _ _ _ _ _ _ Hk H1) as A1.
    destruct (eval_in E hx vs c1) as [[r2 vs2] c2] eqn:H2. pose proof (eval_in_ext _ _ _ _ _ _ _ H2) as X2.
    destruct r2 as [|v|]; try (intros [= _ <-]; apply EXT; exact (ext_trans _ _ _ X1 X2)).
    exfalso. apply Ha. rewrite A1. exact (eval_unasked _ _ _ _ _ _ _ (unheard_silent _ _ (ext_unheard _ _ X1) Hk) H2).
  - cbn [asking core] in Ha. revert H. cbn [apply]. unfold apply_reply. destruct (test_in E p _ c) as [[r vs] c1] eqn:H1. pose proof (test_in_ext _ _ _ _ _ _ _ H1) as X1.
    destruct r as [|[]|]; try (intros [= _ <-]; now apply EXT). pose proof (test_unasked _ _ _ _ _ _ _ Hk H1) as A1.
    destruct (eval_in E d vs c1) as [[r2 vs2] c2] eqn:H2. pose proof (eval_in_ext _ _ _ _ _ _ _ H2) as X2.
    destruct r2 as [|v|]; try (intros [= _ <-]; apply EXT; exact (ext_trans _ _ _ X1 X2)).
    exfalso. apply Ha. rewrite A1. exact (eval_unasked _ _ _ _ _ _ _ (unheard_silent _ _ (ext_unheard _ _ X1) Hk) H2).
Qed.
Lemma step_inert E a t c o c' : silent c -> (t_id t = a -> asking t) -> step E t c = (o, c') -> inert a (c_log c) ->
  inert a (c_log c') /\ ((exists k, o = OTerminate k) -> turn (c_log c') = None).
Proof.
  intros Hk Ht. unfold step. destruct (apply E t (emit (EvEval (t_id t)) c)) as [o1 c1] eqn:Ha. intros Hs Hi.
  assert (H0 : inert a (EvEval (t_id t) :: c_log c)) by (apply inert_cons; [exact Hi|left; easy]).
  assert (H1 : inert a (c_log c1)).
  { destruct (text_eq_dec (t_id t) a) as [He|He].
    - destruct (apply_harmless E t _ _ _ (Hk : silent (emit (EvEval (t_id t)) c)) (Ht He) Ha) as (evs & -> & G). now apply inert_harmless.
    - destruct (apply_events _ _ _ _ _ Ha) as (evs & -> & G & _). apply inert_calm; [exact H0|exact G|]. cbn. intros [= H]. now apply He. }
  destruct o1; injection Hs as <- <-; (split; [|intros (k & Hx); try discriminate Hx; reflexivity]); try exact H1; cbn; apply inert_cons; auto; left; easy.
Qed.
Lemma terminal_inert E a t c : is_final t -> inert a (c_log c) -> turn (c_log c) <> Some a -> inert a (c_log (run_terminal E t c)).
Proof.
  intros Hf Hi Hh. unfold run_terminal. destruct (apply E t c) as [o c1] eqn:Ha. change (c_log (drop_tasks ?l ?y)) with (c_log y).
  destruct (apply_events _ _ _ _ _ Ha) as (evs & -> & G & _). now apply inert_calm.
Qed.
Lemma estep_inert E a ts p ts' p' : silent (p_ctx p) -> (forall t ts0, ts = t :: ts0 -> t_id t = a -> asking t) ->
  Forall wf_d (dts p) -> estep E ts p ts' p' -> inert a (c_log (p_ctx p)) -> inert a (c_log (p_ctx p')).
Proof.
  intros Hk Hask Hwd Hs Hi.
  destruct Hs as [p Hset|t ts p Hb|t ts p o c ts' p' Hb Hst Hn|tok st sz p Hset Hn|tok st sz t p o c Hset Hn Hst|p Hq Ht|a0 rest p Hq Hn Ht]; try exact Hi.
  - assert (Hf : forall t', o = OTerminate t' -> is_final t') by (intros t' ->; eapply step_final; exact Hst).
    destruct (step_inert E a t _ _ _ Hk (Hask t ts eq_refl) Hst Hi) as [H1 H2].
    unfold run_next in Hn. destruct o; injection Hn as <- <-; try exact H1.
    + rewrite insert_log. exact H1.
    + apply (terminal_inert E a t0 c (Hf _ eq_refl) H1). rewrite H2 by eauto. discriminate.
  - cbn. apply inert_cons; [exact Hi|left; easy].
  - assert (Hf : forall t', o = OTerminate t' -> is_final t') by (intros t' ->; eapply step_final; exact Hst).
    assert (Hwt : wf_d t) by (eapply Forall_nget; [exact Hwd|exact Hn]).
    assert (Hat : asking t) by (unfold asking; destruct Hwt as [Hwt|Hwt]; [now destruct t|]; unfold wf_p in Hwt; destruct (core t); try destruct Hwt; exact Logic.I).
    assert (Hsi : silent (emit (EvHandle tok (t_id t)) (set_grpc st sz (emit (EvGrpcResp tok st sz) (p_ctx p))))) by (unfold set_grpc; destruct (c_grpc _); exact Hk).
    destruct (step_inert E a t _ _ _ Hsi (fun _ => Hat) Hst) as [H1 H2].
    { unfold set_grpc. destruct (c_grpc _); cbn; repeat (apply inert_cons; [|left; easy]); exact Hi. }
    unfold handle_next. destruct o; try exact H1.
    + rewrite insert_log. exact H1.
    + cbn. apply inert_cons; [exact H1|left; easy].
    + apply (terminal_inert E a _ c (Hf _ eq_refl) H1). rewrite H2 by eauto. discriminate.
  - destruct (td_sum E a0 (p_with_td p rest)) as (evs & tok & T1 & T2 & _). rewrite T1. apply inert_harmless; [apply inert_cons; [exact Hi|left; easy]|].
    destruct T2 as [[-> _]|(w & -> & _)]; repeat constructor; easy.
Qed.

Lemma asks_some E x e f : parse_expr E x = Some e -> asks_for E SrcReq f x -> In f (ex_req e).
Proof. intros Hx. exact (proj2 (asked_iff E x e SrcReq f Hx)). Qed.
Lemma action_asking E cfg fa s t ts p y x f : serves E cfg fa s -> ~ body_reader E cfg s -> goes E fa (t :: ts) p ->
  has_action E cfg s (t_id t) y -> In x (texts y) -> asks_for E SrcReq f x -> asking t.
Proof.
  intros Hs Hn Hg (svs & Hsv & Ha) Hx Hf. destruct (reach_build _ _ _ _ Hg) as (p0 & Hb). pose proof (served_V _ _ _ _ _ Hs Hb _ _ Hg) as HV.
  assert (HD : forall nd, In nd (nodes (core t)) -> n_id nd = t_id t -> describes E svs (t_id t) y nd).
  { intros nd Hi Hid. destruct y as [px tm g sq op]. apply (action_node _ _ _ _ _ _ _ _ _ _ _ _ Hsv Hs Hb Ha); [|exact Hid].
    apply (b_nodes _ _ _ _ _ (v_b _ _ _ _ _ _ HV)). apply in_flat_map. exists t. split; [now left|]. now rewrite <- nodes_core. }
  assert (NE : forall (a b : list text), In f a \/ In f b -> a ++ b <> []) by (intros a b H E0; apply app_eq_nil in E0 as [-> ->]; destruct H as [[]|[]]).
  unfold asking. rewrite <- (core_id t) in HD. rewrite <- (core_id t) in Ha. destruct y as [px tm g sq op].
  destruct (core t) as [id sv var msg rs pred deps g0|id sv var rs g0|id g0|u b|u|id pred tm0|id pred hx tg tm0|id pred deny tm0|id pred ex path export tm0 bs|st fs|]; try exact Logic.I.
  - destruct (HD _ (or_intror (or_introl eq_refl)) eq_refl) as (pe & Hpe & Hd). destruct op; try destruct Hd. destruct H0 as [-> Hm]. apply NE.
    destruct Hx as [<-|[<-|[]]]; [left; eapply asks_some; eauto|right; eapply asks_some; eauto].
  - destruct (HD _ (or_introl eq_refl) eq_refl) as (pe & Hpe & Hd). destruct op; try destruct Hd. destruct H0 as (-> & Hm & _). apply NE.
    destruct Hx as [<-|[<-|[]]]; [left; eapply asks_some; eauto|right; eapply asks_some; eauto].
  - destruct (HD _ (or_introl eq_refl) eq_refl) as (pe & Hpe & Hd). destruct op; try destruct Hd. destruct H0 as (-> & Hm & _). apply NE.
    destruct Hx as [<-|[<-|[]]]; [left; eapply asks_some; eauto|right; eapply asks_some; eauto].
  - destruct (HD _ (or_introl eq_refl) eq_refl) as (pe & Hpe & Hd). destruct op; try destruct Hd. apply Hn.
    eexists _, px, tm, g, sq, _, _, _, x, f. split; [exists svs; split; [exact Hsv|exact Ha]|]. split; [exact Hx|exact Hf].
Qed.
Lemma goes_inert E cfg fa s ts p a y x f : try_from E cfg = Some fa -> serves E cfg fa s -> ~ body_reader E cfg s -> has_action E cfg s a y -> In x (texts y) -> asks_for E SrcReq f x ->
  goes E fa ts p -> inert a (c_log (p_ctx p)).
Proof.
  intros Ht Hs Hn Ha Hx Hf Hg. induction Hg as [p Hb|ts p ts' p' Hg IH Hst|p e Hg IH He|src n e p Hg IH].
  - pose proof (build_spec E fa (ctx0 [EvReqHeaders])) as Hsp. rewrite Hb in Hsp. destruct Hsp as (b & c1 & tds & _ & _ & _ & (H & _) & _).
    intros e past (after & Hx') Htu. cbn in Hx'. rewrite H in Hx'. exfalso. rewrite turn_none in Htu; [discriminate Htu|].
    intros i Hi. assert (Hi' : In (EvEval i) (after ++ e :: past)) by (apply in_or_app; right; now right). rewrite <- Hx' in Hi'. cbn in Hi'. intuition discriminate.
  - eapply estep_inert; [eapply goes_silent; eauto| |exact (w_def _ _ (P_Ids.j_w _ _ (Prop_Later.goes_J _ _ _ _ _ Ht Hg)))|exact Hst|exact IH].
    intros t ts0 -> Hid. subst a. eapply action_asking; eauto.
  - cbn. apply inert_cons; [exact IH|left]. destruct e; try destruct He; try (intros []; fail). destruct m; try destruct He; intros [].
  - destruct src; (apply inert_cons; [exact IH|left; intros []]).
Qed.

(** * C128 *)
(** In every state of a request, no expression is given a field of its body unless a store action of the set asks for
    (some field of) it: no other action reads the body. *)
Theorem C128_only_store_actions_read_the_request_body : forall E cfg fa s ts p f,
  serves E cfg fa s -> ~ body_reader E cfg s -> goes E fa ts p -> ~ req_known f (p_ctx p).
Proof.
  intros E cfg fa s ts p f Hs Hn Hg Hk. apply Hk. pose proof (goes_silent _ _ _ _ _ _ Hs Hn Hg) as H. unfold silent in H. now rewrite H.
Qed.
Print Assumptions C128_only_store_actions_read_the_request_body.
(** … and a call whose condition or message asks for such a field is not made, whatever the body is. *)
Theorem C128_no_call_without_a_reader : forall E cfg fa s a c tm g sq var service msg rs x f l cl r,
  serves E cfg fa s -> ~ body_reader E cfg s -> has_action E cfg s a (mkT c tm g sq (OpGrpc var service msg rs)) ->
  In x [c; msg] -> asks_for E SrcReq f x -> later l -> ~ In (EvDispatch a cl r) (f_log (run E fa l)).
Proof.
  intros E cfg fa s a c tm g sq var service msg rs x f l cl r Hs Hn (svs & Hsv & Ha) Hx Hf Hl.
  assert (HG : forall ts p, goes E fa ts p -> ~ In (EvDispatch a cl r) (c_log (p_ctx p))).
  { intros ts p Hg Hi. destruct (reach_build _ _ _ _ Hg) as (p0 & Hb). destruct (goes_bare _ _ _ _ _ _ _ _ _ _ Hs Hn Hb Hg Hi) as (m & pr & d & H1 & H2 & H3).
    destruct (action_node _ _ _ _ _ _ _ _ _ _ _ _ Hsv Hs Hb Ha _ H1 eq_refl) as (pe & Hpe & _ & <- & Hm).
    destruct Hx as [<-|[<-|[]]].
    - apply (asked_iff E c pr SrcReq f Hpe) in Hf. cbn [asked_of] in Hf. rewrite H3 in Hf. exact Hf.
    - apply (asked_iff E msg m SrcReq f Hm) in Hf. cbn [asked_of] in Hf. rewrite H2 in Hf. exact Hf. }
  assert (HL : finvb E (goes E fa) (fun h => ~ In (EvDispatch a cl r) h)).
  { destruct (reach_finv E fa) as [F1 F2 F3 _ _]. constructor; auto.
    - intros p Hg _ _ _ _. now apply (HG [] p).
    - intros h e He Hh [->|Hi]; [|now apply Hh]. destruct He as [[]|(k & st & sz & He)]. discriminate. }
  assert (Hno : P_Run.holds (goes E fa) (fun h => ~ In (EvDispatch a cl r) h) (run E fa l)).
  { apply request_invariant_b; [exact HL|exact (P_Told.re_start E fa)|cbn; intuition discriminate|cbn; intuition discriminate|intros ok; cbn; intuition discriminate|exact Hl]. }
  eapply (P_Run.holds_log (goes E fa)) in Hno; [exact Hno|]. intros p Hg. exact (HG [] p Hg).
Qed.
Print Assumptions C128_no_call_without_a_reader.
(** … and in general an action of which an expression asks for such a field has no effect of its own: until the next
    action takes its turn there is no call, no change of the headers or of the host's state, no reply and no denial
    counted, unless the failure to evaluate it ends the request. *)
Theorem C128_no_effect_without_a_reader : forall E cfg fa s a y x f l e past,
  try_from E cfg = Some fa -> serves E cfg fa s -> ~ body_reader E cfg s -> has_action E cfg s a y -> In x (texts y) -> asks_for E SrcReq f x -> later l ->
  occurs (f_log (run E fa l)) e past -> turn past = Some a -> ~ effect e.
Proof.
  intros E cfg fa s a y x f l e past Ht Hs Hn Ha Hx Hf Hl.
  assert (HG : forall ts p, goes E fa ts p -> inert a (c_log (p_ctx p))) by (intros ts p Hg; eapply goes_inert; eauto).
  assert (HL : finvb E (goes E fa) (inert a)).
  { destruct (reach_finv E fa) as [F1 F2 F3 _ _]. constructor; auto.
    - intros p Hg _ _ _ _. now apply (HG [] p).
    - intros h e0 He Hh. apply inert_cons; [exact Hh|left]. destruct He as [He|(k & st & sz & ->)]; [|intros []].
      destruct e0; try destruct He; try (intros []; fail). destruct m; try destruct He; intros []. }
  assert (K0 : forall l0, (forall i, ~ In (EvEval i) l0) -> inert a l0).
  { intros l0 H0 e0 past0 (after & ->) Htu. exfalso. rewrite turn_none in Htu; [discriminate Htu|]. intros i Hi. apply (H0 i). apply in_or_app. right. now right. }
  assert (Hno : P_Run.holds (goes E fa) (inert a) (run E fa l)).
  { apply request_invariant_b; [exact HL|exact (P_Told.re_start E fa)| | | |exact Hl]; try (intros ok); apply K0; cbn; intuition discriminate. }
  eapply (P_Run.holds_log (goes E fa)) in Hno; [exact (Hno e past)|]. intros p Hg. exact (HG [] p Hg).
Qed.
Print Assumptions C128_no_effect_without_a_reader.
(** The README documents such a call (README.md:137-181). The body is JSON, all of it is there, and it has the field:
    the call is not made, and processing is over. The same call is made if a store action asks for that field. *)
Definition call128 : taction := mkT (tx "true") false true true (OpGrpc (tx "r") (tx "soft") (tx "reqbody") []).
Definition ex128 : list action_cfg := [CTyped call128].
Definition ex128s : list action_cfg := [dstore "reqbody"; CTyped call128].
Definition reqb : list fin := [InReqBody 3 false; InReqBody 6 true].
Theorem C128_documented_use_refuted : exists E cfg fa s a c tm g sq var service msg rs f l body j w,
  try_from E cfg = Some fa /\ serves E cfg fa s /\ has_action E cfg s a (mkT c tm g sq (OpGrpc var service msg rs)) /\ asks_for E SrcReq f msg /\ later l /\
  (forall h, h_reqbody E h 0 6 = HOk (Some body)) /\ o_json E body = Some j /\ o_pointer E j f = Some (JStr w) /\ ended SrcReq (f_log (run E fa l)) /\
  f_pipe (run E fa l) = None /\ (forall cl r, ~ In (EvDispatch a cl r) (f_log (run E fa l))) /\ In (EvFailed a) (f_log (run E fa l)).
Proof.
  exists Ej, (dcfg ex128), (dfac Ej ex128), (set_of ex128), (tx "0"), (tx "true"), false, true, true, (tx "r"), (tx "soft"), (tx "reqbody"), [], (tx "/a"), reqb, doc, (JStr doc), (tx "ok").
  split; [vm_compute; reflexivity|]. split; [serve|]. split; [acts 0|]. split; [eexists; split; [vm_compute; reflexivity|]; apply (as_here SrcReq)|].
  split; [intros H; vm_compute in H; intuition discriminate|]. split; [intros h; vm_compute; reflexivity|]. split; [vm_compute; reflexivity|]. split; [vm_compute; reflexivity|].
  split; [vm_compute; reflexivity|]. split; [vm_compute; reflexivity|]. split; [intros cl r H; vm_compute in H; intuition discriminate|find].
Qed.
Print Assumptions C128_documented_use_refuted.
(** A deny action whose condition asks for a field of the request body is not decided either: the whole request is passed
    on, although the field is there, and when the response ends it is held, the action still waiting. *)
Definition deny128 : taction := ddeny "reqbody" true true.
Definition exch : list fin := reqb ++ [InRespHeaders; InRespBody 6 true].
Theorem C128_denials_about_the_request_body_refuted : exists E cfg fa s a c tm g sq d f body j w,
  try_from E cfg = Some fa /\ serves E cfg fa s /\ has_action E cfg s a (mkT c tm g sq (OpDeny d)) /\ asks_for E SrcReq f c /\
  (forall h, h_reqbody E h 0 6 = HOk (Some body)) /\ o_json E body = Some j /\ o_pointer E j f = Some (JStr w) /\ later exch /\
  ended SrcReq (f_log (run E fa reqb)) /\ hd_error (f_log (run E fa reqb)) = Some (EvRet false) /\ waiting (f_log (run E fa reqb)) a /\
  hd_error (f_log (run E fa exch)) = Some (EvRet true) /\ waiting (f_log (run E fa exch)) a /\
  (forall st hd b ok, ~ In (EvReply st hd b ok) (f_log (run E fa exch))).
Proof.
  exists Ej, (dcfg [CTyped deny128]), (dfac Ej [CTyped deny128]), (set_of [CTyped deny128]), (tx "0"), (tx "reqbody"), true, false, true, (tx "deny"), (tx "/a"), doc, (JStr doc), (tx "ok").
  assert (Hno : forall l, (l = reqb \/ l = exch) -> forall k, ~ call_open (f_log (run Ej (dfac Ej [CTyped deny128]) l)) k (tx "0")).
  { intros l Hl k H. apply call_open_spec in H. destruct Hl; subst l; vm_compute in H; exact H. }
  split; [vm_compute; reflexivity|]. split; [serve|]. split; [acts 0|]. split; [eexists; split; [vm_compute; reflexivity|]; apply (as_here SrcReq)|].
  split; [intros h; vm_compute; reflexivity|]. split; [vm_compute; reflexivity|]. split; [vm_compute; reflexivity|].
  split; [intros H; vm_compute in H; intuition discriminate|]. split; [vm_compute; reflexivity|]. split; [vm_compute; reflexivity|].
  split; [split; [|split; [|apply Hno; now left]]; intros H; vm_compute in H; intuition discriminate|].
  split; [vm_compute; reflexivity|].
  split; [split; [|split; [|apply Hno; now right]]; intros H; vm_compute in H; intuition discriminate|].
  intros st hd b ok H. vm_compute in H. intuition discriminate.
Qed.
Print Assumptions C128_denials_about_the_request_body_refuted.
(** the hypotheses are met by that set; with a store action they are not, and the call is made *)
Example C128_ex : ~ body_reader Ej (dcfg ex128) (set_of ex128) /\ serves Ej (dcfg ex128) (dfac Ej ex128) (set_of ex128) /\
  (exists ts p, goes Ej (dfac Ej ex128) ts p) /\
  body_reader Ej (dcfg ex128s) (set_of ex128s) /\ exists cl r, In (EvDispatch (tx "1") cl r) (f_log (run Ej (dfac Ej ex128s) reqb)).
Proof.
  split.
  { intros (a & p & tm & g & sq & path & v & ex & x & f & (svs & Hsv & Hc) & _). vm_compute in Hsv. injection Hsv as <-.
    destruct Hc as (i & c & y & H1 & H2 & H3). destruct i as [|i]; [|destruct i; discriminate H1]. vm_compute in H1. injection H1 as <-. vm_compute in H2. injection H2 as <-.
    inversion H3. destruct i; discriminate. }
  split; [serve|]. split; [eexists _, _; apply P_Told.re_start; vm_compute; reflexivity|].
  split; [|eexists _, _; find].
  exists (tx "0"), (tx "true"), false, false, false, (tx "p"), (tx "reqbody"), true, (tx "reqbody"), (tx "/a"). split; [acts 0|]. split; [right; now left|].
  eexists. split; [vm_compute; reflexivity|]. apply (as_here SrcReq).
Qed.
(** the deny action above meets the hypotheses, is evaluated, and its turn is followed by something. *)
Example C128_ex_deny : ~ body_reader Ej (dcfg [CTyped deny128]) (set_of [CTyped deny128]) /\
  has_action Ej (dcfg [CTyped deny128]) (set_of [CTyped deny128]) (tx "0") deny128 /\ asks_for Ej SrcReq (tx "/a") (tx "reqbody") /\
  exists e past, occurs (f_log (run Ej (dfac Ej [CTyped deny128]) reqb)) e past /\ turn past = Some (tx "0").
Proof.
  split.
  { intros (a & p & tm & g & sq & path & v & ex & x & f & (svs & Hsv & Hc) & _). vm_compute in Hsv. injection Hsv as <-.
    destruct Hc as (i & c & y & H1 & H2 & H3). destruct i as [|i]; [|destruct i; discriminate H1]. vm_compute in H1. injection H1 as <-. vm_compute in H2. injection H2 as <-.
    inversion H3. }
  split; [acts 0|]. split; [eexists; split; [vm_compute; reflexivity|apply (as_here SrcReq)]|].
  vm_compute. eexists _, _. split; [exists []; reflexivity|reflexivity].
Qed.
