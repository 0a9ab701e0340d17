(** The request id: where it comes from, and that it does not change. *)
From Coq Require Import String List NArith ZArith Bool Lia Arith.
From Verif Require Import Base Value Headers AttrPath Ctx CelProps CelEval Sse Body ValueBytes Tasks Exec Config Legacy Blueprint Factory Filter
  P_Frame P_Apply P_Exec P_Run P_Inv P_Ids P_Plan P_Order P_Term P_Bar P_Hist P_Cfg P_Head P_Eff Prop_Paths.
Import ListNotations.
Open Scope list_scope.

(** * The id in calls and replies *)
Definition carrier (tk : option text) (e : ev) : Prop :=
  match e with EvDispatch _ _ _ | EvExport _ _ => True | EvReply _ _ _ _ => tk <> None | _ => False end.
Definition carries (tk : option text) (r : text) (e : ev) : Prop :=
  match e with
  | EvDispatch _ cl _ | EvExport cl _ => exists tr, cl_headers cl = tr ++ [(tx "x-request-id", r)]
  | EvReply _ h _ _ => match tk with Some n => exists h0, h = h0 ++ [(n, r)] | None => True end
  | _ => True
  end.
(** an accepted write to the request headers *)
Definition dirty_ev (e : ev) : Prop :=
  match e with EvSetMap MReq _ true => True | EvSetProp p _ true => p = kuadrant_host_path p_req_headers | _ => False end.
Definition dirty (l : log) : Prop := Exists dirty_ev l.
(** where the request id comes from: unknown; the client's headers; already chosen *)
Inductive source := SAny | SClient (hc : headers) (id : text) | SFixed (id : text).
Record G (o : source) (c : ctx) : Prop := {
  g_uses : forall e, In e (c_log c) -> carrier (c_track c) e -> exists r, c_rid c = Some r /\ carries (c_track c) r e;
  g_client : match o with
    | SAny => True
    | SFixed id => c_rid c = Some id
    | SClient hc id => h_get (tx "x-request-id") hc = Some id /\
        (c_rid c = None /\ cache_get p_req_headers c = Some (CHeaders hc) \/ c_rid c = Some id \/ dirty (c_log c)) /\
        forall e past after, c_log c = after ++ e :: past -> carrier (c_track c) e -> ~ dirty past -> c_rid c = Some id
    end }.

Lemma G_mono o c c' : c_log c' = c_log c -> c_track c' = c_track c -> (forall i, c_rid c = Some i -> c_rid c' = Some i) ->
  (forall v, cache_get p_req_headers c = Some v -> cache_get p_req_headers c' = Some v) ->
  (match o with SClient hc id => h_get (tx "x-request-id") hc = Some id -> c_rid c = None -> cache_get p_req_headers c = Some (CHeaders hc) -> c_rid c' = None \/ c_rid c' = Some id | _ => True end) ->
  G o c -> G o c'.
Proof.
  intros Hl Ht Hr Hc Hn [G1 G2]. constructor.
  - rewrite Hl, Ht. intros e Hi He. destruct (G1 e Hi He) as (r & R1 & R2). eauto.
  - destruct o as [|hc id|id]; [exact Logic.I| |now apply Hr]. destruct G2 as (H1 & H2 & H3). rewrite Hl, Ht. split; [exact H1|]. split; [|intros; eauto].
    destruct H2 as [[H2 H4]|[H2|H2]]; [|right; left; auto|auto]. destruct (Hn H1 H2 H4) as [H|H]; auto.
Qed.
Lemma G_ext o c c' : ext c c' -> G o c -> G o c'.
Proof.
  intros Hx. apply G_mono; [now apply ext_log|now apply ext_track|intros i; now rewrite (ext_rid _ _ Hx)|intros v; now apply ext_cached|].
  destruct o as [|hc id|id]; [exact Logic.I| |exact Logic.I]. rewrite (ext_rid _ _ Hx). auto.
Qed.
Lemma G_request_id o E c r c' : request_id E c = (r, c') -> G o c -> G o c' /\ c_rid c' = Some r.
Proof.
  intros H HG. destruct (request_id_xrid _ _ _ _ H) as [Hx Hr]. split; [|exact Hr]. revert HG. apply G_mono.
  - now apply xrid_log.
  - now apply xrid_track.
  - intros i. now apply xrid_rid.
  - intros v. now apply xrid_cached.
  - destruct o as [|hc id|id]; [exact Logic.I| |exact Logic.I]. intros Hg Hn Hc. right. rewrite Hr.
    unfold request_id in H. rewrite Hn in H. unfold read_headers, read_attr in H. rewrite Hc, Hg in H. injection H as <- _. reflexivity.
Qed.
Lemma G_emit o e c : ~ carrier (c_track c) e -> G o c -> G o (emit e c).
Proof.
  intros Hc [G1 G2]. constructor; cbn [emit with_log c_log c_track c_rid].
  - intros e0 [<-|Hi] He; [easy|auto].
  - destruct o as [|hc id|id]; [exact Logic.I| |exact G2]. destruct G2 as (H1 & H2 & H3). split; [exact H1|]. split.
    + destruct H2 as [[H2 H4]|[H2|H2]]; auto. right. right. now apply Exists_cons_tl.
    + intros e0 past [|y after] [= Hx Hy] He Hd; [subst; easy|]. eapply H3; eauto.
Qed.
Lemma G_emit_id o e c r : c_rid c = Some r -> carries (c_track c) r e -> G o c -> G o (emit e c).
Proof.
  intros Hr Hc [G1 G2]. constructor; cbn [emit with_log c_log c_track c_rid].
  - intros e0 [<-|Hi] He; [eauto|auto].
  - destruct o as [|hc id|id]; [exact Logic.I| |exact G2]. destruct G2 as (H1 & H2 & H3). split; [exact H1|]. split.
    + destruct H2 as [[H2 H4]|[H2|H2]]; auto. right. right. now apply Exists_cons_tl.
    + intros e0 past [|y after] [= Hx Hy] He Hd; [subst|eapply H3; eauto]. destruct H2 as [[H2 H4]|[H2|H2]]; [congruence|exact H2|easy].
Qed.
(** caching a write *)
Lemma G_put o p v c : (p = p_req_headers -> dirty (c_log c)) -> G o c -> G o (cache_put p v c).
Proof.
  intros Hp [G1 G2]. constructor; cbn [cache_put with_cache c_log c_track c_rid]; [exact G1|].
  destruct o as [|hc id|id]; [exact Logic.I| |exact G2]. destruct G2 as (H1 & H2 & H3). split; [exact H1|]. split; [|exact H3].
  destruct H2 as [[H2 H4]|[H2|H2]]; auto.
  destruct (text_eq_dec (path_show p_req_headers) (path_show p)) as [He|Hne].
  - right. right. apply Hp. now apply req_headers_key.
  - left. split; [exact H2|]. unfold cache_get, cache_put. cbn. now rewrite (aget_aset_other text_eqb text_eqb_eq) by exact Hne.
Qed.
Lemma G_same o c c' : c_log c' = c_log c -> c_cache c' = c_cache c -> c_track c' = c_track c -> c_rid c' = c_rid c -> G o c -> G o c'.
Proof.
  intros H1 H2 H3 H4. apply G_mono; auto; [intros i; now rewrite H4|unfold cache_get; now rewrite H2|].
  destruct o as [|hc id|id]; [exact Logic.I| |exact Logic.I]. intros _ H _. left. now rewrite H4.
Qed.
Lemma G_dispatch o E mk u s m msg to c r c' : (forall tk r cl k, carries tk r (mk cl k) <-> exists tr, cl_headers cl = tr ++ [(tx "x-request-id", r)]) ->
  dispatch E mk u s m msg to c = (r, c') -> G o c -> G o c'.
Proof.
  intros Hmk. unfold dispatch. destruct (request_id E c) as [rid c1] eqn:H. intros [= <- <-] HG. destruct (G_request_id _ _ _ _ _ H HG) as [HG1 Hr].
  apply (G_emit_id o _ c1 rid Hr); [|exact HG1]. apply Hmk. cbn [cl_headers]. eauto.
Qed.
Lemma G_set_headers o E m h c r c' : set_headers E m h c = (r, c') -> G o c -> G o c'.
Proof.
  unfold set_headers. cbv zeta. intros H HG.
  assert (HG1 : G o (emit (EvSetMap m h (hok (h_setmap E (c_log c) m h))) c)) by (apply G_emit; [now cbn|exact HG]).
  destruct (h_setmap E (c_log c) m h) eqn:Hs; destruct m; injection H as <- <-; try exact HG1; apply G_put; try exact HG1.
  - intros _. now constructor.
  - discriminate.
Qed.
Lemma G_set_attribute o E p v c r c' : set_attribute E p v c = (r, c') -> G o c -> G o c'.
Proof.
  unfold set_attribute. cbv zeta. intros H HG.
  assert (HG1 : G o (emit (EvSetProp (kuadrant_host_path p) v (hok (h_setprop E (c_log c) (kuadrant_host_path p) v))) c)) by (apply G_emit; [now cbn|exact HG]).
  destruct (h_setprop E (c_log c) (kuadrant_host_path p) v) eqn:Hs; injection H as <- <-; try exact HG1. apply G_put; [|exact HG1].
  intros ->. now constructor.
Qed.
Lemma G_store_value o E self id pred ex path export tm c r c' : store_value E self id pred ex path export tm c = (r, c') -> G o c -> G o c'.
Proof.
  unfold store_value. destruct (test_in E pred _ c) as [[r1 vs] c1] eqn:H1. apply test_in_ext in H1. intros H HG. apply (G_ext _ _ _ H1) in HG. revert H.
  destruct r1 as [|[]|]; try (intros [= <- <-]; exact HG).
  destruct (eval_in E ex vs c1) as [[r2 vs2] c2] eqn:H2. apply eval_in_ext in H2. apply (G_ext _ _ _ H2) in HG.
  destruct r2 as [|v|]; try (intros [= <- <-]; exact HG).
  assert (K : forall ok c3, G o c3 -> (if ok : bool then (if tm then OTerminate default_reply else ODone, val_store path v c3) else (OFailed, c3)) = (r, c') -> G o c').
  { intros ok c3 H3. destruct ok; intros [= <- <-]; [|exact H3]. revert H3. now apply G_same. }
  destruct export; [|exact (K true _ HG)]. destruct (value_bytes v) as [b|]; [|exact (K false _ HG)].
  destruct (set_attribute E (path_parse path) b c2) as [r3 c3] eqn:H3. apply (G_set_attribute o) in H3; [|exact HG].
  destruct r3; [exact (K true _ H3)|exact (K true _ H3)|exact (K false _ H3)].
Qed.
Lemma G_apply o E t : forall c r c', apply E t c = (r, c') -> G o c -> G o c'.
Proof.
  induction t; intros c r c'; cbn [apply].
  - unfold apply_dynamic. destruct (test_in E pred _ c) as [[r1 vs] c1] eqn:H1. apply test_in_ext in H1. intros H HG. apply (G_ext _ _ _ H1) in HG. revert H.
    destruct r1 as [|[]|]; try (intros [= <- <-]; exact HG).
    destruct (eval_in E msg _ c1) as [[r2 vs2] c2] eqn:H2. apply eval_in_ext in H2. apply (G_ext _ _ _ H2) in HG.
    destruct r2 as [|v|]; try (intros [= <- <-]; exact HG). destruct (o_encode E (c_log c2) s v) as [b|]; [|intros [= <- <-]; exact HG].
    destruct (dispatch E _ _ _ _ _ _ c2) as [r3 c3] eqn:Hd. apply (G_dispatch o) in Hd; [|intros; cbn; tauto|exact HG].
    destruct r3 as [k|]; intros [= <- <-]; [|exact Hd]. destruct guard; [|exact Hd]. revert Hd. now apply G_same.
  - unfold apply_pending, process_response. cbn [take_grpc]. intros H HG.
    assert (H0 : G o (with_grpc c None)) by (revert HG; now apply G_same).
    assert (K : forall q, (c_log (snd q) = c_log c /\ c_cache (snd q) = c_cache c /\ c_track (snd q) = c_track c /\ c_rid (snd q) = c_rid c) ->
      (let (o0, c1) := q : outcome * ctx in (o0, if guard then lower c1 else c1)) = (r, c') -> G o c').
    { intros [o1 c1] (K1 & K2 & K3 & K4) [= <- <-]. cbn in *. revert HG. destruct guard; apply G_same; auto. }
    revert H. apply K. destruct (c_grpc c) as [[st sz]|]; [|now repeat split]. destruct (negb _); [now repeat split|].
    destruct on_reply; [now repeat split|]. destruct (h_grpcresp E _ sz) as [b|]; [|now repeat split]. destruct (o_decode E _ s b); now repeat split.
  - unfold apply_noop. intros [= <- <-]. destruct guard; now apply G_same.
  - destruct (apply E t c) as [o1 c1] eqn:Ha. intros H HG. pose proof (IHt _ _ _ Ha HG) as HG1.
    destruct o1; injection H as <- <-; try exact HG1. apply G_emit; [now cbn|exact HG1].
  - destruct (apply E t c) as [o1 c1] eqn:Ha. intros H HG. pose proof (IHt _ _ _ Ha HG) as HG1.
    destruct o1; injection H as <- <-; exact HG1.
  - unfold apply_fail. destruct (test_in E pred _ c) as [[r1 vs] c1] eqn:H1. apply test_in_ext in H1. intros H HG. apply (G_ext _ _ _ H1) in HG. revert H.
    destruct r1 as [|[]|]; try (intros [= <- <-]; exact HG). destruct terminal; intros [= <- <-]; [apply G_emit; [now cbn|exact HG]|exact HG].
  - unfold apply_headers. destruct (test_in E pred _ c) as [[r1 vs] c1] eqn:H1. apply test_in_ext in H1. intros H HG. apply (G_ext _ _ _ H1) in HG. revert H.
    destruct r1 as [|[]|]; try (intros [= <- <-]; exact HG).
    destruct (eval_in E hexpr _ c1) as [[r2 vs2] c2] eqn:H2. apply eval_in_ext in H2. apply (G_ext _ _ _ H2) in HG.
    destruct r2 as [|v|]; try (intros [= <- <-]; exact HG). destruct (header_pairs v) as [|kv kvs]; [intros [= <- <-]; exact HG|].
    destruct (read_headers E _ c2) as [r3 c3] eqn:H3. apply read_headers_ext in H3. apply (G_ext _ _ _ H3) in HG.
    destruct r3 as [|h|]; try (intros [= <- <-]; exact HG). destruct (set_headers E _ _ c3) as [r4 c4] eqn:H4. apply (G_set_headers o) in H4; [|exact HG].
    destruct r4; intros [= <- <-]; exact H4.
  - unfold apply_reply. destruct (test_in E pred _ c) as [[r1 vs] c1] eqn:H1. apply test_in_ext in H1. intros H HG. apply (G_ext _ _ _ H1) in HG. revert H.
    destruct r1 as [|[]|]; try (intros [= <- <-]; exact HG).
    destruct (eval_in E deny _ c1) as [[r2 vs2] c2] eqn:H2. apply eval_in_ext in H2. apply (G_ext _ _ _ H2) in HG.
    destruct r2 as [|v|]; try (intros [= <- <-]; exact HG). destruct v; try (intros [= <- <-]; exact HG).
    destruct (tracker E c2) as [tr c3] eqn:H3. unfold send_reply. intros [= <- <-]. unfold tracker in H3. destruct (c_track c2) as [n|] eqn:Ht.
    + destruct (request_id E c2) as [rid c4] eqn:H4. injection H3 as <- <-. assert (Ht4 : c_track c4 = Some n) by (apply request_id_xrid in H4 as [H4 _]; now rewrite (xrid_track _ _ H4)).
      destruct (G_request_id _ _ _ _ _ H4 HG) as [HG4 Hr]. apply (G_emit_id o _ (emit (EvMetric MDenied) c4) rid Hr); [|apply G_emit; [now cbn|exact HG4]].
      cbn [carries emit with_log c_track]. rewrite Ht4. eauto.
    + injection H3 as <- <-. apply G_emit; [cbn [carrier emit with_log c_track]; now rewrite Ht|]. apply G_emit; [now cbn|exact HG].
  - unfold apply_store. cbv zeta. intros H HG.
    assert (K : forall src p c1, G o c1 -> match feed_parser E src p c1 with
       | RPending => (ORequeued [TStore id pred ex path export terminal (BSActive src p)], c1)
       | RErr => (OFailed, c1)
       | RAvail (p', c') => store_value E (TStore id pred ex path export terminal (BSActive src p')) id pred ex path export terminal c'
       end = (r, c') -> G o c').
    { intros src p c1 H1. destruct (feed_parser E src p c1) as [|[p' c2]|] eqn:Hp; try (intros [= <- <-]; exact H1).
      intros H2. apply (G_store_value o) in H2; [exact H2|]. revert Hp. unfold feed_parser. cbv zeta.
      destruct (_ && _); [discriminate|]. destruct (if (_ <? _)%N then _ else _) as [|p1|]; try discriminate.
      destruct (if b_eos _ then _ else _) as [p2|]; [|discriminate]. intros [= <- <-]. revert H1. destruct src; now apply G_same. }
    destruct bs as [|src fs|src p]; [now apply (G_store_value o) in H| |now apply K in H].
    destruct (create_parser E src fs c) as [r1 c1] eqn:H1.
    assert (HG1 : G o c1).
    { unfold create_parser in H1. destruct src; [injection H1 as _ <-; exact HG|]. destruct (read_headers E p_resp_headers c) as [r2 c2] eqn:H2. apply read_headers_ext in H2.
      apply (G_ext _ _ _ H2) in HG. destruct r2; injection H1 as _ <-; exact HG. }
    destruct r1 as [|p|]; try (injection H as <- <-; exact HG1). now apply K in H.
  - unfold apply_token. cbv zeta. intros H HG.
    assert (K : forall s c1, G o c1 -> match (if (0 <? b_size (c_respb c1))%N then
        match h_respbody E (c_log c1) 0 (b_size (c_respb c1)) with
        | HOk (Some bytes) => RAvail (st_feed bytes s) | HOk None => RAvail s | HNotAvail => RPending | HErr => RErr end else RAvail s) with
      | RPending => (ORequeued [TToken (Some s) fields], c1)
      | RErr => (OFailed, c1)
      | RAvail s' => if b_eos (c_respb c1) then (ODone, with_respb c1 (st_populate E fields s' (c_respb c1))) else (ORequeued [TToken (Some s') fields], c1)
      end = (r, c') -> G o c').
    { intros s c1 H1. destruct (if (0 <? b_size (c_respb c1))%N then _ else _) as [|s'|]; try (intros [= <- <-]; exact H1).
      destruct (b_eos (c_respb c1)); intros Hq; injection Hq as <- <-; [|exact H1]. revert H1. now apply G_same. }
    destruct strat as [s|]; [now apply K in H|]. destruct (read_headers E p_resp_headers c) as [r2 c2] eqn:H2. apply read_headers_ext in H2.
    apply (G_ext _ _ _ H2) in HG. destruct r2; try (injection H as <- <-; exact HG). now apply K in H.
  - intros [= <- <-]. auto.
Qed.
Lemma G_step o E t c r c' : step E t c = (r, c') -> G o c -> G o c'.
Proof.
  unfold step. destruct (apply E t _) as [r1 c1] eqn:Ha. intros [= <- <-] HG.
  apply (G_apply o) in Ha; [|apply G_emit; [now cbn|exact HG]]. destruct r1; try (apply G_emit; [now cbn|]); (eapply G_same; [| | | |exact Ha]; reflexivity).
Qed.
Lemma G_terminal o E f c : G o c -> G o (run_terminal E f c).
Proof.
  intros HG. unfold run_terminal. destruct (apply E f c) as [r c1] eqn:Ha. apply (G_apply o) in Ha; [|exact HG].
  revert Ha. apply G_same; reflexivity.
Qed.
Lemma G_drop o l c : G o c -> G o (drop_tasks l c).
Proof. apply G_same; reflexivity. Qed.
Lemma G_td o E a p : G o (p_ctx p) -> G o (p_ctx (td_step E p a)).
Proof.
  intros HG. unfold td_step, td_exec. apply (G_emit o EvTeardown) in HG; [|now cbn].
  destruct (o_spans E _) as [msg|]; [|exact HG]. destruct (dispatch E _ _ _ _ _ _ _) as [r c] eqn:Hd. apply (G_dispatch o) in Hd; [|intros; cbn; tauto|exact HG].
  destruct r as [k|]; [|exact Hd]. revert Hd. cbv zeta.
  destruct (def_insert_facts k (TPendNoop (tx "teardown_" ++ nat_text (N.to_nat k)) false) (p_with_ctx p c)) as (F1 & _ & _ & F4 & F5 & _).
  apply G_same; auto. unfold def_insert. cbn [p_with_ctx p_ctx p_def]. destruct (nget k (p_def p)); reflexivity.
Qed.
Definition GL (o : source) (tk : option text) (l : log) : Prop :=
  exists r, (forall e, In e l -> carrier tk e -> carries tk r e) /\
    match o with SAny => True | SFixed id => r = id | SClient hc id => forall e past after, l = after ++ e :: past -> carrier tk e -> ~ dirty past -> r = id end.
Definition GI (o : source) (tk : option text) (ts : list task) (p : pipe) : Prop := G o (p_ctx p) /\ c_track (p_ctx p) = tk.
Lemma G_GL o c : G o c -> GL o (c_track c) (c_log c).
Proof.
  intros [G1 G2]. destruct (c_rid c) as [r|] eqn:Hr.
  - exists r. split.
    + intros e Hi He. destruct (G1 e Hi He) as (r' & [= <-] & H). exact H.
    + destruct o as [|hc id|id]; [exact Logic.I| |congruence]. destruct G2 as (_ & _ & H3). intros e past after H He Hd. specialize (H3 _ _ _ H He Hd). congruence.
  - exists []. assert (Hno : forall e, In e (c_log c) -> ~ carrier (c_track c) e) by (intros e Hi He; destruct (G1 e Hi He) as (r & [=] & _)).
    split; [intros e Hi He; now destruct (Hno e Hi)|]. destruct o as [|hc id|id]; [exact Logic.I| |congruence]. intros e past after H He _. destruct (Hno e); [|exact He]. rewrite H. apply in_or_app. right. now left.
Qed.
Lemma G_finv o E tk : finv E (GI o tk) (GL o tk).
Proof.
  assert (KE : forall e p, ~ carrier tk e -> GI o tk [] p -> GI o tk [] (p_emit e p)).
  { intros e p He [HG Ht]. split; [|exact Ht]. apply G_emit; [now rewrite Ht|exact HG]. }
  assert (KT : forall E t c r c', step E t c = (r, c') -> c_track c' = c_track c).
  { intros E0 t c r c' Hs. destruct (step_sum _ _ _ _ _ Hs) as (evs & Hss). exact (ss_track _ _ _ _ _ _ Hss). }
  assert (KF : forall E t c f c', step E t c = (OTerminate f, c') -> c_track (run_terminal E f c') = c_track c).
  { intros E0 t c f c' Hs. destruct (step_sum _ _ _ _ _ Hs) as (evs & Hss). pose proof (ss_final _ _ _ _ _ _ Hss) as Hf. cbn in Hf.
    destruct (terminal_sum E0 f c' Hf) as (x & _ & _ & _ & _ & T & _). rewrite T. exact (ss_track _ _ _ _ _ _ Hss). }
  constructor.
  - intros ts p ts' p' Hs [HG Ht].
    destruct Hs as [p Hset|t ts p Hb|t ts p r c ts' p' Hb Hst Hn|tok st sz p Hset Hn|tok st sz t p r c Hset Hn Hst|p Hq Htm|a rest p Hq Hn Htd].
    + now split.
    + now split.
    + pose proof (G_step o _ _ _ _ _ Hst HG) as HG1. pose proof (KT _ _ _ _ _ Hst) as Ht1. rewrite Ht in Ht1.
      destruct r; simpl in Hn; injection Hn as <- <-; try (now split).
      * destruct (def_insert_facts tok t0 (p_with_ctx p c)) as (F1 & _ & _ & F4 & F5 & _). split; [|rewrite F5; exact Ht1].
        revert HG1. apply G_same; auto. unfold def_insert. cbn [p_with_ctx p_ctx p_def]. now destruct (nget tok (p_def p)).
      * split; [apply G_drop; now apply G_terminal|]. cbn [p_ctx drop_tasks with_res c_track]. rewrite <- Ht. eapply KF; eauto.
    + apply KE; [now cbn|now split].
    + assert (HG0 : G o (emit (EvHandle tok (t_id t)) (set_grpc st sz (emit (EvGrpcResp tok st sz) (p_ctx p))))).
      { apply G_emit; [now cbn|]. assert (H : G o (emit (EvGrpcResp tok st sz) (p_ctx p))) by (apply G_emit; [now cbn|exact HG]).
        unfold set_grpc. destruct (c_grpc _); [exact H|]. revert H. now apply G_same. }
      assert (Ht0 : c_track (emit (EvHandle tok (t_id t)) (set_grpc st sz (emit (EvGrpcResp tok st sz) (p_ctx p)))) = tk).
      { unfold set_grpc. cbn [emit with_log c_grpc]. destruct (c_grpc (p_ctx p)); exact Ht. }
      pose proof (G_step o _ _ _ _ _ Hst HG0) as HG1. pose proof (KT _ _ _ _ _ Hst) as Ht1. rewrite Ht0 in Ht1.
      destruct r; simpl; try (now split).
      * match goal with |- GI _ _ _ (def_insert _ _ ?X) => destruct (def_insert_facts tok0 t0 X) as (F1 & _ & _ & F4 & F5 & _) end. split; [|rewrite F5; exact Ht1].
        revert HG1. apply G_same; auto. unfold def_insert. cbn [p_with_ctx p_ctx p_def]. now destruct (nget tok0 (ndel tok (p_def p))).
      * split; [|exact Ht1]. apply G_emit; [now cbn|exact HG1].
      * split; [apply G_drop; now apply G_terminal|]. cbn [p_ctx drop_tasks with_res c_track]. rewrite <- Ht0. eapply KF; eauto.
    + split; [|exact Ht]. revert HG. now apply G_same.
    + split; [now apply G_td|]. destruct (td_sum E a (p_with_td p rest)) as (evs & tok & _ & _ & _ & _ & _ & _ & _ & _ & _ & T10 & _). rewrite T10. exact Ht.
  - intros p e He HI. apply KE; [|exact HI]. destruct e; cbn in *; easy.
  - intros p b [HG Ht]. split; [|exact Ht]. revert HG. now apply G_same.
  - intros p b [HG Ht]. split; [|exact Ht]. revert HG. now apply G_same.
  - intros p [HG <-] _ _ _ _. now apply G_GL.
  - intros l e He (r & L1 & L2).
    assert (Hc : ~ carrier tk e) by (destruct He as [He|(k & st & sz & ->)]; [destruct e; cbn in *; easy|now cbn]).
    exists r. split; [intros e0 [<-|Hi] H0; [easy|auto]|]. destruct o as [|hc id|id]; [exact Logic.I| |exact L2].
    intros e0 past [|y after] [= Hx Hy] H0 Hd; [now subst|]. eapply L2; eauto.
Qed.

(** * Building the pipeline *)
(** no action of it is a tracing one *)
Fixpoint a_dyn (a : action) : Prop :=
  match a with
  | mkAct _ _ _ (BGrpc s _ _ rs) _ _ => (exists k sv, s = IDyn k sv) /\ (fix go l := match l with [] => True | r :: l' => a_dyn r /\ go l' end) rs
  | _ => True
  end.
Lemma a_dyn_go rs : (fix go l := match l with [] => True | r :: l' => a_dyn r /\ go l' end) rs <-> Forall a_dyn rs.
Proof. induction rs as [|r rs IH]; [now split|]. rewrite IH. split; [intros [H1 H2]; now constructor|]. intros H. now inversion H. Qed.
Lemma compile_dyn E svs t : forall id a, compile_typed E svs t id = Some a -> a_dyn a.
Proof.
  induction t as [p t g s var sv m rs IH|p t g s o Ho] using taction_ind'; intros id a.
  - rewrite compile_typed_grpc. destruct (parse_expr E p) as [p'|]; [|discriminate].
    destruct (tget sv svs) as [[k s'|]|]; try discriminate.
    destruct (compile_replies E svs id 0 rs) as [l|] eqn:Hl; [|discriminate].
    destruct (parse_expr E m) as [m'|]; [|discriminate]. intros [= <-]. cbn [a_dyn]. split; [eauto|]. apply a_dyn_go.
    revert Hl. generalize 0. revert l. induction IH as [|r rs Hr _ IH]; intros l i; cbn [compile_replies]; [intros [= <-]; constructor|].
    destruct (ta_seq r); [discriminate|]. destruct (compile_typed E svs r (id ++ dot :: nat_text i)) as [a0|] eqn:Ha; [|discriminate].
    destruct (compile_replies E svs id (S i) rs) as [l'|] eqn:Hl; [|discriminate]. intros [= <-]. constructor; eauto.
  - cbn [compile_typed]. destruct (parse_expr E p) as [p'|]; [|discriminate]. destruct o; try (edestruct Ho; reflexivity); try (destruct (parse_expr E _); [|discriminate]); intros [= <-]; exact Logic.I.
Qed.
Lemma set_deps_dyn d a : a_dyn a -> a_dyn (set_deps d a).
Proof. now destruct a. Qed.
Lemma compile_set_dyn E svs rd s bp : compile_set E svs rd s = Some bp -> Forall a_dyn (bp_actions bp).
Proof.
  intros Hc. apply compile_set_compiled in Hc. apply Forall_forall. intros a Ha. apply In_nth_error in Ha as (i & Ha).
  destruct (cm_nth _ _ _ _ _ Hc i a Ha) as (cf & d & N1 & N2 & N3).
  assert (K : forall t, option_map (set_deps d) (compile_typed E svs t (nat_text i)) = Some a -> a_dyn a).
  { intros t. destruct (compile_typed E svs t (nat_text i)) as [a0|] eqn:H; [|discriminate]. intros [= <-]. apply set_deps_dyn. eapply compile_dyn; eauto. }
  destruct cf as [t|l]; cbn [compile_action] in N3; [now apply K in N3|]. unfold compile_legacy in N3.
  destruct (tget (la_service l) svs) as [[k s0|]|]; try discriminate. destruct k; try discriminate; now apply K in N3.
Qed.

(** the request id there is, if any, is the client's *)
Definition cl_ok (hc : headers) (id : text) (c : ctx) : Prop :=
  c_rid c = None /\ cache_get p_req_headers c = Some (CHeaders hc) \/ c_rid c = Some id.
Lemma cl_ext hc id c c' : ext c c' -> cl_ok hc id c -> cl_ok hc id c'.
Proof. intros Hx. unfold cl_ok. rewrite (ext_rid _ _ Hx). intros [[H1 H2]|H]; [left; split; [exact H1|eapply ext_cached; eauto]|now right]. Qed.
Lemma cl_request_id hc id E c r c' : h_get (tx "x-request-id") hc = Some id -> request_id E c = (r, c') -> cl_ok hc id c -> cl_ok hc id c'.
Proof.
  intros Hg H. destruct (request_id_xrid _ _ _ _ H) as [Hx Hr]. intros [[H1 H2]|H1].
  - right. unfold request_id in H. rewrite H1 in H. unfold read_headers, read_attr in H. rewrite H2, Hg in H. injection H as _ <-. reflexivity.
  - right. eapply xrid_rid; eauto.
Qed.
(** what building does to the context *)
Record bctx (c c' : ctx) : Prop := {
  bc_cl : forall hc id, h_get (tx "x-request-id") hc = Some id -> cl_ok hc id c -> cl_ok hc id c';
  bc_rid : forall i, c_rid c = Some i -> c_rid c' = Some i }.
Lemma bctx_trans a b c : bctx a b -> bctx b c -> bctx a c.
Proof. intros [A1 A2] [B1 B2]. constructor; auto. Qed.
Lemma bctx_ext c c' : ext c c' -> bctx c c'.
Proof. intros Hx. constructor; [intros hc id _; now apply cl_ext|intros i; now rewrite (ext_rid _ _ Hx)]. Qed.
Lemma bctx_request_id E c r c' : request_id E c = (r, c') -> bctx c c'.
Proof. intros H. constructor; [intros hc id Hg; eapply cl_request_id; eauto|intros i; apply request_id_xrid in H as [H _]; now apply xrid_rid]. Qed.
Lemma bctx_same c c' : c_cache c' = c_cache c -> c_rid c' = c_rid c -> bctx c c'.
Proof. intros H1 H2. constructor; [intros hc id _; unfold cl_ok, cache_get; now rewrite H1, H2|now rewrite H2]. Qed.
Lemma to_core_bctx E a : forall c t c', to_core E a c = Some (t, c') -> bctx c c' /\ (a_dyn a -> c_track c' = c_track c).
Proof.
  induction a as [id p tm s var m rs d g IH|id p tm o d g Ho] using action_ind'; intros c t c'.
  - rewrite to_core_grpc.
    assert (K : forall c ts c1, to_cores E rs c = Some (ts, c1) -> bctx c c1 /\ (Forall a_dyn rs -> c_track c1 = c_track c)).
    { clear -IH. induction IH as [|r rs Hr _ IH]; intros c ts c1; simpl; [intros [= <- <-]; split; [now apply bctx_same|auto]|].
      destruct (to_core E r c) as [[t1 c2]|] eqn:H1; [|discriminate].
      destruct (to_cores E rs c2) as [[ts2 c3]|] eqn:H2; [|discriminate]. intros [= <- <-].
      apply Hr in H1 as [A1 A2]. apply IH in H2 as [B1 B2]. split; [eapply bctx_trans; eauto|]. intros Hf. inversion Hf; subst. rewrite B2; auto. }
    destruct (to_cores E rs c) as [[ts c1]|] eqn:H1; [|discriminate]. apply K in H1 as [H1 H2].
    destruct s as [k sv|o].
    + intros [= <- <-]. pose proof (warm_ext E id p m c1) as Hw. split; [eapply bctx_trans; [exact H1|now apply bctx_ext]|].
      cbn [a_dyn]. intros [_ Hd]. apply a_dyn_go in Hd. rewrite (ext_track _ _ Hw). auto.
    + cbv zeta. destruct (request_id E (with_track c1 (Some var))) as [rid c3] eqn:Hr.
      destruct (parse_expr E (tracker_src var rid)); [|discriminate]. intros [= <- <-]. split.
      * eapply bctx_trans; [exact H1|]. eapply bctx_trans; [|eapply bctx_request_id; exact Hr]. now apply bctx_same.
      * cbn [a_dyn]. intros [(k & sv & [=]) _].
  - destruct o; simpl; try (intros [= <- <-]; split; [now apply bctx_same|reflexivity]). edestruct Ho; reflexivity.
Qed.
Lemma action_tasks_bctx E rd tr a c ts tds c' : action_tasks E rd tr a c = Some (ts, tds, c') -> bctx c c' /\ (a_dyn a -> c_track c' = c_track c).
Proof.
  unfold action_tasks. destruct (to_core E a c) as [[tk c3]|] eqn:H.
  - apply to_core_bctx in H as [A1 A2].
    destruct a as [id p tm op d g]. cbn [a_op]. destruct op as [s v m rs|x|x y|x y z|]; try (intros [= <- <- <-]; now split).
    destruct s as [k s|[t|]]; try (intros [= <- <- <-]; now split). intros [= _ _ <-].
    split; [|cbn [a_dyn]; intros [(k & sv & [=]) _]]. destruct (o_span_on E (c_log c3)); [|exact A1].
    destruct (request_id E c3) as [rid c4] eqn:Hr. eapply bctx_trans; [exact A1|]. cbn. eapply bctx_request_id; eauto.
  - destruct (a_op a) as [s v m rs|x|x y|x y z|]; try discriminate. destruct s as [k s|[t|]]; discriminate.
Qed.
Lemma actions_tasks_bctx E rd tr l : forall c ts tds c', actions_tasks E rd tr l c = Some (ts, tds, c') -> bctx c c' /\ (Forall a_dyn l -> c_track c' = c_track c).
Proof.
  induction l as [|a l IH]; intros c ts tds c'; cbn [actions_tasks]; [intros [= <- <- <-]; split; [now apply bctx_same|reflexivity]|].
  destruct (action_tasks E rd tr a c) as [[[t1 td1] c1]|] eqn:H1; [|discriminate].
  destruct (actions_tasks E rd tr l c1) as [[[t2 td2] c2]|] eqn:H2; [|discriminate].
  intros [= <- <- <-]. apply action_tasks_bctx in H1 as [A1 A2]. apply IH in H2 as [B1 B2]. split; [eapply bctx_trans; eauto|].
  intros Hf. inversion Hf; subst. rewrite B2; auto.
Qed.
Lemma actions_tasks_app E rd tr l1 l2 : forall c ts tds c', actions_tasks E rd tr (l1 ++ l2) c = Some (ts, tds, c') ->
  exists ts1 td1 c1 ts2 td2, actions_tasks E rd tr l1 c = Some (ts1, td1, c1) /\ actions_tasks E rd tr l2 c1 = Some (ts2, td2, c') /\ ts = ts1 ++ ts2.
Proof.
  induction l1 as [|a l1 IH]; intros c ts tds c'; cbn [actions_tasks app]; [intros H; exists [], [], c, ts, tds; auto|].
  destruct (action_tasks E rd tr a c) as [[[t1 td1] c1]|] eqn:H1; [|discriminate].
  destruct (actions_tasks E rd tr (l1 ++ l2) c1) as [[[t2 td2] c2]|] eqn:H2; [|discriminate]. intros [= <- <- <-].
  apply IH in H2 as (ts1 & tda & c3 & ts2 & tdb & K1 & K2 & ->). rewrite K1. exists (t1 ++ ts1), (td1 ++ tda), c3, ts2, tdb. rewrite <- app_assoc. auto.
Qed.
(** the nodes of the configured actions have numbers *)
Lemma set_nodes_number E svs rd s bp rd' tr c ts tds c' : compile_set E svs rd s = Some bp ->
  actions_tasks E rd' tr (bp_actions bp) c = Some (ts, tds, c') -> forall nd, In nd (nodess ts) -> exists i, below (nat_text i) (n_id nd).
Proof.
  intros Hc Ht nd Hi. destruct (actions_tasks_nodes _ _ _ _ _ _ _ _ Ht nd Hi) as (a & c2 & tk & c3 & Ha & Htc & Hn).
  apply compile_set_compiled in Hc. apply In_nth_error in Ha as (i & Ha).
  destruct (cm_nth _ _ _ _ _ Hc i a Ha) as (cf & d & N1 & N2 & N3).
  assert (exists t a0, compile_typed E svs t (nat_text i) = Some a0 /\ a = set_deps d a0) as (t & a0 & M2 & ->).
  { assert (K : forall t, option_map (set_deps d) (compile_typed E svs t (nat_text i)) = Some a ->
                exists a0, compile_typed E svs t (nat_text i) = Some a0 /\ a = set_deps d a0).
    { intros t. destruct (compile_typed E svs t (nat_text i)) as [a0|] eqn:H; [|discriminate]. intros [= <-]. eauto. }
    destruct cf as [t|l]; cbn [compile_action] in *; [apply K in N3 as (a0 & H1 & H2); eauto|]. unfold compile_legacy in N3.
    destruct (tget (la_service l) svs) as [[k s0|]|]; try discriminate. destruct k; try discriminate; apply K in N3 as (a0 & H1 & H2); eauto. }
  destruct (compile_nodes _ _ _ _ _ _ _ _ _ M2 Htc nd Hn) as (b & x & Hw & Hd). exists i. apply within_below in Hw.
  assert (n_id nd = b) as ->; [|exact Hw]. destruct x as [p tm g sq op]. destruct Hd as (pred & _ & Hd). destruct op, nd; cbn [n_id]; try easy; apply Hd.
Qed.
Definition cfg_track (svs : list (text * sinst)) (cfg : plugin_cfg) : option text :=
  match pc_identifier cfg, cfg_tracing svs cfg with Some h, ITrace _ => Some h | _, _ => None end.
Lemma dev_tasks E rd tr cfg svs c ts tds c' : actions_tasks E rd tr (cfg_dev svs cfg) c = Some (ts, tds, c') ->
  c_track c' = match cfg_track svs cfg with Some h => Some h | None => c_track c end /\
  forall h, cfg_track svs cfg = Some h -> exists rid hx, c_rid c' = Some rid /\ parse_expr E (tracker_src h rid) = Some hx /\ ts = [THeaders dev_id true_expr hx MResp false].
Proof.
  unfold cfg_dev, cfg_track. destruct (pc_identifier cfg) as [h|]; cbn [actions_tasks].
  2:{ intros [= <- <- <-]. split; [reflexivity|discriminate]. }
  destruct (action_tasks E rd tr (dev_action (cfg_tracing svs cfg) h) c) as [[[t1 td1] c1]|] eqn:H1; [|discriminate]. intros [= <- <- <-].
  destruct (cfg_tracing svs cfg) as [k sv|o] eqn:Hc.
  - apply action_tasks_bctx in H1 as [_ H1]. split; [|discriminate]. apply H1. cbn. split; [eauto|exact Logic.I].
  - unfold action_tasks, dev_action in H1. cbn [a_op] in H1. rewrite to_core_grpc in H1. cbn [to_cores] in H1. cbv zeta in H1.
    destruct (request_id E (with_track c (Some h))) as [rid c3] eqn:Hr. destruct (parse_expr E (tracker_src h rid)) as [hx|] eqn:Hp; [|discriminate].
    pose proof (request_id_xrid _ _ _ _ Hr) as [Hx Hi]. pose proof (xrid_track _ _ Hx) as Ht. cbn in Ht.
    assert (K : forall b, c_track (if b : bool then snd (request_id E c3) else c3) = Some h /\ c_rid (if b : bool then snd (request_id E c3) else c3) = Some rid).
    { intros [|]; [|now split]. destruct (request_id E c3) as [r2 c4] eqn:Hr2. cbn. apply request_id_xrid in Hr2 as [Hx2 _]. rewrite (xrid_track _ _ Hx2). split; [exact Ht|]. eapply xrid_rid; eauto. }
    destruct o as [t|]; injection H1 as <- <- <-; [destruct (K (o_span_on E (c_log c3))) as [K1 K2]|destruct (K false) as [K1 K2]];
      (split; [exact K1|intros h' [= <-]; exists rid, hx; auto]).
Qed.
Lemma select_client E fa c r c' hc : select E fa c = (r, c') -> c_cache c = [] -> h_map E (c_log c) MReq = HOk hc ->
  cache_get p_req_headers (snd (read_headers E p_req_headers c')) = Some (CHeaders hc).
Proof.
  intros Hs Hc Hm. apply select_extf in Hs as [Hx Hn]. unfold read_headers, read_attr.
  assert (Hf : fetch E (c_log c') p_req_headers = HOk (CHeaders hc)) by (unfold fetch; rewrite (ext_log _ _ Hx); cbn; now rewrite Hm).
  destruct (cache_get p_req_headers c') as [v|] eqn:Hg.
  - destruct (Hn (path_show p_req_headers) v) as (q & Q1 & Q2); [rewrite Hc; reflexivity|exact Hg|].
    symmetry in Q1. apply req_headers_key in Q1. subst q. rewrite (ext_log _ _ Hx) in Hf. rewrite Hf in Q2. injection Q2 as <-. exact Hg.
  - rewrite Hf. cbn [snd]. unfold cache_get, cache_put. cbn. apply (aget_aset_same text_eqb text_eqb_eq).
Qed.
Lemma built_rid E cfg fa p : try_from E cfg = Some fa -> build E fa (ctx0 [EvReqHeaders]) = BOk p ->
  exists svs, cfg_svs cfg = Some svs /\ c_track (p_ctx p) = cfg_track svs cfg /\
  (forall h, cfg_track svs cfg = Some h -> exists rid hx, c_rid (p_ctx p) = Some rid /\ parse_expr E (tracker_src h rid) = Some hx /\
     forall nd, In nd (nodess (p_queue p)) -> n_id nd = dev_id -> nd = NHdr dev_id true_expr hx MResp false) /\
  (forall hc id, h_map E [EvReqHeaders] MReq = HOk hc -> h_get (tx "x-request-id") hc = Some id -> cl_ok hc id (p_ctx p)).
Proof.
  intros Hf Hb. pose proof (build_spec E fa (ctx0 [EvReqHeaders])) as Hsp. rewrite Hb in Hsp.
  destruct Hsp as (b & c1 & tds & Hs & Ht & _). destruct (select_served _ _ _ _ _ _ Hf Hs) as (svs & Hsv & Hser). exists svs. split; [exact Hsv|].
  unfold to_tasks in Ht.
  set (c2 := snd (read_headers E p_req_headers c1)) in *.
  assert (Hx : ext (ctx0 [EvReqHeaders]) c2).
  { unfold c2. destruct (read_headers E p_req_headers c1) as [r c3] eqn:Hr. apply read_headers_ext in Hr. apply select_ext in Hs. eapply ext_trans; eauto. }
  assert (Hcl : forall hc id, h_map E [EvReqHeaders] MReq = HOk hc -> h_get (tx "x-request-id") hc = Some id -> cl_ok hc id (p_ctx p)).
  { intros hc id Hm Hg. apply actions_tasks_bctx in Ht as [HB _]. apply (bc_cl _ _ HB _ _ Hg). left. split; [now rewrite (ext_rid _ _ Hx)|].
    eapply select_client; eauto. }
  inversion Hser as [s bp Hin Hc Heq|h Hh Heq]; subst b; cbn [bp_actions] in Ht.
  - apply actions_tasks_app in Ht as (ts1 & td1 & c3 & ts2 & td2 & K1 & K2 & Hq).
    pose proof (actions_tasks_bctx _ _ _ _ _ _ _ _ K1) as [_ Htr]. specialize (Htr (compile_set_dyn _ _ _ _ _ Hc)). rewrite (ext_track _ _ Hx) in Htr. cbn in Htr.
    apply dev_tasks in K2 as [D1 D2]. rewrite Htr in D1. split; [rewrite D1; now destruct (cfg_track svs cfg)|]. split; [|exact Hcl].
    intros h Hh. destruct (D2 h Hh) as (rid & hx & R1 & R2 & R3). exists rid, hx. split; [exact R1|]. split; [exact R2|].
    intros nd Hi Hid. rewrite Hq, R3 in Hi. unfold nodess in Hi. rewrite flat_map_app, in_app_iff in Hi. destruct Hi as [Hi|Hi].
    + destruct (set_nodes_number _ _ _ _ _ _ _ _ _ _ _ Hc K1 nd Hi) as (i & Hb'). rewrite Hid in Hb'. now apply dev_not_number in Hb'.
    + cbn in Hi. destruct Hi as [<-|[]]. reflexivity.
  - apply dev_tasks in Ht as [D1 D2]. rewrite (ext_track _ _ Hx) in D1. cbn in D1.
    split; [rewrite D1; now destruct (cfg_track svs cfg)|]. split; [|exact Hcl].
    intros h' Hh'. destruct (D2 h' Hh') as (rid & hx & R1 & R2 & R3). exists rid, hx. split; [exact R1|]. split; [exact R2|].
    intros nd Hi Hid. rewrite R3 in Hi. cbn in Hi. destruct Hi as [<-|[]]. reflexivity.
Qed.
Lemma G_run_filter E fa p o l : build E fa (ctx0 [EvReqHeaders]) = BOk p ->
  match o with SAny => True | SFixed id => c_rid (p_ctx p) = Some id | SClient hc id => h_get (tx "x-request-id") hc = Some id /\ cl_ok hc id (p_ctx p) end -> later l ->
  holds (GI o (c_track (p_ctx p))) (GL o (c_track (p_ctx p))) (run E fa l).
Proof.
  intros Hb Ho. apply pipe_invariant with (p := p); [apply G_finv|exact Hb|]. split; [|reflexivity].
  apply G_emit; [now cbn|]. pose proof (build_spec E fa (ctx0 [EvReqHeaders])) as Hsp. rewrite Hb in Hsp.
  destruct Hsp as (b & c1 & tds & _ & _ & _ & (Hl & _) & _). cbn in Hl. constructor; rewrite Hl.
  - intros e [<-|[]] [].
  - destruct o as [|hc id|id]; [exact Logic.I| |exact Ho]. destruct Ho as [H1 H2]. split; [exact H1|]. split; [unfold cl_ok in H2; tauto|].
    intros e past [|x after] [= Hx Hy] He; [now subst|destruct after; discriminate].
Qed.
(** the id a dev-mode header was built with stays the request id *)
Lemma holds_GL o tk f : holds (GI o tk) (GL o tk) f -> GL o tk (f_log f).
Proof. unfold holds. destruct (f_pipe f) as [p|]; [|auto]. intros [[HG Ht] _]. rewrite <- Ht. exact (G_GL o _ HG). Qed.
