(** What the evaluation of each kind of action does: effects, outcome and values read. *)
From Coq Require Import String List NArith ZArith Bool Lia Arith.
From Verif Require Import Base Value Headers AttrPath Ctx CelProps CelEval Sse Body ValueBytes Tasks Exec Config Legacy Blueprint Factory Filter
  P_Frame P_Apply P_Exec P_Run P_Inv P_Ids P_Plan P_Order P_Term P_Bar P_Hist P_Head P_Fed P_Told.
Import ListNotations.
Open Scope list_scope.

(** * The effects of one evaluation *)
(** how an evaluation ended; [KTerm true] sends the default reply afterwards *)
Inductive kind := KDone | KFailed | KAgain | KTerm (dflt : bool) | KCall.
Definition kind_of (o : outcome) : kind :=
  match o with
  | ODone => KDone | OFailed => KFailed | ORequeued _ => KAgain | ODeferred _ _ => KCall
  | OTerminate f => KTerm (match core f with TNoop => false | _ => true end)
  end.
Definition idle_kind (k : kind) : Prop := k = KFailed \/ k = KAgain.
Definition fin_kind (tm : bool) (r : bool) : kind := if tm then KTerm r else KDone.
Definition tracked (tk : option text) (tr : headers) : Prop :=
  match tk with None => tr = [] | Some n => exists rid, tr = [(n, rid)] end.

Definition call_ev (id : text) (e : ev) : Prop :=
  match e with EvDispatch a _ _ => a = id | EvMetric MErrors => True | _ => False end.

Inductive does (E : env) (K : text -> ctx -> Prop) (tk : option text) (l : log) : node -> list ev -> kind -> Prop :=
| do_reply_no id p d tm : pval E K id p false l -> does E K tk l (NReply id p d tm) [] KDone
| do_reply_idle id p d tm k : idle_kind k -> does E K tk l (NReply id p d tm) [] k
| do_reply id p d tm ty fs tr ok : pval E K id p true l -> eval_to E K id [p] d (VStruct ty fs) l -> tracked tk tr ->
    does E K tk l (NReply id p d tm) [EvReply (deny_status fs) (deny_headers fs ++ tr) (deny_body fs) ok; EvMetric MDenied]
      (if ok then fin_kind tm false else KFailed)
| do_hdr_no id p hx m tm : pval E K id p false l -> does E K tk l (NHdr id p hx m tm) [] KDone
| do_hdr_nil id p hx m tm v : pval E K id p true l -> eval_to E K id [p] hx v l -> header_pairs v = [] -> does E K tk l (NHdr id p hx m tm) [] KDone
| do_hdr_idle id p hx m tm k : idle_kind k -> does E K tk l (NHdr id p hx m tm) [] k
| do_hdr id p hx m tm v h0 ok k : pval E K id p true l -> eval_to E K id [p] hx v l -> header_pairs v <> [] ->
    basis E m l h0 -> (if ok : bool then k = fin_kind tm true else idle_kind k) ->
    does E K tk l (NHdr id p hx m tm) [EvSetMap m (h_set_all (header_pairs v) h0) ok] k
| do_store_no id p x path ex tm : pval E K id p false l -> does E K tk l (NStore id p x path ex tm) [] KDone
| do_store_idle id p x path ex tm k : idle_kind k -> does E K tk l (NStore id p x path ex tm) [] k
| do_store_fail id p x path tm v bytes k : pval E K id p true l -> eval_to E K id [p] x v l -> value_bytes v = Some bytes -> idle_kind k ->
    does E K tk l (NStore id p x path true tm) [EvSetProp (kuadrant_host_path (path_parse path)) bytes false] k
| do_store id p x path tm v : pval E K id p true l -> eval_to E K id [p] x v l -> does E K tk l (NStore id p x path false tm) [] (fin_kind tm true)
| do_export id p x path tm v bytes ok : pval E K id p true l -> eval_to E K id [p] x v l -> value_bytes v = Some bytes ->
    h_setprop E l (kuadrant_host_path (path_parse path)) bytes = (if ok : bool then HOk tt else HNotAvail) ->
    does E K tk l (NStore id p x path true tm) [EvSetProp (kuadrant_host_path (path_parse path)) bytes ok] (fin_kind tm true)
| do_fail_no id p tm : pval E K id p false l -> does E K tk l (NFail id p tm) [] KDone
| do_fail_idle id p tm k : idle_kind k -> does E K tk l (NFail id p tm) [] k
| do_fail_pass id p : pval E K id p true l -> does E K tk l (NFail id p false) [] KDone
| do_fail id p : pval E K id p true l -> does E K tk l (NFail id p true) [EvMetric MErrors] (KTerm true)
| do_call id s var g kids evs k : Forall (call_ev id) evs -> (forall r, k = KTerm r -> r = true /\ sv_deny s = true /\ exists evs', evs = EvMetric MErrors :: evs') ->
    does E K tk l (NCall id s var g kids) evs k.

Lemma idle_failed : idle_kind KFailed. Proof. now left. Qed.
Lemma idle_again : idle_kind KAgain. Proof. now right. Qed.
Local Hint Resolve idle_failed idle_again : core.
Local Hint Constructors does : core.

Lemma reply_does E (K : text -> ctx -> Prop) id p d tm c o c' : K id c -> apply E (TReply id p d tm) c = (o, c') ->
  exists evs, c_log c' = evs ++ c_log c /\ does E K (c_track c) (c_log c) (NReply id p d tm) evs (kind_of o).
Proof.
  intros HK. cbn [apply]. unfold apply_reply. destruct (test_in E p _ c) as [[r vs] c1] eqn:H1. pose proof (test_in_ext _ _ _ _ _ _ _ H1) as X1.
  destruct r as [|[]|]; try (intros [= <- <-]; exists []; split; [exact (ext_log _ _ X1)|]; cbn [kind_of]; auto).
  2:{ apply do_reply_no. now destruct (first_val _ _ _ _ _ _ _ _ _ HK (near_refl E c) H1). }
  destruct (first_val _ _ _ _ _ _ _ _ _ HK (near_refl E c) H1) as [P1 Hin]. destruct (eval_in E d vs c1) as [[r2 vs2] c2] eqn:H2. pose proof (eval_in_ext _ _ _ _ _ _ _ H2) as X2.
  pose proof (ext_trans _ _ _ X1 X2) as X3.
  destruct r2 as [|v|]; try (intros [= <- <-]; exists []; split; [exact (ext_log _ _ X3)|]; cbn [kind_of]; auto).
  destruct (eval_val _ _ _ _ _ _ _ _ _ _ _ HK Hin H2) as [P2 _]. rewrite (ext_log _ _ X1) in P2.
  destruct v; try (intros [= <- <-]; exists []; split; [exact (ext_log _ _ X3)|]; cbn [kind_of]; auto).
  destruct (tracker E c2) as [tr c3] eqn:H4. pose proof (tracker_xrid _ _ _ _ H4) as X4. unfold send_reply.
  set (ok := h_reply E _ _ _ _). intros [= <- <-].
  exists [EvReply (deny_status fields) (deny_headers fields ++ match tr with Some kv => [kv] | None => [] end) (deny_body fields) ok; EvMetric MDenied].
  split; [cbn [emit with_log c_log app]; rewrite (xrid_log _ _ X4), (ext_log _ _ X3); reflexivity|].
  assert (Ht : tracked (c_track c) (match tr with Some kv => [kv] | None => [] end)).
  { assert (E2 : c_track c2 = c_track c) by (destruct X3 as (y & -> & _); reflexivity). rewrite <- E2.
    unfold tracker in H4. destruct (c_track c2) as [n|]; [|injection H4 as <- _; reflexivity].
    destruct (request_id E c2) as [rid c4]. injection H4 as <- _. cbn. eauto. }
  replace (kind_of _) with (if ok then fin_kind tm false else KFailed) by (destruct ok; [destruct tm|]; reflexivity).
  eapply do_reply; eauto.
Qed.
Lemma headers_does E (K : text -> ctx -> Prop) id p hx m tm c o c' : K id c -> hcache E c -> apply E (THeaders id p hx m tm) c = (o, c') ->
  exists evs, c_log c' = evs ++ c_log c /\ does E K (c_track c) (c_log c) (NHdr id p hx m tm) evs (kind_of o).
Proof.
  intros HK HC. cbn [apply]. unfold apply_headers. destruct (test_in E p _ c) as [[r vs] c1] eqn:H1. pose proof (test_in_ext _ _ _ _ _ _ _ H1) as X1.
  destruct r as [|[]|]; try (intros [= <- <-]; exists []; split; [exact (ext_log _ _ X1)|]; cbn [kind_of]; auto).
  2:{ apply do_hdr_no. now destruct (first_val _ _ _ _ _ _ _ _ _ HK (near_refl E c) H1). }
  pose proof (hc_extf _ _ _ (test_in_extf _ _ _ _ _ _ _ H1) HC) as HC1. destruct (first_val _ _ _ _ _ _ _ _ _ HK (near_refl E c) H1) as [P1 Hin]. destruct (eval_in E hx vs c1) as [[r2 vs2] c2] eqn:H2. pose proof (eval_in_ext _ _ _ _ _ _ _ H2) as X2.
  pose proof (ext_trans _ _ _ X1 X2) as X3.
  destruct r2 as [|v|]; try (intros [= <- <-]; exists []; split; [exact (ext_log _ _ X3)|]; cbn [kind_of]; auto).
  pose proof (hc_extf _ _ _ (eval_in_extf _ _ _ _ _ _ _ H2) HC1) as HC2. destruct (eval_val _ _ _ _ _ _ _ _ _ _ _ HK Hin H2) as [P2 _]. rewrite (ext_log _ _ X1) in P2.
  destruct (header_pairs v) as [|p0 ps] eqn:Hp.
  { intros [= <- <-]. exists []. split; [exact (ext_log _ _ X3)|]. eapply do_hdr_nil; eauto. }
  rewrite <- Hp. destruct (read_headers E (target_path m) c2) as [r3 c3] eqn:H4. assert (HB : forall h, r3 = RAvail h -> basis E m (c_log c2) h) by (intros h ->; eapply hc_read; eauto). apply read_headers_ext in H4.
  pose proof (ext_trans _ _ _ X3 H4) as X5.
  destruct r3 as [|h|]; try (intros [= <- <-]; exists []; split; [exact (ext_log _ _ X5)|]; cbn [kind_of]; auto).
  destruct (set_headers E m _ c3) as [r4 c4] eqn:H6. apply set_headers_spec in H6 as (ok & x & -> & Hok & _ & _).
  intros H. exists [EvSetMap m (h_set_all (header_pairs v) h) ok].
  assert (Hl : c_log c' = [EvSetMap m (h_set_all (header_pairs v) h) ok] ++ c_log c).
  { destruct r4; injection H as _ <-; cbn; now rewrite (ext_log _ _ X5). }
  split; [exact Hl|]. apply do_hdr; auto; [now rewrite Hp|rewrite <- (ext_log _ _ X3); auto|].
  destruct ok.
  - rewrite (proj1 Hok eq_refl) in H. injection H as <- _. now destruct tm.
  - destruct r4 as [| []|]; [|destruct Hok as [_ Hok]; discriminate (Hok eq_refl)|]; injection H as <- _; cbn; auto.
Qed.
Lemma fail_does E (K : text -> ctx -> Prop) id p tm c o c' : K id c -> apply E (TFail id p tm) c = (o, c') ->
  exists evs, c_log c' = evs ++ c_log c /\ does E K (c_track c) (c_log c) (NFail id p tm) evs (kind_of o).
Proof.
  intros HK. cbn [apply]. unfold apply_fail. destruct (test_in E p _ c) as [[r vs] c1] eqn:H1. pose proof (test_in_ext _ _ _ _ _ _ _ H1) as X1.
  destruct r as [|[]|].
  - destruct (body_over p c1); intros [= <- <-]; exists []; (split; [exact (ext_log _ _ X1)|]; cbn; auto).
  - destruct (first_val _ _ _ _ _ _ _ _ _ HK (near_refl E c) H1) as [P1 Hin]. destruct tm; intros [= <- <-].
    + exists [EvMetric MErrors]. split; [cbn; now rewrite (ext_log _ _ X1)|]. now apply do_fail.
    + exists []. split; [exact (ext_log _ _ X1)|]. now apply do_fail_pass.
  - destruct (first_val _ _ _ _ _ _ _ _ _ HK (near_refl E c) H1) as [P1 Hin]. intros [= <- <-]. exists []. split; [exact (ext_log _ _ X1)|]. now apply do_fail_no.
  - intros [= <- <-]. exists []. split; [exact (ext_log _ _ X1)|]. cbn. auto.
Qed.
Lemma store_value_does E (K : text -> ctx -> Prop) self id p x path ex tm c0 c o c' : K id c0 -> near E c0 c -> store_value E self id p x path ex tm c = (o, c') ->
  exists evs, c_log c' = evs ++ c_log c /\ does E K (c_track c) (c_log c) (NStore id p x path ex tm) evs (kind_of o).
Proof.
  intros HK HN. unfold store_value. destruct (test_in E p _ c) as [[r vs] c1] eqn:H1. pose proof (test_in_ext _ _ _ _ _ _ _ H1) as X1.
  destruct r as [|[]|]; try (intros [= <- <-]; exists []; split; [exact (ext_log _ _ X1)|]; cbn [kind_of]; auto).
  2:{ apply do_store_no. now destruct (first_val _ _ _ _ _ _ _ _ _ HK HN H1). }
  destruct (first_val _ _ _ _ _ _ _ _ _ HK HN H1) as [P1 Hin]. destruct (eval_in E x vs c1) as [[r2 vs2] c2] eqn:H2. pose proof (eval_in_ext _ _ _ _ _ _ _ H2) as X2.
  pose proof (ext_trans _ _ _ X1 X2) as X3.
  destruct r2 as [|v|]; try (intros [= <- <-]; exists []; split; [exact (ext_log _ _ X3)|]; cbn [kind_of]; auto).
  destruct (eval_val _ _ _ _ _ _ _ _ _ _ _ HK Hin H2) as [P2 _]. rewrite (ext_log _ _ X1) in P2.
  destruct ex.
  - destruct (value_bytes v) as [bytes|] eqn:Hb; [|intros [= <- <-]; exists []; split; [exact (ext_log _ _ X3)|]; cbn [kind_of]; auto].
    destruct (set_attribute E _ bytes c2) as [r4 c4] eqn:H6. pose proof H6 as H7. apply set_attribute_spec in H6 as (ok & y & -> & Hok).
    assert (Hh : r4 = RErr \/ h_setprop E (c_log c) (kuadrant_host_path (path_parse path)) bytes = if ok then HOk tt else HNotAvail).
    { revert H7. unfold set_attribute. cbv zeta. rewrite (ext_log _ _ X3). destruct (h_setprop E (c_log c) _ bytes) as [[]| |]; intros [= <- H7]; [right|right|now left].
      - destruct ok; [reflexivity|]. destruct Hok as [_ Hok]. discriminate (Hok eq_refl).
      - destruct ok; [|reflexivity]. destruct Hok as [Hok _]. discriminate (Hok eq_refl). }
    exists [EvSetProp (kuadrant_host_path (path_parse path)) bytes ok].
    destruct r4 as [| [] |]; injection H as <- <-; (split; [cbn; now rewrite (ext_log _ _ X3)|]).
    + replace (kind_of _) with (fin_kind tm true) by now destruct tm. eapply do_export; eauto. now destruct Hh.
    + replace (kind_of _) with (fin_kind tm true) by now destruct tm. eapply do_export; eauto. now destruct Hh.
    + assert (ok = false) as -> by (destruct ok; [destruct Hok as [Hok _]; discriminate (Hok eq_refl)|reflexivity]). eapply do_store_fail; eauto.
  - intros [= <- <-]. exists []. split; [cbn; now rewrite (ext_log _ _ X3)|].
    replace (kind_of _) with (fin_kind tm true) by now destruct tm. eapply do_store; eauto.
Qed.
Lemma store_does E (K : text -> ctx -> Prop) id p x path ex tm bs c o c' : K id c -> bs_ok E (c_log c) bs -> apply E (TStore id p x path ex tm bs) c = (o, c') ->
  exists evs, c_log c' = evs ++ c_log c /\ does E K (c_track c) (c_log c) (NStore id p x path ex tm) evs (kind_of o).
Proof.
  intros HK Hbs. cbn [apply]. unfold apply_store.
  assert (KF : forall src q c1 o c', near E c c1 -> c_track c1 = c_track c -> (bodies_ok E c1 -> bp_ok E src (c_log c1) q) ->
    match feed_parser E src q c1 with
    | RPending => (ORequeued [TStore id p x path ex tm (BSActive src q)], c1)
    | RErr => (OFailed, c1)
    | RAvail (p', c') => store_value E (TStore id p x path ex tm (BSActive src p')) id p x path ex tm c'
    end = (o, c') -> exists evs, c_log c' = evs ++ c_log c /\ does E K (c_track c) (c_log c) (NStore id p x path ex tm) evs (kind_of o)).
  { intros src q c1 o0 c0 Hn Ht Hq. pose proof (near_log _ _ _ Hn) as Hl. destruct (feed_parser E src q c1) as [|[q' c2]|] eqn:Hf.
    - intros [= <- <-]. exists []. split; [exact Hl|]. cbn. auto.
    - pose proof (near_feed _ _ _ _ _ _ Hq Hf) as Hnf. apply feed_parser_frame in Hf as (b & ->). intros H. apply (store_value_does E K _ id p x path ex tm c _ _ _ HK) in H; [|eapply near_trans; [exact Hn|exact Hnf]].
      assert (c_log (src_set src b c1) = c_log c1 /\ c_track (src_set src b c1) = c_track c1) as [E1 E2] by (destruct src; now split).
      rewrite E1, E2, Hl, Ht in H. exact H.
    - intros [= <- <-]. exists []. split; [exact Hl|]. cbn. auto. }
  destruct bs as [|src fields|src q].
  - now apply (store_value_does E K _ id p x path ex tm c c), near_refl.
  - destruct (create_parser E src fields c) as [r c1] eqn:Hcp.
    assert (near E c c1 /\ c_track c1 = c_track c) as [Hn Ht].
    { revert Hcp. unfold create_parser. destruct src; [intros [= _ <-]; split; [apply near_refl|reflexivity]|]. destruct (read_headers E p_resp_headers c) as [r1 c2] eqn:Hr.
      pose proof (extf_near _ _ _ (read_headers_extf _ _ _ _ _ Hr)) as Hn. apply read_headers_ext in Hr. cbv zeta. destruct r1; intros [= _ <-]; (split; [exact Hn|]); now destruct Hr as (y & -> & _). }
    pose proof (near_log _ _ _ Hn) as Hl. destruct r as [|q|]; try (intros [= <- <-]; exists []; split; [exact Hl|]; cbn; auto; fail).
    apply KF; auto. intros [Hd _]. now apply create_parser_ok in Hcp as [_ Hcp].
  - apply KF; [apply near_refl|reflexivity|intros _; exact Hbs].
Qed.

(** * Every kind of task *)
Definition n_id (nd : node) : text :=
  match nd with NCall id _ _ _ _ | NDyn id _ _ _ | NFail id _ _ | NHdr id _ _ _ _ | NReply id _ _ _ | NStore id _ _ _ _ _ => id end.
Definition is_call_task (t : task) : Prop := match t with TDynamic _ _ _ _ _ _ _ _ | TPending _ _ _ _ _ => True | _ => False end.
Definition svc_of (t : task) : option svc := match t with TDynamic _ s _ _ _ _ _ _ | TPending _ s _ _ _ => Some s | _ => None end.
(** only calls are under a failure mode, the one of their service *)
Fixpoint plain (t : task) : Prop :=
  match t with
  | TTracing t => plain t
  | TFailureMode t b => (exists s, svc_of t = Some s /\ b = sv_deny s) /\ plain t
  | TDynamic _ _ _ _ rs _ _ _ | TPending _ _ _ rs _ =>
      (fix go l := match l with [] => True | r :: l' => plain r /\ go l' end) rs
  | _ => True
  end.
Lemma plain_go l : (fix go l := match l with [] => True | r :: l' => plain r /\ go l' end) l <-> Forall plain l.
Proof.
  induction l as [|a l IH]; [split; [constructor|easy]|]. rewrite IH. split; [intros [H1 H2]; now constructor|]. inversion 1; auto.
Qed.
Lemma plain_core t : plain t -> plain (core t).
Proof. induction t; simpl; tauto. Qed.
Definition plain_out (o : outcome) : Prop :=
  match o with ODeferred _ t' => plain t' | ORequeued l => Forall plain l | _ => True end.
Ltac blast := repeat match goal with
  | |- context [match ?x with _ => _ end] => destruct x
  | |- (_, _) = (_, _) -> _ => let H := fresh in intros H; injection H as <- <-
  end; cbn [plain_out]; repeat constructor; try assumption.
Lemma store_value_plain E self id p x path ex tm c o c' : plain self -> store_value E self id p x path ex tm c = (o, c') -> plain_out o.
Proof.
  intros Hs. unfold store_value. destruct (test_in E p _ c) as [[r vs] c1]. destruct r as [|[]|]; try (intros [= <- <-]; repeat constructor; assumption).
  destruct (eval_in E x vs c1) as [[[|v|] vs2] c2]; try (intros [= <- <-]; repeat constructor; assumption).
  set (y := if ex then _ else _). destruct y as [[] c3]; intros [= <- <-]; [|constructor]. destruct tm; constructor.
Qed.
Lemma plain_apply E t : forall c o c', plain t -> apply E t c = (o, c') -> plain_out o /\ (forall s, svc_of t = Some s -> forall k t', o = ODeferred k t' -> svc_of t' = Some s).
Proof.
  induction t as [id s var msg rs pred deps g|id s var rs g|id g|t IH b|t IH|id p tm|id p hx m tm|id p d tm|id p x path ex tm bs|st fs|]; intros c o c' Hp.
  - cbn [apply]. intros Ha. assert (plain_out o /\ forall k t', o = ODeferred k t' -> svc_of t' = Some s) as [H1 H2]; [|split; [exact H1|intros s0 [= <-]; exact H2]].
    revert Ha. unfold apply_dynamic. destruct (test_in E pred _ c) as [[r vs] c1].
    destruct r as [|[]|]; try (intros [= <- <-]; (destruct (body_over pred c1) || idtac); (split; [repeat constructor; exact Hp|discriminate])); try (intros [= <- <-]; split; [constructor|discriminate]).
    destruct (eval_in E msg _ c1) as [[[|v|] vs2] c2]; try (intros [= <- <-]; (destruct (body_over msg c2) || idtac); (split; [repeat constructor; exact Hp|discriminate])); try (intros [= <- <-]; split; [constructor|discriminate]).
    destruct (o_encode E _ s v); [|intros [= <- <-]; split; [constructor|discriminate]].
    destruct (dispatch E _ _ _ _ _ _ c2) as [[tok|] c3]; intros [= <- <-]; (split; [|try discriminate]); [exact Hp|intros k t' [= <- <-]; reflexivity|constructor].
  - cbn [apply]. unfold apply_pending, process_response. destruct (take_grpc c) as [[[st sz]|] c1]; [|intros [= <- <-]; split; [constructor|discriminate]].
    destruct (negb (N.eqb st 0)); [intros [= <- <-]; split; [constructor|discriminate]|]. apply plain_go in Hp.
    destruct rs as [|r0 rs]; [intros [= <- <-]; split; [constructor|discriminate]|].
    destruct (h_grpcresp E _ sz) as [bs|]; [|intros [= <- <-]; split; [constructor|discriminate]].
    destruct (o_decode E _ s bs); intros [= <- <-]; (split; [|discriminate]); [exact Hp|constructor].
  - cbn [apply]. unfold apply_noop. intros [= <- <-]. split; [constructor|discriminate].
  - cbn [apply]. destruct Hp as [(s & Hc & Hb) Hp]. destruct (apply E t c) as [o1 c1] eqn:Ha. destruct (IH _ _ _ Hp Ha) as [H1 H2].
    destruct o1; intros [= <- <-]; (split; [|discriminate]); try exact H1; try constructor; try exact H1; [|destruct b; constructor].
    exists s. split; [exact (H2 s Hc _ _ eq_refl)|exact Hb].
  - cbn [apply]. destruct (apply E t c) as [o1 c1] eqn:Ha. destruct (IH _ _ _ Hp Ha) as [H1 H2].
    destruct o1; intros [= <- <-]; (split; [|discriminate]); try exact H1; try constructor.
    cbn in *. rewrite Forall_map. exact H1.
  - split; [|discriminate]. revert H. cbn [apply]. unfold apply_fail. destruct (test_in E p _ c) as [[r vs] c1]. blast.
  - split; [|discriminate]. revert H. cbn [apply]. unfold apply_headers. destruct (test_in E p _ c) as [[r vs] c1].
    destruct r as [|[]|]; [blast| |blast|blast]. destruct (eval_in E hx vs c1) as [[r2 vs2] c2]. blast.
  - split; [|discriminate]. revert H. cbn [apply]. unfold apply_reply. destruct (test_in E p _ c) as [[r vs] c1].
    destruct r as [|[]|]; [blast| |blast|blast]. destruct (eval_in E d vs c1) as [[r2 vs2] c2]. destruct r2 as [|v|]; [blast| |blast]. destruct v; try blast. 
  - split; [|discriminate]. revert H. cbn [apply]. unfold apply_store.
    assert (K : forall src q c1 o c',
      match feed_parser E src q c1 with
      | RPending => (ORequeued [TStore id p x path ex tm (BSActive src q)], c1)
      | RErr => (OFailed, c1)
      | RAvail (p', c') => store_value E (TStore id p x path ex tm (BSActive src p')) id p x path ex tm c'
      end = (o, c') -> plain_out o).
    { intros src q c1 o0 c0. destruct (feed_parser E src q c1) as [|[q' c2]|]; [blast| |blast]. now apply store_value_plain. }
    destruct bs as [|src fields|src q]; [now apply store_value_plain| |apply K].
    destruct (create_parser E src fields c) as [[|q|] c1]; [blast|apply K|blast].
  - split; [|discriminate]. revert H. cbn [apply]. unfold apply_token. cbv zeta.
    assert (K : forall s c1 o c', match (if (0 <? b_size (c_respb c1))%N then
        match h_respbody E (c_log c1) 0 (b_size (c_respb c1)) with
        | HOk (Some bytes) => RAvail (st_feed bytes s) | HOk None => RAvail s | HNotAvail => RPending | HErr => RErr end else RAvail s) with
      | RPending => (ORequeued [TToken (Some s) fs], c1)
      | RErr => (OFailed, c1)
      | RAvail s' => if b_eos (c_respb c1) then (ODone, with_respb c1 (st_populate E fs s' (c_respb c1))) else (ORequeued [TToken (Some s') fs], c1)
      end = (o, c') -> plain_out o).
    { intros s c1 o0 c0. destruct (if (0 <? b_size (c_respb c1))%N then _ else _); blast. }
    destruct st as [s|]; [apply K|]. destruct (read_headers E p_resp_headers c) as [[|h|] c1]; [blast|apply K|blast].
  - cbn [apply]. intros [= <- <-]. split; [constructor|discriminate].
Qed.

Lemma plain_same E t : forall c o c', plain t -> ~ is_call_task (core t) -> apply E t c = (o, c') ->
  exists o0, apply E (core t) c = (o0, c') /\ kind_of o0 = kind_of o.
Proof.
  induction t as [id s var msg rs pred deps g|id s var rs g|id g|t IH b|t IH|id p tm|id p hx m tm|id p d tm|id p x path ex tm bs|st fs|]; intros c o c' Hp Hn Ha; cbn [core].
  all: try (exists o; split; [exact Ha|reflexivity]).
  - destruct Hp as [(s & Hc & _) _]. exfalso. apply Hn. destruct t; try discriminate; exact Logic.I.
  - cbn [apply] in Ha. destruct (apply E t c) as [o1 c1] eqn:H1. destruct (IH _ _ _ Hp Hn H1) as (o0 & A1 & A2).
    exists o0. destruct o1; injection Ha as <- <-; (split; [exact A1|exact A2]).
Qed.
Lemma call_term E t : forall c f c', plain t -> is_call_task (core t) -> apply E t c = (OTerminate f, c') ->
  core f = default_reply /\ (forall s, svc_of (core t) = Some s -> sv_deny s = true) /\ exists evs, c_log c' = (EvMetric MErrors :: evs) ++ c_log c.
Proof.
  assert (K : forall t, is_call_task t -> forall c f c', apply E t c <> (OTerminate f, c')).
  { intros t0 Ht c f c'. destruct t0; try destruct Ht; cbn [apply].
    - unfold apply_dynamic. destruct (test_in E pred _ c) as [[r vs] c1]. destruct r as [|[]|]; try discriminate; [destruct (body_over pred c1); discriminate|].
      destruct (eval_in E msg _ c1) as [[r2 vs2] c2]. destruct r2; try discriminate; [destruct (body_over msg c2); discriminate|].
      destruct (o_encode E _ s a); [|discriminate]. destruct (dispatch E _ _ _ _ _ _ c2) as [[tok|] c3]; discriminate.
    - unfold apply_pending, process_response. destruct (take_grpc c) as [[[st sz]|] c1]; [|discriminate].
      destruct (negb (N.eqb st 0)); [discriminate|]. destruct on_reply; [discriminate|].
      destruct (h_grpcresp E _ sz); [|discriminate]. match goal with |- context [o_decode ?a ?b ?c ?d] => destruct (o_decode a b c d) end; discriminate. }
  induction t as [id s var msg rs pred deps g|id s var rs g|id g|t IH b|t IH|id p tm|id p hx m tm|id p d tm|id p x path ex tm bs|st fs|]; intros c f c' Hp Hc Ha; try destruct Hc.
  - refine (False_ind _ (K _ _ _ _ _ Ha)). exact Logic.I.
  - refine (False_ind _ (K _ _ _ _ _ Ha)). exact Logic.I.
  - destruct Hp as [(s & Ht & Hb) Hp]. cbn [apply] in Ha. destruct (apply E t c) as [o1 c1] eqn:H1. destruct o1; try discriminate.
    + destruct b; [|discriminate]. injection Ha as <- <-. split; [reflexivity|].
      split; [intros s0; destruct t; try discriminate; cbn in *; congruence|]. apply apply_summary in H1 as [(evs & G & _) _ _ _ _]. exists evs. cbn. f_equal. exact G.
    + refine (False_ind _ (K _ _ _ _ _ H1)). destruct t; try discriminate; exact Logic.I.
  - cbn [apply] in Ha. destruct (apply E t c) as [o1 c1] eqn:H1. destruct o1; try discriminate. injection Ha as <- <-. cbn [core]. exact (IH _ _ _ Hp Hc H1).
Qed.
Definition is_token (t : task) : Prop := match core t with TToken _ _ => True | _ => False end.
Lemma quiet_call t evs : is_call_task (core t) -> Forall (quiet t) evs -> Forall (call_ev (t_id (core t))) evs.
Proof.
  intros Hc. apply Forall_impl. rewrite core_id. intros e. unfold quiet. destruct e; try easy; destruct (core t); try destruct Hc; try easy; try (destruct tok; easy); destruct m; easy.
Qed.
Lemma does_apply E (K : text -> ctx -> Prop) t c o c' : (wf_q t -> K (t_id t) c) -> hcache E c -> plain t -> store_fed E (c_log c) t -> wf_q t \/ wf_p t -> ~ is_token t -> apply E t c = (o, c') ->
  exists nd evs, In nd (nodes t) /\ n_id nd = t_id t /\ c_log c' = evs ++ c_log c /\ does E K (c_track c) (c_log c) nd evs (kind_of o).
Proof.
  intros HK HC Hp Hsf Hw Hk Ha. pose proof (plain_same E t c o c' Hp) as Hsame. pose proof (call_term E t c) as Hterm.
  rewrite <- (nodes_core t), <- (core_id t). unfold wf_p, is_token in *. rewrite <- wf_q_core in Hw.
  assert (Hcall : forall id s var g kids, is_call_task (core t) -> In (NCall id s var g kids) (nodes (core t)) -> id = t_id (core t) -> svc_of (core t) = Some s ->
    exists nd evs, In nd (nodes (core t)) /\ n_id nd = t_id (core t) /\ c_log c' = evs ++ c_log c /\ does E K (c_track c) (c_log c) nd evs (kind_of o)).
  { intros id s var g kids Hc Hi He Hsv.
    assert (exists evs, c_log c' = evs ++ c_log c /\ Forall (call_ev (t_id (core t))) evs) as (evs & Hl & Hcv).
    { pose proof (apply_summary _ _ _ _ _ Ha) as [S1 _ _ _ _].
      destruct o; try (destruct S1 as (evs & G & Hq & _); exists evs; split; [exact G|now apply quiet_call]).
      destruct S1 as (cl & G & _). exists [EvDispatch (t_id t) cl (Some tok)]. split; [exact G|]. rewrite core_id. now repeat constructor. }
    destruct (match o with OTerminate _ => true | _ => false end) eqn:Ho.
    - destruct o; try discriminate. destruct (Hterm t0 c' Hp Hc Ha) as [H1 [H3 (l & H2)]].
      assert (evs = EvMetric MErrors :: l) by (rewrite Hl in H2; now apply app_inv_tail in H2). subst evs.
      eexists. exists (EvMetric MErrors :: l). split; [exact Hi|]. split; [exact He|]. split; [exact H2|]. constructor; [subst id; exact Hcv|].
      cbn [kind_of]. rewrite H1. intros r [= <-]. split; [reflexivity|]. split; [now apply H3|eauto].
    - eexists. exists evs. split; [exact Hi|]. split; [exact He|]. split; [exact Hl|]. constructor; [subst id; exact Hcv|].
      intros r Hr. destruct o; discriminate. }
  assert (Hres : forall nd o0, (exists evs, c_log c' = evs ++ c_log c /\ does E K (c_track c) (c_log c) nd evs (kind_of o0)) -> kind_of o0 = kind_of o ->
     nodes (core t) = [nd] -> n_id nd = t_id (core t) -> 
     exists nd evs, In nd (nodes (core t)) /\ n_id nd = t_id (core t) /\ c_log c' = evs ++ c_log c /\ does E K (c_track c) (c_log c) nd evs (kind_of o)).
  { intros nd o0 (evs & H1 & H2) <- Hn Hi. exists nd, evs. rewrite Hn. split; [now left|]. auto. }
  assert (HK1 : ~ wf_p t -> K (t_id (core t)) c) by (intros H; destruct Hw as [Hw|Hw]; [rewrite core_id; apply HK; now apply wf_q_core|now destruct H]).
  unfold wf_p in HK1. unfold store_fed in Hsf. destruct (core t) eqn:Hc.
  - eapply Hcall; [exact Logic.I|now left|reflexivity|reflexivity].
  - eapply Hcall; [exact Logic.I|now left|reflexivity|reflexivity].
  - destruct Hw as [[]|[]].
  - exfalso. clear - Hc. induction t; simpl in Hc; try discriminate; auto.
  - exfalso. clear - Hc. induction t; simpl in Hc; try discriminate; auto.
  - destruct (Hsame (fun x => x) Ha) as (o0 & A1 & A2). apply (fail_does E K) in A1; [|apply HK1; tauto]. eapply Hres; eauto; reflexivity.
  - destruct (Hsame (fun x => x) Ha) as (o0 & A1 & A2). apply (headers_does E K) in A1; [|apply HK1; tauto|exact HC]. eapply Hres; eauto; reflexivity.
  - destruct (Hsame (fun x => x) Ha) as (o0 & A1 & A2). apply (reply_does E K) in A1; [|apply HK1; tauto]. eapply Hres; eauto; reflexivity.
  - destruct (Hsame (fun x => x) Ha) as (o0 & A1 & A2). apply (store_does E K) in A1; [|apply HK1; tauto|exact Hsf]. eapply Hres; eauto; reflexivity.
  - destruct Hk. exact Logic.I.
  - destruct Hw as [[]|[]].
Qed.

(** * The calls *)
(** the call [cl], answered by the host with [r], is that of the action [a] *)
Definition called (E : env) (K : text -> ctx -> Prop) (N0 : list node) (a : text) (cl : call) (r : option N) (l : log) : Prop :=
  exists s var g kids msg pred deps v, In (NCall a s var g kids) N0 /\ In (NDyn a msg pred deps) N0 /\
    pval E K a pred true l /\ eval_to E K a [] msg v l /\ o_encode E l s v = Some (cl_msg cl) /\
    cl_upstream cl = sv_upstream s /\ cl_service cl = sv_service s /\ cl_method cl = sv_method s /\ cl_timeout cl = sv_timeout s /\
    h_dispatch E l cl = r.
Lemma called_incl E K N0 N1 a cl r l : incl N0 N1 -> called E K N0 a cl r l -> called E K N1 a cl r l.
Proof. intros HN (s & var & g & kids & msg & pred & deps & v & H1 & H2 & H). exists s, var, g, kids, msg, pred, deps, v. auto. Qed.
Definition only_call (E : env) (K : text -> ctx -> Prop) (t : task) (c c' : ctx) : Prop :=
  forall post a cl r pre, c_log c' = post ++ EvDispatch a cl r :: pre ++ c_log c -> a = t_id t /\ pre = [] /\ called E K (nodes t) a cl r (c_log c).
Lemma no_call E K t c c' evs : c_log c' = evs ++ c_log c -> (forall a cl r, ~ In (EvDispatch a cl r) evs) -> only_call E K t c c'.
Proof.
  intros H1 H2 post a cl r pre H. exfalso. apply (H2 a cl r). rewrite H1 in H. change (evs ++ c_log c = post ++ (EvDispatch a cl r :: pre) ++ c_log c) in H.
  rewrite app_assoc in H. apply app_inv_tail in H. rewrite H. apply in_or_app. right. now left.
Qed.
Lemma apply_called E (K : text -> ctx -> Prop) t : forall c o c', (wf_q t -> K (t_id t) c) -> wf_q t \/ wf_d t -> apply E t c = (o, c') -> only_call E K t c c'.
Proof.
  assert (Kq : forall t c o c', apply E t c = (o, c') -> (match core t with TDynamic _ _ _ _ _ _ _ _ => False | _ => True end) -> only_call E K t c c').
  { intros t0 c o c' Ha Hc. apply apply_summary in Ha as [S1 _ _ _ _].
    assert (S2 : exists evs, grows c c' evs /\ Forall (quiet t0) evs) by (destruct o; try (destruct S1 as (evs & G & Q & _); now exists evs); destruct S1 as (cl & _ & _ & _ & S1); destruct (core t0); easy).
    destruct S2 as (evs & G & Q). eapply no_call; [exact G|]. intros a cl r Hi. rewrite Forall_forall in Q. apply Q in Hi. cbn in Hi. destruct r; [easy|]. destruct (core t0); easy. }
  induction t as [id s var msg rs pred deps g|id s var rs g|id g|t IH b|t IH|id p tm|id p hx m tm|id p d tm|id p x path ex tm bs|st fs|]; intros c o c' HK Hw Ha.
  all: try (eapply Kq; [exact Ha|exact Logic.I]).
  - destruct Hw as [Hw|[[]|[]]]. specialize (HK Hw). cbn [t_id] in HK. cbn [apply] in Ha. unfold apply_dynamic in Ha. destruct (test_in E pred _ c) as [[r vs] c1] eqn:H1. pose proof (test_in_ext _ _ _ _ _ _ _ H1) as X1.
    assert (K1 : c_log c' = c_log c1 -> only_call E K (TDynamic id s var msg rs pred deps g) c c').
    { intros H. apply no_call with (evs := []); [rewrite H; exact (ext_log _ _ X1)|easy]. }
    destruct r as [|[]|]; try (injection Ha as <- <-; now apply K1). pose proof (extf_near _ _ _ (test_in_extf _ _ _ _ _ _ _ H1)) as N1. destruct (first_val _ _ _ _ _ _ _ _ _ HK (near_refl E c) H1) as [P1 _].
    destruct (eval_in E msg _ c1) as [[r2 vs2] c2] eqn:H2. pose proof (eval_in_ext _ _ _ _ _ _ _ H2) as X2. pose proof (ext_trans _ _ _ X1 X2) as X3.
    assert (K2 : c_log c' = c_log c2 -> only_call E K (TDynamic id s var msg rs pred deps g) c c').
    { intros H. apply no_call with (evs := []); [rewrite H; exact (ext_log _ _ X3)|easy]. }
    destruct r2 as [|v|]; try (injection Ha as <- <-; now apply K2). destruct (eval_val _ _ _ _ _ _ _ _ _ _ _ HK (in_first E id c c1 N1) H2) as [P2 _]. rewrite (ext_log _ _ X1) in P2.
    destruct (o_encode E _ s v) as [bytes|] eqn:He; [|injection Ha as <- <-; now apply K2]. rewrite (ext_log _ _ X3) in He.
    destruct (dispatch E _ _ _ _ _ _ c2) as [r3 c3] eqn:Hd. unfold dispatch in Hd. destruct (request_id E c2) as [rid c4] eqn:Hr. apply request_id_xrid in Hr as [Xr _].
    injection Hd as <- <-. set (cl := mkCall _ _ _ _ _ _) in *.
    assert (HL : c_log c' = EvDispatch id cl (h_dispatch E (c_log c) cl) :: c_log c).
    { pose proof (xrid_log _ _ Xr) as Hx. rewrite (ext_log _ _ X3) in Hx. rewrite Hx in Ha. destruct (h_dispatch E (c_log c) cl); injection Ha as <- <-; [destruct g|]; cbn [emit raise with_bar with_log c_log]; now rewrite Hx. }
    intros post a cl' r' pre H. rewrite HL in H. assert (post = [] /\ pre = []) as [-> ->].
    { apply (f_equal (@List.length ev)) in H. cbn [List.length] in H. rewrite app_length in H. cbn [List.length] in H. rewrite app_length in H. destruct post, pre; cbn in H; try lia. now split. }
    cbn [app] in H. injection H as <- <- <-. split; [reflexivity|]. split; [reflexivity|].
    exists s, var, g, (map t_id rs), msg, pred, deps, v. cbn [nodes]. repeat split; auto; [now left|right; now left].
  - cbn [apply] in Ha. destruct (apply E t c) as [o1 c1] eqn:H1. assert (HK' : wf_q t -> K (t_id t) c) by exact HK. assert (Hw' : wf_q t \/ wf_d t) by (destruct Hw as [Hw|[[]|Hw]]; [now left|right; right; exact Hw]). specialize (IH _ _ _ HK' Hw' H1). cbn [core nodes t_id] in *.
    destruct o1; injection Ha as <- <-; try exact IH. intros post a cl r pre H. cbn [emit with_log c_log] in H. destruct post; [discriminate|].
    injection H as <- H. now apply IH in H.
  - cbn [apply] in Ha. destruct (apply E t c) as [o1 c1] eqn:H1. assert (HK' : wf_q t -> K (t_id t) c) by exact HK. assert (Hw' : wf_q t \/ wf_d t) by (destruct Hw as [Hw|[[]|Hw]]; [now left|right; right; exact Hw]). specialize (IH _ _ _ HK' Hw' H1). cbn [core nodes t_id] in *.
    destruct o1; injection Ha as <- <-; exact IH.
Qed.

(** * Everything that is done comes from the configuration *)
Definition default_node : node := NReply (tx "default") true_expr (expr_of default_deny) false.
(** [l] ends with an evaluation of the action [a], of the kind [k] *)
Definition acted (E : env) (K : text -> ctx -> Prop) (N0 : list node) (tk : option text) (a : text) (k : kind) (l : log) : Prop :=
  exists nd evs l', In nd N0 /\ n_id nd = a /\ l = evs ++ EvEval a :: l' /\ does E K tk (EvEval a :: l') nd evs k.
Definition callid (N0 : list node) (a : text) : Prop :=
  (exists s var g kids, In (NCall a s var g kids) N0) \/ exists k, a = tx "teardown_" ++ nat_text k.
Definition answered (a : text) (l : log) : Prop := exists k evs l', l = evs ++ EvEval a :: EvHandle k a :: l'.
Definition effect (E : env) (K : text -> ctx -> Prop) (N0 : list node) (tk : option text) (l : log) : Prop :=
  (exists nd evs l' k, In nd N0 /\ l = evs ++ EvEval (n_id nd) :: l' /\ evs <> [] /\ does E K tk (EvEval (n_id nd) :: l') nd evs k) \/
  (exists a evs l' k, l = evs ++ EvTerminate a :: l' /\ evs <> [] /\ acted E K N0 tk a (KTerm true) l' /\ does E (fun _ _ => True) tk (EvTerminate a :: l') default_node evs k).
Definition eff (E : env) (K : text -> ctx -> Prop) (N0 : list node) (tk : option text) (e : ev) (l : log) : Prop :=
  match e with
  | EvDone a => a = tu \/ answered a l /\ callid N0 a \/ acted E K N0 tk a KDone l
  | EvFailed a => a = tu \/ acted E K N0 tk a KFailed l
  | EvTerminate a => exists b, acted E K N0 tk a (KTerm b) l
  | EvReply _ _ _ _ | EvSetMap _ _ _ | EvSetProp _ _ _ => effect E K N0 tk (e :: l)
  | EvDispatch a cl r => (exists l', l = EvEval a :: l') /\ called E K N0 a cl r l
  | _ => True
  end.
Definition is_reply (e : ev) : bool := match e with EvReply _ _ _ ok => ok | _ => false end.
Definition replies (l : log) : nat := length (filter is_reply l).
Lemma replies_cons e l : replies (e :: l) = (if is_reply e then 1 else 0) + replies l.
Proof. unfold replies. simpl. now destruct (is_reply e). Qed.
Lemma replies_app l l' : replies (l ++ l') = replies l + replies l'.
Proof. unfold replies. now rewrite filter_app, app_length. Qed.
Definition all_final (N0 : list node) : Prop := forall id p d tm, In (NReply id p d tm) N0 -> tm = true.

Record F (E : env) (K : text -> ctx -> Prop) (n : nat) (N0 : list node) (tk : option text) (ts : list task) (p : pipe) : Prop := {
  f_b : B E n N0 ts p;
  f_plain : Forall plain (items ts p);
  f_ids : Forall (fun t => callid N0 (t_id t)) (dts p);
  f_tk : c_track (p_ctx p) = tk;
  f_head : hcache E (p_ctx p);
  f_eff : hist (eff E K N0 tk) (c_log (p_ctx p));
  f_rep : all_final N0 -> replies (c_log (p_ctx p)) <= 1 /\ (~ over (c_log (p_ctx p)) -> replies (c_log (p_ctx p)) = 0) }.

(** the events of one evaluation *)
Lemma does_eff E K N0 tk nd evs k l : In nd N0 ->
  (forall post a cl r pre, evs = post ++ EvDispatch a cl r :: pre -> a = n_id nd /\ pre = [] /\ called E K N0 a cl r (EvEval (n_id nd) :: l)) -> does E K tk (EvEval (n_id nd) :: l) nd evs k -> hist (eff E K N0 tk) l ->
  hist (eff E K N0 tk) (evs ++ EvEval (n_id nd) :: l).
Proof.
  intros Hi Hcl Hd Hl. assert (H0 : hist (eff E K N0 tk) (EvEval (n_id nd) :: l)) by (split; [exact Logic.I|exact Hl]).
  assert (Hdef : forall e evs', evs = e :: evs' -> effect E K N0 tk (evs ++ EvEval (n_id nd) :: l)).
  { intros e evs' ->. left. exists nd, (e :: evs'), l, k. repeat split; auto; discriminate. }
  inversion Hd; subst; cbn [n_id app] in *; try exact H0.
  - split; [eapply Hdef; reflexivity|]. split; [exact Logic.I|exact H0].
  - split; [eapply Hdef; reflexivity|exact H0].
  - split; [eapply Hdef; reflexivity|exact H0].
  - split; [eapply Hdef; reflexivity|exact H0].
  - split; [exact Logic.I|exact H0].
  - match goal with H : Forall _ evs |- _ => revert H end. clear - Hi H0 Hcl. induction 1 as [|e evs He _ IH]; [exact H0|].
    split; [|apply IH; intros post a cl r pre ->; now apply (Hcl (e :: post) a cl r pre)].
    destruct e; simpl in *; try easy. destruct (Hcl [] _ _ _ _ eq_refl) as (-> & -> & H). split; [eexists; reflexivity|exact H].
Qed.
Lemma step_log E t c o c' : step E t c = (o, c') -> exists c1, apply E t (emit (EvEval (t_id t)) c) = (o, c1) /\ c_log c' = ghost t o ++ c_log c1 /\ c_track c' = c_track c1.
Proof. unfold step. destruct (apply E t _) as [o1 c1]. intros [= <- <-]. exists c1. split; [reflexivity|]. destruct o1; split; reflexivity. Qed.
Lemma token_out E t c o c' : plain t -> is_token t -> apply E t c = (o, c') -> c_log c' = c_log c /\ forall f, o <> OTerminate f.
Proof.
  intros Hp Ht Ha. unfold is_token in Ht. destruct (core t) eqn:Hc; try easy.
  destruct (plain_same E t c o c' Hp) as (o0 & A1 & A2); [rewrite Hc; easy|exact Ha|]. rewrite Hc in A1. clear Ha Hc.
  assert (c_log c' = c_log c /\ forall f, o0 <> OTerminate f) as [K1 K2].
  { cbn [apply] in A1. unfold apply_token in A1. cbv zeta in A1.
    assert (K : forall s c1 o c', c_log c1 = c_log c -> match (if (0 <? b_size (c_respb c1))%N then
        match h_respbody E (c_log c1) 0 (b_size (c_respb c1)) with
        | HOk (Some bytes) => RAvail (st_feed bytes s) | HOk None => RAvail s | HNotAvail => RPending | HErr => RErr end else RAvail s) with
      | RPending => (ORequeued [TToken (Some s) fields], c1)
      | RErr => (OFailed, c1)
      | RAvail s' => if b_eos (c_respb c1) then (ODone, with_respb c1 (st_populate E fields s' (c_respb c1))) else (ORequeued [TToken (Some s') fields], c1)
      end = (o, c') -> c_log c' = c_log c /\ forall f, o <> OTerminate f).
    { intros s c1 o1 c0 Hl. destruct (if (0 <? b_size (c_respb c1))%N then _ else _); [|destruct (b_eos (c_respb c1))|]; intros [= <- <-]; (split; [exact Hl|discriminate]). }
    destruct strat as [s|]; [eapply K; [reflexivity|exact A1]|]. destruct (read_headers E p_resp_headers c) as [r c1] eqn:Hr. apply read_headers_ext, ext_log in Hr.
    destruct r; [injection A1 as <- <-; split; [exact Hr|discriminate]|eapply K; eauto|injection A1 as <- <-; split; [exact Hr|discriminate]]. }
  split; [exact K1|]. intros f ->. destruct o0; try discriminate. now destruct (K2 t0).
Qed.
Lemma token_id t : is_token t -> t_id t = tu.
Proof. unfold is_token. rewrite <- core_id. destruct (core t); easy. Qed.

(** the reply that ends the processing *)
Lemma final_does E f c : is_final f -> exists evs, c_log (run_terminal E f c) = evs ++ c_log c /\ c_track (run_terminal E f c) = c_track c /\
  (evs <> [] -> core f = default_reply /\ exists k, does E (fun _ _ => True) (c_track c) (c_log c) default_node evs k).
Proof.
  intros Hf. destruct (terminal_sum E f c Hf) as (evs & T1 & _ & _ & _ & T5 & _ & T7). exists evs. split; [exact T1|]. split; [exact T5|].
  intros Hne. destruct (final_core _ Hf) as [Hc|Hc]; [|now rewrite (T7 Hc) in Hne]. split; [exact Hc|].
  assert (Hp : plain f) by (clear - Hf; induction f; simpl in Hf |- *; try exact Logic.I; try (destruct Hf; discriminate); auto).
  unfold run_terminal in T1. destruct (apply E f c) as [o c1] eqn:Ha. rewrite drop_log in T1.
  destruct (plain_same E f c o c1 Hp) as (o0 & A1 & A2); [rewrite Hc; easy|exact Ha|]. rewrite Hc in A1.
  apply (reply_does E (fun _ _ => True)) in A1 as (evs' & H1 & H2); [|exact Logic.I]. rewrite H1 in T1. apply app_inv_tail in T1. subst evs'. exists (kind_of o0). exact H2.
Qed.
Lemma does_replies E K tk l nd evs k : does E K tk l nd evs k ->
  replies evs <= 1 /\ (0 < replies evs -> exists id p d tm, nd = NReply id p d tm /\ k = fin_kind tm false).
Proof.
  intros H. inversion H; subst; try (split; [cbn; lia|cbn; lia]).
  - destruct ok; (split; [cbn; lia|]); [intros _; eauto 6|cbn; lia].
  - assert (replies evs = 0) as ->; [|lia]. match goal with H : Forall _ evs |- _ => revert H end. clear. induction 1 as [|e evs He _ IH]; [reflexivity|]. rewrite replies_cons, IH. destruct e; simpl in He; easy.
Qed.

(** one evaluation and, if it ends the processing, the reply *)
Definition out_log (E : env) (o : outcome) (c : ctx) : log := match o with OTerminate f => c_log (run_terminal E f c) | _ => c_log c end.
Definition out_track (E : env) (o : outcome) (c : ctx) : option text := match o with OTerminate f => c_track (run_terminal E f c) | _ => c_track c end.
Lemma step_eff E (K : text -> ctx -> Prop) N0 t c o c' : (wf_q t -> K (t_id t) (emit (EvEval (t_id t)) c)) -> hcache E c -> plain t -> store_fed E (c_log c) t -> wf_q t \/ wf_d t -> incl (nodes t) N0 -> step E t c = (o, c') ->
  (is_noop t -> callid N0 (t_id t) /\ exists k l, c_log c = EvHandle k (t_id t) :: l) ->
  hist (eff E K N0 (c_track c)) (c_log c) ->
  hist (eff E K N0 (c_track c)) (out_log E o c') /\ out_track E o c' = c_track c /\
  (all_final N0 -> replies (c_log c) = 0 -> replies (out_log E o c') <= 1 /\ (~ over (out_log E o c') -> replies (out_log E o c') = 0)) /\
  (is_noop t -> replies (out_log E o c') = replies (c_log c)) /\
  (exists evs, out_log E o c' = evs ++ c_log c).
Proof.
  intros HK HC Hp Hsf Hw HN Hst Hno Hh.
  assert (HC1 : hcache E (emit (EvEval (t_id t)) c)) by (apply hc_emit; [intros ? (? & [=])|exact HC]).
  destruct (step_sum _ _ _ _ _ Hst) as (evs0 & Hss). pose proof (ss_track _ _ _ _ _ _ Hss) as Htr.
  pose proof (ss_final _ _ _ _ _ _ Hss) as Hfin.
  destruct (step_log _ _ _ _ _ Hst) as (c1 & Ha & Hlg & Htk1).
  assert (Hcase : is_noop t \/ is_token t \/ (~ is_token t /\ (wf_q t \/ wf_p t))).
  { destruct Hw as [Hw|[Hw|Hw]]; [|now left|]; right.
    - destruct (core t) eqn:Hc; try (right; split; [unfold is_token; rewrite Hc; intros []; fail|auto]).
      left. unfold is_token. now rewrite Hc.
    - right. split; [|auto]. unfold is_token. unfold wf_p in Hw. now destruct (core t). }
  destruct Hcase as [Hn|[Hk|[Hk Hw']]].
  - destruct t; try easy. cbn [apply apply_noop] in Ha. injection Ha as <- <-. destruct (Hno Logic.I) as [Hci (k & l & Hl)].
    assert (Hl1 : c_log c' = EvDone id :: EvEval id :: c_log c) by (rewrite Hlg; destruct guard; reflexivity).
    cbn [out_log out_track]. rewrite Hl1, Htr. cbn [ghost t_id app]. repeat split; auto.
    + right. left. split; [|exact Hci]. exists k, [], l. rewrite Hl. reflexivity.
    + rewrite !replies_cons; cbn [is_reply]; lia.
    + exists [EvDone id; EvEval id]. reflexivity.
  - pose proof (token_id _ Hk) as Hid. destruct (token_out _ _ _ _ _ Hp Hk Ha) as [K1 K2].
    assert (out_log E o c' = ghost t o ++ EvEval (t_id t) :: c_log c) as ->.
    { destruct o; cbn [out_log]; try (rewrite Hlg, K1; reflexivity). now destruct (K2 t0). }
    assert (out_track E o c' = c_track c) as -> by (destruct o; cbn [out_track]; auto; now destruct (K2 t0)).
    assert (H0 : hist (eff E K N0 (c_track c)) (EvEval (t_id t) :: c_log c)) by (split; [exact Logic.I|exact Hh]).
    assert (Hr : replies (ghost t o ++ EvEval (t_id t) :: c_log c) = replies (c_log c)) by (rewrite replies_app, replies_cons; destruct o; reflexivity).
    split; [|split; [reflexivity|]]; [|rewrite Hr; split; [|split; [auto|]]].
    + destruct o; cbn [ghost app]; try exact H0; [split; [now left|exact H0]|split; [now left|exact H0]|now destruct (K2 t0)].
    + intros _ ->. lia.
    + exists (ghost t o ++ [EvEval (t_id t)]). now rewrite <- app_assoc.
  - destruct (does_apply _ _ _ _ _ _ HK HC1 Hp (store_fed_app E [_] _ _ Hsf) Hw' Hk Ha) as (nd & evs & N1 & N2 & L1 & D1). cbn [emit with_log c_log c_track] in L1, D1.
    apply HN in N1. rewrite <- N2 in *.
    assert (H0 : hist (eff E K N0 (c_track c)) (evs ++ EvEval (n_id nd) :: c_log c)).
    { eapply does_eff; eauto. intros post a cl r pre ->. apply (apply_called E K) in Ha; [|rewrite <- N2; exact HK|exact Hw]. rewrite <- app_assoc in L1. cbn [app] in L1.
      apply Ha in L1 as (H1 & H2 & H3). rewrite N2 in *. split; [exact H1|]. split; [exact H2|]. eapply called_incl; eauto. }
    assert (Hacted : acted E K N0 (c_track c) (n_id nd) (kind_of o) (evs ++ EvEval (n_id nd) :: c_log c)) by (exists nd, evs, (c_log c); auto).
    assert (Hlg' : c_log c' = ghost t o ++ evs ++ EvEval (n_id nd) :: c_log c) by (rewrite Hlg, L1; reflexivity).
    assert (H1 : hist (eff E K N0 (c_track c)) (c_log c')).
    { rewrite Hlg'. destruct o; cbn [ghost app]; try exact H0; rewrite <- N2; (split; [|exact H0]); cbn [eff]; eauto. }
    destruct (does_replies _ _ _ _ _ _ _ D1) as [R1 R2].
    assert (Rg : replies (c_log c') = replies evs + replies (c_log c)).
    { rewrite Hlg', !replies_app, replies_cons. destruct o; reflexivity. }
    destruct o as [|tok t'|l| |f]; cbn [out_log out_track].
    5:{ destruct (final_does E f c' Hfin) as (evs2 & F1 & F2 & F3). rewrite F1, F2.
      assert (Hev : exists x, evs2 ++ c_log c' = x ++ c_log c).
      { rewrite Hlg'. exists (evs2 ++ ghost t (OTerminate f) ++ evs ++ [EvEval (n_id nd)]). now rewrite <- !app_assoc. }
      assert (Hov : over (evs2 ++ c_log c')) by (apply over_app; rewrite Hlg'; exists (t_id t); now left).
      split; [|split; [exact Htr|split; [|split; [|exact Hev]]]].
      - destruct evs2 as [|e evs2]; [exact H1|]. destruct F3 as [G1 (k & G2)]; [discriminate|].
        assert (Hk2 : kind_of (OTerminate f) = KTerm true) by (cbn; now rewrite G1). rewrite Hk2 in Hacted.
        rewrite Htr in G2. assert (Hlg2 : c_log c' = EvTerminate (n_id nd) :: evs ++ EvEval (n_id nd) :: c_log c) by (rewrite Hlg'; cbn; now rewrite N2).
        assert (He : effect E K N0 (c_track c) ((e :: evs2) ++ c_log c')).
        { right. exists (n_id nd), (e :: evs2), (evs ++ EvEval (n_id nd) :: c_log c), k. rewrite <- Hlg2. repeat split; auto. discriminate. }
        inversion G2; subst. cbn [app] in *. split; [exact He|]. split; [exact Logic.I|exact H1].
      - intros Hall Hz. split; [|intros H; now destruct H]. rewrite replies_app, Rg, Hz.
        destruct evs2 as [|e evs2]; [cbn; lia|]. destruct F3 as [G1 (k & G2)]; [discriminate|].
        assert (Hk2 : kind_of (OTerminate f) = KTerm true) by (cbn; now rewrite G1). destruct (does_replies _ _ _ _ _ _ _ G2) as [R3 _].
        assert (replies evs = 0); [|lia]. destruct (replies evs) eqn:Hre; [reflexivity|]. destruct R2 as (id & p & d & tm & _ & R2); [lia|]. rewrite Hk2 in R2. destruct tm; discriminate.
      - intros Hn. destruct t; easy. }
    1-4: split; [exact H1|]; split; [exact Htr|]; rewrite Rg; split; [|split].
    all: try (intros Hn; destruct t; try easy; destruct Hw' as [[]|[]]).
    all: try (exists (ghost t ODone ++ evs ++ [EvEval (n_id nd)]); rewrite Hlg', <- !app_assoc; reflexivity).
    all: try (exists (evs ++ [EvEval (n_id nd)]); rewrite Hlg', <- !app_assoc; reflexivity).
    all: try (exists (ghost t OFailed ++ evs ++ [EvEval (n_id nd)]); rewrite Hlg', <- !app_assoc; reflexivity).
    all: intros Hall Hz; rewrite Hz; (assert (Hr0 : replies evs = 0); [|lia]); (destruct (replies evs) eqn:Hre; [reflexivity|]); exfalso;
      (destruct R2 as (id & p & d & tm & -> & R2); [lia|]); rewrite (Hall _ _ _ _ N1) in R2; discriminate.
Qed.

Lemma plain_items ts p : Forall plain (items ts p) <-> Forall plain ts /\ Forall plain (p_queue p) /\ Forall plain (dts p).
Proof. unfold items. rewrite !Forall_app. tauto. Qed.
Lemma F_run E (K : text -> ctx -> Prop) n N0 tk t ts p o c ts' p' : blocked (p_done p) t = false -> step E t (p_ctx p) = (o, c) ->
  run_next E t ts p o c = (ts', p') -> B E n N0 ts' p' -> K (t_id t) (emit (EvEval (t_id t)) (p_ctx p)) -> store_fed E (c_log (p_ctx p)) t -> F E K n N0 tk (t :: ts) p -> F E K n N0 tk ts' p'.
Proof.
  intros Hb Hst Hn HB' HK Hsf [HB Hpl Hid Htk Hhd Hef Hre]. pose proof (hc_estep _ _ _ _ _ (es_run E t ts p o c ts' p' Hb Hst Hn) Hhd) as Hhd'. apply plain_items in Hpl as (P1 & P2 & P3). inversion P1 as [|? ? Pt Pts]; subst.
  pose proof (t_w _ _ _ _ (b_t _ _ _ _ _ HB)) as HW. pose proof (w_ts _ _ HW) as Hq. inversion Hq as [|? ? Hqt Hqts]; subst.
  assert (HNt : incl (nodes t) N0) by (eapply (proj1 (nodess_incl _ _) (b_nodes _ _ _ _ _ HB)); unfold items; now left).
  assert (Hnov : ~ over (c_log (p_ctx p))).
  { intros H. apply (t_over _ _ _ _ (b_t _ _ _ _ _ HB)) in H. apply (w_term _ _ HW) in H as [H _]. discriminate. }
  destruct (step_eff E K N0 t (p_ctx p) o c (fun _ => HK) Hhd Pt Hsf (or_introl Hqt) HNt Hst) as (S1 & S2 & S3 & _ & _); [destruct t; easy|exact Hef|].
  assert (S3' : all_final N0 -> replies (out_log E o c) <= 1 /\ (~ over (out_log E o c) -> replies (out_log E o c) = 0)) by (intros Hall; apply S3; auto; now apply Hre). clear S3.
  assert (Hpo : plain_out o).
  { destruct (step_log _ _ _ _ _ Hst) as (c1 & Ha & _). now apply plain_apply in Ha as [H _]. }
  unfold run_next in Hn. destruct o; injection Hn as <- <-; cbn [out_log out_track] in *.
  - constructor; try exact Hhd'; auto. apply plain_items. auto.
  - destruct (def_insert_facts tok t0 (p_with_ctx p c)) as (F1 & F2 & F3 & F4 & F5 & F6).
    constructor; try exact Hhd'; rewrite ?F1, ?F5; cbn [p_with_ctx p_ctx]; auto.
    + apply plain_items. repeat split; auto. unfold dts. rewrite F6. now apply Forall_nset.
    + unfold dts. rewrite F6. apply (Forall_nset (fun t => callid N0 (t_id t))); [|exact Hid].
      destruct (step_sum _ _ _ _ _ Hst) as (evs & Hss). destruct (ss_evs _ _ _ _ _ _ Hss) as (cl & _ & Hi & _ & Hc). rewrite Hi, <- core_id.
      rewrite <- (nodes_core t) in HNt. destruct (core t) as [id sv var msg rs pr ds g| | | | | | | | | | ]; try easy. left. exists sv, var, g, (map t_id rs). apply HNt. now left.
  - constructor; try exact Hhd'; auto. apply plain_items. cbn [p_with_ctx p_with_queue p_queue]. rewrite Forall_app. auto.
  - constructor; try exact Hhd'; auto. apply plain_items. auto.
  - constructor; try exact Hhd'; cbn [p_with_ctx p_ctx p_queue p_def]; rewrite ?drop_log; auto.
Qed.
Lemma F_handle E K n N0 tk tok st sz t p o c : settled p -> nget tok (p_def p) = Some t ->
  step E t (emit (EvHandle tok (t_id t)) (set_grpc st sz (emit (EvGrpcResp tok st sz) (p_ctx p)))) = (o, c) ->
  B E n N0 [] (handle_next E t (mkPipe c (p_queue p) (ndel tok (p_def p)) (p_done p) (p_td p) (p_term p)) o c) ->
  F E K n N0 tk [] p -> F E K n N0 tk [] (handle_next E t (mkPipe c (p_queue p) (ndel tok (p_def p)) (p_done p) (p_td p) (p_term p)) o c).
Proof.
  intros Hset Hn Hst HB' [HB Hpl Hid Htk Hhd Hef Hre]. pose proof (hc_estep _ _ _ _ _ (es_handle E tok st sz t p o c Hset Hn Hst) Hhd) as Hhd'.
  apply plain_items in Hpl as (_ & P2 & P3).
  pose proof (t_w _ _ _ _ (b_t _ _ _ _ _ HB)) as HW.
  assert (Hw : wf_d t) by (eapply Forall_nget; [apply (w_def _ _ HW)|exact Hn]).
  assert (Pt : plain t) by (eapply Forall_nget; [exact P3|exact Hn]).
  assert (P3' : Forall plain (map snd (ndel tok (p_def p)))) by now apply Forall_ndel.
  assert (Hid' : Forall (fun t => callid N0 (t_id t)) (map snd (ndel tok (p_def p)))) by now apply Forall_ndel.
  assert (Hci : callid N0 (t_id t)) by (eapply (Forall_nget (fun t => callid N0 (t_id t))); [exact Hid|exact Hn]).
  assert (HNt : incl (nodes t) N0).
  { eapply (proj1 (nodess_incl _ _) (b_nodes _ _ _ _ _ HB)). unfold items, dts. rewrite !in_app_iff. right. right. eapply In_nget; eauto. }
  set (c0 := emit _ (set_grpc _ _ _)) in Hst.
  assert (L0 : c_log c0 = EvHandle tok (t_id t) :: EvGrpcResp tok st sz :: c_log (p_ctx p)) by apply handle_log.
  assert (T0 : c_track c0 = tk) by (rewrite <- Htk; unfold c0, set_grpc; cbn [emit with_log c_grpc]; now destruct (c_grpc (p_ctx p))).
  assert (Hc0 : hcache E c0).
  { apply hc_emit; [intros ? (? & [=])|]. assert (H : hcache E (emit (EvGrpcResp tok st sz) (p_ctx p))) by (apply hc_emit; [intros ? (? & [=])|exact Hhd]).
    unfold set_grpc. destruct (c_grpc _); [exact H|]. revert H. now apply hc_same. }
  assert (Hqd : wf_q t -> K (t_id t) (emit (EvEval (t_id t)) c0)).
  { intros H. exfalso. apply wf_q_core in H. apply wf_d_core in Hw. destruct (core t); easy. }
  assert (Hsf : store_fed E (c_log c0) t) by (apply wf_d_core in Hw; unfold store_fed; destruct (core t); try exact Logic.I; destruct Hw).
  destruct (step_eff E K N0 t c0 o c Hqd Hc0 Pt Hsf (or_intror Hw) HNt Hst) as (S1 & S2 & S3 & S4 & S5).
  { intros _. split; [exact Hci|]. rewrite L0. exists tok. eexists. reflexivity. } { rewrite L0, T0. split; [exact Logic.I|]. split; [exact Logic.I|exact Hef]. }
  rewrite T0 in S1, S2.
  assert (R0 : replies (c_log c0) = replies (c_log (p_ctx p))) by (rewrite L0; reflexivity).
  assert (S3' : all_final N0 -> replies (out_log E o c) <= 1 /\ (~ over (out_log E o c) -> replies (out_log E o c) = 0)).
  { intros Hall. destruct (Hre Hall) as [H1 H2]. destruct Hw as [Hw|Hw].
    - rewrite (S4 Hw), R0. split; [exact H1|]. intros H. apply H2. intros H3. apply H. destruct S5 as (x & ->). apply over_app. rewrite L0. now apply (over_app [_; _]).
    - apply S3; [exact Hall|]. rewrite R0. apply H2. intros H. apply (t_over _ _ _ _ (b_t _ _ _ _ _ HB)) in H. specialize (Hset H).
      assert (is_noop t) by (eapply Forall_nget; [exact Hset|exact Hn]). destruct t; easy. }
  assert (Hpo : plain_out o).
  { destruct (step_log _ _ _ _ _ Hst) as (c1 & Ha & _). now apply plain_apply in Ha as [H _]. }
  unfold handle_next in *. destruct o; cbn [out_log out_track p_with_ctx p_with_done p_ctx p_queue p_def p_done p_td p_term] in *.
  - constructor; try exact Hhd'; auto. apply plain_items. auto.
  - match goal with |- F _ _ _ _ _ _ (def_insert ?k ?x ?q) => destruct (def_insert_facts k x q) as (F1 & F2 & F3 & F4 & F5 & F6) end.
    constructor; try exact Hhd'; rewrite ?F1, ?F5; cbn [p_with_ctx p_ctx]; auto.
    + apply plain_items. repeat split; auto. unfold dts. rewrite F6. now apply Forall_nset.
    + exfalso. destruct (step_sum _ _ _ _ _ Hst) as (evs & Hss). destruct (ss_evs _ _ _ _ _ _ Hss) as (cl & _ & _ & _ & Hc). apply wf_d_core in Hw. destruct (core t); easy.
  - constructor; try exact Hhd'; cbn [p_ctx emit with_log c_log c_track]; auto.
    + apply plain_items. cbn [p_queue]. rewrite Forall_app. auto.
    + split; [|exact S1]. right. left. split; [|exact Hci]. destruct (step_sum _ _ _ _ _ Hst) as (evs & Hss). rewrite (ss_log _ _ _ _ _ _ Hss), L0. cbn [ghost app].
      exists tok, evs, (EvGrpcResp tok st sz :: c_log (p_ctx p)). reflexivity.
    + intros Hall. rewrite replies_cons. cbn [is_reply]. destruct (S3' Hall) as [H1 H2]. split; [exact H1|]. intros H. apply H2. intros H3. apply H. now apply (over_app [_]).
  - constructor; try exact Hhd'; auto. apply plain_items. auto.
  - constructor; try exact Hhd'; cbn [p_with_ctx p_ctx p_queue p_def]; rewrite ?drop_log; auto.
Qed.
Definition aside (e : ev) : Prop :=
  match e with
  | EvReqHeaders | EvReqBody _ _ | EvRespHeaders | EvRespBody _ _ | EvGrpcResp _ _ _ | EvResumeReq | EvResumeResp
  | EvMetric _ | EvRet _ | EvTeardown | EvExport _ _ => True
  | _ => False
  end.
Lemma F_quiet E K N0 tk evs l : Forall aside evs ->
  hist (eff E K N0 tk) l /\ (all_final N0 -> replies l <= 1 /\ (~ over l -> replies l = 0)) ->
  hist (eff E K N0 tk) (evs ++ l) /\ (all_final N0 -> replies (evs ++ l) <= 1 /\ (~ over (evs ++ l) -> replies (evs ++ l) = 0)).
Proof.
  intros He [H1 H2]. assert (Hr : replies (evs ++ l) = replies l).
  { rewrite replies_app. clear - He. induction He as [|e evs H _ IH]; [reflexivity|]. rewrite replies_cons. destruct e; simpl in *; try easy. }
  rewrite Hr. split.
  - clear - He H1. induction He as [|e evs H _ IH]; [exact H1|]. split; [destruct e; simpl in *; easy|exact IH].
  - intros Hall. destruct (H2 Hall) as [A1 A2]. split; [exact A1|]. intros H. apply A2. intros H3. apply H. now apply over_app.
Qed.
Definition FL (E : env) (K : text -> ctx -> Prop) (n : nat) (N0 : list node) (tk : option text) (l : log) : Prop :=
  BL E n l /\ hist (eff E K N0 tk) l /\ (all_final N0 -> replies l <= 1 /\ (~ over l -> replies l = 0)).
(** … the states being those of a request *)
Definition FG (E : env) (fa : factory) (n : nat) (N0 : list node) (tk : option text) (ts : list task) (p : pipe) : Prop :=
  goes E fa ts p /\ F E (at_work E fa) n N0 tk ts p.
Lemma F_finv E fa n N0 tk : finvb E (FG E fa n N0 tk) (FL E (at_work E fa) n N0 tk).
Proof.
  pose proof (B_finv E n N0) as HF.
  assert (FN : forall p e, neutral e -> F E (at_work E fa) n N0 tk [] p -> F E (at_work E fa) n N0 tk [] (p_emit e p)).
  { intros p e He HI. pose proof (fi_neutral _ _ _ HF p e He (f_b _ _ _ _ _ _ _ HI)) as HB'. destruct HI as [HB Hpl Hid Htk Hhd Hef Hre].
    destruct (F_quiet E (at_work E fa) N0 tk [e] (c_log (p_ctx p))) as [H1 H2]; [constructor; [destruct e; simpl in *; easy|constructor]|auto|]. constructor; auto. apply hc_emit; [|exact Hhd]; intros ? (? & ->); now destruct He. }
  constructor.
  - intros ts p ts' p' Hs [HG HI]. split; [eapply re_step; eauto|]. pose proof (fi_step _ _ _ HF _ _ _ _ Hs (f_b _ _ _ _ _ _ _ HI)) as HB'.
    pose proof (hc_estep _ _ _ _ _ Hs (f_head _ _ _ _ _ _ _ HI)) as Hhd'.
    destruct Hs as [p Hset|t ts p Hb|t ts p o c ts' p' Hb Hst Hn|tok st sz p Hset Hn|tok st sz t p o c Hset Hn Hst|p Hq Ht|a rest p Hq Hn Ht].
    + destruct HI as [HB Hpl Hid Htk Hhd Hef Hre]. constructor; try exact Hhd'; auto.
    + destruct HI as [HB Hpl Hid Htk Hhd Hef Hre]. constructor; try exact Hhd'; auto. apply plain_items in Hpl as (P1 & P2 & P3). inversion P1; subst. apply plain_items. cbn [p_with_queue p_queue]. rewrite Forall_app. auto.
    + eapply F_run; eauto; [now exists t, ts, p|]. destruct (fed_goes _ _ _ _ HG) as [_ Hf]. inversion Hf; subst. now apply fed_store_fed.
    + destruct HI as [HB Hpl Hid Htk Hhd Hef Hre]. destruct (F_quiet E (at_work E fa) N0 tk [EvGrpcResp tok st sz] (c_log (p_ctx p))) as [H1 H2]; [now repeat constructor|auto|]. constructor; try exact Hhd'; auto.
    + eapply F_handle; eauto.
    + destruct HI as [HB Hpl Hid Htk Hhd Hef Hre]. constructor; try exact Hhd'; auto.
      * apply plain_items in Hpl as (P1 & P2 & P3). apply plain_items. repeat split; auto.
        unfold dts. cbn [replace_deferred p_def]. rewrite map_map. apply Forall_map, Forall_forall. intros x _. exact Logic.I.
      * unfold dts in *. cbn [replace_deferred p_def]. rewrite map_map. rewrite Forall_map in Hid. apply Forall_map. exact Hid.
    + destruct HI as [HB Hpl Hid Htk Hhd Hef Hre]. apply plain_items in Hpl as (P1 & P2 & P3).
      destruct (td_sum E a (p_with_td p rest)) as (evs & tok & T1 & T2 & T3 & T4 & T5 & T6 & T7 & T8 & T9 & T10 & _). cbn [p_with_td p_ctx p_queue p_def] in *.
      assert (Hl : exists x, c_log (p_ctx (td_step E (p_with_td p rest) a)) = x ++ c_log (p_ctx p) /\ Forall aside x).
      { exists (evs ++ [EvTeardown]). rewrite <- app_assoc. split; [exact T1|]. apply Forall_app. split; [|now repeat constructor]. destruct T2 as [[-> _]|(cl & -> & _)]; now repeat constructor. }
      destruct Hl as (x & Hl & Hx). destruct (F_quiet E (at_work E fa) N0 tk x _ Hx (conj Hef Hre)) as [H1 H2]. rewrite <- Hl in H1, H2.
      constructor; try exact Hhd'; auto; [| |congruence].
      2:{ unfold dts. rewrite T3. destruct tok; [|exact Hid]. apply (Forall_nset (fun t => callid N0 (t_id t))); [|exact Hid]. right. now exists (N.to_nat n0). }
      apply plain_items. rewrite T4. repeat split; auto. unfold dts. rewrite T3. destruct tok; [|exact P3]. apply Forall_nset; [exact Logic.I|exact P3].
  - intros p e He [HG HI]. split; [now apply re_neutral|]. apply FN; [now apply bland_neutral|exact HI].
  - intros src m e p [HG HI]. split; [now apply re_body|]. unfold p_body. destruct src.
    + assert (HI1 : F E (at_work E fa) n N0 tk [] (p_emit (EvReqBody m e) p)) by (apply FN; [exact Logic.I|exact HI]).
      pose proof (fi_reqb _ _ _ HF _ (set_size m e (c_reqb (p_ctx p))) (f_b _ _ _ _ _ _ _ HI1)) as HB'. destruct HI1 as [HB Hpl Hid Htk Hhd Hef Hre]. constructor; auto; revert Hhd; now apply hc_same.
    + assert (HI1 : F E (at_work E fa) n N0 tk [] (p_emit (EvRespBody m e) p)) by (apply FN; [exact Logic.I|exact HI]).
      pose proof (fi_respb _ _ _ HF _ (set_size m e (c_respb (p_ctx p))) (f_b _ _ _ _ _ _ _ HI1)) as HB'. destruct HI1 as [HB Hpl Hid Htk Hhd Hef Hre]. constructor; auto; revert Hhd; now apply hc_same.
  - intros p [HG [HB Hpl Hid Htk Hhd Hef Hre]] H1 H2 H3 H4. split; [now apply (fi_log _ _ _ HF)|auto].
  - intros l e He (L1 & L2 & L3). split; [now apply (fi_idle _ _ _ HF)|].
    apply (F_quiet E (at_work E fa) N0 tk [e] l); [|auto]. constructor; [|constructor]. destruct He as [He|(k & st & sz & ->)]; [destruct e; simpl in *; easy|exact Logic.I].
Qed.

(** * At the start of a request *)
Lemma to_core_plain E a : forall c t c', to_core E a c = Some (t, c') ->
  plain t /\ (match a_op a with BGrpc (IDyn _ s) _ _ _ => svc_of t = Some s | _ => True end).
Proof.
  induction a as [id p tm s var m rs d g IH|id p tm o d g Ho] using action_ind'; intros c t c'.
  - rewrite to_core_grpc.
    assert (K : forall c ts c1, to_cores E rs c = Some (ts, c1) -> Forall plain ts).
    { clear -IH. induction IH as [|r rs Hr _ IH]; intros c ts c1; simpl; [intros [= <- <-]; constructor|].
      destruct (to_core E r c) as [[t1 c2]|] eqn:H1; [|discriminate].
      destruct (to_cores E rs c2) as [[ts2 c3]|] eqn:H2; [|discriminate]. intros [= <- <-]. constructor; [now apply Hr in H1 as [H1 _]|eauto]. }
    destruct (to_cores E rs c) as [[ts c1]|] eqn:H1; [|discriminate]. apply K in H1.
    destruct s as [k sv|o].
    + intros [= <- <-]. split; [|reflexivity]. cbn [plain]. now apply plain_go.
    + cbv zeta. destruct (request_id E (with_track c1 (Some var))) as [rid c3].
      destruct (parse_expr E (tracker_src var rid)); [|discriminate]. intros [= <- <-]. split; exact Logic.I.
  - destruct o; simpl; try (intros [= <- <-]; split; exact Logic.I). edestruct Ho; reflexivity.
Qed.
Lemma actions_tasks_plain E rd tr l : forall c ts tds c', actions_tasks E rd tr l c = Some (ts, tds, c') -> Forall plain ts.
Proof.
  induction l as [|a l IH]; intros c ts tds c'; cbn [actions_tasks]; [intros [= <- <- <-]; constructor|].
  destruct (action_tasks E rd tr a c) as [[[t1 td1] c1]|] eqn:H1; [|discriminate].
  destruct (actions_tasks E rd tr l c1) as [[[t2 td2] c2]|] eqn:H2; [|discriminate]. specialize (IH _ _ _ _ H2).
  intros [= <- <- <-]. apply Forall_app. split; [|exact IH]. clear - H1. revert H1.
  unfold action_tasks. destruct (to_core E a c) as [[tk c3]|] eqn:H.
  - apply to_core_plain in H as [A1 A2]. assert (K : Forall plain [tk]) by (repeat constructor; exact A1).
    destruct (a_op a) as [s v m rs|x|x y|x y z|]; try (intros [= <- <- <-]; exact K).
    destruct s as [k s|[t|]]; try (intros [= <- <- <-]; exact K).
    intros [= <- <- <-]. apply Forall_app. split; [destruct (collect_body_values rd a); repeat constructor|].
    constructor; [|constructor]. destruct tr; (split; [exists s; split; [exact A2|reflexivity]|exact A1]).
  - destruct (a_op a) as [s v m rs|x|x y|x y z|]; try discriminate. destruct s as [k s|[t|]]; discriminate.
Qed.
Lemma F_start E fa p : build E fa (ctx0 [EvReqHeaders]) = BOk p ->
  FG E fa (length (p_td p)) (nodess (p_queue p)) (c_track (p_ctx p)) [] (p_emit (EvMetric MHits) p).
Proof.
  intros Hb. split; [now apply re_start|]. pose proof (build_spec E fa (ctx0 [EvReqHeaders])) as Hsp. rewrite Hb in Hsp. destruct Hsp as (b' & c1' & tds & _ & Ht & _ & Hbld & _).
  destruct Hbld as (Hlog & _). cbn in Hlog. destruct (build_shape _ _ _ _ Hb) as (b & HB).
  apply actions_tasks_plain in Ht.
  constructor; cbn [p_emit p_with_ctx p_ctx emit with_log c_log c_track]; rewrite ?Hlog.
  - now apply B_start with (fa := fa).
  - apply plain_items. unfold dts. cbn [p_emit p_with_ctx p_queue p_def]. rewrite (bt_def _ _ _ _ _ HB). repeat split; auto; constructor.
  - unfold dts. cbn [p_emit p_with_ctx p_def]. rewrite (bt_def _ _ _ _ _ HB). constructor.
  - reflexivity.
  - apply hc_emit; [intros ? (? & [=])|]. now apply hc_start with (fa := fa).
  - repeat split.
  - intros _. split; [cbn; lia|]. intros _. reflexivity.
Qed.
Lemma F_run_filter E fa p l : build E fa (ctx0 [EvReqHeaders]) = BOk p -> later l ->
  holds (FG E fa (length (p_td p)) (nodess (p_queue p)) (c_track (p_ctx p))) (FL E (at_work E fa) (length (p_td p)) (nodess (p_queue p)) (c_track (p_ctx p))) (run E fa l).
Proof. intros Hb. apply pipe_invariant_b with (p := p); [apply F_finv|exact Hb|now apply F_start with (fa := fa)]. Qed.
Lemma F_log E fa n N0 tk f : holds (FG E fa n N0 tk) (FL E (at_work E fa) n N0 tk) f ->
  hist (eff E (at_work E fa) N0 tk) (f_log f) /\ (all_final N0 -> replies (f_log f) <= 1).
Proof.
  intros Hh. unfold holds in Hh. destruct (f_pipe f) as [p|].
  - destruct Hh as [[_ [HB Hpl Hid Htk Hhd Hef Hre]] _]. split; [exact Hef|]. intros Hall. exact (proj1 (Hre Hall)).
  - destruct Hh as [_ [H1 H2]]. split; [exact H1|]. intros Hall. exact (proj1 (H2 Hall)).
Qed.
