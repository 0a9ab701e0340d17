(** C127: the response body is searched for every field a call asks about. *)
From Coq Require Import String Ascii List NArith ZArith Bool Lia Arith.
From Verif Require Import Base Value Headers AttrPath Ctx CelProps CelEval Sse Body ValueBytes Tasks Exec Config Legacy Blueprint Factory Filter
  P_Frame P_Apply P_Exec P_Run P_Inv P_Ids P_Plan P_Deps P_Order P_Term P_Bar P_Cfg P_Hist P_Grow P_Wake P_Fail P_Head P_Fed P_Told P_Eff P_Wait
  Demo DemoCfg Prop_Order Prop_Term Prop_Guard Prop_Wake Prop_Fail Prop_Eval Prop_Know Prop_Body Prop_Fed Prop_Wait.
Import ListNotations.
Open Scope list_scope.

(** * Specifications *)
(** [y] is an action of the set, not nested in another one, that makes a call *)
Definition top_call (E : env) (cfg : plugin_cfg) (s : action_set) (y : taction) : Prop :=
  (exists svs i c, cfg_svs cfg = Some svs /\ nth_error (as_actions s) i = Some c /\ meaning svs (cfg_rsrc E cfg) c = Some y) /\
  match y with mkT _ _ _ _ (OpGrpc _ _ _ _) => True | _ => False end.
(** the field [f] of the response body is asked for by [y], by an action nested in it, or by the request data *)
Definition wants (E : env) (cfg : plugin_cfg) (y : taction) (f : text) : Prop :=
  (exists a b z x, within a y b z /\ In x (texts z) /\ asks_for E SrcResp f x) \/
  (exists k x, In (k, x) (pc_request_data cfg) /\ asks_for E SrcResp f x).
(** expressions are given a value for the field [f] of the response body *)
Definition known (f : text) (c : ctx) : Prop := tget f (b_vals (c_respb c)) <> None.
(** the field [f] was looked for in all of the response body that could be read, and is known if it is there, as a scalar *)
Definition looked (E : env) (f : text) (c : ctx) (past : log) : Prop :=
  ended SrcResp past /\ exists bs, given E SrcResp false past bs /\
  ((no_stream E past /\ forall j y v, utf8_valid (concat bs) = true -> o_json E (concat bs) = Some j -> o_pointer E j f = Some y -> st_value y = Some v -> known f c) \/
   (is_stream E past /\ forall evs sp u j y v, sse_parse (concat (filter utf8_valid bs)) sparser0 = POk evs sp -> penultimate evs u ->
      o_json E (e_data u) = Some j -> o_pointer E j f = Some y -> st_value y = Some v -> known f c)).
(** a reader of the response body that looks for [f] *)
Definition looking (f : text) (t : task) : Prop := exists st fs, t = TToken st fs /\ In f fs.
Definition tu_id : text := tx "token_usage".
Inductive sought (E : env) (f : text) (ts : list task) (p : pipe) : Prop :=
| so_waits t : In t (ts ++ p_queue p) -> looking f t -> sought E f ts p
| so_over : terminated (c_log (p_ctx p)) -> sought E f ts p
| so_failed : In (EvFailed tu_id) (c_log (p_ctx p)) -> sought E f ts p
| so_done past : occurs (c_log (p_ctx p)) (EvDone tu_id) past -> looked E f (p_ctx p) past -> sought E f ts p.

(** * Lemmas *)
Lemma set_known f k v b : tget f (b_vals b) <> None -> tget f (b_vals (set_value k v b)) <> None.
Proof.
  intros H. cbn [set_value b_vals]. destruct (text_eq_dec f k) as [->|Hn]; [now rewrite (aget_aset_same text_eqb text_eqb_eq)|].
  now rewrite (aget_aset_other text_eqb text_eqb_eq).
Qed.
Lemma populate_known f l : forall b, tget f (b_vals b) <> None ->
  tget f (b_vals (fold_left (fun b (kv : text * value) => set_value (fst kv) (snd kv) b) l b)) <> None.
Proof. induction l as [|kv l IH]; intros b H; [exact H|]. cbn [fold_left]. apply IH. now apply set_known. Qed.
Lemma st_populate_known E s f fs : forall b, tget f (b_vals b) <> None -> tget f (b_vals (st_populate E fs s b)) <> None.
Proof.
  unfold st_populate. induction fs as [|g fs IH]; intros b H; [exact H|]. cbn [fold_left]. apply IH.
  destruct (st_extract E g s) as [j|]; [|exact H]. destruct (st_value j); [now apply set_known|exact H].
Qed.
Lemma st_populate_found E s f fs j v : In f fs -> st_extract E f s = Some j -> st_value j = Some v -> forall b, tget f (b_vals (st_populate E fs s b)) <> None.
Proof.
  intros Hi Hj Hv. induction fs as [|g fs IH]; [destruct Hi|]. intros b. change (st_populate E (g :: fs) s b) with
    (st_populate E fs s (match st_extract E g s with Some j => match st_value j with Some v => set_value g v b | None => b end | None => b end)).
  destruct Hi as [->|Hi]; [|now apply IH]. apply st_populate_known. rewrite Hj, Hv. cbn [set_value b_vals]. now rewrite (aget_aset_same text_eqb text_eqb_eq).
Qed.
Lemma unheard_known f c c' : unheard c c' -> known f c -> known f c'.
Proof. unfold known. intros [_ ->]. auto. Qed.
Lemma store_value_unheard E self id p x path ex tm c o c' : store_value E self id p x path ex tm c = (o, c') -> unheard c c'.
Proof.
  unfold store_value. destruct (test_in E p _ c) as [[r vs] c1] eqn:H1. apply test_in_ext, ext_unheard in H1.
  destruct r as [|[]|]; try (intros [= <- <-]; exact H1).
  destruct (eval_in E x vs c1) as [[r2 vs2] c2] eqn:H2. apply eval_in_ext, ext_unheard in H2. pose proof (unheard_trans _ _ _ H1 H2) as H3.
  destruct r2 as [|v|]; try (intros [= <- <-]; exact H3). destruct ex.
  - destruct (value_bytes v) as [bytes|]; [|intros [= <- <-]; exact H3].
    destruct (set_attribute E (path_parse path) bytes c2) as [r4 c4] eqn:H4. apply set_attribute_unheard in H4. pose proof (unheard_trans _ _ _ H3 H4) as H5.
    destruct r4; intros [= <- <-]; exact H5.
  - intros [= <- <-]. exact H3.
Qed.
Lemma src_set_known f src b c : known f c -> (src = SrcResp -> tget f (b_vals b) <> None) -> known f (src_set src b c).
Proof. destruct src; cbn; auto. intros _ H. now apply H. Qed.
Lemma apply_known E f t : forall c o c', apply E t c = (o, c') -> known f c -> known f c'.
Proof.
  induction t as [id s var msg rs pred deps g|id s var rs g|id g|t IH b|t IH|id p tm|id p hx m tm|id p d tm|id p x path ex tm bs|st fs|]; intros c o c' Ha;
    try (apply apply_unheard in Ha; exact (unheard_known f _ _ Ha)).
  - revert Ha. cbn [apply]. destruct (apply E t c) as [o1 c1] eqn:Ha. specialize (IH _ _ _ Ha). destruct o1; intros [= <- <-]; exact IH.
  - revert Ha. cbn [apply]. destruct (apply E t c) as [o1 c1] eqn:Ha. specialize (IH _ _ _ Ha). destruct o1; intros [= <- <-]; exact IH.
  - intros Hk. revert Ha. cbn [apply]. unfold apply_store.
    assert (KK : forall src q c1 o c', known f c1 ->
      match feed_parser E src q c1 with
      | RPending => (ORequeued [TStore id p x path ex tm (BSActive src q)], c1)
      | RErr => (OFailed, c1)
      | RAvail (p', c') => store_value E (TStore id p x path ex tm (BSActive src p')) id p x path ex tm c'
      end = (o, c') -> known f c').
    { intros src q c1 o0 c0 Hk1. destruct (feed_parser E src q c1) as [|[q' c2]|] eqn:Hp; try (intros [= <- <-]; exact Hk1).
      intros Hs. apply store_value_unheard in Hs. apply (unheard_known f _ _ Hs). revert Hp. unfold feed_parser. cbv zeta.
      destruct (_ && _); [discriminate|]. match goal with |- match ?y with _ => _ end = _ -> _ => destruct y as [|q1|] end; try discriminate.
      match goal with |- match ?y with _ => _ end = _ -> _ => destruct y as [q2|] end; try discriminate. intros [= <- <-].
      apply src_set_known; [exact Hk1|]. intros ->. apply populate_known. exact Hk1. }
    destruct bs as [|src fields|src q]; [intros Hs; apply store_value_unheard in Hs; exact (unheard_known f _ _ Hs Hk)| |now apply KK].
    destruct (create_parser E src fields c) as [r c1] eqn:Hc.
    assert (Hx : known f c1).
    { revert Hc. unfold create_parser. destruct src; [intros [= _ <-]; exact Hk|]. destruct (read_headers E p_resp_headers c) as [r1 c2] eqn:Hr.
      apply read_headers_ext, ext_unheard in Hr. cbv zeta. destruct r1; intros [= _ <-]; exact (unheard_known f _ _ Hr Hk). }
    destruct r as [|q|]; try (intros [= <- <-]; exact Hx). now apply KK.
  - intros Hk. revert Ha. cbn [apply]. unfold apply_token. cbv zeta.
    assert (KK : forall s c1 o c', known f c1 -> match (if (0 <? b_size (c_respb c1))%N then
        match h_respbody E (c_log c1) 0 (b_size (c_respb c1)) with
        | HOk (Some bytes) => RAvail (st_feed bytes s) | HOk None => RAvail s | HNotAvail => RPending | HErr => RErr end else RAvail s) with
      | RPending => (ORequeued [TToken (Some s) fs], c1)
      | RErr => (OFailed, c1)
      | RAvail s' => if b_eos (c_respb c1) then (ODone, with_respb c1 (st_populate E fs s' (c_respb c1))) else (ORequeued [TToken (Some s') fs], c1)
      end = (o, c') -> known f c').
    { intros s c1 o0 c0 Hk1. match goal with |- match ?y with _ => _ end = _ -> _ => destruct y as [|s'|] end; try (intros [= <- <-]; exact Hk1).
      destruct (b_eos (c_respb c1)); intros [= <- <-]; [|exact Hk1]. exact (st_populate_known E s' f fs (c_respb c1) Hk1). }
    destruct st as [s|]; [now apply KK|]. destruct (read_headers E p_resp_headers c) as [r c1] eqn:Hr. apply read_headers_ext, ext_unheard in Hr.
    pose proof (unheard_known f _ _ Hr Hk) as Hk1. destruct r as [|h|]; try (intros [= <- <-]; exact Hk1). now apply KK.
Qed.
Lemma step_known E f t c o c' : step E t c = (o, c') -> known f c -> known f c'.
Proof.
  unfold step. destruct (apply E t (emit (EvEval (t_id t)) c)) as [o1 c1] eqn:Ha. intros H Hk. apply apply_known with (f := f) in Ha; [|exact Hk].
  destruct o1; injection H as <- <-; exact Ha.
Qed.
Lemma terminal_known E f t c : known f c -> known f (run_terminal E t c).
Proof. intros Hk. unfold run_terminal. destruct (apply E t c) as [o c1] eqn:Ha. apply apply_known with (f := f) in Ha; [|exact Hk]. exact Ha. Qed.
Lemma insert_known f k t p : known f (p_ctx p) -> known f (p_ctx (def_insert k t p)).
Proof. unfold def_insert. cbn [p_ctx]. destruct (nget k (p_def p)); auto. Qed.
Lemma estep_known E f ts p ts' p' : estep E ts p ts' p' -> known f (p_ctx p) -> known f (p_ctx p').
Proof.
  intros Hs Hk. destruct Hs as [p Hset|t ts p Hb|t ts p o c ts' p' Hb Hst Hn|tok st sz p Hset Hn|tok st sz t p o c Hset Hn Hst|p Hq Ht|a rest p Hq Hn Ht]; try exact Hk.
  - apply step_known with (f := f) in Hst; [|exact Hk]. unfold run_next in Hn. destruct o; injection Hn as <- <-; try exact Hst.
    + now apply insert_known.
    + exact (terminal_known E f t0 c Hst).
  - apply step_known with (f := f) in Hst; [|unfold set_grpc; destruct (c_grpc _); exact Hk]. unfold handle_next. destruct o; try exact Hst.
    + now apply insert_known.
    + exact (terminal_known E f t0 c Hst).
  - assert (Hu : unheard (p_ctx p) (p_ctx (td_step E (p_with_td p rest) a))).
    { unfold td_step. destruct (td_exec E a (emit EvTeardown (p_ctx (p_with_td p rest)))) as [r c] eqn:Htd.
      assert (Hc : unheard (p_ctx p) c).
      { unfold td_exec in Htd. destruct (o_spans E _); [|injection Htd as <- <-; now split]. now apply dispatch_unheard in Htd. }
      destruct r as [k|]; [|exact Hc]. unfold def_insert. cbn. destruct (nget k (p_def p)); exact Hc. }
    exact (unheard_known f _ _ Hu Hk).
Qed.
Lemma looked_grow E f c c' past : (known f c -> known f c') -> looked E f c past -> looked E f c' past.
Proof.
  intros Hk (H1 & bs & H2 & H3). split; [exact H1|]. exists bs. split; [exact H2|].
  destruct H3 as [[H3 H4]|[H3 H4]]; [left|right]; (split; [exact H3|intros; apply Hk; eauto]).
Qed.
(** what has come to an end stays so *)
Lemma sought_grow E f ts p ts' p' e : c_log (p_ctx p') = e ++ c_log (p_ctx p) -> (known f (p_ctx p) -> known f (p_ctx p')) ->
  (forall t, In t (ts ++ p_queue p) -> looking f t -> sought E f ts' p') -> sought E f ts p -> sought E f ts' p'.
Proof.
  intros Hl Hk Hw [t H1 H2|(a & H)|H|past (b & H1) H2].
  - eauto.
  - apply so_over. exists a. rewrite Hl. apply in_or_app. now right.
  - apply so_failed. rewrite Hl. apply in_or_app. now right.
  - apply so_done with past; [exists (e ++ b); rewrite Hl, H1; apply app_assoc|now apply (looked_grow E f (p_ctx p))].
Qed.
Lemma latest_penultimate evs lt u : latest evs lt -> penultimate evs u -> snd lt = Some u.
Proof. unfold latest. intros -> (pre & t & ->). rewrite fold_left_app. reflexivity. Qed.
Lemma looks E f st fs c o c' : heads E c -> bodies0 E c -> fed_ok E (c_log c) (TToken st fs) -> In f fs -> apply E (TToken st fs) c = (o, c') ->
  (exists st', o = ORequeued [TToken st' fs]) \/ o = OFailed \/ (o = ODone /\ c_log c' = c_log c /\ looked E f c' (c_log c')).
Proof.
  intros HH HB Hf Hi. cbn [apply]. unfold apply_token. cbv zeta.
  assert (KK : forall s c1 o c', bodies0 E c1 -> st_ok E (c_log c1) s -> c_log c1 = c_log c -> match (if (0 <? b_size (c_respb c1))%N then
        match h_respbody E (c_log c1) 0 (b_size (c_respb c1)) with
        | HOk (Some bytes) => RAvail (st_feed bytes s) | HOk None => RAvail s | HNotAvail => RPending | HErr => RErr end else RAvail s) with
      | RPending => (ORequeued [TToken (Some s) fs], c1)
      | RErr => (OFailed, c1)
      | RAvail s' => if b_eos (c_respb c1) then (ODone, with_respb c1 (st_populate E fs s' (c_respb c1))) else (ORequeued [TToken (Some s') fs], c1)
      end = (o, c') -> (exists st', o = ORequeued [TToken st' fs]) \/ o = OFailed \/ (o = ODone /\ c_log c' = c_log c /\ looked E f c' (c_log c'))).
  { intros s c1 o0 c0 H1 H2 Hlog. pose proof (bo_size _ _ H1 SrcResp) as Hs. cbn [src_body] in Hs.
    match goal with |- match ?y with _ => _ end = _ -> _ => destruct y as [|s'|] eqn:Hy end; try (intros [= <- <-]; eauto; fail).
    assert (H3 : st_ok E (c_log c1) s').
    { revert Hy. destruct (N.ltb_spec 0 (b_size (c_respb c1))) as [Hlt|Hge]; [|now intros [= <-]].
      destruct (h_respbody E (c_log c1) 0 (b_size (c_respb c1))) as [[y|]| |] eqn:Hr; try discriminate; intros [= <-]; [|exact H2].
      apply st_feed_ok; [now rewrite Hs|now rewrite Hs|exact H2]. }
    destruct (b_eos (c_respb c1)) eqn:Heos; intros [= <- <-]; [|eauto]. right; right. split; [reflexivity|]. split; [exact Hlog|].
    change (c_log (with_respb c1 ?x)) with (c_log c1). split; [unfold ended; now rewrite Hs|].
    assert (Hkn : forall y v, st_extract E f s' = Some y -> st_value y = Some v -> known f (with_respb c1 (st_populate E fs s' (c_respb c1)))) by (intros y v Hy1 Hv; exact (st_populate_found E s' f fs y v Hi Hy1 Hv _)).
    destruct s' as [sp lt|buf]; cbn [st_ok] in H3.
    - destruct H3 as (G1 & bs & evs & G2 & G3 & G4). exists bs. split; [exact G2|]. right. split; [exact G1|]. intros evs' sp' u j y v K1 K2 K3 K4 K5.
      rewrite G3 in K1. injection K1 as <- <-. apply (Hkn y v); [|exact K5]. unfold st_extract. cbv beta iota zeta. pose proof (latest_penultimate _ _ _ G4 K2) as Hlt. destruct lt as [l1 l2]. cbn [snd] in *. subst l2. now rewrite K3.
    - destruct H3 as (G1 & bs & G2 & ->). exists bs. split; [exact G2|]. left. split; [exact G1|]. intros j y v K1 K2 K3 K4. apply (Hkn y v); [|exact K4]. unfold st_extract. cbv beta iota zeta. now rewrite K1, K2. }
  destruct st as [s|]; [now apply KK|]. destruct (read_headers E p_resp_headers c) as [r c1] eqn:Hr.
  pose proof (headers_read _ _ _ _ Hr (k_extf _ heads_steady _ _ _ (read_headers_extf _ _ _ _ _ Hr) HH)) as Hh. apply read_headers_ext in Hr.
  assert (HB1 : bodies0 E c1) by (now apply (bodies_ext E c)).
  destruct r as [|h|]; try (intros [= <- <-]; eauto; fail).
  apply KK; [exact HB1| |exact (ext_log _ _ Hr)]. unfold select_strategy. destruct (is_sse_type h) eqn:Hst.
  - split; [exists [], (c_log c1), h; now rewrite <- sse_type|]. exists [], []. repeat split; constructor.
  - split; [exists [], (c_log c1); split; [reflexivity|]; left; exists h; split; [exact Hh|]; rewrite <- sse_type; congruence|]. exists []. repeat split; constructor.
Qed.
Lemma sought_estep E f ts p ts' p' : fedI E ts p -> estep E ts p ts' p' -> sought E f ts p -> sought E f ts' p'.
Proof.
  intros [[HH HB] HF] Hs. destruct (estep_log _ _ _ _ _ Hs) as (e & Hl). apply (sought_grow E f ts p ts' p' e Hl (estep_known E f _ _ _ _ Hs)).
  intros t Ht Hlk. apply fed_items in HF as (F1 & F2 & F3).
  destruct Hs as [p Hset|t0 ts p Hb|t0 ts p o c ts' p' Hb Hst Hn|tok st sz p Hset Hn|tok st sz t0 p o c Hset Hn Hst|p Hq Htt|a rest p Hq Hn Htt].
  - apply so_waits with t; [|exact Hlk]. cbn in *. now rewrite app_nil_r.
  - apply so_waits with t; [|exact Hlk]. cbn in *. rewrite !in_app_iff in *. cbn. tauto.
  - assert (Hterm : forall k, o = OTerminate k -> terminated (c_log c)).
    { intros k ->. exists (t_id t0). unfold step in Hst. destruct (apply E t0 _) as [o1 c1]. injection Hst as -> <-. now left. }
    destruct Ht as [->|Ht].
    + inversion F1 as [|? ? Hfd _]; subst. destruct Hlk as (st & fs & -> & Hi). unfold step in Hst.
      destruct (apply E (TToken st fs) (emit (EvEval (t_id (TToken st fs))) (p_ctx p))) as [o1 c1] eqn:Ha.
      apply (looks E f) in Ha; [|apply (k_emit _ heads_steady); [exact Logic.I|exact HH]|apply (bodies_app E [EvEval (t_id (TToken st fs))] (p_ctx p)); auto; now repeat constructor|now apply (fed_app E [_])|exact Hi].
      destruct Ha as [(st' & ->)|[-> |(-> & A1 & A2)]]; injection Hst as <- <-; cbn [run_next] in Hn; injection Hn as <- <-.
      * apply so_waits with (TToken st' fs); [cbn; rewrite !in_app_iff; right; right; now left|now exists st', fs].
      * apply so_failed. now left.
      * apply so_done with (c_log c1); [now exists []|]. exact (looked_grow E f c1 _ _ (fun x => x) A2).
    + cbn [run_next] in Hn. unfold run_next in Hn. destruct o; injection Hn as <- <-.
      * now apply so_waits with t.
      * apply so_waits with t; [exact Ht|exact Hlk].
      * apply so_waits with t; [|exact Hlk]. cbn. rewrite !in_app_iff in *. tauto.
      * now apply so_waits with t.
      * apply so_over. destruct (Hterm _ eq_refl) as (a & H). exists a. cbn [p_ctx]. change (c_log (drop_tasks ?l ?y)) with (c_log y).
        unfold run_terminal. cbn [p_with_ctx p_ctx]. destruct (apply E t1 c) as [o1 c1] eqn:Ha. apply apply_untold in Ha as (x & Hx & _).
        change (c_log (drop_tasks ?l ?y)) with (c_log y). rewrite Hx. apply in_or_app. now right.
  - now apply so_waits with t.
  - assert (Hterm : forall k, o = OTerminate k -> terminated (c_log c)).
    { intros k ->. exists (t_id t0). unfold step in Hst. destruct (apply E t0 _) as [o1 c1]. injection Hst as -> <-. now left. }
    cbn [app] in Ht. unfold handle_next. destruct o.
    + now apply so_waits with t.
    + apply so_waits with t; [exact Ht|exact Hlk].
    + apply so_waits with t; [|exact Hlk]. cbn. apply in_or_app. now right.
    + now apply so_waits with t.
    + apply so_over. destruct (Hterm _ eq_refl) as (a & H). exists a. cbn [p_ctx]. change (c_log (drop_tasks ?l ?y)) with (c_log y).
      unfold run_terminal. cbn [p_with_ctx p_ctx]. destruct (apply E t1 c) as [o1 c1] eqn:Ha. apply apply_untold in Ha as (x & Hx & _).
      change (c_log (drop_tasks ?l ?y)) with (c_log y). rewrite Hx. apply in_or_app. now right.
  - now apply so_waits with t.
  - exfalso. cbn [app] in Ht. rewrite Hq in Ht. destruct Ht.
Qed.
Lemma sought_goes E fa f : (forall p, build E fa (ctx0 [EvReqHeaders]) = BOk p -> exists t, In t (p_queue p) /\ looking f t) ->
  forall ts p, goes E fa ts p -> sought E f ts p.
Proof.
  intros Hst ts p Hg. induction Hg as [p Hb|ts p ts' p' Hg IH Hs|p e Hg IH He|src n e p Hg IH].
  - destruct (Hst p Hb) as (t & H1 & H2). now apply so_waits with t.
  - eapply sought_estep; eauto. eapply fed_goes; eauto.
  - apply (sought_grow E f [] p [] (p_emit e p) [e]); auto. intros t H1 H2. now apply so_waits with t.
  - apply (sought_grow E f [] p [] (p_body src n e p) [match src with SrcReq => EvReqBody n e | SrcResp => EvRespBody n e end]); auto; try (now destruct src).
    intros t H1 H2. apply so_waits with t; [now destruct src|exact H2].
Qed.

(** ** the fields of the actions *)
Lemma resp_asked E x e f : parse_expr E x = Some e -> asks_for E SrcResp f x -> In f (ex_resp e).
Proof. intros Hx. exact (proj2 (asked_iff E x e SrcResp f Hx)). Qed.
Lemma body_values_in a r rs id p tm i v m d g : a = mkAct id p tm (BGrpc i v m rs) d g -> In r rs -> incl (body_values r) (body_values a).
Proof.
  intros -> Hr x Hx. cbn [body_values]. rewrite !in_app_iff. right; right. induction rs as [|y rs IH]; [destruct Hr|].
  destruct Hr as [->|Hr]; apply in_or_app; auto.
Qed.
Lemma compile_asked E svs f x id t b z : within id t b z -> In x (texts z) -> asks_for E SrcResp f x -> forall a, compile_typed E svs t id = Some a -> In f (body_values a).
Proof.
  intros Hw Hx Ha. induction Hw as [id t|id p tm g sq var service msg rs i r a0 y Hn _ IH]; intros a; [destruct t as [p tm g sq op]|]; cbn [compile_typed].
  - destruct (parse_expr E p) as [pe|] eqn:Hp; [|discriminate]. cbn [texts] in Hx. 
    destruct op as [var service msg rs|dn|m h|path v ex|]; cbn in Hx.
    + destruct (tget service svs) as [[k s|]|]; try discriminate.
      match goal with |- match ?y with _ => _ end = _ -> _ => destruct y as [l|] end; [|discriminate].
      destruct (parse_expr E msg) as [me|] eqn:Hm; [|discriminate]. intros [= <-]. cbn [body_values]. rewrite !in_app_iff.
      destruct Hx as [<-|[<-|[]]]; eauto using resp_asked.
    + destruct (parse_expr E dn) as [me|] eqn:Hm; [|discriminate]. intros [= <-]. cbn [body_values]. rewrite !in_app_iff. destruct Hx as [<-|[<-|[]]]; eauto using resp_asked.
    + destruct (parse_expr E h) as [me|] eqn:Hm; [|discriminate]. intros [= <-]. cbn [body_values]. rewrite !in_app_iff. destruct Hx as [<-|[<-|[]]]; eauto using resp_asked.
    + destruct (parse_expr E v) as [me|] eqn:Hm; [|discriminate]. intros [= <-]. cbn [body_values]. rewrite !in_app_iff. destruct Hx as [<-|[<-|[]]]; eauto using resp_asked.
    + intros [= <-]. cbn [body_values]. rewrite !in_app_iff. destruct Hx as [<-|[]]; eauto using resp_asked.
  - destruct (parse_expr E p) as [pe|] eqn:Hp; [|discriminate]. destruct (tget service svs) as [[k s|]|]; try discriminate.
    match goal with |- match ?y with _ => _ end = _ -> _ => destruct y as [l|] eqn:Hgo end; [|discriminate].
    destruct (parse_expr E msg) as [me|]; [|discriminate]. intros [= <-].
    assert (exists r', In r' l /\ compile_typed E svs r (id ++ dot :: nat_text i) = Some r') as (r' & Hr1 & Hr2).
    { assert (GG : forall rs j l, (fix go (i : nat) (l : list taction) : option (list action) :=
                           match l with
                           | [] => Some []
                           | r :: l' =>
                               if ta_seq r then None
                               else match compile_typed E svs r (id ++ dot :: nat_text i), go (S i) l' with
                                    | Some a, Some l'' => Some (a :: l'')
                                    | _, _ => None
                                    end
                           end) j rs = Some l -> forall i r, nth_error rs i = Some r -> exists r', In r' l /\ compile_typed E svs r (id ++ dot :: nat_text (j + i)) = Some r').
      { clear. induction rs as [|q rs IH]; intros j l H i r Hn; [destruct i; discriminate|]. destruct (ta_seq q); [discriminate|].
        destruct (compile_typed E svs q _) as [q'|] eqn:Hq; [|discriminate].
        match type of H with match ?y with _ => _ end = _ => destruct y as [l''|] eqn:Hgo end; [|discriminate]. injection H as <-.
        destruct i as [|i]; [injection Hn as <-; exists q'; split; [now left|now rewrite Nat.add_0_r]|].
        destruct (IH _ _ Hgo i r Hn) as (r' & H1 & H2). exists r'. split; [now right|]. now rewrite <- plus_n_Sm. }
      exact (GG _ _ _ Hgo _ _ Hn). }
    eapply body_values_in; [reflexivity|exact Hr1|]. now apply IH.
Qed.
Lemma within_move id t b z : within id t b z -> forall id', exists b', within id' t b' z.
Proof.
  induction 1 as [id t|id p tm g sq var service msg rs i r a0 y Hn _ IH]; intros id'; [exists id'; constructor|].
  destruct (IH (id' ++ dot :: nat_text i)) as (b' & Hb). exists b'. econstructor; eauto.
Qed.
Lemma set_deps_values d a : body_values (set_deps d a) = body_values a.
Proof. now destruct a. Qed.
Lemma actions_looking E rd tr f a : (match a_op a with BGrpc (IDyn _ _) _ _ _ => True | _ => False end) -> In f (collect_body_values rd a) ->
  forall l c ts tds c', actions_tasks E rd tr l c = Some (ts, tds, c') -> In a l -> exists t, In t ts /\ looking f t.
Proof.
  intros Hop Hf. induction l as [|a0 l IH]; intros c ts tds c'; cbn [actions_tasks]; [intros _ []|].
  destruct (action_tasks E rd tr a0 c) as [[[t1 td1] c1]|] eqn:H1; [|discriminate].
  destruct (actions_tasks E rd tr l c1) as [[[t2 td2] c2]|] eqn:H2; [|discriminate].
  intros [= <- <- <-] [->|Hi].
  - revert H1. unfold action_tasks. destruct (a_op a) as [[k s|] v m rs| | | |]; try destruct Hop.
    destruct (to_core E a c) as [[tk c3]|]; [|discriminate]. intros [= <- <- <-].
    exists (TToken None (collect_body_values rd a)). split; [|exists None, (collect_body_values rd a); auto].
    destruct (collect_body_values rd a) as [|x fs]; [destruct Hf|]. now left.
  - destruct (IH _ _ _ _ H2 Hi) as (t & H3 & H4). exists t. split; [apply in_or_app; now right|exact H4].
Qed.

Lemma in_sort_rd {V} (x : (text * text) * V) l : In x l -> In x (sort_rd l).
Proof.
  induction l as [|y l IH]; [easy|]. cbn [sort_rd fold_right]. fold (sort_rd l).
  assert (KI : forall z, (x = z \/ In x (sort_rd l)) -> In x (ins_rd z (sort_rd l))).
  { intros z. generalize (sort_rd l) as m. clear. intros m. induction m as [|w m IH]; intros H; cbn [ins_rd].
    - destruct H as [->|[]]. now left.
    - destruct (pair_leb _ _); [destruct H as [->|H]; [now left|now right]|].
      destruct H as [->|[->|H]]; [right; auto|now left|right; auto]. }
  intros [->|H]; apply KI; auto.
Qed.
Lemma rdata_asked E cfg fa k x f : try_from E cfg = Some fa -> In (k, x) (pc_request_data cfg) -> asks_for E SrcResp f x ->
  In f (flat_map ex_resp (map (fun r => snd (snd r)) (fa_rdata fa))).
Proof.
  intros Hf Hi (e & He & Ha). revert Hf. unfold try_from. destruct (map_opt _ (pc_services cfg)) as [svs|]; [|discriminate]. cbv zeta.
  destruct (fold_left _ _ _) as [ix|]; [|discriminate]. intros [= <-]. cbn [fa_rdata].
  apply in_flat_map. exists e. split; [|apply (resp_asked E x e f He); now exists e].
  apply in_map_iff. exists (domain_and_field (o_alpha E) k, (x, e)). split; [reflexivity|]. apply in_sort_rd.
  revert Hi. generalize (pc_request_data cfg) as l. intros l. induction l as [|kv l IH]; [intros []|]. intros [->|Hi]; cbn [filter_map fst snd].
  - rewrite He. now left.
  - destruct (option_map _ _); [right|]; auto.
Qed.

(** * C127 *)
(** In every state of a request: the response body is being searched for each field that a call of its action set
    asks for, be it in its condition, in its message, in what follows its reply, or in the request data. The search is
    over only if processing is, if it failed, or if the body had ended; the field is known then if it was there. *)
Theorem C127_response_fields_are_sought : forall E cfg fa s y f,
  try_from E cfg = Some fa -> serves E cfg fa s -> top_call E cfg s y -> wants E cfg y f ->
  forall ts p, goes E fa ts p -> sought E f ts p.
Proof.
  intros E cfg fa s y f Hf (Hin & svs & bp & c & Hsv & Hc & Hsel) ((svs' & i & cf & Hsv' & Hi & Hm) & Hcall) Hw. rewrite Hsv in Hsv'. injection Hsv' as <-.
  apply sought_goes. intros p Hb. pose proof (build_spec E fa (ctx0 [EvReqHeaders])) as Hsp. rewrite Hb in Hsp.
  destruct Hsp as (b & c1 & tds & Hs & Ht & _). rewrite Hsel in Hs. injection Hs as <- <-. unfold to_tasks in Ht.
  apply compile_set_compiled in Hc. assert (Hlt : i < length (bp_actions bp)) by (rewrite (cm_len _ _ _ _ _ Hc); apply nth_error_Some; congruence).
  destruct (nth_error (bp_actions bp) i) as [a|] eqn:Ha; [|apply nth_error_None in Ha; lia].
  destruct (cm_nth _ _ _ _ _ Hc i a Ha) as (cf' & d & N1 & N2 & N3). rewrite Hi in N1. injection N1 as <-.
  assert (exists a0, compile_typed E svs y (nat_text i) = Some a0 /\ a = set_deps d a0) as (a0 & M2 & ->).
  { assert (K : forall t, option_map (set_deps d) (compile_typed E svs t (nat_text i)) = Some a ->
              exists a0, compile_typed E svs t (nat_text i) = Some a0 /\ a = set_deps d a0).
    { intros t. destruct (compile_typed E svs t (nat_text i)) as [a0|] eqn:H; [|discriminate]. intros [= <-]. eauto. }
    destruct cf as [t|l]; cbn [compile_action meaning] in *; [injection Hm as ->; now apply K|]. unfold compile_legacy in N3.
    destruct (tget (la_service l) svs) as [[k s0|]|]; try discriminate. destruct k; try discriminate; injection Hm as <-; now apply K. }
  eapply actions_looking; [| |exact Ht|cbn [bp_actions]; apply in_or_app; left; eapply nth_error_In; exact Ha].
  - destruct y as [pr tm g sq [var sv msg rs| | | |]]; try destruct Hcall. revert M2. cbn [compile_typed]. destruct (parse_expr E pr); [|discriminate].
    destruct (tget sv svs) as [[k s0|]|]; try discriminate. match goal with |- match ?q with _ => _ end = _ -> _ => destruct q end; [|discriminate].
    destruct (parse_expr E msg); [|discriminate]. intros [= <-]. exact Logic.I.
  - unfold collect_body_values. apply nodup_In. rewrite set_deps_values. apply in_or_app.
    destruct Hw as [(ia & b & z & x & H1 & H2 & H3)|(k & x & H1 & H2)].
    + left. destruct (within_move _ _ _ _ H1 (nat_text i)) as (b' & H1'). exact (compile_asked E svs f x _ _ _ _ H1' H2 H3 _ M2).
    + right. exact (rdata_asked E cfg fa k x f Hf H1 H2).
Qed.
Print Assumptions C127_response_fields_are_sought.
(** Between callbacks: unless the search is over, the body is looked at in every callback. *)
Theorem C127_the_body_is_looked_at : forall E cfg fa s y f l,
  try_from E cfg = Some fa -> serves E cfg fa s -> top_call E cfg s y -> wants E cfg y f -> later l -> f_pipe (run E fa l) <> None ->
  let h := f_log (run E fa l) in
  just_evaluated E fa l tu_id \/ terminated h \/ In (EvFailed tu_id) h \/
  exists past, occurs h (EvDone tu_id) past /\ ended SrcResp past.
Proof.
  intros E cfg fa s y f l Hf Hs Hy Hw Hl Hp h. destruct (f_pipe (run E fa l)) as [p|] eqn:Hfp; [|easy].
  pose proof (C127_response_fields_are_sought E cfg fa s y f Hf Hs Hy Hw _ _ (run_reach E fa l p Hl Hfp)) as H.
  destruct H as [t H1 (st & fs & -> & H2)|H|H|past H (H1 & _)]; auto.
  - left. destruct (queue_reason E cfg fa l p Hf Hl Hfp) as [Hr (e2 & He)]. destruct (Hr _ H1) as [(e1 & G1 & G2)|(d & [] & _)].
    exists (e2 ++ e1). rewrite He, G1, app_assoc. split; [reflexivity|]. apply in_or_app. now right.
  - right; right; right. exists past. auto.
Qed.
Print Assumptions C127_the_body_is_looked_at.
(** a call whose reply is followed by an action that asks for a field of the response body *)
Definition inner127 : taction := mkT (tx "true") false false false (OpStore (tx "p") (tx "respbody") true).
Definition call127 : taction := mkT (tx "true") false true true (OpGrpc (tx "r") (tx "hard") (tx "msg") [inner127]).
Definition ex127 : list action_cfg := [CTyped call127].
Definition log127 (l : list fin) : log := f_log (run Ej (dfac Ej ex127) l).
Example C127_ex : try_from Ej (dcfg ex127) = Some (dfac Ej ex127) /\ serves Ej (dcfg ex127) (dfac Ej ex127) (set_of ex127) /\
  top_call Ej (dcfg ex127) (set_of ex127) call127 /\ wants Ej (dcfg ex127) call127 (tx "/a") /\
  f_pipe (run Ej (dfac Ej ex127) []) <> None /\ just_evaluated Ej (dfac Ej ex127) [] tu_id /\
  later jbody /\ f_pipe (run Ej (dfac Ej ex127) jbody) <> None /\ In (EvDone tu_id) (log127 jbody).
Proof.
  split; [vm_compute; reflexivity|]. split; [serve|].
  split; [split; [|exact Logic.I]; eexists _, 0, (CTyped call127); repeat split; vm_compute; reflexivity|].
  split.
  { left. exists (tx "0"), (tx "0.0"), inner127, (tx "respbody"). split; [|split; [right; now left|]].
    - change (tx "0.0") with (tx "0" ++ dot :: nat_text 0). apply (wi_reply (tx "0") (tx "true") false true true (tx "r") (tx "hard") (tx "msg") [inner127] 0 inner127); [reflexivity|apply wi_self].
    - eexists. split; [vm_compute; reflexivity|]. apply (as_here SrcResp). }
  split; [vm_compute; discriminate|]. split; [exists (log127 []); split; [now rewrite app_nil_r|find]|].
  split; [intros H; vm_compute in H; intuition discriminate|]. split; [vm_compute; discriminate|find].
Qed.
(** The fields asked for by other actions are not looked for (store actions read the body themselves): a deny action
    whose condition is about the response body is never decided, though the field is there, and the end of the response is held. *)
Definition deny127 : taction := ddeny "respbody" false true.
Theorem C127_fields_of_all_actions_are_sought_refuted : exists E cfg fa s f l p y,
  try_from E cfg = Some fa /\ serves E cfg fa s /\ has_action E cfg s (tx "0") y /\ (exists x, In x (texts y) /\ asks_for E SrcResp f x) /\
  later l /\ f_pipe (run E fa l) = Some p /\ ended SrcResp (f_log (run E fa l)) /\ ~ sought E f [] p /\
  waiting (f_log (run E fa l)) (tx "0") /\ hd_error (f_log (run E fa l)) = Some (EvRet true).
Proof.
  exists Ej, (dcfg [CTyped deny127]), (dfac Ej [CTyped deny127]), (set_of [CTyped deny127]), (tx "/a"), jbody.
  destruct (f_pipe (run Ej (dfac Ej [CTyped deny127]) jbody)) as [p|] eqn:Hp; [|vm_compute in Hp; discriminate Hp].
  exists p, deny127. split; [vm_compute; reflexivity|]. split; [serve|]. split; [acts 0|].
  split; [exists (tx "respbody"); split; [now left|]; eexists; split; [vm_compute; reflexivity|]; apply (as_here SrcResp)|].
  split; [intros H; vm_compute in H; intuition discriminate|]. split; [reflexivity|]. split; [vm_compute; reflexivity|].
  assert (Hno : forall k, ~ call_open (f_log (run Ej (dfac Ej [CTyped deny127]) jbody)) k (tx "0")).
  { intros k H. apply call_open_spec in H. vm_compute in H. exact H. }
  split; [|split; [split; [|split; [|exact Hno]]; intros H; vm_compute in H; intuition discriminate|vm_compute; reflexivity]].
  vm_compute in Hp. injection Hp as <-. intros [t H1 (st & fs & -> & H2)|(a & H)|H|past (b & H) _].
  - cbn in H1. intuition discriminate.
  - cbn in H. intuition discriminate.
  - cbn in H. intuition discriminate.
  - match type of H with ?L = _ => assert (K : In (EvDone tu_id) L) by (rewrite H; apply in_or_app; right; now left) end. cbn in K. intuition discriminate.
Qed.
Print Assumptions C127_fields_of_all_actions_are_sought_refuted.
