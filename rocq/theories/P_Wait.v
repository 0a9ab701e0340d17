(** Why an action is put back into the queue. *)
From Coq Require Import String Ascii List NArith ZArith Bool Lia Arith.
From Verif Require Import Base Value Headers AttrPath Ctx CelProps CelEval Sse Body ValueBytes Tasks Exec Config Legacy Blueprint Factory Filter
  P_Frame P_Apply P_Exec P_Run P_Inv P_Ids P_Plan P_Deps P_Order P_Term P_Bar P_Cfg P_Hist P_Grow P_Wake P_Fed P_Told P_Eval P_Props.
Import ListNotations.
Open Scope list_scope.

(** * The parser of a store task is made for the fields its expressions ask for *)
Definition bs_for (p x : expr) (bs : bstate) : Prop :=
  match initial_body p x with
  | BSNone => bs = BSNone
  | BSPending src fs => bs = BSPending src fs \/ exists q, bs = BSActive src q /\ bp_fields q = fs
  | BSActive _ _ => False
  end.
Fixpoint shaped (t : task) : Prop :=
  match t with
  | TTracing t | TFailureMode t _ => shaped t
  | TDynamic _ _ _ _ rs _ _ _ | TPending _ _ _ rs _ => (fix go ts := match ts with [] => True | r :: ts' => shaped r /\ go ts' end) rs
  | TStore _ p x _ _ _ bs => bs_for p x bs
  | _ => True
  end.
Lemma shaped_go ts : (fix go ts := match ts with [] => True | r :: ts' => shaped r /\ go ts' end) ts <-> Forall shaped ts.
Proof. induction ts as [|a ts IH]; [split; [constructor|easy]|]. rewrite IH. split; [intros [H1 H2]; now constructor|]. inversion 1; auto. Qed.
Lemma shaped_core t : shaped (core t) <-> shaped t.
Proof. induction t; simpl; tauto. Qed.
Definition shaped_out (o : outcome) : Prop :=
  match o with ODeferred _ t => shaped t | ORequeued ts => Forall shaped ts | OTerminate t => shaped t | _ => True end.
Lemma feed_fields E chunk p p' : bp_feed E chunk p = Some p' -> bp_fields p' = bp_fields p.
Proof.
  destruct p as [q|q]; cbn [bp_feed].
  - unfold jp_feed. destruct (jp_complete q); [intros [= <-]; reflexivity|]. destruct (o_jfeed E _ _).
    + unfold jp_extract. cbn [jp_fields jp_fed jp_extracted jp_consumed jp_complete]. destruct (extract_raw E _ _); [intros [= <-]; reflexivity|discriminate].
    + intros [= <-]. reflexivity.
    + discriminate.
  - unfold sb_feed. destruct (sb_complete q); [intros [= <-]; reflexivity|]. destruct (sse_parse _ _); try discriminate. intros [= <-]. reflexivity.
Qed.
Lemma finalize_fields E p p' : bp_finalize E p = Some p' -> bp_fields p' = bp_fields p.
Proof.
  destruct p as [q|q]; cbn [bp_finalize].
  - unfold jp_finalize. destruct (o_jfinish E _ _); [|discriminate]. unfold jp_extract. destruct (extract_raw E _ _); [intros [= <-]; reflexivity|discriminate].
  - unfold sb_finalize. destruct (snd (sb_last q)); [|intros [= <-]; reflexivity]. destruct (o_json E _); [|discriminate]. intros [= <-]. reflexivity.
Qed.
Lemma populate_all p : forall b f, tget f (bp_extracted p) <> None -> tget f (b_vals (bp_populate p b)) <> None.
Proof.
  intros b f H. unfold bp_populate. assert (G : forall l b, (tget f l <> None \/ tget f (b_vals b) <> None) -> tget f (b_vals (fold_left (fun b kv => set_value (fst kv) (snd kv) b) l b)) <> None).
  { clear. induction l as [|[k v] l IH]; intros b H; cbn [fold_left]; [destruct H as [H|H]; [now destruct H|exact H]|]. apply IH. cbn [fst snd].
    cbn [aget] in H. destruct (text_eqb f k) eqn:He.
    - right. apply text_eqb_eq in He. subst k. unfold set_value. cbn. rewrite (aget_aset_same text_eqb text_eqb_eq). discriminate.
    - destruct H as [H|H]; [now left|]. right. unfold set_value. cbn. rewrite (aget_aset_other text_eqb text_eqb_eq); [exact H|]. intros ->. now rewrite text_eqb_refl in He. }
  apply G. now left.
Qed.
(** what a fed parser leaves: the fields are the same, and at the end of the body all of them are known *)
Lemma feed_parser_fields E src p c p' c' : feed_parser E src p c = RAvail (p', c') ->
  bp_fields p' = bp_fields p /\ (b_eos (src_body src c) = true -> forall f, In f (bp_fields p) -> tget f (b_vals (src_body src c')) <> None).
Proof.
  unfold feed_parser. destruct (_ && _); [discriminate|].
  set (fed := if (bp_consumed p <? _)%N then _ else _). assert (Hf : forall p1, fed = RAvail p1 -> bp_fields p1 = bp_fields p).
  { unfold fed. destruct (bp_consumed p <? _)%N; [|intros p1 [= <-]; reflexivity]. destruct (src_read E src _ _ c) as [[ch|]| |]; try discriminate.
    destruct (bp_feed E ch p) as [q|] eqn:Hq; [|discriminate]. intros p1 [= <-]. now apply feed_fields in Hq. }
  destruct fed as [|p1|]; try discriminate. specialize (Hf p1 eq_refl).
  destruct (b_eos (src_body src c)).
  - destruct (bp_finalize E p1) as [p2|] eqn:H2; [|discriminate]. destruct (bp_remaining p2) as [|x l] eqn:Hr; [|discriminate]. intros [= <- <-]. apply finalize_fields in H2. split; [congruence|].
    intros _ f Hi. replace (src_body src (src_set src (bp_populate p2 (src_body src c)) c)) with (bp_populate p2 (src_body src c)) by now destruct src. apply populate_all.
    intros Hn. assert (Hin : In f (bp_remaining p2)) by (apply filter_In; split; [congruence|now rewrite Hn]). now rewrite Hr in Hin.
  - intros [= <- <-]. split; [exact Hf|discriminate].
Qed.
Lemma create_fields E src fs c q c' : create_parser E src fs c = (RAvail q, c') -> bp_fields q = fs.
Proof.
  unfold create_parser. assert (J : forall x, (match jp_new E fs with Some p => RAvail (BJson p) | None => RErr end) = RAvail x -> bp_fields x = fs).
  { unfold jp_new. destruct (o_jnew E fs); [|discriminate]. now intros x [= <-]. }
  destruct src; [intros [= H _]; now apply J|]. destruct (read_headers E p_resp_headers c) as [[|h|] c1].
  - discriminate.
  - destruct (is_sse_type h); [now intros [= <- _]|]. intros H. apply J. congruence.
  - intros H. apply J. congruence.
Qed.
Lemma store_value_shaped E self id p x path ex tm c o c' : shaped self -> store_value E self id p x path ex tm c = (o, c') -> shaped_out o.
Proof.
  intros Hs. unfold store_value. destruct (test_in E p _ c) as [[[|[|]|] vs] c1]; try (intros [= <- _]; repeat constructor; exact Hs).
  destruct (eval_in E x vs c1) as [[[|v|] vs2] c2]; try (intros [= <- _]; repeat constructor; exact Hs).
  destruct (if ex then _ else _) as [ok c3]. destruct ok; [destruct tm|]; intros [= <- _]; exact Logic.I.
Qed.
Lemma shaped_apply E t : forall c o c', shaped t -> apply E t c = (o, c') -> shaped_out o.
Proof.
  induction t as [id s var msg rs pred deps g|id s var rs g|id g|t IH b|t IH|id p tm|id p hx m tm|id p d tm|id p x path ex tm bs|st fs|]; intros c o c' Hf; cbn [apply].
  - unfold apply_dynamic. destruct (test_in E pred _ c) as [[r vs] c1].
    destruct r as [|[]|]; try (intros [= <- <-]; (destruct (body_over pred c1) || idtac); repeat constructor; exact Hf).
    destruct (eval_in E msg _ c1) as [[[|v|] vs2] c2]; try (intros [= <- <-]; (destruct (body_over msg c2) || idtac); repeat constructor; exact Hf).
    destruct (o_encode E _ s v); [|intros [= <- <-]; exact Logic.I].
    destruct (dispatch E _ _ _ _ _ _ c2) as [[tok|] c3]; intros [= <- <-]; [exact Hf|exact Logic.I].
  - cbn [shaped] in Hf. apply shaped_go in Hf. unfold apply_pending, process_response. destruct (take_grpc c) as [[[st sz]|] c1]; [|intros [= <- <-]; exact Logic.I].
    destruct (negb (N.eqb st 0)); [intros [= <- <-]; exact Logic.I|].
    destruct rs as [|r0 rs]; [intros [= <- <-]; exact Logic.I|].
    destruct (h_grpcresp E _ sz) as [bs|]; [|intros [= <- <-]; exact Logic.I].
    destruct (o_decode E _ s bs); intros [= <- <-]; [exact Hf|exact Logic.I].
  - unfold apply_noop. intros [= <- <-]. exact Logic.I.
  - destruct (apply E t c) as [o1 c1] eqn:Ha. specialize (IH _ _ _ Hf Ha). destruct o1; intros [= <- <-]; try exact IH. destruct b; exact Logic.I.
  - destruct (apply E t c) as [o1 c1] eqn:Ha. specialize (IH _ _ _ Hf Ha). destruct o1; intros [= <- <-]; try exact IH; try exact Logic.I. cbn [shaped_out] in *. rewrite Forall_map. exact IH.
  - unfold apply_fail. destruct (test_in E p _ c) as [[r vs] c1]. 
    repeat match goal with |- context [match ?x with _ => _ end] => destruct x end; intros [= <- <-]; repeat constructor.
  - unfold apply_headers. destruct (test_in E p _ c) as [[r vs] c1]. destruct r as [|[]|]; try (intros [= <- <-]; repeat constructor).
    destruct (eval_in E hx vs c1) as [[r2 vs2] c2].
    repeat match goal with |- context [match ?x with _ => _ end] => destruct x end; intros [= <- <-]; repeat constructor.
  - unfold apply_reply. destruct (test_in E p _ c) as [[r vs] c1]. destruct r as [|[]|]; try (intros [= <- <-]; repeat constructor).
    destruct (eval_in E d vs c1) as [[[|v|] vs2] c2]; try (intros [= <- <-]; repeat constructor). destruct v; try (intros [= <- <-]; repeat constructor).
    destruct (tracker E c2) as [tr c4]. destruct (send_reply E _ _ _ _) as [ok c5]. destruct ok; [destruct tm|]; intros [= <- <-]; repeat constructor.
  - cbn [shaped] in Hf. unfold apply_store.
    assert (R : forall src fs q c0, initial_body p x = BSPending src fs -> bp_fields q = fs ->
      match feed_parser E src q c0 with
      | RPending => (ORequeued [TStore id p x path ex tm (BSActive src q)], c0)
      | RErr => (OFailed, c0)
      | RAvail (p', c2) => store_value E (TStore id p x path ex tm (BSActive src p')) id p x path ex tm c2
      end = (o, c') -> shaped_out o).
    { intros src fs q c0 Hi Hq. destruct (feed_parser E src q c0) as [|[p' c2]|] eqn:Hfp; [intros [= <- <-]; repeat constructor| |intros [= <- <-]; exact Logic.I].
      - cbn [shaped]. unfold bs_for. rewrite Hi. right. eauto.
      - apply store_value_shaped. cbn [shaped]. unfold bs_for. rewrite Hi. right. exists p'. split; [reflexivity|]. apply feed_parser_fields in Hfp as [-> _]. exact Hq. }
    unfold bs_for in Hf. destruct (initial_body p x) as [|src fs|] eqn:Hi; [subst bs| |destruct Hf].
    + apply store_value_shaped. cbn [shaped]. unfold bs_for. now rewrite Hi.
    + destruct Hf as [->|(q & -> & Hq)]; [|now apply (R src fs)].
      destruct (create_parser E src fs c) as [[|q|] c1] eqn:Hc; [intros [= <- <-]; repeat constructor| |intros [= <- <-]; exact Logic.I].
      * cbn [shaped]. unfold bs_for. rewrite Hi. now left.
      * apply (R src fs); [reflexivity|]. now apply create_fields in Hc.
  - unfold apply_token. assert (G : forall s0 c0, (let fed := if (0 <? b_size (c_respb c0))%N then match h_respbody E (c_log c0) 0 (b_size (c_respb c0)) with
        | HOk (Some bytes) => RAvail (st_feed bytes s0) | HOk None => RAvail s0 | HNotAvail => RPending | HErr => RErr end else RAvail s0 in
      match fed with RPending => (ORequeued [TToken (Some s0) fs], c0) | RErr => (OFailed, c0)
      | RAvail s' => if b_eos (c_respb c0) then (ODone, with_respb c0 (st_populate E fs s' (c_respb c0))) else (ORequeued [TToken (Some s') fs], c0) end) = (o, c') -> shaped_out o).
    { intros s0 c0. cbv zeta. match goal with |- match ?x with _ => _ end = _ -> _ => destruct x end; [intros [= <- <-]; repeat constructor| |intros [= <- <-]; exact Logic.I].
      destruct (b_eos _); intros [= <- <-]; repeat constructor. }
    destruct st as [s|]; [apply G|]. destruct (read_headers E p_resp_headers c) as [[|h|] c1]; [intros [= <- <-]; repeat constructor|apply G|intros [= <- <-]; exact Logic.I].
  - intros [= <- <-]. exact Logic.I.
Qed.
Lemma shaped_step E t c o c' : shaped t -> step E t c = (o, c') -> shaped_out o.
Proof.
  unfold step. intros Hs. destruct (apply E t _) as [o1 c1] eqn:Ha. apply (shaped_apply _ _ _ _ _ Hs) in Ha. destruct o1; intros [= <- <-]; exact Ha.
Qed.
Definition shapedI (ts : list task) (p : pipe) : Prop := Forall shaped (items ts p).
Lemma shaped_items ts p : shapedI ts p <-> Forall shaped ts /\ Forall shaped (p_queue p) /\ Forall shaped (dts p).
Proof. unfold shapedI, items. rewrite !Forall_app. tauto. Qed.
Lemma noop_shaped l : Forall is_noop l -> Forall shaped l.
Proof. apply Forall_impl. intros t. destruct t; easy. Qed.
Lemma shaped_estep E ts p ts' p' : estep E ts p ts' p' -> shapedI ts p -> shapedI ts' p'.
Proof.
  intros Hs. rewrite !shaped_items. intros (F1 & F2 & F3).
  destruct Hs as [p Hset|t ts p Hb|t ts p o c ts' p' Hb Hst Hn|tok st sz p Hset Hn|tok st sz t p o c Hset Hn Hst|p Hq Ht|a rest p Hq Hn Ht].
  - repeat split; auto; constructor.
  - inversion F1; subst. repeat split; auto. cbn. apply Forall_app. auto.
  - inversion F1; subst. apply shaped_step in Hst; [|assumption].
    unfold run_next in Hn. destruct o; injection Hn as <- <-; cbn [p_with_ctx p_with_done p_with_queue p_ctx p_queue].
    + repeat split; auto.
    + destruct (def_insert_facts tok t0 (p_with_ctx p c)) as (D1 & _ & _ & _ & _ & D6). repeat split; auto. unfold dts. rewrite D6. now apply Forall_nset.
    + repeat split; auto. apply Forall_app. auto.
    + repeat split; auto.
    + repeat split; try constructor. exact F3.
  - repeat split; auto.
  - assert (Ft : shaped t) by (eapply Forall_nget; [exact F3|exact Hn]). apply shaped_step in Hst; [|exact Ft].
    assert (F3' : Forall shaped (map snd (ndel tok (p_def p)))) by now apply Forall_ndel.
    unfold handle_next. destruct o; cbn [p_with_ctx p_with_done p_with_queue p_ctx p_queue p_def p_done p_td p_term].
    + repeat split; auto.
    + match goal with |- context [def_insert ?k ?x ?q] => destruct (def_insert_facts k x q) as (D1 & _ & _ & _ & _ & D6) end.
      repeat split; auto. unfold dts. rewrite D6. now apply Forall_nset.
    + repeat split; auto. apply Forall_app; auto.
    + repeat split; auto.
    + repeat split; try constructor. exact F3'.
  - repeat split; auto. unfold dts. cbn [replace_deferred p_def]. rewrite map_map. apply Forall_map, Forall_forall. intros x _. exact Logic.I.
  - destruct (td_sum E a (p_with_td p rest)) as (evs & tok & T1 & T2 & T3 & T4 & _). rewrite T4. repeat split; auto.
    unfold dts. rewrite T3. destruct tok; [|exact F3]. apply Forall_nset; [exact Logic.I|exact F3].
Qed.
Lemma shaped_finvb E : finvb E shapedI (fun _ => True).
Proof.
  constructor; try (intros; exact Logic.I).
  - intros. eapply shaped_estep; eauto.
  - intros p e He H. exact H.
  - intros src n e p H. unfold shapedI, items, dts in *. destruct src; exact H.
Qed.
Lemma to_core_shaped E a : forall c t c', to_core E a c = Some (t, c') -> shaped t.
Proof.
  induction a as [id p tm s var m rs d g IH|id p tm o d g Ho] using action_ind'; intros c t c'.
  - rewrite to_core_grpc.
    assert (KK : forall c ts c1, to_cores E rs c = Some (ts, c1) -> Forall shaped ts).
    { clear -IH. induction IH as [|r rs Hr _ IH]; intros c ts c1; simpl; [intros [= <- <-]; constructor|].
      destruct (to_core E r c) as [[t1 c2]|] eqn:H1; [|discriminate].
      destruct (to_cores E rs c2) as [[ts2 c3]|] eqn:H2; [|discriminate]. intros [= <- <-]. constructor; [now apply Hr in H1|eauto]. }
    destruct (to_cores E rs c) as [[ts c1]|] eqn:H1; [|discriminate]. apply KK in H1.
    destruct s as [k sv|o].
    + intros [= <- <-]. cbn [shaped]. now apply shaped_go.
    + cbv zeta. destruct (request_id E (with_track c1 (Some var))) as [rid c3].
      destruct (parse_expr E (tracker_src var rid)); [|discriminate]. intros [= <- <-]. exact Logic.I.
  - destruct o; simpl; try (intros [= <- <-]; exact Logic.I); [edestruct Ho; reflexivity|].
    intros [= <- <-]. cbn [shaped]. unfold bs_for. destruct (initial_body p ex) eqn:Hi; [reflexivity|now left|].
    revert Hi. unfold initial_body. destruct (_ ++ _); [destruct (_ ++ _)|]; discriminate.
Qed.
Lemma actions_tasks_shaped E rd tr l : forall c ts tds c', actions_tasks E rd tr l c = Some (ts, tds, c') -> Forall shaped ts.
Proof.
  induction l as [|a l IH]; intros c ts tds c'; cbn [actions_tasks]; [intros [= <- <- <-]; constructor|].
  destruct (action_tasks E rd tr a c) as [[[t1 td1] c1]|] eqn:H1; [|discriminate].
  destruct (actions_tasks E rd tr l c1) as [[[t2 td2] c2]|] eqn:H2; [|discriminate]. specialize (IH _ _ _ _ H2).
  intros [= <- <- <-]. apply Forall_app. split; [|exact IH]. clear - H1. revert H1.
  unfold action_tasks. destruct (to_core E a c) as [[tk c3]|] eqn:H.
  - apply to_core_shaped in H. assert (KK : Forall shaped [tk]) by (repeat constructor; exact H).
    destruct (a_op a) as [s v m rs|x|x y|x y z|]; try (intros [= <- <- <-]; exact KK).
    destruct s as [k s|[t|]]; try (intros [= <- <- <-]; exact KK).
    intros [= <- <- <-]. apply Forall_app. split; [destruct (collect_body_values rd a); repeat constructor|].
    constructor; [|constructor]. destruct tr; exact H.
  - destruct (a_op a) as [s v m rs|x|x y|x y z|]; try discriminate. destruct s as [k s|[t|]]; discriminate.
Qed.
Lemma shaped_goes E fa ts p : goes E fa ts p -> shapedI ts p.
Proof.
  apply (reach_inv_b _ _ _ _ (shaped_finvb E)). intros p0 Hb. pose proof (build_spec E fa (ctx0 [EvReqHeaders])) as Hsp. rewrite Hb in Hsp.
  destruct Hsp as (b & c1 & tds & _ & Ht & Hp & _). unfold to_tasks in Ht. apply actions_tasks_shaped in Ht. apply shaped_items. rewrite Hp in *. unfold dts. cbn [p_emit p_with_ctx p_queue p_def].
  repeat split; try constructor. exact Ht.
Qed.

(** * An action that failed is nowhere any more *)
Lemma estep_ids E ts p ts' p' : estep E ts p ts' p' -> W ts p -> forall x, cnt x (idls (items ts' p')) <= cnt x (idls (items ts p)).
Proof.
  intros Hs HW x.
  destruct Hs as [p Hset|t ts p Hb|t ts p o c ts' p' Hb Hst Hn|tok st sz p Hset Hn|tok st sz t p o c Hset Hn Hst|p Hq Ht|a rest p Hq Hn Ht].
  - cn. lia.
  - cn. lia.
  - pose proof (w_ts _ _ HW) as Hqs. inversion Hqs as [|? ? Hq Hqs']; subst. clear Hqs.
    apply step_sum in Hst as (evs & Hss). pose proof (ss_evs _ _ _ _ _ _ Hss) as He.
    destruct o; simpl in Hn; injection Hn as <- <-; try (cn; lia).
    + destruct (def_insert_facts tok t0 (p_with_ctx p c)) as (F1 & F2 & F3 & F4 & F5 & F6).
      destruct He as (cl & -> & Hi & Hdis & Hc).
      assert (Hidl : idl t0 = idl t).
      { rewrite <- (idl_core t0), <- (idl_core t). destruct (core t); try easy. now rewrite Hc. }
      unfold items, dts. rewrite F6. simpl. rewrite !idls_app, !cnt_app. pose proof (cnt_nset x tok t0 (p_def p)). rewrite Hidl in *. lia.
    + pose proof (ss_requeue _ _ _ _ _ _ Hss) as Hr. simpl in Hr.
      assert (Hidl : idls ts0 = idl t) by (apply idls_norm1; apply wf_q_not_pending in Hq; destruct (core t); easy).
      cn. rewrite Hidl. lia.
  - cn. lia.
  - assert (Hd : wf_d t) by (eapply Forall_nget; [apply (w_def _ _ HW)|exact Hn]).
    apply step_sum in Hst as (evs & Hss). pose proof (ss_evs _ _ _ _ _ _ Hss) as He. pose proof (cnt_ndel x _ _ _ Hn) as Hnd.
    destruct o; simpl; try (cn; lia).
    + destruct He as (cl & _ & _ & _ & Hx). exfalso. apply wf_d_core in Hd. destruct (core t); easy.
    + pose proof (ss_requeue _ _ _ _ _ _ Hss) as Hr. simpl in Hr.
      assert (Hidl : idls ts = nst t) by (unfold nst; apply wf_d_core in Hd; destruct (core t); try easy; now apply idls_norm).
      pose proof (nst_le x t). cn. rewrite Hidl. lia.
  - assert (Hz : idls (dts (replace_deferred p)) = []).
    { apply noop_idls. unfold dts. simpl. rewrite map_map. apply Forall_forall. intros y Hi. apply in_map_iff in Hi as (z & <- & _). exact I. }
    unfold items at 1. rewrite !idls_app, Hz. simpl. rewrite Hq. cbn. lia.
  - destruct (td_sum E a (p_with_td p rest)) as (evs & tok & T1 & T2 & T3 & T4 & T5 & T6 & T7 & T8 & T9 & _).
    assert (Hdn : Forall is_noop (map snd (p_def (td_step E (p_with_td p rest) a)))) by now apply td_step_noop.
    apply noop_idls in Hdn as [Hz1 Hz2]. unfold items at 1, dts at 1. rewrite !idls_app, Hz1, T4. simpl. rewrite Hq. cbn. lia.
Qed.
Lemma failed_log d t o evs l : Forall (quiet t) evs -> In (EvFailed d) (ghost t o ++ evs ++ EvEval (t_id t) :: l) ->
  o = OFailed /\ d = t_id t \/ In (EvFailed d) l.
Proof.
  intros Hq H. rewrite in_app_iff in H. destruct H as [H|H].
  - destruct o; simpl in H; try easy; destruct H as [H|[]]; try discriminate. injection H as ->. now left.
  - rewrite in_app_iff in H. destruct H as [H|[H|H]]; [|discriminate|now right].
    exfalso. apply (quiet_unmarked _ _ _ Hq H). exact I.
Qed.
Lemma ssum_failed E t c o c' evs d : ssum E t c o c' evs -> In (EvFailed d) (c_log c') -> o = OFailed /\ d = t_id t \/ In (EvFailed d) (c_log c).
Proof.
  intros Hss Hd. rewrite (ss_log _ _ _ _ _ _ Hss) in Hd. pose proof (ss_evs _ _ _ _ _ _ Hss) as He. destruct o; try (now apply failed_log in Hd).
  destruct He as (cl & -> & _). cbn in Hd. destruct Hd as [Hd|[Hd|Hd]]; try discriminate. now right.
Qed.
Definition failed_gone (ts : list task) (p : pipe) : Prop := forall d, In (EvFailed d) (c_log (p_ctx p)) -> cnt d (idls (items ts p)) = 0.
Lemma failed_step E ts p ts' p' : estep E ts p ts' p' -> J ts p -> failed_gone ts p -> failed_gone ts' p'.
Proof.
  intros Hs HJ HF d Hd. pose proof (estep_ids _ _ _ _ _ Hs (j_w _ _ HJ) d) as Hle.
  assert (Hold : In (EvFailed d) (c_log (p_ctx p)) -> cnt d (idls (items ts' p')) = 0) by (intros H; apply HF in H; lia).
  destruct HJ as [HW J1 J2 _ _ _].
  destruct Hs as [p Hset|t ts p Hb|t ts p o c ts' p' Hb Hst Hn|tok st sz p Hset Hn|tok st sz t p o c Hset Hn Hst|p Hq Ht|a rest p Hq Hn Ht]; try (now apply Hold).
  - pose proof (w_ts _ _ HW) as Hqs. inversion Hqs as [|? ? Hq Hqs']; subst. clear Hqs.
    apply step_sum in Hst as (evs & Hss).
    destruct o; simpl in Hn; injection Hn as <- <-.
    + destruct (ssum_failed _ _ _ _ _ _ _ Hss Hd) as [[H _]|H]; [discriminate|auto].
    + destruct (def_insert_facts tok t0 (p_with_ctx p c)) as (F1 & _). rewrite F1 in Hd. destruct (ssum_failed _ _ _ _ _ _ _ Hss Hd) as [[H _]|H]; [discriminate|auto].
    + destruct (ssum_failed _ _ _ _ _ _ _ Hss Hd) as [[H _]|H]; [discriminate|auto].
    + destruct (ssum_failed _ _ _ _ _ _ _ Hss Hd) as [[_ ->]|H]; [|auto].
      destruct (task_id_cases t Hq) as [Hi|Hi]; [apply cnt_In in Hi; specialize (J1 (t_id t)); cn; lia|rewrite Hi; cn; lia].
    + pose proof (ss_final _ _ _ _ _ _ Hss) as Hf. simpl in Hf. destruct (terminal_sum E t0 c Hf) as (evs2 & T1 & T2 & _). simpl in Hd. rewrite T1, in_app_iff in Hd.
      destruct Hd as [Hd|Hd]; [exfalso; apply (final_unmarked _ _ T2 Hd); exact I|]. destruct (ssum_failed _ _ _ _ _ _ _ Hss Hd) as [[H _]|H]; [discriminate|auto].
  - destruct Hd as [Hd|Hd]; [discriminate|auto].
  - assert (Hw : wf_d t) by (eapply Forall_nget; [apply (w_def _ _ HW)|exact Hn]). pose proof (cnt_ndel (t_id t) _ _ _ Hn) as Hnd.
    apply step_sum in Hst as (evs & Hss).
    assert (Hf : forall d, In (EvFailed d) (c_log c) -> o = OFailed /\ d = t_id t \/ In (EvFailed d) (c_log (p_ctx p))).
    { intros e He. destruct (ssum_failed _ _ _ _ _ _ _ Hss He) as [H|H]; [now left|]. cbn [emit with_log c_log] in H. rewrite set_grpc_log in H. destruct H as [H|[H|H]]; try discriminate. now right. }
    destruct o; simpl in Hd |- *.
    + destruct (Hf _ Hd) as [[H _]|H]; [discriminate|auto].
    + pose proof (ss_evs _ _ _ _ _ _ Hss) as He. destruct He as (cl & _ & _ & _ & Hx). exfalso. apply wf_d_core in Hw. destruct (core t); easy.
    + destruct Hd as [Hd|Hd]; [discriminate|]. destruct (Hf _ Hd) as [[H _]|H]; [discriminate|auto].
    + destruct (Hf _ Hd) as [[_ ->]|H]; [|auto]. destruct (idl_head t) as [(id & Hi & ->)|[Hi _]].
      * specialize (J1 (t_id t)). rewrite Hi, cnt_self in Hnd. cn. lia.
      * assert (Hnoop : is_noop t).
        { destruct Hw as [Hw|Hw]; [exact Hw|]. unfold wf_p in Hw. rewrite <- idl_core in Hi. destruct (core t); easy. }
        destruct (w_noop _ _ HW) as (_ & Hq & Hall).
        { apply Exists_exists. exists t. split; [|exact Hnoop]. apply in_map_iff. exists (tok, t). split; [reflexivity|now apply nget_In]. }
        unfold items, dts. cbn [p_with_ctx p_queue p_def]. rewrite Hq. apply (ndel_noop tok), noop_idls in Hall as [Hz _]. cbn [app]. now rewrite Hz.
    + pose proof (ss_final _ _ _ _ _ _ Hss) as Hfin. simpl in Hfin. destruct (terminal_sum E t0 c Hfin) as (evs2 & T1 & T2 & _). rewrite T1, in_app_iff in Hd.
      destruct Hd as [Hd|Hd]; [exfalso; apply (final_unmarked _ _ T2 Hd); exact I|]. destruct (Hf _ Hd) as [[H _]|H]; [discriminate|auto].
  - destruct (td_sum E a (p_with_td p rest)) as (evs & tok & T1 & T2 & _). rewrite T1, in_app_iff in Hd. destruct Hd as [Hd|[Hd|Hd]]; [|discriminate|auto].
    destruct T2 as [[-> _]|(cl & -> & _)]; [destruct Hd|destruct Hd as [Hd|[]]; discriminate].
Qed.

(** * Reasons to stay in the queue, with the state they were found in *)
Section Reason.
  Variable E : env.
  Variable I : list task -> pipe -> Prop.
  Variable K : log -> task -> Prop.
  Hypothesis Istep : forall ts p ts' p', I ts p -> estep E ts p ts' p' -> I ts' p'.
  Hypothesis Kgrow : forall l l' t, P_Grow.added inner l l' -> K l t -> K l' t.
  Hypothesis Knew : forall t ts p t' c, I (t :: ts) p -> wf_q t -> step E t (p_ctx p) = (ORequeued [t'], c) -> K (c_log c) t'.
  Lemma process_why ts : forall p b p', process E ts p = (b, p') -> I ts p -> Forall wf_q ts -> ordered (p_queue p ++ ts) ->
    (forall t, In t (p_queue p) -> K (c_log (p_ctx p)) t \/ exists d, In d (t_deps t) /\ ~ In d (p_done p) /\ ~ In d (map t_id ts)) ->
    forall t, In t (p_queue p') -> K (c_log (p_ctx p')) t \/ exists d, In d (t_deps t) /\ ~ In d (p_done p').
  Proof.
    induction ts as [|t ts IH]; intros p b p'; simpl.
    - intros [= <- <-] _ _ _ H x Hx. destruct (H x Hx) as [Hw|(d & H1 & H2 & _)]; [now left|right; eauto].
    - intros Hp HI Hwf Ho Hq. inversion Hwf as [|? ? Hwt Hwts]; subst.
      destruct (blocked (p_done p) t) eqn:Hb.
      + apply (IH _ _ _ Hp); auto; cbn [p_with_queue p_queue p_ctx p_done].
        * eapply Istep; [exact HI|now constructor].
        * rewrite <- app_assoc. exact Ho.
        * intros x Hx. apply in_app_or in Hx as [Hx|[<-|[]]].
          -- destruct (Hq x Hx) as [Hw|(d & H1 & H2 & H3)]; [now left|]. right. exists d. repeat split; auto.
          -- right. apply blocked_true in Hb as (d & H1 & H2). exists d. repeat split; auto.
             apply ordered_app in Ho as (_ & [Ho _] & _). now apply Ho.
      + destruct (step E t (p_ctx p)) as [o c] eqn:Hst. pose proof (step_added _ _ _ _ _ Hst) as Hadd.
        pose proof Hst as Hst0. apply step_sum in Hst0 as (evs & Hss).
        assert (HI' : forall ts' q, run_next E t ts p o c = (ts', q) -> I ts' q) by (intros ts' q Hr; eapply Istep; [exact HI|now apply (es_run E t ts p o c)]).
        destruct o; cbv zeta in Hp.
        * apply (IH _ _ _ Hp); auto; cbn [p_with_queue p_with_ctx p_with_done p_queue p_ctx p_done].
          -- eapply ordered_drop; eauto.
          -- intros x Hx. destruct (Hq x Hx) as [Hw|(d & H1 & H2 & H3)]; [left; eapply Kgrow; eauto|]. right.
             exists d. split; [exact H1|]. split; [intros [H|H]; [apply H3; now left|auto]|]. intros H. apply H3. now right.
        * destruct (def_insert_facts tok t0 (p_with_ctx p c)) as (F1 & F2 & F3 & F4 & F5 & F6).
          apply (IH _ _ _ Hp); auto; rewrite ?F1, ?F2, ?F3; cbn [p_with_queue p_with_ctx p_queue p_ctx p_done] in *; auto.
          -- eapply ordered_drop; eauto.
          -- intros x Hx. destruct (Hq x Hx) as [Hw|(d & H1 & H2 & H3)]; [left; eapply Kgrow; eauto|]. right.
             exists d. split; [exact H1|]. split; [exact H2|]. intros H. apply H3. now right.
        * destruct (requeued_one _ _ _ _ _ _ Hwt Hss) as (t' & -> & Hn & Hi & Hd).
          apply (IH _ _ _ Hp); auto; cbn [p_with_queue p_with_ctx p_queue p_ctx p_done].
          -- rewrite <- app_assoc. eapply ordered_swap; eauto.
          -- intros x Hx. apply in_app_or in Hx as [Hx|[<-|[]]]; [|left; eapply Knew; eauto].
             destruct (Hq x Hx) as [Hw|(d & H1 & H2 & H3)]; [left; eapply Kgrow; eauto|]. right.
             exists d. split; [exact H1|]. split; [exact H2|]. intros H. apply H3. now right.
        * apply (IH _ _ _ Hp); auto; cbn [p_with_queue p_with_ctx p_queue p_ctx p_done].
          -- eapply ordered_drop; eauto.
          -- intros x Hx. destruct (Hq x Hx) as [Hw|(d & H1 & H2 & H3)]; [left; eapply Kgrow; eauto|]. right.
             exists d. split; [exact H1|]. split; [exact H2|]. intros H. apply H3. now right.
        * injection Hp as <- <-. simpl. easy.
  Qed.
  Definition why (p : pipe) : Prop := forall t, In t (p_queue p) -> K (c_log (p_ctx p)) t \/ exists d, In d (t_deps t) /\ ~ In d (p_done p).
  Lemma eval_why p : I [] p -> settled p -> Forall wf_q (p_queue p) -> ordered (p_queue p) -> why (eval_pipe E p).
  Proof.
    intros HI Hset Hw Ho. unfold eval_pipe. destruct (process E (p_queue p) (p_with_queue p [])) as [b q] eqn:Hp.
    assert (HI' : I (p_queue p) (p_with_queue p [])) by (eapply Istep; [exact HI|now constructor]).
    pose proof (process_why _ _ _ _ Hp HI' Hw Ho) as H. specialize (H (fun t (h : In t []) => match h with end)).
    assert (G : why (execute_teardown E q)).
    { intros t. destruct (teardown_keeps E q) as [-> ->]. intros Ht. destruct (H t Ht) as [Hk|Hk]; [left|now right].
      eapply Kgrow; [apply teardown_added|exact Hk]. }
    destruct b; [exact G|]. destruct (p_queue q) eqn:Hq; [destruct (p_def q); [destruct (p_td q); [|exact G]|]|]; unfold why; rewrite ?Hq in *; exact H.
  Qed.
End Reason.

Lemma estep_log E ts p ts' p' : estep E ts p ts' p' -> exists e, c_log (p_ctx p') = e ++ c_log (p_ctx p).
Proof.
  intros Hs. destruct Hs as [p Hset|t ts p Hb|t ts p o c ts' p' Hb Hst Hn|tok st sz p Hset Hn|tok st sz t p o c Hset Hn Hst|p Hq Ht|a rest p Hq Hn Ht].
  - now exists [].
  - now exists [].
  - destruct (step_added _ _ _ _ _ Hst) as (e & Hl & _). pose proof Hst as Hss. apply step_sum in Hss as (evs & Hss).
    destruct o; simpl in Hn; injection Hn as <- <-; try (now exists e).
    1:{ destruct (def_insert_facts tok t0 (p_with_ctx p c)) as (F1 & _). rewrite F1. now exists e. }
    pose proof (ss_final _ _ _ _ _ _ Hss) as Hf. simpl in Hf. destruct (terminal_sum E t0 c Hf) as (evs2 & T1 & _). exists (evs2 ++ e). simpl. now rewrite T1, Hl, app_assoc.
  - now exists [EvGrpcResp tok st sz].
  - destruct (step_added _ _ _ _ _ Hst) as (e & Hl & _). pose proof Hst as Hss. apply step_sum in Hss as (evs & Hss).
    cbn [emit with_log c_log] in Hl. rewrite set_grpc_log in Hl. cbn in Hl.
    assert (H : exists e, c_log c = e ++ c_log (p_ctx p)) by (exists (e ++ [EvHandle tok (t_id t); EvGrpcResp tok st sz]); now rewrite Hl, <- app_assoc).
    destruct H as (e' & H). destruct o; try (now exists e').
    + match goal with |- context [handle_next E t ?q _ c] => destruct (def_insert_facts tok0 t0 (p_with_ctx q c)) as (F1 & _) end. unfold handle_next. rewrite F1. now exists e'.
    + exists (EvDone (t_id t) :: e'). cbn. now rewrite H.
    + pose proof (ss_final _ _ _ _ _ _ Hss) as Hf. simpl in Hf. destruct (terminal_sum E t0 c Hf) as (evs2 & T1 & _). exists (evs2 ++ e'). simpl. now rewrite T1, H, app_assoc.
  - now exists [].
  - destruct (td_sum E a (p_with_td p rest)) as (evs & tok & T1 & _). exists (evs ++ [EvTeardown]). rewrite T1, <- app_assoc. reflexivity.
Qed.

(** what is known about a task put back in the queue: the state it was evaluated in, and what the log was *)
Definition stuck (E : env) (fa : factory) (l0 l : log) (t : task) : Prop :=
  exists ts1 p1 t1 c1, goes E fa (t1 :: ts1) p1 /\ wf_q t1 /\ step E t1 (p_ctx p1) = (ORequeued [t], c1) /\
    (exists e, c_log (p_ctx p1) = e ++ l0) /\ exists evs, l = evs ++ c_log c1.
Definition reached (E : env) (fa : factory) (l0 : log) (ts : list task) (p : pipe) : Prop := goes E fa ts p /\ exists e, c_log (p_ctx p) = e ++ l0.
Lemma reached_step E fa l0 ts p ts' p' : reached E fa l0 ts p -> estep E ts p ts' p' -> reached E fa l0 ts' p'.
Proof.
  intros [Hg (e & He)] Hs. split; [eapply re_step; eauto|]. destruct (estep_log _ _ _ _ _ Hs) as (e' & H). exists (e' ++ e). now rewrite H, He, app_assoc.
Qed.
Lemma stuck_grow E fa l0 l l' t : P_Grow.added inner l l' -> stuck E fa l0 l t -> stuck E fa l0 l' t.
Proof.
  intros (x & -> & _) (ts1 & p1 & t1 & c1 & H1 & H2 & H3 & H4 & evs & ->). exists ts1, p1, t1, c1. repeat split; auto. exists (x ++ evs). apply app_assoc.
Qed.
Lemma stuck_new E fa l0 t ts p t' c : reached E fa l0 (t :: ts) p -> wf_q t -> step E t (p_ctx p) = (ORequeued [t'], c) -> stuck E fa l0 (c_log c) t'.
Proof. intros [Hg He] Hw Hst. exists ts, p, t, c. repeat split; auto. now exists []. Qed.
Definition wait_why (E : env) (fa : factory) (l0 : log) (p : pipe) : Prop := why (stuck E fa l0) p.
Lemma eval_stuck E fa n N0 I p l0 : Z E n N0 I [] p -> settled p -> reached E fa l0 [] p -> wait_why E fa l0 (eval_pipe E p).
Proof.
  intros HZ Hset HR. apply (eval_why E (reached E fa l0) (stuck E fa l0)); auto.
  - intros. eapply reached_step; eauto.
  - intros. eapply stuck_grow; eauto.
  - intros. eapply stuck_new; eauto.
  - apply (w_queue _ _ (t_w _ _ _ _ (b_t _ _ _ _ _ (z_b _ _ _ _ _ _ HZ)))).
  - pose proof (z_ord _ _ _ _ _ _ HZ) as H. now rewrite app_nil_r in H.
Qed.
Lemma digest_stuck E fa n N0 I tok st sz p l0 : live p -> Z E n N0 I [] p -> reached E fa l0 [] p ->
  wait_why E fa l0 (digest_pipe E tok st sz (p_emit (EvGrpcResp tok st sz) p)).
Proof.
  intros [Hset Hq] HZ HR. unfold digest_pipe. cbn [p_emit p_with_ctx p_def p_ctx p_queue p_done p_td p_term].
  destruct (nget tok (p_def p)) as [t|] eqn:Hn.
  2:{ pose proof (es_unknown E tok st sz p Hset Hn) as Hu. eapply (eval_stuck E fa n N0 I).
      - eapply Z_step; [exact Hu|exact HZ].
      - exact Hset.
      - eapply reached_step; eauto. }
  destruct (step E t _) as [o c] eqn:Hst.
  pose proof (es_handle E tok st sz t p o c Hset Hn Hst) as Hh.
  pose proof (Z_step _ _ _ _ _ _ _ _ Hh HZ) as HZ'. pose proof (reached_step _ _ _ _ _ _ _ HR Hh) as HR'.
  assert (Ko : p_term p = true -> o = ODone).
  { intros Ht. specialize (Hset Ht). rewrite Forall_forall in Hset. apply nget_In in Hn.
    assert (Hi : In t (map snd (p_def p))) by (apply in_map_iff; now exists (tok, t)).
    specialize (Hset t Hi). destruct t; try easy. unfold step in Hst. simpl in Hst. congruence. }
  unfold handle_next in HZ', HR'. destruct o; cbn [p_with_ctx p_ctx p_queue p_done p_td p_term p_def] in *.
  - eapply eval_stuck; [exact HZ'| |exact HR']. intros Ht. cbn in *. apply ndel_noop. now apply Hset.
  - eapply eval_stuck; [exact HZ'| |exact HR']. intros Ht. cbn in *. now apply Ko in Ht.
  - eapply eval_stuck; [exact HZ'| |exact HR']. intros Ht. cbn in *. now apply Ko in Ht.
  - eapply eval_stuck; [exact HZ'| |exact HR']. intros Ht. cbn in *. now apply Ko in Ht.
  - intros x Hx. exfalso. revert Hx. unfold eval_pipe. match goal with |- context [execute_teardown E ?q] => set (r := q) end.
    destruct (teardown_keeps E r) as [K1 _]. rewrite K1. cbn [r p_queue process]. cbn [p_with_queue p_queue p_def p_td].
    destruct (p_def (execute_teardown E r)); [destruct (p_td (execute_teardown E r))|]; cbn [p_queue]; try easy.
    match goal with |- context [execute_teardown E ?q] => destruct (teardown_keeps E q) as [K2 _]; rewrite K2 end. easy.
Qed.

(** * What a task put back in the queue was waiting for *)
Definition asked_of (src : source) (x : expr) : list text := match src with SrcReq => ex_req x | SrcResp => ex_resp x end.
Definition needs (E : env) (c : ctx) (x : expr) : Prop :=
  (exists q, In q (collected (ex_ast x)) /\ fetch E (c_log c) q = HNotAvail) \/
  (exists q more, In (q ++ more) (collected (ex_ast x)) /\ In (joined q) (c_res c)) \/
  (exists src f, In f (asked_of src x) /\ tget f (b_vals (src_body src c)) = None).
Definition usable (x : expr) : Prop := x = expr_of (ex_ast x) /\ clean (ex_ast x).
Lemma needs_same E c c' x : same_reads E c c' -> needs E c' x -> needs E c x.
Proof.
  intros [H1 H2 H3 H4 H5 _] [H|[H|(src & f & Hf & H)]].
  - left. now rewrite H1 in H.
  - right. left. now rewrite H3 in H.
  - right. right. exists src, f. split; [exact Hf|]. destruct src; cbn [src_body] in *; congruence.
Qed.
Lemma eval_in_sr E x vs c r vs' c' : usable x -> eval_in E x vs c = (r, vs', c') -> same_reads E c c'.
Proof.
  intros [Hx Hc]. unfold eval_in. destruct (eval_vars E x vs c) as [r1 c1] eqn:He. rewrite Hx in He. apply eval_vars_spec in He as [_ He]; [|now apply expr_tidy_attrs].
  destruct r1; intros [= <- <- <-]; exact He.
Qed.
Lemma eval_in_needs E x vs c vs' c' : usable x -> eval_in E x vs c = (RPending, vs', c') -> needs E c x.
Proof.
  intros [Hx Hc]. unfold eval_in. destruct (eval_vars E x vs c) as [r1 c1] eqn:He. rewrite Hx in He. apply eval_vars_spec in He as [Hp _]; [|now apply expr_tidy_attrs].
  destruct r1; intros H; try discriminate; [|destruct (o_cel E _ _ _); discriminate]. destruct Hp as [(q & Hd)|Hd].
  - change (paths_of (ex_attrs (expr_of (ex_ast x)))) with (collected (ex_ast x)) in Hd. destruct Hd as (Hq & (more & Hm) & _ & _ & [(v & _ & Hr)|[(_ & Hr & _)|(_ & _ & Hin & _ & Hr)]]); [discriminate| |].
    + right. left. eauto.
    + left. exists q. split; [exact Hin|]. unfold host_read, read_attr in Hr. destruct (cache_get q c); cbn in Hr; [destruct (decode E _ _); discriminate|].
      destruct (fetch E (c_log c) q); cbn in Hr; [destruct (decode E _ _); discriminate|reflexivity|discriminate].
  - rewrite <- Hx in Hd. right. right. destruct Hd as [(f & H1 & H2)|(f & H1 & H2)]; [exists SrcResp, f|exists SrcReq, f]; now split.
Qed.
Lemma test_in_needs E x vs c vs' c' : usable x -> test_in E x vs c = (RPending, vs', c') -> needs E c x.
Proof.
  intros Hu. unfold test_in. destruct (eval_in E x vs c) as [[r vs1] c1] eqn:He. destruct r as [|[]|]; intros [= <- <-]. eapply eval_in_needs; eauto.
Qed.
Lemma test_in_sr E x vs c r vs' c' : usable x -> test_in E x vs c = (r, vs', c') -> same_reads E c c'.
Proof.
  intros Hu. unfold test_in. destruct (eval_in E x vs c) as [[r1 vs1] c1] eqn:He. intros [= _ _ <-]. eapply eval_in_sr; eauto.
Qed.
Lemma body_over_same E c c' x : same_reads E c c' -> body_over x c' = body_over x c.
Proof. intros [H1 H2 H3 H4 H5 _]. unfold body_over. now rewrite H4, H5. Qed.
(** the expressions of a task *)
Definition exprs (t : task) : list expr :=
  match t with
  | TDynamic _ _ _ msg _ pred _ _ => [pred; msg]
  | TFail _ pred _ => [pred]
  | THeaders _ pred hx _ _ => [pred; hx]
  | TReply _ pred deny _ => [pred; deny]
  | TStore _ pred ex _ _ _ _ => [pred; ex]
  | _ => []
  end.
(** the store task's own reading of a body is held up *)
Definition feed_stuck (E : env) (src : source) (c : ctx) : Prop :=
  (b_size (src_body src c) = 0%N /\ b_eos (src_body src c) = false) \/
  (exists start, (start < b_size (src_body src c))%N /\ src_read E src start (b_size (src_body src c) - start) c = HNotAvail).
Definition store_needs (E : env) (c : ctx) (src : option source) (x : expr) : Prop :=
  (exists q, In q (collected (ex_ast x)) /\ fetch E (c_log c) q = HNotAvail) \/
  (exists q more, In (q ++ more) (collected (ex_ast x)) /\ In (joined q) (c_res c)) \/
  (exists src' f, In f (asked_of src' x) /\ (src = Some src' -> b_eos (src_body src' c) = false)).
Definition kept_for (E : env) (c : ctx) (t : task) : Prop :=
  match t with
  | TDynamic _ _ _ msg _ pred _ _ => exists x, In x [pred; msg] /\ needs E c x /\ body_over x c = false
  | TFail _ pred _ => needs E c pred /\ body_over pred c = false
  | THeaders _ pred hx tg _ => needs E c pred \/ needs E c hx \/ (tg = MResp /\ (h_map E (c_log c) MResp = HNotAvail \/ exists hs, h_setmap E (c_log c) MResp hs = HNotAvail))
  | TReply _ pred _ _ => needs E c pred
  | TStore _ pred ex _ _ _ _ =>
      match initial_body pred ex with
      | BSPending src fs => feed_stuck E src c \/ (src = SrcResp /\ h_map E (c_log c) MResp = HNotAvail) \/ exists x, In x [pred; ex] /\ store_needs E c (Some src) x
      | _ => exists x, In x [pred; ex] /\ store_needs E c None x
      end
  | TToken _ _ => h_map E (c_log c) MResp = HNotAvail \/ b_eos (c_respb c) = false \/ ((0 < b_size (c_respb c))%N /\ h_respbody E (c_log c) 0 (b_size (c_respb c)) = HNotAvail)
  | _ => False
  end.
Lemma needs_store E c x : needs E c x -> store_needs E c None x.
Proof. intros [H|[H|(src & f & H1 & H2)]]; [now left|right; now left|]. right. right. exists src, f. now split. Qed.
Lemma read_headers_pending E p c c' : read_headers E p c = (RPending, c') -> fetch E (c_log c) p = HNotAvail.
Proof.
  unfold read_headers, read_attr. destruct (cache_get p c) as [[|]|]; try discriminate. destruct (fetch E (c_log c) p) as [[|]| |]; try discriminate. reflexivity.
Qed.
Lemma fetch_target_pending E l m : fetch E l (target_path m) = HNotAvail -> m = MResp /\ h_map E l MResp = HNotAvail.
Proof.
  destruct m.
  - change (fetch E l (target_path MReq)) with (match h_map E l MReq with HOk h => HOk (CHeaders h) | HNotAvail => HErr | HErr => HErr end). destruct (h_map E l MReq); discriminate.
  - change (fetch E l (target_path MResp)) with (match h_map E l MResp with HOk h => HOk (CHeaders h) | HNotAvail => HNotAvail | HErr => HErr end).
    destruct (h_map E l MResp); try discriminate. now split.
Qed.
Lemma read_headers_log E p c r c' : read_headers E p c = (r, c') -> c_log c' = c_log c /\ c_res c' = c_res c /\ c_reqb c' = c_reqb c /\ c_respb c' = c_respb c.
Proof.
  unfold read_headers, read_attr. destruct (cache_get p c) as [[|]|]; try (now intros [= <- <-]). destruct (fetch E (c_log c) p) as [[|]| |]; now intros [= <- <-].
Qed.
Lemma store_value_why E self id p x path ex tm c t c' : usable p -> usable x -> store_value E self id p x path ex tm c = (ORequeued [t], c') -> needs E c p \/ needs E c x.
Proof.
  intros Hp Hx. unfold store_value. destruct (test_in E p (scope_vars id c) c) as [[r vs] c1] eqn:Ht. pose proof (test_in_sr _ _ _ _ _ _ _ Hp Ht) as Hs.
  destruct r as [|[]|]; try discriminate; [intros _; left; eapply test_in_needs; eauto|].
  destruct (eval_in E x vs c1) as [[r2 vs2] c2] eqn:He. destruct r2 as [|v|]; try discriminate.
  - intros _. right. apply (needs_same _ _ _ _ Hs). eapply eval_in_needs; eauto.
  - destruct (if ex then _ else _) as [ok c3]. destruct ok; [destruct tm|]; discriminate.
Qed.
Lemma feed_parser_why E src q c : feed_parser E src q c = RPending -> feed_stuck E src c.
Proof.
  unfold feed_parser. destruct (N.eqb (b_size (src_body src c)) 0 && negb (b_eos (src_body src c))) eqn:Hz.
  { intros _. apply andb_prop in Hz as [H1 H2]. apply N.eqb_eq in H1. apply negb_true_iff in H2. now left. }
  destruct (bp_consumed q <? b_size (src_body src c))%N eqn:Hlt.
  - destruct (src_read E src (bp_consumed q) _ c) as [[ch|]| |] eqn:Hr; try discriminate.
    + destruct (bp_feed E ch q) as [p1|]; [|discriminate]. destruct (if b_eos _ then _ else _); discriminate.
    + intros _. right. exists (bp_consumed q). apply N.ltb_lt in Hlt. now split.
  - destruct (if b_eos _ then _ else _); discriminate.
Qed.
Lemma feed_parser_shape E src q c q' c' : feed_parser E src q c = RAvail (q', c') -> exists b, c' = src_set src b c.
Proof.
  unfold feed_parser. destruct (_ && _); [discriminate|]. destruct (if (_ <? _)%N then _ else _) as [|p1|]; try discriminate. destruct (if b_eos _ then _ else _); [|discriminate].
  intros [= _ <-]. eauto.
Qed.
Lemma dedup_In f l : In f (dedup l) <-> In f l.
Proof.
  induction l as [|x [|y l] IH]; [reflexivity|reflexivity|].
  change (dedup (x :: y :: l)) with (if text_eqb x y then dedup (y :: l) else x :: dedup (y :: l)). destruct (text_eqb x y) eqn:H.
  - apply text_eqb_eq in H. subst y. rewrite IH. cbn. tauto.
  - cbn [In]. cbn [In] in IH. rewrite IH. tauto.
Qed.
Lemma ins_text_In f x l : In f (ins_text x l) <-> f = x \/ In f l.
Proof.
  induction l as [|y l IH]; cbn [ins_text]; [cbn; intuition congruence|]. destruct (text_leb _ _); cbn [In]; rewrite ?IH; cbn; intuition congruence.
Qed.
Lemma sorted_fields l f : In f (dedup (sort_text l)) <-> In f l.
Proof.
  rewrite dedup_In. unfold sort_text. induction l as [|x l IH]; [reflexivity|]. cbn [fold_right]. rewrite ins_text_In, IH. cbn. intuition congruence.
Qed.
Lemma own_fields p x src fs f : initial_body p x = BSPending src fs -> In f (asked_of src p) \/ In f (asked_of src x) -> In f fs.
Proof.
  unfold initial_body. intros H Hf. destruct (ex_req p ++ ex_req x) as [|a l] eqn:Hq.
  - destruct (ex_resp p ++ ex_resp x) as [|a l] eqn:Hr; [discriminate|]. assert (src = SrcResp) as -> by congruence. assert (fs = dedup (sort_text (a :: l))) as -> by congruence.
    rewrite sorted_fields, <- Hr. apply in_or_app. exact Hf.
  - assert (src = SrcReq) as -> by congruence. assert (fs = dedup (sort_text (a :: l))) as -> by congruence. rewrite sorted_fields, <- Hq. apply in_or_app. exact Hf.
Qed.
Lemma apply_why E t : forall c t' c', shaped t -> wf_q t -> (forall x, In x (exprs (core t)) -> usable x) -> apply E t c = (ORequeued [t'], c') -> kept_for E c (core t).
Proof.
  induction t as [id s var msg rs pred deps g|id s var rs g|id g|t IH b|t IH|id pred tm|id pred hx tg tm|id pred deny tm|id pred x path ex tm bs|st fs|]; intros c t' c' Hsh Hw Hu; cbn [apply core] in *.
  - unfold apply_dynamic. destruct (test_in E pred (scope_vars id c) c) as [[r vs] c1] eqn:Ht.
    assert (U1 : usable pred) by (apply Hu; cbn; auto). assert (U2 : usable msg) by (apply Hu; cbn; auto). pose proof (test_in_sr _ _ _ _ _ _ _ U1 Ht) as Hs.
    destruct r as [|[]|]; try discriminate.
    + destruct (body_over pred c1) eqn:Hb; [discriminate|]. intros _. exists pred. split; [now left|]. split; [eapply test_in_needs; eauto|]. now rewrite <- (body_over_same _ _ _ _ Hs).
    + destruct (eval_in E msg (scope_vars id c1) c1) as [[r2 vs2] c2] eqn:He. pose proof (eval_in_sr _ _ _ _ _ _ _ U2 He) as Hs2. destruct r2 as [|v|]; try discriminate.
      * destruct (body_over msg c2) eqn:Hb; [discriminate|]. intros _. exists msg. split; [right; now left|]. split; [apply (needs_same _ _ _ _ Hs); eapply eval_in_needs; eauto|].
        now rewrite <- (body_over_same _ _ _ _ Hs), <- (body_over_same _ _ _ _ Hs2).
      * destruct (o_encode E _ s v) as [by0|]; [|discriminate]. destruct (dispatch E _ _ _ _ _ _ c2) as [[tok|] c3]; discriminate.
  - now destruct Hw.
  - now destruct Hw.
  - destruct (apply E t c) as [o c1] eqn:Ha. destruct o; try discriminate; [|destruct b; discriminate]. intros [= -> <-]. eapply IH; eauto.
  - destruct (apply E t c) as [o c1] eqn:Ha. destruct o as [| |ts| |]; try discriminate. intros [= H <-]. destruct ts as [|t1 [|]]; try discriminate. eapply IH; eauto.
  - unfold apply_fail. destruct (test_in E pred (scope_vars id c) c) as [[r vs] c1] eqn:Ht. assert (U1 : usable pred) by (apply Hu; cbn; auto).
    pose proof (test_in_sr _ _ _ _ _ _ _ U1 Ht) as Hs. destruct r as [|[]|]; try discriminate; [|destruct tm; discriminate].
    destruct (body_over pred c1) eqn:Hb; [discriminate|]. intros _. split; [eapply test_in_needs; eauto|]. now rewrite <- (body_over_same _ _ _ _ Hs).
  - unfold apply_headers. destruct (test_in E pred (scope_vars id c) c) as [[r vs] c1] eqn:Ht.
    assert (U1 : usable pred) by (apply Hu; cbn; auto). assert (U2 : usable hx) by (apply Hu; cbn; auto). pose proof (test_in_sr _ _ _ _ _ _ _ U1 Ht) as Hs.
    destruct r as [|[]|]; try discriminate; [intros _; left; eapply test_in_needs; eauto|].
    destruct (eval_in E hx vs c1) as [[r2 vs2] c2] eqn:He. pose proof (eval_in_sr _ _ _ _ _ _ _ U2 He) as Hs2. destruct r2 as [|v|]; try discriminate.
    + intros _. right. left. apply (needs_same _ _ _ _ Hs). eapply eval_in_needs; eauto.
    + assert (Hl2 : c_log c2 = c_log c) by (rewrite (sr_log _ _ _ Hs2); apply (sr_log _ _ _ Hs)).
      destruct (header_pairs v) as [|kv pairs]; [discriminate|]. destruct (read_headers E (target_path tg) c2) as [r3 c3] eqn:Hr. pose proof (read_headers_log _ _ _ _ _ Hr) as (Hl3 & _). destruct r3 as [|h|]; try discriminate.
      * intros _. apply read_headers_pending, fetch_target_pending in Hr as [-> Hr]. rewrite Hl2 in Hr. right. right. auto.
      * unfold set_headers. destruct (h_setmap E (c_log c3) tg _) eqn:Hset; destruct tg; try discriminate; try (destruct tm; discriminate). intros _. right. right. split; [reflexivity|]. right. rewrite Hl3, Hl2 in Hset. eauto.
  - unfold apply_reply. destruct (test_in E pred (scope_vars id c) c) as [[r vs] c1] eqn:Ht. assert (U1 : usable pred) by (apply Hu; cbn; auto).
    destruct r as [|[]|]; try discriminate; [intros _; eapply test_in_needs; eauto|]. destruct (eval_in E deny vs c1) as [[r2 vs2] c2]. destruct r2 as [|[]|]; try discriminate.
    destruct (tracker E c2) as [tr c3]. destruct (send_reply E _ _ _ _) as [[] c5]; try discriminate. destruct tm; discriminate.
  - assert (U1 : usable pred) by (apply Hu; cbn; auto). assert (U2 : usable x) by (apply Hu; cbn; auto). cbn [shaped] in Hsh. unfold apply_store. cbv zeta.
    assert (R : forall src fs q c1, initial_body pred x = BSPending src fs -> bp_fields q = fs -> c_log c1 = c_log c /\ c_res c1 = c_res c /\ c_reqb c1 = c_reqb c /\ c_respb c1 = c_respb c ->
      match feed_parser E src q c1 with
      | RPending => (ORequeued [TStore id pred x path ex tm (BSActive src q)], c1)
      | RErr => (OFailed, c1)
      | RAvail (p', c') => store_value E (TStore id pred x path ex tm (BSActive src p')) id pred x path ex tm c'
      end = (ORequeued [t'], c') -> kept_for E c (TStore id pred x path ex tm bs)).
    { intros src fs q c1 Hi Hq (L1 & L2 & L3 & L4). cbn [kept_for]. rewrite Hi. assert (Hbd : src_body src c1 = src_body src c) by (destruct src; cbn; congruence).
      destruct (feed_parser E src q c1) as [|[q' c2]|] eqn:Hf; [| |discriminate].
      - intros _. left. apply feed_parser_why in Hf. unfold feed_stuck, src_read in *. rewrite Hbd, L1 in Hf. exact Hf.
      - intros Hv. right. right. pose proof (feed_parser_fields _ _ _ _ _ _ Hf) as [_ Hff]. destruct (feed_parser_shape _ _ _ _ _ _ Hf) as (b & ->). rewrite Hbd in Hff.
        assert (Hn : exists y, In y [pred; x] /\ needs E (src_set src b c1) y).
        { apply store_value_why in Hv as [H|H]; auto; [exists pred|exists x]; cbn; auto. }
        destruct Hn as (y & Hy & Hn). exists y. split; [exact Hy|]. destruct Hn as [(a & H1 & H2)|[(a & more & H1 & H2)|(src' & f & H1 & H2)]].
        + left. exists a. split; [exact H1|]. rewrite <- L1. now destruct src.
        + right. left. exists a, more. split; [exact H1|]. rewrite <- L2. now destruct src.
        + right. right. exists src', f. split; [exact H1|]. intros [= <-]. destruct (b_eos (src_body src c)) eqn:He; [|reflexivity]. exfalso.
          apply (Hff eq_refl f); [|exact H2]. rewrite Hq. eapply own_fields; [exact Hi|]. destruct Hy as [<-|[<-|[]]]; auto. }
    unfold bs_for in Hsh. destruct (initial_body pred x) as [|src fs|] eqn:Hi; [subst bs| |destruct Hsh].
    + intros Hv. cbn [kept_for]. rewrite Hi. apply store_value_why in Hv as [H|H]; auto; [exists pred|exists x]; (split; [cbn; auto|now apply needs_store]).
    + destruct Hsh as [->|(q & -> & Hq)]; [|apply (R src fs); auto].
      destruct (create_parser E src fs c) as [[|q|] c1] eqn:Hc; try discriminate.
      * intros _. cbn [kept_for]. rewrite Hi. right. left. unfold create_parser in Hc. destruct src; [destruct (jp_new E fs); discriminate|]. split; [reflexivity|].
        destruct (read_headers E p_resp_headers c) as [[|h|] c2] eqn:Hr; [|destruct (is_sse_type h); [discriminate|destruct (jp_new E fs); discriminate]|destruct (jp_new E fs); discriminate].
        apply read_headers_pending in Hr. now apply (fetch_target_pending E (c_log c) MResp) in Hr.
      * apply (R src fs); auto; [now apply create_fields in Hc|]. unfold create_parser in Hc. destruct src; [injection Hc as _ <-; auto|].
        destruct (read_headers E p_resp_headers c) as [[|h|] c2] eqn:Hr; apply read_headers_log in Hr; injection Hc as _ <-; exact Hr.
  - unfold apply_token. cbn [kept_for].
    assert (G : forall s0 c1, c_log c1 = c_log c -> c_respb c1 = c_respb c ->
      match (if (0 <? b_size (c_respb c1))%N then match h_respbody E (c_log c1) 0 (b_size (c_respb c1)) with HOk (Some bytes) => RAvail (st_feed bytes s0) | HOk None => RAvail s0 | HNotAvail => RPending | HErr => RErr end else RAvail s0) with
      | RPending => (ORequeued [TToken (Some s0) fs], c1)
      | RErr => (OFailed, c1)
      | RAvail s' => if b_eos (c_respb c1) then (ODone, with_respb c1 (st_populate E fs s' (c_respb c1))) else (ORequeued [TToken (Some s') fs], c1)
      end = (ORequeued [t'], c') -> b_eos (c_respb c) = false \/ (0 < b_size (c_respb c))%N /\ h_respbody E (c_log c) 0 (b_size (c_respb c)) = HNotAvail).
    { intros s0 c1 -> ->. destruct (0 <? b_size (c_respb c))%N eqn:Hz; [|destruct (b_eos (c_respb c)); [discriminate|now left]].
      destruct (h_respbody E (c_log c) 0 (b_size (c_respb c))) as [[by_|]| |]; [| |intros _; right; split; [now apply N.ltb_lt|reflexivity]|discriminate];
        (destruct (b_eos (c_respb c)); [discriminate|now left]). }
    destruct st as [s0|]; [intros H; right; now apply (G s0 c)|].
    destruct (read_headers E p_resp_headers c) as [[|h|] c1] eqn:Hr; [| |discriminate].
    + intros _. left. apply read_headers_pending in Hr. now apply (fetch_target_pending E (c_log c) MResp) in Hr.
    + apply read_headers_log in Hr as (L1 & _ & _ & L4). intros H. right. exact (G _ c1 L1 L4 H).
  - discriminate.
Qed.
