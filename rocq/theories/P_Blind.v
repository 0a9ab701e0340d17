(** The bindings a task may not see make no difference to it. *)
From Coq Require Import String List NArith Bool Lia Arith Ascii.
From Verif Require Import Base Value Headers AttrPath Ctx CelProps CelEval Sse Body ValueBytes Tasks Exec P_Apply.
Import ListNotations.
Open Scope list_scope.

Section Blind.
Variable b : list (text * list (text * value)).
Definition wb {A} (x : A * ctx) : A * ctx := (fst x, with_binds (snd x) b).
Definition wb3 {A B} (x : A * B * ctx) : A * B * ctx := (fst x, with_binds (snd x) b).
Lemma read_attr_wb E p c : read_attr E p (with_binds c b) = wb (read_attr E p c).
Proof. unfold read_attr, cache_get. cbn [with_binds c_cache c_log]. destruct (tget (path_show p) (c_cache c)); [reflexivity|]. now destruct (fetch E (c_log c) p). Qed.
Lemma populate_wb E c p : populate E (with_binds c b) p = with_binds (populate E c p) b.
Proof. unfold populate, cache_get. cbn [with_binds c_cache c_log]. destruct (tget (path_show p) (c_cache c)); [reflexivity|]. now destruct (fetch E (c_log c) p). Qed.
Lemma ensure_wb E ps : forall c, ensure_attributes E ps (with_binds c b) = with_binds (ensure_attributes E ps c) b.
Proof. unfold ensure_attributes. induction ps as [|p ps IH]; intros c; [reflexivity|]. cbn [fold_left]. now rewrite populate_wb, IH. Qed.
Lemma read_headers_wb E p c : read_headers E p (with_binds c b) = wb (read_headers E p c).
Proof. unfold read_headers. rewrite read_attr_wb. destruct (read_attr E p c) as [[|[]|] c1]; reflexivity. Qed.
Lemma read_string_wb E p c : read_string E p (with_binds c b) = wb (read_string E p c).
Proof. unfold read_string. rewrite read_attr_wb. destruct (read_attr E p c) as [[|[[]|]|] c1]; reflexivity. Qed.
Lemma attr_get_wb E a c : attr_get E a (with_binds c b) = wb (attr_get E a c).
Proof. unfold attr_get. rewrite read_attr_wb. destruct (read_attr E (at_path a) c) as [[|v|] c1]; reflexivity. Qed.
Lemma tok_value_wb E : forall t prefix c, tok_value E prefix t (with_binds c b) = wb (tok_value E prefix t c).
Proof.
  fix IH 1. intros [l|a] prefix c; cbn [tok_value]; [|apply attr_get_wb].
  generalize (@nil (mkey * value)). revert c. induction l as [|[key tk] l IHl]; intros c out; [reflexivity|].
  cbn [tok_go]. set (cur := match prefix with [] => key | _ => prefix ++ dot :: key end).
  change (val_get cur (with_binds c b)) with (val_get cur c). change (val_pending cur (with_binds c b)) with (val_pending cur c).
  change (val_has_prefix (key ++ [dot]) (with_binds c b)) with (val_has_prefix (key ++ [dot]) c).
  destruct (val_get cur c); [apply IHl|]. destruct (val_pending cur c); [reflexivity|].
  destruct (_ && negb (val_has_prefix (key ++ [dot]) c)); [apply IHl|].
  rewrite (IH tk cur c). destruct (tok_value E cur tk c) as [[|v|] c1]; cbn [wb fst snd]; [reflexivity|apply IHl|reflexivity].
Qed.
Lemma data_map_wb E ex c : data_map E ex (with_binds c b) = wb (data_map E ex c).
Proof. unfold data_map. rewrite tok_value_wb. destruct (tok_value E [] _ c) as [[|[]|] c1]; reflexivity. Qed.
Lemma resolve_grpc_wb E c : resolve_grpc E (with_binds c b) = wb (resolve_grpc E c).
Proof.
  unfold resolve_grpc. cbn [with_binds c_log]. destruct (h_reqheader E (c_log c) _) as [ct|]; [|reflexivity]. destruct (is_grpc_content_type ct); [|reflexivity].
  rewrite (read_string_wb E _ c). destruct (read_string E _ c) as [[|[p|]|] c1]; reflexivity.
Qed.
Lemma request_value_wb E ex m c : request_value E ex m (with_binds c b) = wb (request_value E ex m c).
Proof. unfold request_value. destruct (ex_grpc ex); [|reflexivity]. rewrite resolve_grpc_wb. now destruct (resolve_grpc E c) as [g c1]. Qed.
Lemma eval_vars_wb E ex vs c : eval_vars E ex vs (with_binds c b) = wb (eval_vars E ex vs c).
Proof.
  unfold eval_vars. cbv zeta. rewrite ensure_wb, data_map_wb. destruct (data_map E ex _) as [[|m|] c2]; try reflexivity.
  cbn [wb fst snd]. rewrite request_value_wb. destruct (request_value E ex m c2) as [rv c3]. cbn [wb fst snd].
  change (c_respb (with_binds c3 b)) with (c_respb c3). change (c_reqb (with_binds c3 b)) with (c_reqb c3). change (stored_vars m (with_binds c3 b)) with (stored_vars m c3).
  destruct (body_map (ex_resp ex) (c_respb c3) []); [|reflexivity]. now destruct (body_map (ex_req ex) (c_reqb c3) []).
Qed.
Lemma eval_in_wb E ex vs c : eval_in E ex vs (with_binds c b) = wb3 (eval_in E ex vs c).
Proof. unfold eval_in. rewrite eval_vars_wb. destruct (eval_vars E ex vs c) as [[|vs1|] c1]; reflexivity. Qed.
Lemma test_in_wb E ex vs c : test_in E ex vs (with_binds c b) = wb3 (test_in E ex vs c).
Proof. unfold test_in. rewrite eval_in_wb. destruct (eval_in E ex vs c) as [[r vs1] c1]. reflexivity. Qed.
Lemma request_id_wb E c : request_id E (with_binds c b) = wb (request_id E c).
Proof.
  unfold request_id. cbn [with_binds c_rid]. destruct (c_rid c); [reflexivity|].
  change (mkCtx (c_log c) (c_cache c) (c_reqb c) (c_respb c) (c_grpc c) (c_rid c) (c_track c) (c_vals c) (c_res c) (c_bar c) b) with (with_binds c b).
  rewrite read_headers_wb. destruct (read_headers E p_req_headers c) as [[|h|] c1]; try reflexivity. cbn [wb fst snd]. now destruct (h_get _ h).
Qed.
Lemma dispatch_wb E mk u s m msg to c : dispatch E mk u s m msg to (with_binds c b) = wb (dispatch E mk u s m msg to c).
Proof. unfold dispatch. cbv zeta. rewrite request_id_wb. now destruct (request_id E c) as [rid c1]. Qed.
Lemma tracker_wb E c : tracker E (with_binds c b) = wb (tracker E c).
Proof. unfold tracker. change (c_track (with_binds c b)) with (c_track c). destruct (c_track c); [|reflexivity]. rewrite request_id_wb. now destruct (request_id E c). Qed.
Lemma set_headers_wb E m h c : set_headers E m h (with_binds c b) = wb (set_headers E m h c).
Proof. unfold set_headers. cbv zeta. cbn [with_binds c_log]. destruct (h_setmap E (c_log c) m h), m; reflexivity. Qed.
Lemma set_attribute_wb E p v c : set_attribute E p v (with_binds c b) = wb (set_attribute E p v c).
Proof. unfold set_attribute. cbv zeta. cbn [with_binds c_log]. destruct (h_setprop E (c_log c) _ v); reflexivity. Qed.
Lemma feed_parser_wb E src p c : feed_parser E src p (with_binds c b) =
  match feed_parser E src p c with RPending => RPending | RErr => RErr | RAvail (p', c') => RAvail (p', with_binds c' b) end.
Proof.
  unfold feed_parser. cbv zeta. replace (src_body src (with_binds c b)) with (src_body src c) by now destruct src.
  replace (src_read E src (bp_consumed p) (b_size (src_body src c) - bp_consumed p) (with_binds c b)) with (src_read E src (bp_consumed p) (b_size (src_body src c) - bp_consumed p) c) by now destruct src.
  destruct (_ && _); [reflexivity|].
  destruct (if (bp_consumed p <? b_size (src_body src c))%N then _ else _) as [|p1|]; try reflexivity.
  destruct (if b_eos (src_body src c) then _ else _); [|reflexivity]. now destruct src.
Qed.

(** the task evaluates its expressions with these variables only *)
Definition same_view (id : text) (c : ctx) : Prop := scope_vars id (with_binds c b) = scope_vars id c.
Lemma view_binds id c c' : c_binds c' = c_binds c -> same_view id c -> same_view id c'.
Proof. unfold same_view, scope_vars. cbn [with_binds c_binds]. now intros ->. Qed.
Lemma store_value_wb E self id p x path ex tm c : same_view id c -> store_value E self id p x path ex tm (with_binds c b) = wb (store_value E self id p x path ex tm c).
Proof.
  intros Hv. unfold store_value. rewrite Hv, test_in_wb. destruct (test_in E p _ c) as [[r vs] c1]. cbn [wb3 fst snd].
  destruct r as [|[]|]; try reflexivity. rewrite eval_in_wb. destruct (eval_in E x vs c1) as [[r2 vs2] c2]. cbn [wb3 fst snd].
  destruct r2 as [|v|]; try reflexivity. destruct ex; [|reflexivity]. destruct (value_bytes v); [|reflexivity].
  rewrite set_attribute_wb. destruct (set_attribute E _ _ c2) as [[|u|] c3]; reflexivity.
Qed.
Lemma apply_wb E t : forall c, match core t with TPending _ _ _ _ _ => False | _ => True end -> same_view (t_id t) c ->
  apply E t (with_binds c b) = wb (apply E t c).
Proof.
  induction t as [id s var msg rs pred deps g|id s var rs g|id g|t IH d|t IH|id p tm|id p hx m tm|id p d tm|id p x path ex tm bs|st fs|]; intros c; cbn [core apply t_id]; intros Hc Hv.
  - unfold apply_dynamic. cbv zeta. rewrite Hv, test_in_wb. destruct (test_in E pred _ c) as [[r vs] c1] eqn:H1. cbn [wb3 fst snd].
    assert (Hv1 : same_view id c1) by (eapply view_binds; [|exact Hv]; apply P_Frame.test_in_ext in H1; exact (P_Frame.ext_binds _ _ H1)).
    change (body_over pred (with_binds c1 b)) with (body_over pred c1).
    destruct r as [|[]|]; try reflexivity. rewrite Hv1, eval_in_wb. destruct (eval_in E msg _ c1) as [[r2 vs2] c2]. cbn [wb3 fst snd].
    change (body_over msg (with_binds c2 b)) with (body_over msg c2). change (c_log (with_binds c2 b)) with (c_log c2).
    destruct r2 as [|v|]; try reflexivity. destruct (o_encode E (c_log c2) s v); [|reflexivity].
    rewrite dispatch_wb. destruct (dispatch E _ _ _ _ _ _ c2) as [[tok|] c3]; [|reflexivity]. cbn [wb fst snd]. now destruct g.
  - easy.
  - unfold apply_noop. now destruct g.
  - rewrite IH by assumption. destruct (apply E t c) as [[] c1]; try reflexivity.
  - rewrite IH by assumption. destruct (apply E t c) as [[] c1]; reflexivity.
  - unfold apply_fail. rewrite Hv, test_in_wb. destruct (test_in E p _ c) as [[r vs] c1]. cbn [wb3 fst snd].
    change (body_over p (with_binds c1 b)) with (body_over p c1). destruct r as [|[]|]; try reflexivity. now destruct tm.
  - unfold apply_headers. cbv zeta. rewrite Hv, test_in_wb. destruct (test_in E p _ c) as [[r vs] c1]. cbn [wb3 fst snd]. destruct r as [|[]|]; try reflexivity.
    rewrite eval_in_wb. destruct (eval_in E hx vs c1) as [[r2 vs2] c2]. cbn [wb3 fst snd]. destruct r2 as [|v|]; try reflexivity.
    destruct (header_pairs v) as [|kv l]; [reflexivity|]. rewrite read_headers_wb. destruct (read_headers E _ c2) as [[|h|] c3]; try reflexivity. cbn [wb fst snd].
    rewrite set_headers_wb. destruct (set_headers E m _ c3) as [[|u|] c4]; reflexivity.
  - unfold apply_reply. rewrite Hv, test_in_wb. destruct (test_in E p _ c) as [[r vs] c1]. cbn [wb3 fst snd]. destruct r as [|[]|]; try reflexivity.
    rewrite eval_in_wb. destruct (eval_in E d vs c1) as [[r2 vs2] c2]. cbn [wb3 fst snd]. destruct r2 as [|v|]; try reflexivity. destruct v; try reflexivity.
    rewrite tracker_wb. destruct (tracker E c2) as [tr c3]. reflexivity.
  - unfold apply_store. cbv zeta.
    assert (K : forall src q c1, c_binds c1 = c_binds c ->
      match feed_parser E src q (with_binds c1 b) with
      | RPending => (ORequeued [TStore id p x path ex tm (BSActive src q)], with_binds c1 b) | RErr => (OFailed, with_binds c1 b)
      | RAvail (p', c') => store_value E (TStore id p x path ex tm (BSActive src p')) id p x path ex tm c'
      end = wb match feed_parser E src q c1 with
      | RPending => (ORequeued [TStore id p x path ex tm (BSActive src q)], c1) | RErr => (OFailed, c1)
      | RAvail (p', c') => store_value E (TStore id p x path ex tm (BSActive src p')) id p x path ex tm c'
      end).
    { intros src q c1 Hb1. rewrite feed_parser_wb. destruct (feed_parser E src q c1) as [|[q' c2]|] eqn:Hf; try reflexivity.
      apply store_value_wb. apply feed_parser_frame in Hf as (bb & ->). eapply view_binds; [|exact Hv]. rewrite <- Hb1. now destruct src. }
    destruct bs as [|src fields|src q]; [now apply store_value_wb| |now apply K].
    destruct src; cbn [create_parser].
    + destruct (jp_new E fields); [now apply K|reflexivity].
    + rewrite read_headers_wb. destruct (read_headers E p_resp_headers c) as [r c1] eqn:Hr. apply P_Frame.read_headers_ext, P_Frame.ext_binds in Hr.
      destruct r as [|h|]; cbn [wb fst snd]; [reflexivity| |].
      * destruct (is_sse_type h); [now apply K|]. destruct (jp_new E fields); [now apply K|reflexivity].
      * destruct (jp_new E fields); [now apply K|reflexivity].
  - unfold apply_token. cbv zeta.
    assert (K : forall s c1,
      match (if (0 <? b_size (c_respb (with_binds c1 b)))%N then match h_respbody E (c_log (with_binds c1 b)) 0 (b_size (c_respb (with_binds c1 b))) with
        | HOk (Some bytes) => RAvail (st_feed bytes s) | HOk None => RAvail s | HNotAvail => RPending | HErr => RErr end else RAvail s) with
      | RPending => (ORequeued [TToken (Some s) fs], with_binds c1 b) | RErr => (OFailed, with_binds c1 b)
      | RAvail s' => if b_eos (c_respb (with_binds c1 b)) then (ODone, with_respb (with_binds c1 b) (st_populate E fs s' (c_respb (with_binds c1 b)))) else (ORequeued [TToken (Some s') fs], with_binds c1 b)
      end = wb match (if (0 <? b_size (c_respb c1))%N then match h_respbody E (c_log c1) 0 (b_size (c_respb c1)) with
        | HOk (Some bytes) => RAvail (st_feed bytes s) | HOk None => RAvail s | HNotAvail => RPending | HErr => RErr end else RAvail s) with
      | RPending => (ORequeued [TToken (Some s) fs], c1) | RErr => (OFailed, c1)
      | RAvail s' => if b_eos (c_respb c1) then (ODone, with_respb c1 (st_populate E fs s' (c_respb c1))) else (ORequeued [TToken (Some s') fs], c1)
      end).
    { intros s c1. cbn [with_binds c_respb c_log]. destruct (if (0 <? b_size (c_respb c1))%N then _ else _); [reflexivity| |reflexivity]. now destruct (b_eos (c_respb c1)). }
    destruct st as [s|]; [apply K|]. rewrite read_headers_wb. destruct (read_headers E p_resp_headers c) as [[|h|] c1]; try reflexivity. cbn [wb fst snd]. apply K.
  - reflexivity.
Qed.
(** nor what happens to it afterwards *)
Lemma step_wb E t c : match core t with TPending _ _ _ _ _ => False | _ => True end -> same_view (t_id t) c ->
  step E t (with_binds c b) = wb (step E t c).
Proof.
  intros Hc Hv. unfold step. change (emit (EvEval (t_id t)) (with_binds c b)) with (with_binds (emit (EvEval (t_id t)) c) b).
  rewrite apply_wb; [|exact Hc|exact Hv]. destruct (apply E t (emit (EvEval (t_id t)) c)) as [[] c1]; reflexivity.
Qed.
End Blind.
