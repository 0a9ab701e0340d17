(** Where cached attributes come from; what the cached header maps stand for. *)
From Coq Require Import String List NArith ZArith Bool Lia Arith.
From Verif Require Import Base Value Headers AttrPath Ctx CelProps CelEval Sse Body ValueBytes Tasks Exec Config Legacy Blueprint Factory Filter
  P_Frame P_Apply P_Exec P_Run P_Inv Prop_Paths.
Import ListNotations.
Open Scope list_scope.

(** * Where new cache entries come from *)
Definition extf (E : env) (c c' : ctx) : Prop :=
  ext c c' /\ forall k v, tget k (c_cache c) = None -> tget k (c_cache c') = Some v -> exists q, path_show q = k /\ fetch E (c_log c) q = HOk v.
Lemma extf_refl E c : extf E c c.
Proof. split; [apply ext_refl|]. congruence. Qed.
Lemma extf_trans E c1 c2 c3 : extf E c1 c2 -> extf E c2 c3 -> extf E c1 c3.
Proof.
  intros [A1 A2] [B1 B2]. split; [eapply ext_trans; eauto|]. intros k v H1 H3.
  destruct (tget k (c_cache c2)) as [w|] eqn:H2.
  - destruct B1 as (x & -> & B1). cbn in H3. rewrite (B1 _ _ H2) in H3. injection H3 as <-. now apply A2.
  - destruct (B2 _ _ H2 H3) as (q & Q1 & Q2). exists q. now rewrite <- (ext_log _ _ A1).
Qed.
Lemma extf_put E p v c : cache_get p c = None -> fetch E (c_log c) p = HOk v -> extf E c (cache_put p v c).
Proof.
  intros Hn Hf. split; [now apply ext_put|]. intros k w H1 H2. unfold cache_put in H2. cbn in H2.
  destruct (text_eq_dec k (path_show p)) as [->|Hne].
  - rewrite (aget_aset_same text_eqb text_eqb_eq) in H2. injection H2 as <-. eauto.
  - rewrite (aget_aset_other text_eqb text_eqb_eq) in H2 by exact Hne. congruence.
Qed.
Lemma read_attr_extf E p c r c' : read_attr E p c = (r, c') -> extf E c c'.
Proof.
  unfold read_attr. destruct (cache_get p c) eqn:Hg.
  - intros [= <- <-]. apply extf_refl.
  - destruct (fetch E (c_log c) p) eqn:Hf; intros [= <- <-]; try apply extf_refl. now apply extf_put.
Qed.
Lemma populate_extf E c p : extf E c (populate E c p).
Proof.
  unfold populate. destruct (cache_get p c) eqn:Hg; [apply extf_refl|].
  destruct (fetch E (c_log c) p) eqn:Hf; try apply extf_refl. now apply extf_put.
Qed.
Lemma ensure_extf E ps c : extf E c (ensure_attributes E ps c).
Proof.
  unfold ensure_attributes. revert c. induction ps as [|p ps IH]; intro c; simpl; [apply extf_refl|].
  eapply extf_trans; [apply populate_extf|apply IH].
Qed.
Lemma read_headers_extf E p c r c' : read_headers E p c = (r, c') -> extf E c c'.
Proof.
  unfold read_headers. destruct (read_attr E p c) as [r1 c1] eqn:H. apply read_attr_extf in H.
  destruct r1 as [|[b|h]|]; intros [= <- <-]; exact H.
Qed.
Lemma read_string_extf E p c r c' : read_string E p c = (r, c') -> extf E c c'.
Proof.
  unfold read_string. destruct (read_attr E p c) as [r1 c1] eqn:H. apply read_attr_extf in H.
  destruct r1 as [|[[b|]|h]|]; intros [= <- <-]; exact H.
Qed.
Lemma attr_get_extf E a c r c' : attr_get E a c = (r, c') -> extf E c c'.
Proof.
  unfold attr_get. destruct (read_attr E (at_path a) c) as [r1 c1] eqn:H. apply read_attr_extf in H.
  destruct r1; intros [= <- <-]; exact H.
Qed.

Lemma tok_value_extf E t : forall prefix c r c', tok_value E prefix t c = (r, c') -> extf E c c'.
Proof.
  induction t as [l IH|a] using token_ind'; intros prefix c r c'; simpl.
  - generalize (@nil (mkey * value)) as out0. revert c.
    induction IH as [|[key tk] l Ht Hl IHl]; intros c out; simpl.
    + intros [= <- <-]. apply extf_refl.
    + simpl in Ht. destruct (val_get _ c); [apply IHl|].
      destruct (val_pending _ c); [intros [= <- <-]; apply extf_refl|].
      destruct (_ && _ && _); [apply IHl|].
      destruct (tok_value E _ tk c) as [[|v|] c1] eqn:H; apply Ht in H.
      * intros [= <- <-]. exact H.
      * intros H2. eapply extf_trans; [exact H|]. eapply IHl; exact H2.
      * intros [= <- <-]. exact H.
  - apply attr_get_extf.
Qed.

Lemma data_map_extf E ex c r c' : data_map E ex c = (r, c') -> extf E c c'.
Proof.
  unfold data_map. destruct (tok_value E [] _ c) as [r1 c1] eqn:H. apply tok_value_extf in H.
  destruct r1 as [|[]|]; intros [= <- <-]; exact H.
Qed.
Lemma resolve_grpc_extf E c r c' : resolve_grpc E c = (r, c') -> extf E c c'.
Proof.
  unfold resolve_grpc. destruct (h_reqheader E _ _) as [ct|]; [|intros [= <- <-]; apply extf_refl].
  destruct (is_grpc_content_type ct); [|intros [= <- <-]; apply extf_refl].
  destruct (read_string E _ c) as [[|[p|]|] c1] eqn:H; apply read_string_extf in H; intros [= <- <-]; exact H.
Qed.
Lemma request_value_extf E ex m c r c' : request_value E ex m c = (r, c') -> extf E c c'.
Proof.
  unfold request_value. destruct (ex_grpc ex); [|intros [= <- <-]; apply extf_refl].
  destruct (resolve_grpc E c) as [g c1] eqn:H. apply resolve_grpc_extf in H. intros [= <- <-]. exact H.
Qed.
Lemma eval_vars_extf E ex vs c r c' : eval_vars E ex vs c = (r, c') -> extf E c c'.
Proof.
  unfold eval_vars. pose proof (ensure_extf E (host_paths ex) c) as H0.
  destruct (data_map E ex _) as [[|m|] c2] eqn:H1; apply data_map_extf in H1;
    pose proof (extf_trans _ _ _ _ H0 H1) as H; try (intros [= <- <-]; exact H).
  destruct (request_value E ex m c2) as [rv c3] eqn:H2. apply request_value_extf in H2.
  pose proof (extf_trans _ _ _ _ H H2) as H3.
  destruct (body_map (ex_resp ex) _ _); [|intros [= <- <-]; exact H3].
  destruct (body_map (ex_req ex) _ _); intros [= <- <-]; exact H3.
Qed.
Lemma eval_in_extf E ex vs c r vs' c' : eval_in E ex vs c = (r, vs', c') -> extf E c c'.
Proof.
  unfold eval_in. destruct (eval_vars E ex vs c) as [[|v|] c1] eqn:H; apply eval_vars_extf in H;
    intros [= <- <- <-]; exact H.
Qed.
Lemma test_in_extf E ex vs c r vs' c' : test_in E ex vs c = (r, vs', c') -> extf E c c'.
Proof.
  unfold test_in. destruct (eval_in E ex vs c) as [[r1 vs1] c1] eqn:H. apply eval_in_extf in H.
  intros [= <- <- <-]. exact H.
Qed.
Lemma route_loop_extf E ps : forall vs c r c', route_loop E ps vs c = (r, c') -> extf E c c'.
Proof.
  induction ps as [|p ps IH]; intros vs c r c'; simpl; [intros [= <- <-]; apply extf_refl|].
  destruct (test_in E p vs c) as [[r1 vs1] c1] eqn:H. apply test_in_extf in H.
  destruct r1 as [|[]|]; try (intros [= <- <-]; exact H).
  intros H2. eapply extf_trans; [exact H|]. eapply IH; exact H2.
Qed.
Lemma route_match_extf E ps c r c' : route_match E ps c = (r, c') -> extf E c c'.
Proof.
  unfold route_match. destruct ps as [|p ps]; [intros [= <- <-]; apply extf_refl|].
  intros H. apply route_loop_extf in H. eapply extf_trans; [apply ensure_extf|exact H].
Qed.

Lemma get_hostname_extf E c r c' : get_hostname E c = (r, c') -> extf E c c'.
Proof.
  unfold get_hostname. destruct (read_string E _ c) as [r1 c1] eqn:H. apply read_string_extf in H.
  destruct r1 as [|[h|]|]; intros [= <- <-]; exact H.
Qed.
Lemma first_match_extf E l : forall c r c', first_match E l c = (r, c') -> extf E c c'.
Proof.
  induction l as [|b l IH]; intros c r c'; simpl; [intros [= <- <-]; apply extf_refl|].
  destruct (route_match E (bp_preds b) c) as [r1 c1] eqn:H. apply route_match_extf in H.
  destruct r1 as [|[]|]; try (intros [= <- <-]; exact H).
  intros H2. apply IH in H2. eapply extf_trans; eauto.
Qed.
Lemma select_extf E f c r c' : select E f c = (r, c') -> extf E c c'.
Proof.
  unfold select. destruct (get_hostname E c) as [[h|] c1] eqn:H; apply get_hostname_extf in H;
    [|intros [= <- <-]; exact H].
  destruct (ancestor _ _) as [[k bps]|]; [|intros [= <- <-]; exact H].
  destruct (first_match E bps c1) as [[[b|]|] c2] eqn:H2; apply first_match_extf in H2;
    intros [= <- <-]; eapply extf_trans; eauto.
Qed.
Lemma warm_extf E id p m c : extf E c (warm E id p m c).
Proof.
  unfold warm. destruct (test_in E p _ c) as [[r vs] c1] eqn:H1. apply test_in_extf in H1.
  destruct (eval_in E m vs c1) as [[r2 vs2] c2] eqn:H2. apply eval_in_extf in H2. eapply extf_trans; eauto.
Qed.


(** * Keys *)
Lemma esc_dots_In a s : In a s -> In a (esc_dots s).
Proof.
  induction s as [|x s IH]; [easy|]. cbn [esc_dots]. intros [->|H].
  - destruct (Ascii.eqb_spec a dot) as [->|]; cbn; auto.
  - destruct (Ascii.eqb x dot); cbn; auto.
Qed.
Lemma join_In a s sep : forall p, In s p -> In a s -> In a (join sep p).
Proof.
  induction p as [|x p IH]; [easy|]. intros Hi Ha. destruct p as [|y p]; [destruct Hi as [->|[]]; exact Ha|].
  change (join sep (x :: y :: p)) with (x ++ sep ++ join sep (y :: p)). rewrite !in_app_iff. destruct Hi as [->|Hi]; auto.
Qed.
Lemma req_headers_key p : path_show p_req_headers = path_show p -> p = p_req_headers.
Proof.
  intros H. symmetry. apply path_show_inj; [| |exact H].
  - split; [discriminate|]. intros s [<-|[<-|[]]]; vm_compute; intuition discriminate.
  - split; [intros ->; discriminate H|]. intros s Hs Hb.
    assert (Hi : In backslash (path_show p)) by (apply (join_In _ (esc_dots s)); [now apply in_map|now apply esc_dots_In]).
    rewrite <- H in Hi. vm_compute in Hi. intuition discriminate.
Qed.

(** * The header maps *)
(** [e] is an accepted write of the map [m] *)
Definition writes (m : maptype) (e : ev) : Prop := exists h, e = EvSetMap m h true.
Definition unwritten (m : maptype) (l : log) : Prop := forall e, In e l -> ~ writes m e.
(** the headers that a further change of [m] starts from: those last written, or else those that
    the host gave when they were first read *)
Definition basis (E : env) (m : maptype) (l : log) (h : headers) : Prop :=
  (exists after past, l = after ++ EvSetMap m h true :: past /\ unwritten m after) \/
  (unwritten m l /\ exists after past, l = after ++ past /\ h_map E past m = HOk h).
Definition hcache (E : env) (c : ctx) : Prop := forall m,
  match cache_get (target_path m) c with
  | Some (CHeaders h) => basis E m (c_log c) h
  | Some (CBytes _) => True
  | None => unwritten m (c_log c)
  end.

Lemma resp_headers_key p : path_show p_resp_headers = path_show p -> p = p_resp_headers.
Proof.
  intros H. symmetry. apply path_show_inj; [| |exact H].
  - split; [discriminate|]. intros s [<-|[<-|[]]]; vm_compute; intuition discriminate.
  - split; [intros ->; discriminate H|]. intros s Hs Hb.
    assert (Hi : In backslash (path_show p)) by (apply (join_In _ (esc_dots s)); [now apply in_map|now apply esc_dots_In]).
    rewrite <- H in Hi. vm_compute in Hi. intuition discriminate.
Qed.
Lemma target_key m p : path_show (target_path m) = path_show p -> p = target_path m.
Proof. destruct m; [apply req_headers_key|apply resp_headers_key]. Qed.
Lemma fetch_target E l m v : fetch E l (target_path m) = HOk v -> exists h, v = CHeaders h /\ h_map E l m = HOk h.
Proof.
  destruct m; unfold fetch, target_path.
  - replace (path_eqb p_req_headers p_req_headers) with true by reflexivity. destruct (h_map E l MReq) as [h| |]; try discriminate. intros [= <-]. eauto.
  - replace (path_eqb p_resp_headers p_req_headers) with false by reflexivity. replace (path_eqb p_resp_headers p_resp_headers) with true by reflexivity.
    destruct (h_map E l MResp) as [h| |]; try discriminate. intros [= <-]. eauto.
Qed.
Lemma basis_emit E m e l h : ~ writes m e -> basis E m l h -> basis E m (e :: l) h.
Proof.
  intros He [(after & past & -> & H)|(Hu & after & past & -> & H)].
  - left. exists (e :: after), past. split; [reflexivity|]. intros e' [<-|Hi]; [exact He|now apply H].
  - right. split; [intros e' [<-|Hi]; [exact He|now apply Hu]|]. exists (e :: after), past. now split.
Qed.
Lemma hc_extf E c c' : extf E c c' -> hcache E c -> hcache E c'.
Proof.
  intros [Hx Hn] HH m. specialize (HH m). unfold cache_get in *. destruct (tget (path_show (target_path m)) (c_cache c)) as [v|] eqn:Hg.
  - pose proof (ext_cached _ _ (target_path m) v Hx Hg) as Hc. unfold cache_get in Hc. rewrite Hc, (ext_log _ _ Hx). exact HH.
  - rewrite (ext_log _ _ Hx). destruct (tget (path_show (target_path m)) (c_cache c')) as [v|] eqn:Hg'; [|exact HH].
    destruct (Hn _ _ Hg Hg') as (q & Q1 & Q2). symmetry in Q1. apply target_key in Q1. subst q.
    destruct (fetch_target _ _ _ _ Q2) as (h & -> & Hm). right. split; [exact HH|]. exists [], (c_log c). now split.
Qed.
Lemma hc_same E c c' : c_log c' = c_log c -> c_cache c' = c_cache c -> hcache E c -> hcache E c'.
Proof. intros H1 H2 HH m. specialize (HH m). unfold cache_get in *. now rewrite H1, H2. Qed.
Lemma hc_emit E e c : (forall m, ~ writes m e) -> hcache E c -> hcache E (emit e c).
Proof.
  intros He HH m. specialize (HH m). unfold cache_get in *. cbn [emit with_log c_log c_cache].
  destruct (tget _ (c_cache c)) as [[b|h]|]; [exact HH|now apply basis_emit|]. intros e' [<-|Hi]; [apply He|now apply HH].
Qed.
Lemma path_put m p v c : cache_get (target_path m) (cache_put p v c) = if text_eq_dec (path_show (target_path m)) (path_show p) then Some v else cache_get (target_path m) c.
Proof.
  unfold cache_get, cache_put. cbn. destruct (text_eq_dec _ _) as [->|Hne]; [apply (aget_aset_same text_eqb text_eqb_eq)|apply (aget_aset_other text_eqb text_eqb_eq); exact Hne].
Qed.
Lemma hc_set_attribute E p v c r c' : set_attribute E p v c = (r, c') -> hcache E c -> hcache E c'.
Proof.
  unfold set_attribute. cbv zeta. intros H HH.
  assert (H1 : hcache E (emit (EvSetProp (kuadrant_host_path p) v (hok (h_setprop E (c_log c) (kuadrant_host_path p) v))) c)) by (apply hc_emit; [intros m (h & [=])|exact HH]).
  destruct (h_setprop E (c_log c) (kuadrant_host_path p) v) eqn:Hs; injection H as <- <-; try exact H1. intros m. specialize (H1 m). rewrite path_put.
  destruct (text_eq_dec _ _); [exact Logic.I|exact H1].
Qed.
Lemma target_path_inj m m' : path_show (target_path m) = path_show (target_path m') -> m = m'.
Proof. destruct m, m'; try reflexivity; vm_compute; discriminate. Qed.
Lemma hc_set_headers E m h c r c' : set_headers E m h c = (r, c') -> hcache E c -> hcache E c'.
Proof.
  unfold set_headers. cbv zeta. intros H HH.
  assert (K : hok (h_setmap E (c_log c) m h) = false -> hcache E (emit (EvSetMap m h (hok (h_setmap E (c_log c) m h))) c)).
  { intros ->. apply hc_emit; [intros m0 (h0 & [=])|exact HH]. }
  destruct (h_setmap E (c_log c) m h) eqn:Hs.
  - assert (c' = cache_put (target_path m) (CHeaders h) (emit (EvSetMap m h true) c)) as -> by (destruct m; now injection H). clear H K.
    intros m'. rewrite path_put. cbn [cache_put with_cache emit with_log c_log]. destruct (text_eq_dec _ _) as [He|He].
    + apply target_path_inj in He. subst m'. left. exists [], (c_log c). split; [reflexivity|intros e []].
    + assert (Hw : ~ writes m' (EvSetMap m h true)) by (intros (h' & [= <- _]); now apply He).
      specialize (HH m'). unfold cache_get in *. cbn [emit with_log c_cache]. destruct (tget _ (c_cache c)) as [[b|h']|]; [exact HH|now apply basis_emit|].
      intros e [<-|Hi]; [exact Hw|now apply HH].
  - destruct m; injection H as <- <-; now apply K.
  - destruct m; injection H as <- <-; now apply K.
Qed.
(** what the action that changes the headers reads *)
Lemma hc_read E m c h c' : read_headers E (target_path m) c = (RAvail h, c') -> hcache E c -> basis E m (c_log c) h.
Proof.
  intros Hr HH. pose proof (hc_extf _ _ _ (read_headers_extf _ _ _ _ _ Hr) HH m) as H. pose proof (read_headers_ext _ _ _ _ _ Hr) as Hx.
  assert (Hc : cache_get (target_path m) c' = Some (CHeaders h)).
  { revert Hr. unfold read_headers, read_attr. destruct (cache_get (target_path m) c) as [v|] eqn:Hg.
    - destruct v as [b|h0]; [discriminate|]. intros [= <- <-]. exact Hg.
    - destruct (fetch E (c_log c) (target_path m)) as [v| |] eqn:Hf; try discriminate. destruct v as [b|h0]; [discriminate|]. intros [= <- <-].
      unfold cache_get, cache_put. cbn. apply (aget_aset_same text_eqb text_eqb_eq). }
  now rewrite Hc, (ext_log _ _ Hx) in H.
Qed.
(** * Claims about the history and the cached attributes *)
(** events other than writes *)
Definition calm (e : ev) : Prop := match e with EvSetMap _ _ _ | EvSetProp _ _ _ => False | _ => True end.
(** A claim that survives reading attributes, writing them and other events holds throughout a request. *)
Record steady (I : env -> ctx -> Prop) : Prop := {
  k_extf : forall E c c', extf E c c' -> I E c -> I E c';
  k_same : forall E c c', c_log c' = c_log c -> c_cache c' = c_cache c -> I E c -> I E c';
  k_emit : forall E e c, calm e -> I E c -> I E (emit e c);
  k_set_attribute : forall E p v c r c', set_attribute E p v c = (r, c') -> I E c -> I E c';
  k_set_headers : forall E m h c r c', set_headers E m h c = (r, c') -> I E c -> I E c' }.
Section Keeps.
Variable I : env -> ctx -> Prop.
Hypothesis HK : steady I.
Local Notation k_extf := (k_extf I HK). Local Notation k_same := (k_same I HK). Local Notation k_emit := (k_emit I HK).
Local Notation k_set_attribute := (k_set_attribute I HK). Local Notation k_set_headers := (k_set_headers I HK).
Lemma k_request_id E c r c' : request_id E c = (r, c') -> I E c -> I E c'.
Proof.
  unfold request_id. destruct (c_rid c); [intros [= <- <-]; auto|]. destruct (read_headers E p_req_headers c) as [r1 c1] eqn:Hr. apply read_headers_extf in Hr.
  intros H HH. apply (k_extf _ _ _ Hr) in HH. destruct r1 as [|h|]; [|destruct (h_get _ h)|]; injection H as <- <-; first [exact HH|revert HH; now apply k_same].
Qed.
Lemma k_dispatch E mk u s m msg to c r c' : (forall cl k, calm (mk cl k)) -> dispatch E mk u s m msg to c = (r, c') -> I E c -> I E c'.
Proof.
  intros Hmk. unfold dispatch. destruct (request_id E c) as [rid c1] eqn:H. intros [= <- <-] HH. apply (k_request_id _ _ _ _ H) in HH.
  apply k_emit; [apply Hmk|exact HH].
Qed.
Lemma k_store_value E self id pred ex path export tm c r c' : store_value E self id pred ex path export tm c = (r, c') -> I E c -> I E c'.
Proof.
  unfold store_value. destruct (test_in E pred _ c) as [[r1 vs] c1] eqn:H1. apply test_in_extf in H1. intros H HG. apply (k_extf _ _ _ H1) in HG. revert H.
  destruct r1 as [|[]|]; try (intros [= <- <-]; exact HG).
  destruct (eval_in E ex vs c1) as [[r2 vs2] c2] eqn:H2. apply eval_in_extf in H2. apply (k_extf _ _ _ H2) in HG.
  destruct r2 as [|v|]; try (intros [= <- <-]; exact HG).
  assert (K : forall ok c3, I E c3 -> (if ok : bool then (if tm then OTerminate default_reply else ODone, val_store path v c3) else (OFailed, c3)) = (r, c') -> I E c').
  { intros ok c3 H3. destruct ok; intros [= <- <-]; [|exact H3]. revert H3. now apply k_same. }
  destruct export; [|exact (K true _ HG)]. destruct (value_bytes v) as [b|]; [|exact (K false _ HG)].
  destruct (set_attribute E (path_parse path) b c2) as [r3 c3] eqn:H3. apply (k_set_attribute) in H3; [|exact HG].
  destruct r3; [exact (K true _ H3)|exact (K true _ H3)|exact (K false _ H3)].
Qed.
Lemma k_apply E t : forall c r c', apply E t c = (r, c') -> I E c -> I E c'.
Proof.
  induction t; intros c r c'; cbn [apply].
  - unfold apply_dynamic. destruct (test_in E pred _ c) as [[r1 vs] c1] eqn:H1. apply test_in_extf in H1. intros H HG. apply (k_extf _ _ _ H1) in HG. revert H.
    destruct r1 as [|[]|]; try (intros [= <- <-]; exact HG).
    destruct (eval_in E msg _ c1) as [[r2 vs2] c2] eqn:H2. apply eval_in_extf in H2. apply (k_extf _ _ _ H2) in HG.
    destruct r2 as [|v|]; try (intros [= <- <-]; exact HG). destruct (o_encode E (c_log c2) s v) as [b|]; [|intros [= <- <-]; exact HG].
    destruct (dispatch E _ _ _ _ _ _ c2) as [r3 c3] eqn:Hd. apply (k_dispatch) in Hd; [|intros; exact Logic.I|exact HG].
    destruct r3 as [k|]; intros [= <- <-]; [|exact Hd]. destruct guard; [|exact Hd]. revert Hd. now apply k_same.
  - unfold apply_pending, process_response. cbn [take_grpc]. intros H HG.
    assert (H0 : I E (with_grpc c None)) by (revert HG; now apply k_same).
    assert (K : forall q, (c_log (snd q) = c_log c /\ c_cache (snd q) = c_cache c /\ c_track (snd q) = c_track c /\ c_rid (snd q) = c_rid c) ->
      (let (o0, c1) := q : outcome * ctx in (o0, if guard then lower c1 else c1)) = (r, c') -> I E c').
    { intros [o1 c1] (K1 & K2 & K3 & K4) [= <- <-]. cbn in *. revert HG. destruct guard; apply k_same; auto. }
    revert H. apply K. destruct (c_grpc c) as [[st sz]|]; [|now repeat split]. destruct (negb _); [now repeat split|].
    destruct on_reply; [now repeat split|]. destruct (h_grpcresp E _ sz) as [b|]; [|now repeat split]. destruct (o_decode E _ s b); now repeat split.
  - unfold apply_noop. intros [= <- <-]. destruct guard; now apply k_same.
  - destruct (apply E t c) as [o1 c1] eqn:Ha. intros H HG. pose proof (IHt _ _ _ Ha HG) as HG1.
    destruct o1; injection H as <- <-; try exact HG1. apply k_emit; [exact Logic.I|exact HG1].
  - destruct (apply E t c) as [o1 c1] eqn:Ha. intros H HG. pose proof (IHt _ _ _ Ha HG) as HG1.
    destruct o1; injection H as <- <-; exact HG1.
  - unfold apply_fail. destruct (test_in E pred _ c) as [[r1 vs] c1] eqn:H1. apply test_in_extf in H1. intros H HG. apply (k_extf _ _ _ H1) in HG. revert H.
    destruct r1 as [|[]|]; try (intros [= <- <-]; exact HG). destruct terminal; intros [= <- <-]; [apply k_emit; [exact Logic.I|exact HG]|exact HG].
  - unfold apply_headers. destruct (test_in E pred _ c) as [[r1 vs] c1] eqn:H1. apply test_in_extf in H1. intros H HG. apply (k_extf _ _ _ H1) in HG. revert H.
    destruct r1 as [|[]|]; try (intros [= <- <-]; exact HG).
    destruct (eval_in E hexpr _ c1) as [[r2 vs2] c2] eqn:H2. apply eval_in_extf in H2. apply (k_extf _ _ _ H2) in HG.
    destruct r2 as [|v|]; try (intros [= <- <-]; exact HG). destruct (header_pairs v) as [|kv kvs]; [intros [= <- <-]; exact HG|].
    destruct (read_headers E _ c2) as [r3 c3] eqn:H3. apply read_headers_extf in H3. apply (k_extf _ _ _ H3) in HG.
    destruct r3 as [|h|]; try (intros [= <- <-]; exact HG). destruct (set_headers E _ _ c3) as [r4 c4] eqn:H4. apply (k_set_headers) in H4; [|exact HG].
    destruct r4; intros [= <- <-]; exact H4.
  - unfold apply_reply. destruct (test_in E pred _ c) as [[r1 vs] c1] eqn:H1. apply test_in_extf in H1. intros H HG. apply (k_extf _ _ _ H1) in HG. revert H.
    destruct r1 as [|[]|]; try (intros [= <- <-]; exact HG).
    destruct (eval_in E deny _ c1) as [[r2 vs2] c2] eqn:H2. apply eval_in_extf in H2. apply (k_extf _ _ _ H2) in HG.
    destruct r2 as [|v|]; try (intros [= <- <-]; exact HG). destruct v; try (intros [= <- <-]; exact HG).
    destruct (tracker E c2) as [tr c3] eqn:H3. unfold send_reply. intros [= <- <-]. apply k_emit; [exact Logic.I|]. apply k_emit; [exact Logic.I|].
    unfold tracker in H3. destruct (c_track c2); [|now injection H3 as <- <-]. destruct (request_id E c2) as [rid c4] eqn:H4. apply k_request_id in H4; [|exact HG]. now injection H3 as <- <-.
  - unfold apply_store. cbv zeta. intros H HG.
    assert (K : forall src p c1, I E c1 -> match feed_parser E src p c1 with
       | RPending => (ORequeued [TStore id pred ex path export terminal (BSActive src p)], c1)
       | RErr => (OFailed, c1)
       | RAvail (p', c') => store_value E (TStore id pred ex path export terminal (BSActive src p')) id pred ex path export terminal c'
       end = (r, c') -> I E c').
    { intros src p c1 H1. destruct (feed_parser E src p c1) as [|[p' c2]|] eqn:Hp; try (intros [= <- <-]; exact H1).
      intros H2. apply (k_store_value) in H2; [exact H2|]. revert Hp. unfold feed_parser. cbv zeta.
      destruct (_ && _); [discriminate|]. destruct (if (_ <? _)%N then _ else _) as [|p1|]; try discriminate.
      destruct (if b_eos _ then _ else _) as [p2|]; [|discriminate]. intros [= <- <-]. revert H1. destruct src; now apply k_same. }
    destruct bs as [|src fs|src p]; [now apply (k_store_value) in H| |now apply K in H].
    destruct (create_parser E src fs c) as [r1 c1] eqn:H1.
    assert (HG1 : I E c1).
    { unfold create_parser in H1. destruct src; [injection H1 as _ <-; exact HG|]. destruct (read_headers E p_resp_headers c) as [r2 c2] eqn:H2. apply read_headers_extf in H2.
      apply (k_extf _ _ _ H2) in HG. destruct r2; injection H1 as _ <-; exact HG. }
    destruct r1 as [|p|]; try (injection H as <- <-; exact HG1). now apply K in H.
  - unfold apply_token. cbv zeta. intros H HG.
    assert (K : forall s c1, I E c1 -> match (if (0 <? b_size (c_respb c1))%N then
        match h_respbody E (c_log c1) 0 (b_size (c_respb c1)) with
        | HOk (Some bytes) => RAvail (st_feed bytes s) | HOk None => RAvail s | HNotAvail => RPending | HErr => RErr end else RAvail s) with
      | RPending => (ORequeued [TToken (Some s) fields], c1)
      | RErr => (OFailed, c1)
      | RAvail s' => if b_eos (c_respb c1) then (ODone, with_respb c1 (st_populate E fields s' (c_respb c1))) else (ORequeued [TToken (Some s') fields], c1)
      end = (r, c') -> I E c').
    { intros s c1 H1. destruct (if (0 <? b_size (c_respb c1))%N then _ else _) as [|s'|]; try (intros [= <- <-]; exact H1).
      destruct (b_eos (c_respb c1)); intros Hq; injection Hq as <- <-; [|exact H1]. revert H1. now apply k_same. }
    destruct strat as [s|]; [now apply K in H|]. destruct (read_headers E p_resp_headers c) as [r2 c2] eqn:H2. apply read_headers_extf in H2.
    apply (k_extf _ _ _ H2) in HG. destruct r2; try (injection H as <- <-; exact HG). now apply K in H.
  - intros [= <- <-]. auto.
Qed.
Lemma k_step E t c r c' : step E t c = (r, c') -> I E c -> I E c'.
Proof.
  unfold step. destruct (apply E t _) as [r1 c1] eqn:Ha. intros [= <- <-] HG.
  apply (k_apply) in Ha; [|apply k_emit; [exact Logic.I|exact HG]]. destruct r1; try (apply k_emit; [exact Logic.I|]); (eapply k_same; [| |exact Ha]; reflexivity).
Qed.
Lemma k_terminal E f c : I E c -> I E (run_terminal E f c).
Proof.
  intros HG. unfold run_terminal. destruct (apply E f c) as [r c1] eqn:Ha. apply (k_apply) in Ha; [|exact HG].
  revert Ha. apply k_same; reflexivity.
Qed.
Lemma k_drop E l c : I E c -> I E (drop_tasks l c).
Proof. apply k_same; reflexivity. Qed.
Lemma k_td E a p : I E (p_ctx p) -> I E (p_ctx (td_step E p a)).
Proof.
  intros HG. unfold td_step, td_exec. apply (k_emit E EvTeardown) in HG; [|exact Logic.I].
  destruct (o_spans E _) as [msg|]; [|exact HG]. destruct (dispatch E _ _ _ _ _ _ _) as [r c] eqn:Hd. apply k_dispatch in Hd; [|intros; exact Logic.I|exact HG].
  destruct r as [k|]; [|exact Hd]. revert Hd. cbv zeta.
  destruct (def_insert_facts k (TPendNoop (tx "teardown_" ++ nat_text (N.to_nat k)) false) (p_with_ctx p c)) as (F1 & _ & _ & F4 & F5 & _).
  apply k_same; auto. unfold def_insert. cbn [p_with_ctx p_ctx p_def]. destruct (nget k (p_def p)); reflexivity.
Qed.
Lemma k_estep E ts p ts' p' : estep E ts p ts' p' -> I E (p_ctx p) -> I E (p_ctx p').
Proof.
  intros Hs HG.
  assert (KI : forall k t q, I E (p_ctx q) -> I E (p_ctx (def_insert k t q))).
  { intros k t q. unfold def_insert. destruct (nget k (p_def q)); apply k_same; reflexivity. }
  destruct Hs as [p Hset|t ts p Hb|t ts p r c ts' p' Hb Hst Hn|tok st sz p Hset Hn|tok st sz t p r c Hset Hn Hst|p Hq Htm|a rest p Hq Hn Htd].
  - exact HG.
  - exact HG.
  - pose proof (k_step _ _ _ _ _ Hst HG) as HG1. destruct r; simpl in Hn; injection Hn as <- <-; try exact HG1.
    + now apply KI.
    + apply k_drop. now apply k_terminal.
  - apply k_emit; [exact Logic.I|exact HG].
  - assert (HG0 : I E (emit (EvHandle tok (t_id t)) (set_grpc st sz (emit (EvGrpcResp tok st sz) (p_ctx p))))).
    { apply k_emit; [exact Logic.I|]. assert (H : I E (emit (EvGrpcResp tok st sz) (p_ctx p))) by (apply k_emit; [exact Logic.I|exact HG]).
      unfold set_grpc. destruct (c_grpc _); [exact H|]. revert H. now apply k_same. }
    pose proof (k_step _ _ _ _ _ Hst HG0) as HG1. destruct r; cbn [handle_next]; try exact HG1.
    + apply KI. exact HG1.
    + apply k_emit; [exact Logic.I|exact HG1].
    + apply k_drop. now apply k_terminal.
  - revert HG. unfold replace_deferred. now apply k_same.
  - now apply k_td.
Qed.

(** ** At the start of a request *)
Lemma k_to_core E a : forall c t c', to_core E a c = Some (t, c') -> I E c -> I E c'.
Proof.
  induction a as [id p tm s var m rs d g IH|id p tm o d g Ho] using action_ind'; intros c t c'.
  - rewrite to_core_grpc.
    assert (K : forall c ts c1, to_cores E rs c = Some (ts, c1) -> I E c -> I E c1).
    { clear -HK IH. induction IH as [|r rs Hr _ IH]; intros c ts c1; simpl; [intros [= <- <-]; auto|].
      destruct (to_core E r c) as [[t1 c2]|] eqn:H1; [|discriminate].
      destruct (to_cores E rs c2) as [[ts2 c3]|] eqn:H2; [|discriminate]. intros [= <- <-] HH. eauto. }
    destruct (to_cores E rs c) as [[ts c1]|] eqn:H1; [|discriminate]. intros H HH. apply (K _ _ _ H1) in HH. revert H.
    destruct s as [k sv|o].
    + intros [= <- <-]. eapply k_extf; [apply warm_extf|exact HH].
    + cbv zeta. destruct (request_id E (with_track c1 (Some var))) as [rid c3] eqn:Hr.
      destruct (parse_expr E (tracker_src var rid)); [|discriminate]. intros [= <- <-]. eapply k_request_id; [exact Hr|]. revert HH. now apply k_same.
  - destruct o; simpl; try (intros [= <- <-]; auto; now apply k_same). edestruct Ho; reflexivity.
Qed.
Lemma k_actions E rd tr l : forall c ts tds c', actions_tasks E rd tr l c = Some (ts, tds, c') -> I E c -> I E c'.
Proof.
  induction l as [|a l IH]; intros c ts tds c'; cbn [actions_tasks]; [intros [= <- <- <-]; auto|].
  destruct (action_tasks E rd tr a c) as [[[t1 td1] c1]|] eqn:H1; [|discriminate].
  destruct (actions_tasks E rd tr l c1) as [[[t2 td2] c2]|] eqn:H2; [|discriminate].
  intros [= <- <- <-] HH. apply (IH _ _ _ _ H2). clear - HK H1 HH. revert H1.
  unfold action_tasks. destruct (to_core E a c) as [[tk c3]|] eqn:H.
  - apply k_to_core in H; [|exact HH].
    destruct (a_op a) as [s v m rs|x|x y|x y z|]; try (intros [= <- <- <-]; exact H).
    destruct s as [k s|[t|]]; try (intros [= <- <- <-]; exact H). intros [= _ _ <-].
    destruct (o_span_on E (c_log c3)); [|exact H]. destruct (request_id E c3) as [rid c4] eqn:Hr. cbn. eapply k_request_id; eauto.
  - destruct (a_op a) as [s v m rs|x|x y|x y z|]; try discriminate. destruct s as [k s|[t|]]; discriminate.
Qed.
Lemma k_start E fa p : I E (ctx0 [EvReqHeaders]) -> build E fa (ctx0 [EvReqHeaders]) = BOk p -> I E (p_ctx p).
Proof.
  intros H0 Hb. pose proof (build_spec E fa (ctx0 [EvReqHeaders])) as Hsp. rewrite Hb in Hsp. destruct Hsp as (b & c1 & tds & Hs & Ht & _).
  eapply k_actions; [exact Ht|]. destruct (read_headers E p_req_headers c1) as [r c2] eqn:Hr. cbn [snd]. eapply k_extf; [eapply read_headers_extf; exact Hr|].
  eapply k_extf; [eapply select_extf; exact Hs|]. exact H0.
Qed.
End Keeps.

Lemma hc_steady : steady hcache.
Proof. constructor; [exact hc_extf|exact hc_same|intros E e c He; apply hc_emit; intros m (h & ->); exact He|exact hc_set_attribute|exact hc_set_headers]. Qed.
Lemma hc_estep E ts p ts' p' : estep E ts p ts' p' -> hcache E (p_ctx p) -> hcache E (p_ctx p').
Proof. apply (k_estep _ hc_steady). Qed.
Lemma hc_start E fa p : build E fa (ctx0 [EvReqHeaders]) = BOk p -> hcache E (p_ctx p).
Proof. apply (k_start _ hc_steady). intros m. cbn. intros e [<-|[]] (h & [=]). Qed.
