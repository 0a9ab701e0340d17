(** C123: an action waits only while something it needs is missing. *)
From Coq Require Import String Ascii List NArith ZArith Bool Lia Arith.
From Verif Require Import Base Value Headers AttrPath Ctx CelProps CelEval Sse Body ValueBytes Tasks Exec Config Legacy Blueprint Factory Filter Deploy
  P_Frame P_Apply P_Exec P_Run P_Inv P_Ids P_Plan P_Deps P_Order P_Term P_Bar P_Cfg P_Hist P_Grow P_Wake P_Fail P_Head P_Fed P_Told P_Eff P_Rid P_Route P_Scope P_Eval P_Props P_Wait
  Demo DemoCfg Prop_Order Prop_Term Prop_Guard Prop_Wake Prop_Fail Prop_Eval Prop_Know Prop_Body Prop_Fed Prop_Scope Prop_Later.
From Verif Require Prop_Paths Prop_Deploy.
Import ListNotations.
Open Scope list_scope.

(** * Specifications *)
(** selections in the expressions of an action are made on names, or on the results of calls without a target *)
Definition tidy_action (E : env) (y : taction) : Prop := forall x e, In x (texts y) -> parse_expr E x = Some e -> tidy (ex_ast e).
(** the attribute [q] stands in the text [x] *)
Definition stands (E : env) (x : text) (q : path) : Prop := exists e, parse_expr E x = Some e /\ mentions (ex_ast e) q.
(** the host has nothing yet for the attribute [q] (not: the host reports an error) *)
Inductive absent (E : env) (h : log) : path -> Prop :=
| ab_prop p : ~ In p [[tx "request"; tx "headers"]; [tx "response"; tx "headers"]; [tx "source"; tx "remote_address"]] -> hd [] p <> tx "auth" ->
    h_prop E h p = HNotAvail -> absent E h p
| ab_auth q hp : ((forall t, In t q -> ~ In dot t /\ ~ In backslash t) -> hp = [tx "filter_state"; tx "wasm.kuadrant." ++ joined (tx "auth" :: q)]) ->
    h_prop E h hp = HNotAvail -> absent E h (tx "auth" :: q)
| ab_remote : h_prop E h [tx "source"; tx "address"] = HNotAvail -> absent E h [tx "source"; tx "remote_address"]
| ab_headers : h_map E h MResp = HNotAvail -> absent E h [tx "response"; tx "headers"].
(** the action has come to an end *)
Definition over_with (b : text) (h : log) : Prop := In (EvDone b) h \/ In (EvFailed b) h.
(** the expressions an action waits for: all but what a deny action replies *)
Definition awaited (y : taction) : list text :=
  match y with mkT p _ _ _ (OpDeny _) => [p] | _ => texts y end.
(** call and fail actions do not wait for a body that has ended *)
Definition gives_up (y : taction) : Prop := match y with mkT _ _ _ _ (OpGrpc _ _ _ _) | mkT _ _ _ _ (OpFail _) => True | _ => False end.
(** a store action reads one body itself: the one of the request if it asks for a field of it *)
Definition own_body (E : env) (y : taction) (src : Tasks.source) : Prop :=
  match y with
  | mkT _ _ _ _ (OpStore _ _ _) =>
      (exists x f, In x (texts y) /\ asks_for E src f x) /\
      (src = SrcResp -> forall x f, In x (texts y) -> ~ asks_for E SrcReq f x)
  | _ => False
  end.
(** something the text [x] of the action [y] needs is not known *)
Inductive unknown (E : env) (cfg : plugin_cfg) (s : action_set) (y : taction) (x : text) (h : log) : Prop :=
| un_attr q : stands E x q -> absent E h q -> unknown E cfg s y x h
| un_value q more b pr tm g sq v export : stands E x (q ++ more) ->
    has_action E cfg s b (mkT pr tm g sq (OpStore (joined q) v export)) -> ~ over_with b h -> unknown E cfg s y x h
| un_field src f : asks_for E src f x -> (own_body E y src -> ~ ended src h) -> unknown E cfg s y x h.
(** in the history [h], something the action [y] needs is missing *)
Inductive lacks (E : env) (cfg : plugin_cfg) (s : action_set) (y : taction) (h : log) : Prop :=
| la_text x : In x (awaited y) -> (gives_up y -> forall src f, asks_for E src f x -> ~ ended src h) -> unknown E cfg s y x h -> lacks E cfg s y h
| la_body src n eos : own_body E y src -> announced src h = (n, eos) ->
    ((n = 0%N /\ eos = false) \/ exists start, (start < n)%N /\ read E src h start (n - start) = HNotAvail) -> lacks E cfg s y h
| la_type : own_body E y SrcResp -> h_map E h MResp = HNotAvail -> lacks E cfg s y h
| la_headers p tm g sq x : y = mkT p tm g sq (OpHeaders MResp x) ->
    (h_map E h MResp = HNotAvail \/ exists hs, h_setmap E h MResp hs = HNotAvail) -> lacks E cfg s y h.

(** * Lemmas *)
Lemma fields_asks src x : forall e s, In x (fields_of src (props e s)) -> asks src x e \/ In x (fields_of src s).
Proof.
  assert (NB : forall t f args s, In x (fields_of src (note_body t f args s)) -> asks src x (ACall t f args) \/ In x (fields_of src s)).
  { intros t f args s. unfold note_body. destruct t; [now right|]. destruct args as [|a [|]]; try (now right).
    destruct (text_eqb f resp_json_fn) eqn:H1; [|destruct (text_eqb f req_json_fn) eqn:H2; [|now right]]; destruct a as [[]| | | | | | | |]; try (now right).
    - apply text_eqb_eq in H1 as ->. destruct src; [intros H; right; exact H|]. cbn. rewrite in_app_iff. intros [H|[<-|[]]]; [now right|left; apply (as_here SrcResp)].
    - apply text_eqb_eq in H2 as ->. destruct src; [|intros H; right; exact H]. cbn. rewrite in_app_iff. intros [H|[<-|[]]]; [now right|left; apply (as_here SrcReq)]. }
  assert (PL : forall l, Forall (fun e => forall s, In x (fields_of src (props e s)) -> asks src x e \/ In x (fields_of src s)) l ->
    forall s, In x (fields_of src (props_list l s)) -> (exists y, In y l /\ asks src x y) \/ In x (fields_of src s)).
  { induction 1 as [|y l Hy _ IH]; intros s Hs; [now right|]. cbn [props_list] in Hs. apply IH in Hs as [(z & H1 & H2)|Hs]; [left; exists z; split; [now right|exact H2]|].
    apply Hy in Hs as [Hs|Hs]; [left; exists y; split; [now left|exact Hs]|now right]. }
  induction e as [v|n|e f b0 IH|t f args IHt IHa|l IH|l IH|n l IH|a b c d e y z Ia Ib Ic Id Ie|] using ast_ind'; intros s Hs; try (right; exact Hs).
  - cbn [props] in Hs. right. destruct (ps_path s); [exact Hs|]. now destruct src.
  - cbn [props] in Hs. apply IH in Hs as [Hs|Hs]; [left; eapply as_inside; [constructor|exact Hs]|right; now destruct src].
  - rewrite props_call in Hs. apply (PL _ IHa) in Hs as [(w & H1 & H2)|Hs]; [left; eapply as_inside; [exact (su_arg _ _ _ _ H1)|exact H2]|].
    destruct t as [t|].
    + apply (IHt t eq_refl) in Hs as [Hs|Hs]; [left; eapply as_inside; [constructor|exact Hs]|now apply NB].
    + apply NB. now destruct src.
  - rewrite props_AList in Hs. apply (PL _ IH) in Hs as [(w & H1 & H2)|Hs]; [left; eapply as_inside; [exact (su_item _ _ H1)|exact H2]|now right].
  - rewrite props_AMap in Hs. assert (H : (exists k v, In (k, v) l /\ (asks src x k \/ asks src x v)) \/ In x (fields_of src s)).
    { revert s Hs. induction IH as [|[k v] l [Hk Hv] _ IH]; intros s Hs; [now right|]. cbn [props_entries] in Hs. apply IH in Hs as [(k' & v' & H1 & H2)|Hs]; [left; exists k', v'; split; [now right|exact H2]|].
      apply Hv in Hs as [Hs|Hs]; [left; exists k, v; split; [now left|now right]|]. apply Hk in Hs as [Hs|Hs]; [left; exists k, v; split; [now left|now left]|now right]. }
    destruct H as [(k & v & H1 & [H2|H2])|H]; [left; eapply as_inside; [eapply su_key; exact H1|exact H2]|left; eapply as_inside; [eapply su_value; exact H1|exact H2]|now right].
  - rewrite props_AStruct in Hs. assert (H : (exists k v, In (k, v) l /\ asks src x v) \/ In x (fields_of src s)).
    { revert s Hs. induction IH as [|[k v] l Hv _ IH]; intros s Hs; [now right|]. cbn [props_fields] in Hs. apply IH in Hs as [(k' & v' & H1 & H2)|Hs]; [left; exists k', v'; split; [now right|exact H2]|].
      apply Hv in Hs as [Hs|Hs]; [left; exists k, v; split; [now left|exact Hs]|now right]. }
    destruct H as [(k & v & H1 & H2)|H]; [left; eapply as_inside; [eapply su_field; exact H1|exact H2]|now right].
  - cbn [props] in Hs. apply Ie in Hs as [Hs|Hs]; [left; eapply as_inside; [apply su_result|exact Hs]|]. apply Id in Hs as [Hs|Hs]; [left; eapply as_inside; [apply su_step|exact Hs]|].
    apply Ic in Hs as [Hs|Hs]; [left; eapply as_inside; [apply su_cond|exact Hs]|]. apply Ib in Hs as [Hs|Hs]; [left; eapply as_inside; [apply su_init|exact Hs]|].
    apply Ia in Hs as [Hs|Hs]; [left; eapply as_inside; [apply su_range|exact Hs]|now right].
Qed.
Lemma asked_iff E x e src f : parse_expr E x = Some e -> In f (asked_of src e) <-> asks_for E src f x.
Proof.
  intros Hx. pose proof (parsed_of _ _ _ Hx) as He. assert (Hf : asked_of src e = fields_of src (props (ex_ast e) (mkPs [] [] [] []))) by (rewrite He; now destruct src).
  rewrite Hf. split.
  - intros H. exists e. split; [exact Hx|]. apply fields_asks in H as [H|H]; [exact H|]. now destruct src.
  - intros (e' & Hx' & H). rewrite Hx in Hx'. injection Hx' as <-. now apply asks_fields.
Qed.
Lemma fetch_absent E l q : fetch E l q = HNotAvail -> absent E l q.
Proof.
  unfold fetch. destruct (path_eqb q p_req_headers) eqn:H1; [destruct (h_map E l MReq); discriminate|].
  destruct (path_eqb q p_resp_headers) eqn:H2; [apply path_eqb_eq in H2 as ->; destruct (h_map E l MResp) eqn:Hm; try discriminate; intros _; now constructor|].
  destruct (path_eqb q [tx "source"; tx "remote_address"]) eqn:H3.
  - apply path_eqb_eq in H3 as ->. unfold remote_address. destruct (h_prop E l [tx "source"; tx "address"]) as [[a|]| |] eqn:Hp; try discriminate; [destruct (utf8_valid a); discriminate|].
    intros _. now constructor.
  - assert (Hn : ~ In q [[tx "request"; tx "headers"]; [tx "response"; tx "headers"]; [tx "source"; tx "remote_address"]]).
    { intros [<-|[<-|[<-|[]]]]; [discriminate H1|discriminate H2|discriminate H3]. }
    destruct q as [|r q]; [destruct (h_prop E l []) eqn:Hp; try discriminate; intros _; now apply ab_prop|].
    destruct (text_eqb r (tx "auth")) eqn:Hr.
    + apply text_eqb_eq in Hr as ->. destruct (h_prop E l (wasm_prop _)) as [a| |] eqn:Hp; try discriminate. intros _.
      apply (ab_auth E l q (wasm_prop (tx "auth" :: q))); [|exact Hp]. intros Hq. unfold wasm_prop, path_parse.
      transitivity (tx "filter_state" :: path_parse_from (tx "wasm.kuadrant.") (join [backslash; dot] (tx "auth" :: q))); [reflexivity|].
      rewrite parse_segments; [reflexivity| |easy]. intros t [<-|Ht]; [vm_compute; intuition discriminate|now apply Hq].
    + destruct (h_prop E l (r :: q)) as [a| |] eqn:Hp; try discriminate. intros _. apply ab_prop; [exact Hn| |exact Hp]. cbn [hd]. intros ->. now rewrite text_eqb_refl in Hr.
Qed.
Lemma failed_goes E cfg fa ts p : try_from E cfg = Some fa -> goes E fa ts p -> failed_gone ts p.
Proof.
  intros Hf Hg. assert (H : J ts p /\ failed_gone ts p); [|apply H]. split; [eapply goes_J; eauto|]. induction Hg as [p Hb|ts p ts' p' Hg IH Hs|p e Hg IH He|src n e p Hg IH].
  - intros d [H|H]; [discriminate|]. pose proof (build_spec E fa (ctx0 [EvReqHeaders])) as Hsp. rewrite Hb in Hsp. destruct Hsp as (b2 & c2 & tds & _ & _ & _ & (Hl & _) & _). cbn in Hl, H. rewrite Hl in H. now destruct H as [H|[]].
  - eapply failed_step; eauto. eapply goes_J; eauto.
  - intros d [H|H]; [now subst e|now apply IH].
  - intros d H. specialize (IH d). destruct src; (destruct H as [H|H]; [discriminate|exact (IH H)]).
Qed.

Lemma store_id path id pr ex export tm t : In (NStore id pr ex path export tm) (nodes t) -> In id (idl t).
Proof.
  revert t. fix IH 1. intros t. destruct t as [i sv var msg rs pred deps g|i sv var rs g|i g|t b|t|i pred tm0|i pred hx tg tm0|i pred deny tm0|i pred x p0 e0 tm0 bs|st fs|]; cbn [nodes idl].
  - intros [H|[H|H]]; try discriminate. right. revert H. induction rs as [|r rs IHr]; [easy|]. rewrite !in_app_iff. intros [H|H]; [left; now apply IH|right; now apply IHr].
  - intros [H|H]; try discriminate. right. revert H. induction rs as [|r rs IHr]; [easy|]. rewrite !in_app_iff. intros [H|H]; [left; now apply IH|right; now apply IHr].
  - easy.
  - apply IH.
  - apply IH.
  - intros [H|[]]; discriminate.
  - intros [H|[]]; discriminate.
  - intros [H|[]]; discriminate.
  - intros [H|[]]. injection H as -> _ _ _ _ _. now left.
  - easy.
  - easy.
Qed.
(** a reserved path is that of a store action that has not come to an end *)
Lemma reserved_open E cfg fa s ts p path : try_from E cfg = Some fa -> serves E cfg fa s -> goes E fa ts p -> In path (c_res (p_ctx p)) ->
  exists b pr tm g sq v export, has_action E cfg s b (mkT pr tm g sq (OpStore path v export)) /\ ~ over_with b (c_log (p_ctx p)).
Proof.
  intros Hf Hs Hg Hr. apply (C33_reserved_iff_a_live_store_action _ _ _ _ _ _ Hf Hg) in Hr as (t & Ht & Hw). apply live_items in Ht. apply will_store_node in Hw as (id & pr & ex & export & tm & Hw).
  destruct (reach_build _ _ _ _ Hg) as (p0 & Hb). pose proof (served_V _ _ _ _ _ Hs Hb _ _ Hg) as HV.
  assert (Hi : In (NStore id pr ex path export tm) (nodess (p_queue p0))) by (apply (b_nodes _ _ _ _ _ (v_b _ _ _ _ _ _ HV)); apply in_flat_map; eauto).
  destruct (store_node _ _ _ _ _ _ _ _ _ _ _ Hs Hb Hi) as (px & tmx & g & sq & y & Ha & _). exists id, px, tmx, g, sq, y, export. split; [exact Ha|].
  assert (Hc : cnt id (idls (P_Ids.items ts p)) <> 0).
  { intros Hz. assert (In id (idls (P_Ids.items ts p))) as H by (apply in_flat_map; exists t; split; [exact Ht|eapply store_id; exact Hw]). apply cnt_In in H. lia. }
  intros [H|H]; apply Hc; [exact (j_done _ _ (goes_J _ _ _ _ _ Hf Hg) _ H)|exact (failed_goes _ _ _ _ _ Hf Hg _ H)].
Qed.
(** the node a task stands for *)
Definition top_node (t : task) : list node := match t with TDynamic id _ _ msg _ pred deps _ => [NDyn id msg pred deps] | TPending _ _ _ _ _ | TFailureMode _ _ | TTracing _ => [] | _ => nodes t end.
Lemma top_nodes t : incl (top_node t) (nodes t).
Proof. destruct t; try apply incl_refl; try easy. cbn. intros x [<-|[]]. right. now left. Qed.
Lemma describes_top E svs a y t nd : wf_q t -> In nd (top_node (core t)) -> describes E svs a y nd -> a = t_id t.
Proof.
  intros Hw Hn Hd. assert (Hid : t_id (core t) = t_id t) by apply core_id. rewrite <- Hid. apply wf_q_not_pending in Hw. destruct y as [p tm g sq op]. destruct Hd as (pe & _ & Hd).
  destruct (core t); try easy; destruct Hn as [<-|[]]; destruct op; try easy; now destruct Hd as (-> & _).
Qed.
Lemma usable_text E y x e : clean_action E y -> In x (texts y) -> parse_expr E x = Some e -> usable e.
Proof. intros Hc Hi Hx. split; [now apply (parsed_of E x)|now apply (Hc x)]. Qed.
(** what an expression needs, in the words of the specification *)
Lemma needs_unknown E cfg fa s ts p y x e src a : try_from E cfg = Some fa -> serves E cfg fa s -> goes E fa ts p -> tidy_action E y ->
  In x (texts y) -> parse_expr E x = Some e -> (forall src', own_body E y src' -> src = Some src') ->
  store_needs E (emit (EvEval a) (p_ctx p)) src e -> unknown E cfg s y x (EvEval a :: c_log (p_ctx p)).
Proof.
  intros Hf Hs Hg Ht Hi Hx Ho [(q & H1 & H2)|[(q & more & H1 & H2)|(src' & f & H1 & H2)]].
  - apply (un_attr _ _ _ _ _ _ q); [|now apply fetch_absent]. exists e. split; [exact Hx|]. now apply expr_paths; [apply (Ht x)|].
  - destruct (reserved_open _ _ _ _ _ _ _ Hf Hs Hg H2) as (b & pr & tm & g & sq & v & export & Hb & Hov).
    apply (un_value _ _ _ _ _ _ q more b pr tm g sq v export); [|exact Hb|].
    + exists e. split; [exact Hx|]. now apply expr_paths; [apply (Ht x)|].
    + intros [[H|H]|[H|H]]; try discriminate; apply Hov; [now left|now right].
  - apply (un_field _ _ _ _ _ _ src' f); [now apply (asked_iff E x e)|]. intros Hob He. specialize (H2 (Ho _ Hob)).
    destruct (fed_goes _ _ _ _ Hg) as [[_ HB] _]. unfold ended in He. cbn [announced] in He. assert (Hn : tells src' (EvEval a) = None) by now destruct src'. rewrite Hn, (bo_size _ _ HB src') in He. cbn [snd] in He.
    destruct src'; cbn in *; congruence.
Qed.
Lemma over_ended E x e c a src f : parse_expr E x = Some e -> bodies0 E c -> body_over e (emit (EvEval a) c) = false -> asks_for E src f x -> ~ ended src (EvEval a :: c_log c).
Proof.
  intros Hx HB Hb Ha He. apply (asked_iff E x e) in Ha; [|exact Hx]. unfold ended in He. cbn [announced] in He. assert (Hn : tells src (EvEval a) = None) by now destruct src. rewrite Hn, (bo_size _ _ HB src) in He. cbn [snd] in He.
  unfold body_over, has_req, has_resp in Hb. apply orb_false_elim in Hb as [B1 B2]. destruct src; cbn in *.
  - destruct (ex_req e); [easy|]. cbn in B1. congruence.
  - destruct (ex_resp e); [easy|]. cbn in B2. congruence.
Qed.
Lemma own_initial E px y p x tm g sq path ex src fs : parse_expr E px = Some p -> parse_expr E y = Some x -> initial_body p x = BSPending src fs ->
  forall src', own_body E (mkT px tm g sq (OpStore path y ex)) src' <-> src' = src.
Proof.
  intros Hp Hx Hi src'. unfold own_body, texts.
  assert (A : forall sr, (exists z f, In z [px; y] /\ asks_for E sr f z) <-> asked_of sr p ++ asked_of sr x <> []).
  { intros sr. split.
    - intros (z & f & [<-|[<-|[]]] & Hz) H; apply app_eq_nil in H as [H1 H2]; [apply (asked_iff E px p) in Hz; [rewrite H1 in Hz; easy|exact Hp]|apply (asked_iff E y x) in Hz; [rewrite H2 in Hz; easy|exact Hx]].
    - intros H. destruct (asked_of sr p ++ asked_of sr x) as [|f l] eqn:Hl; [easy|]. assert (Hf : In f (asked_of sr p ++ asked_of sr x)) by (rewrite Hl; now left).
      apply in_app_iff in Hf as [Hf|Hf]; [exists px, f; split; [now left|now apply (asked_iff E px p)]|exists y, f; split; [right; now left|now apply (asked_iff E y x)]]. }
  rewrite A. unfold initial_body in Hi. cbn [asked_of] in *. destruct (ex_req p ++ ex_req x) as [|f l] eqn:Hq.
  - destruct (ex_resp p ++ ex_resp x) as [|f l] eqn:Hr; [discriminate|]. assert (src = SrcResp) as -> by congruence. destruct src'; cbn [asked_of]; rewrite ?Hq, ?Hr.
    + split; [intros [H _]; now destruct H|discriminate].
    + split; [reflexivity|]. intros _. split; [discriminate|]. intros _ z f0 Hz Ha. assert (H : exists z f, In z [px; y] /\ asks_for E SrcReq f z) by eauto. apply A in H. cbn [asked_of] in H. now rewrite Hq in H.
  - assert (src = SrcReq) as -> by congruence. destruct src'; cbn [asked_of]; rewrite ?Hq.
    + split; [reflexivity|]. intros _. split; discriminate.
    + split; [|discriminate]. intros [_ H]. exfalso. assert (H0 : exists z f, In z [px; y] /\ asks_for E SrcReq f z) by (apply A; cbn [asked_of]; rewrite Hq; discriminate).
      destruct H0 as (z & f0 & H1 & H2). exact (H eq_refl z f0 H1 H2).
Qed.
Lemma own_none E px y p x tm g sq path ex : parse_expr E px = Some p -> parse_expr E y = Some x -> initial_body p x = BSNone ->
  forall src', ~ own_body E (mkT px tm g sq (OpStore path y ex)) src'.
Proof.
  intros Hp Hx Hi src' [(z & f & Hz & Ha) _]. unfold initial_body in Hi. destruct (ex_req p ++ ex_req x) as [|f1 l] eqn:Hq; [|discriminate]. destruct (ex_resp p ++ ex_resp x) as [|f1 l] eqn:Hr; [|discriminate].
  apply app_eq_nil in Hq as [Q1 Q2]. apply app_eq_nil in Hr as [R1 R2]. destruct Hz as [<-|[<-|[]]].
  - apply (asked_iff E px p) in Ha; [|exact Hp]. destruct src'; cbn in Ha; now rewrite ?Q1, ?R1 in Ha.
  - apply (asked_iff E y x) in Ha; [|exact Hx]. destruct src'; cbn in Ha; now rewrite ?Q2, ?R2 in Ha.
Qed.
Lemma stuck_lacks E cfg fa s ts p t t' c' y : try_from E cfg = Some fa -> serves E cfg fa s -> goes E fa (t :: ts) p -> wf_q t ->
  step E t (p_ctx p) = (ORequeued [t'], c') -> has_action E cfg s (t_id t) y -> clean_action E y -> tidy_action E y ->
  lacks E cfg s y (EvEval (t_id t) :: c_log (p_ctx p)).
Proof.
  intros Hf Hs Hg Hw Hst Hy Hc Ht.
  destruct (reach_build _ _ _ _ Hg) as (p0 & Hb). pose proof (served_V _ _ _ _ _ Hs Hb _ _ Hg) as HV. destruct (fed_goes _ _ _ _ Hg) as [[_ HB] _].
  pose proof (shaped_goes _ _ _ _ Hg) as Hsh. assert (Hsh1 : shaped t) by (unfold shapedI in Hsh; rewrite Forall_forall in Hsh; apply Hsh; unfold P_Ids.items; now left).
  pose proof Hst as Ha. apply step_apply in Ha as (c1 & Ha & _).
  assert (HD : forall nd, In nd (top_node (core t)) -> exists svs, cfg_svs cfg = Some svs /\ describes E svs (t_id t) y nd).
  { intros nd Hn. assert (Hi : In nd (nodess (p_queue p0))).
    { apply (b_nodes _ _ _ _ _ (v_b _ _ _ _ _ _ HV)). apply in_flat_map. exists t. split; [unfold P_Ids.items; now left|]. rewrite <- nodes_core. now apply top_nodes. }
    destruct (serves_nodes _ _ _ _ _ Hs Hb _ Hi) as [(svs & a & x & Hsv & Hcf & Hds)|Hds].
    - assert (a = t_id t) as -> by (eapply describes_top; eauto). exists svs. split; [exact Hsv|]. destruct Hy as (svs' & Hsv' & Hcf'). assert (svs' = svs) as -> by congruence.
      now rewrite (configured_unique _ _ _ _ _ _ Hcf' Hcf).
    - exfalso. destruct Hy as (svs & Hsv & Hcf). apply (configured_not_dev svs (cfg_rsrc E cfg) s y). replace dev_id with (t_id t); [exact Hcf|]. rewrite <- core_id.
      destruct (core t); try easy; destruct Hn as [<-|[]]; try easy; now destruct Hds. }
  set (h := EvEval (t_id t) :: c_log (p_ctx p)) in *.
  assert (NU : forall x e, In x (texts y) -> parse_expr E x = Some e -> (forall src', ~ own_body E y src') -> needs E (emit (EvEval (t_id t)) (p_ctx p)) e -> unknown E cfg s y x h).
  { intros x e Hi Hx Ho Hn. apply (needs_unknown E cfg fa s (t :: ts) p y x e None (t_id t)); auto; [intros src' H; now apply Ho in H|now apply needs_store]. }
  destruct y as [px tmx g sq op].
  assert (Htu : core t = TToken match core t with TToken a _ => a | _ => None end match core t with TToken _ b => b | _ => [] end -> False).
  { intros H. destruct Hy as (svs & _ & Hcf). assert (Hid : t_id t = tu) by (rewrite <- core_id, H; reflexivity). rewrite Hid in Hcf. destruct Hcf as (i & cc & tt0 & _ & _ & Hwi). apply within_below in Hwi. now apply tu_not_number in Hwi. }
  assert (HU : forall x, In x (exprs (core t)) -> usable x).
  { intros x Hx. destruct (core t) as [id sv var msg rs pred deps g0|id sv var rs g0|id g0|u b|u|id pred tm0|id pred hx tg tm0|id pred deny tm0|id pred ex path export tm0 bs|st fs|]; try easy;
      (destruct (HD _ (or_introl eq_refl)) as (svs & _ & (pe & Hpe & Hd))); destruct op; try easy; cbn [exprs] in Hx.
    - destruct Hd as (_ & -> & Hm). destruct Hx as [<-|[<-|[]]]; [apply (usable_text E _ _ _ Hc (or_introl eq_refl) Hpe)|apply (usable_text E _ _ _ Hc (or_intror (or_introl eq_refl)) Hm)].
    - destruct Hd as (_ & -> & _). destruct Hx as [<-|[]]. apply (usable_text E _ _ _ Hc (or_introl eq_refl) Hpe).
    - destruct Hd as (_ & -> & Hm & _). destruct Hx as [<-|[<-|[]]]; [apply (usable_text E _ _ _ Hc (or_introl eq_refl) Hpe)|apply (usable_text E _ _ _ Hc (or_intror (or_introl eq_refl)) Hm)].
    - destruct Hd as (_ & -> & Hm & _). destruct Hx as [<-|[<-|[]]]; [apply (usable_text E _ _ _ Hc (or_introl eq_refl) Hpe)|apply (usable_text E _ _ _ Hc (or_intror (or_introl eq_refl)) Hm)].
    - destruct Hd as (_ & -> & Hm & _). destruct Hx as [<-|[<-|[]]]; [apply (usable_text E _ _ _ Hc (or_introl eq_refl) Hpe)|apply (usable_text E _ _ _ Hc (or_intror (or_introl eq_refl)) Hm)]. }
  pose proof (apply_why E t _ _ _ Hsh1 Hw HU Ha) as HK.
  destruct (core t) as [id sv var msg rs pred deps g0|id sv var rs g0|id g0|u b|u|id pred tm0|id pred hx tg tm0|id pred deny tm0|id pred ex path export tm0 bs|st fs|]; cbn [kept_for] in HK; try easy;
    try (destruct (HD _ (or_introl eq_refl)) as (svs & _ & (pe & Hpe & Hd)); destruct op as [var' service m rs'|d|tg' hx'|path' v' ex'|msg']; try easy).
  - destruct Hd as (_ & -> & Hm). destruct HK as (x & [<-|[<-|[]]] & Hn & Hov).
    + apply (la_text _ _ _ _ _ px); [now left|intros _ src f; now apply (over_ended E px pe)|]. apply (NU px pe); [now left|exact Hpe|intros src' []|exact Hn].
    + apply (la_text _ _ _ _ _ m); [right; now left|intros _ src f; now apply (over_ended E m msg)|]. apply (NU m msg); [right; now left|exact Hm|intros src' []|exact Hn].
  - destruct Hd as (_ & -> & _). destruct HK as [Hn Hov]. apply (la_text _ _ _ _ _ px); [now left|intros _ src f; now apply (over_ended E px pe)|]. apply (NU px pe); [now left|exact Hpe|intros src' []|exact Hn].
  - destruct Hd as (_ & -> & Hm & -> & _). destruct HK as [Hn|[Hn|[-> Hn]]].
    + apply (la_text _ _ _ _ _ px); [now left|easy|]. apply (NU px pe); [now left|exact Hpe|intros src' []|exact Hn].
    + apply (la_text _ _ _ _ _ hx'); [right; now left|easy|]. apply (NU hx' hx); [right; now left|exact Hm|intros src' []|exact Hn].
    + now apply (la_headers _ _ _ _ _ px tmx g sq hx').
  - destruct Hd as (_ & -> & _). apply (la_text _ _ _ _ _ px); [now left|easy|]. apply (NU px pe); [now left|exact Hpe|intros src' []|exact HK].
  - destruct Hd as (_ & -> & Hm & -> & -> & ->). destruct (initial_body pe ex) as [|src fs|] eqn:Hi.
    + pose proof (own_none E px v' pe ex tmx g sq path' ex' Hpe Hm Hi) as Ho. destruct HK as (x & [<-|[<-|[]]] & Hn).
      * apply (la_text _ _ _ _ _ px); [now left|easy|]. apply (needs_unknown E cfg fa s (t :: ts) p _ px pe None (t_id t)); auto; try (now left); try (right; now left). intros src' H. now apply Ho in H.
      * apply (la_text _ _ _ _ _ v'); [right; now left|easy|]. apply (needs_unknown E cfg fa s (t :: ts) p _ v' ex None (t_id t)); auto; try (now left); try (right; now left). intros src' H. now apply Ho in H.
    + pose proof (own_initial E px v' pe ex tmx g sq path' ex' src fs Hpe Hm Hi) as Ho. destruct HK as [HK|[[-> HK]|(x & [<-|[<-|[]]] & Hn)]].
      * assert (Han : announced src h = (b_size (src_body src (p_ctx p)), b_eos (src_body src (p_ctx p)))).
        { unfold h. cbn [announced]. assert (Hn : tells src (EvEval (t_id t)) = None) by now destruct src. rewrite Hn. apply (bo_size _ _ HB). }
        apply (la_body _ _ _ _ _ src _ _ (proj2 (Ho src) eq_refl) Han). destruct HK as [HK|(start & H1 & H2)]; [left; now destruct src|right; exists start; now destruct src].
      * apply la_type; [now apply Ho|exact HK].
      * apply (la_text _ _ _ _ _ px); [now left|easy|]. apply (needs_unknown E cfg fa s (t :: ts) p _ px pe (Some src) (t_id t)); auto; try (now left); try (right; now left). intros src' H. apply Ho in H. now subst.
      * apply (la_text _ _ _ _ _ v'); [right; now left|easy|]. apply (needs_unknown E cfg fa s (t :: ts) p _ v' ex (Some src) (t_id t)); auto; try (now left); try (right; now left). intros src' H. apply Ho in H. now subst.
    + exfalso. unfold initial_body in Hi. destruct (ex_req pe ++ ex_req ex); [destruct (ex_resp pe ++ ex_resp ex)|]; discriminate.
Qed.

Lemma queue_stuck E cfg fa l p : try_from E cfg = Some fa -> later l -> f_pipe (run E fa l) = Some p ->
  wait_why E fa (before_last E fa l) p /\ exists evs, f_log (run E fa l) = evs ++ c_log (p_ctx p).
Proof.
  intros Hf Hl Hp. split; [|now apply (queue_reason E cfg fa l p)]. destruct (reach E fa l p Hl Hp) as (p0 & Hb & _).
  destruct (build_shape _ _ _ _ Hb) as (b & HB). destruct (bt_sel _ _ _ _ _ HB) as (c & Hs).
  destruct (run_init l) as [-> |(l' & i & ->)].
  - destruct (first_callback E fa p0 Hb) as (F1 & _ & _ & F4). cbv zeta in *. rewrite F1 in Hp. apply kept_busy in Hp as [-> _].
    destruct (Z_start E cfg fa p0 b c Hf Hb Hs) as [HZ _]. eapply eval_stuck; [exact HZ| |].
    + intros Ht. cbn in Ht. rewrite (bt_term _ _ _ _ _ HB) in Ht. discriminate.
    + split; [exact (P_Told.re_start E fa p0 Hb)|]. eexists. symmetry. apply app_nil_r.
  - assert (Hl' : later l') by (intros H; apply Hl; apply in_or_app; now left).
    assert (Hi : i <> InReqHeaders) by (intros ->; apply Hl; apply in_or_app; right; now left).
    rewrite run_snoc in *. rewrite before_snoc.
    destruct (f_pipe (run E fa l')) as [p'|] eqn:Hp'.
    2:{ destruct (no_pipe_step E fa _ i Hp' Hi) as (H & _). congruence. }
    pose proof (Z_run_filter E cfg fa p0 b c l' Hf Hb Hs Hl') as HZ. unfold holds in HZ. rewrite Hp' in HZ. destruct HZ as [[HZ HN] Hlv].
    assert (Hdead : f_dead (run E fa l') = false) by (apply pipe_alive; [exact Hl'|congruence]).
    destruct (callback E fa _ i p' Hdead Hp' Hi) as (F1 & _ & _ & F4). cbv zeta in *. rewrite F1 in Hp. apply kept_busy in Hp as [-> _].
    pose proof (run_reach E fa l' p' Hl' Hp') as Hg.
    assert (Hpre : forall e, exists e0, e :: f_log (run E fa l') = e0 ++ f_log (run E fa l')) by (intros e; now exists [e]).
    pose proof (ZN_finv E (length (p_td p0)) (nodess (p_queue p0)) (map a_id (bp_actions b))) as HI.
    destruct i as [|n e| |n e|k st sz]; [easy| | | |]; cbn [advance].
    + eapply eval_stuck; [|apply Hlv|split; [apply (P_Told.re_body E fa SrcReq n e _ Hg)|rewrite seen_log by discriminate; apply Hpre]].
      eapply (fi_reqb _ _ _ HI). eapply (fi_neutral _ _ _ HI (f_take (run E fa l') p') (EvReqBody n e)); [exact Logic.I|split; assumption].
    + eapply eval_stuck; [|apply Hlv|split; [exact (P_Told.re_neutral E fa (p_emit EvRespHeaders (f_take (run E fa l') p')) (EvMetric MAllowed) (P_Told.re_neutral E fa (f_take (run E fa l') p') EvRespHeaders Hg Logic.I) Logic.I)|rewrite seen_log by discriminate; now exists [EvMetric MAllowed; EvRespHeaders]]].
      refine (proj1 (fi_neutral _ _ _ HI (p_emit EvRespHeaders (f_take (run E fa l') p')) (EvMetric MAllowed) Logic.I _)).
      eapply (fi_neutral _ _ _ HI (f_take (run E fa l') p') EvRespHeaders); [exact Logic.I|split; assumption].
    + eapply eval_stuck; [|apply Hlv|split; [apply (P_Told.re_body E fa SrcResp n e _ Hg)|rewrite seen_log by discriminate; apply Hpre]].
      eapply (fi_respb _ _ _ HI). eapply (fi_neutral _ _ _ HI (f_take (run E fa l') p') (EvRespBody n e)); [exact Logic.I|split; assumption].
    + apply (digest_stuck E fa _ _ _ k st sz (f_take (run E fa l') p') (f_log (run E fa l')) Hlv HZ). split; [exact Hg|now exists []].
Qed.
(** a queued task with an action of the configuration *)
Lemma queued_lacks E cfg fa s l p t y : try_from E cfg = Some fa -> serves E cfg fa s -> later l -> f_pipe (run E fa l) = Some p ->
  In t (p_queue p) -> has_action E cfg s (t_id t) y -> clean_action E y -> tidy_action E y ->
  (exists d, In d (t_deps t) /\ ~ In d (p_done p)) \/
  exists after past, f_log (run E fa l) = after ++ EvEval (t_id t) :: past ++ before_last E fa l /\ lacks E cfg s y (EvEval (t_id t) :: past ++ before_last E fa l).
Proof.
  intros Hf Hs Hl Hp Hin Hy Hc Ht. destruct (queue_stuck E cfg fa l p Hf Hl Hp) as [Hw (e2 & He)].
  destruct (Hw t Hin) as [(ts1 & p1 & t1 & c1 & Hg & Hwf & Hst & (past & Hpast) & evs & Hev)|H]; [right|now left].
  pose proof Hst as Hss. apply step_sum in Hss as (evs1 & Hss). destruct (requeued_one _ _ _ _ _ _ Hwf Hss) as (t2 & [= <-] & _ & Hid & _). rewrite Hid in *.
  exists (e2 ++ evs ++ ghost t1 (ORequeued [t]) ++ evs1), past. split.
  - rewrite He, Hev, (ss_log _ _ _ _ _ _ Hss), <- Hpast. now rewrite <- !app_assoc.
  - rewrite <- Hpast. exact (stuck_lacks E cfg fa s ts1 p1 t1 t c1 y Hf Hs Hg Hwf Hst Hy Hc Ht).
Qed.

(** * C123 *)
(** While a request is processed: an action of its set that has not completed or failed and has no call on its way waits
    for an action it depends on; or it was evaluated during the last callback, and then something it needs was missing. *)
Theorem C123_waits_only_for_what_is_missing : forall E cfg fa s l i y,
  fresh_tokens E -> try_from E cfg = Some fa -> serves E cfg fa s -> later l ->
  f_pipe (run E fa l) <> None -> ~ terminated (f_log (run E fa l)) ->
  i < length (as_actions s) -> has_action E cfg s (nat_text i) y -> clean_action E y -> tidy_action E y -> waiting (f_log (run E fa l)) (nat_text i) ->
  (exists j, depends (as_actions s) i j /\ ~ In (EvDone (nat_text j)) (f_log (run E fa l))) \/
  exists after past, f_log (run E fa l) = after ++ EvEval (nat_text i) :: past ++ before_last E fa l /\
    lacks E cfg s y (EvEval (nat_text i) :: past ++ before_last E fa l).
Proof.
  intros E cfg fa s l i y F Hf Hs Hl Hne Htm Hi Hy Hc Ht Hw. destruct (f_pipe (run E fa l)) as [p|] eqn:Hp; [|easy].
  destruct (waiting_queued E cfg fa s l p i F Hf Hs Hl Hp Htm Hi Hw) as (t & Hin & Hid).
  rewrite <- Hid in Hy. destruct (queued_lacks E cfg fa s l p t y Hf Hs Hl Hp Hin Hy Hc Ht) as [(d & H1 & H2)|H]; [left|right; now rewrite <- Hid].
  destruct (queued_deps E cfg fa s l p t i d Hf Hs Hl Hp Hin Hid H1) as (j & -> & Hj). exists j. split; [exact Hj|].
  now rewrite <- (done_iff E cfg fa l p _ Hf Hl Hp).
Qed.
Print Assumptions C123_waits_only_for_what_is_missing.

(** no body is announced between an evaluation and the end of the callback *)
Lemma told_first E fa l a after past : later l -> f_pipe (run E fa l) <> None ->
  f_log (run E fa l) = after ++ EvEval a :: past ++ before_last E fa l ->
  Forall untold after /\ forall l' i, l = l' ++ [i] -> exists h, past = h ++ [ev_of i] /\ Forall untold h.
Proof.
  assert (NI : forall evs, Forall inner evs -> Forall untold evs). { intros evs. apply Forall_impl. intros e. destruct e; easy. }
  intros Hl Hp Ho. destruct (run_init l) as [->|(l' & i & ->)].
  - split; [|intros l' i H; now destruct l'].
    assert (H : Forall untold (f_log (run E fa []))); [|rewrite Ho in H; now apply Forall_app in H as [H _]]. clear Ho.
    pose proof (headers_log E fa) as H. destruct (build E fa (ctx0 [EvReqHeaders])) as [p0|c|c|c] eqn:Hb.
    + destruct (first_callback E fa p0 Hb) as (_ & _ & _ & H2). rewrite H2. constructor; [exact Logic.I|].
      destruct (eval_added E (p_emit (EvMetric MHits) p0)) as (evs & He & Hf). rewrite He. apply Forall_app. split; [now apply NI|].
      pose proof (build_spec E fa (ctx0 [EvReqHeaders])) as Hs. rewrite Hb in Hs. destruct Hs as (b & c1 & tds & _ & _ & _ & (Hlog & _) & _).
      cbn in Hlog |- *. rewrite Hlog. repeat constructor.
    + now destruct H as (_ & H & _).
    + now destruct H as (H & _).
    + now destruct H as (H & _).
  - assert (Hi : i <> InReqHeaders) by (intros ->; apply Hl; apply in_or_app; right; now left).
    assert (Hl' : later l') by (intros H; apply Hl; apply in_or_app; now left).
    assert (Hbl : before_last E fa (l' ++ [i]) = f_log (run E fa l')) by (unfold before_last; destruct (l' ++ [i]) eqn:Hn; [now destruct l'|rewrite <- Hn; now rewrite removelast_last]).
    rewrite Hbl in Ho. rewrite run_snoc in *.
    destruct (f_pipe (run E fa l')) as [p'|] eqn:Hp'; [|now destruct (no_pipe_step E fa _ i Hp' Hi) as (H & _)].
    assert (Hd : f_dead (run E fa l') = false) by (apply pipe_alive; [exact Hl'|congruence]).
    destruct (callback E fa _ i p' Hd Hp' Hi) as (_ & _ & _ & Hlog). destruct (callback_log E _ i p' Hd Hp' Hi) as (evs & Hev & Hf).
    rewrite Hlog, Hev in Ho. set (mid := match i with InRespHeaders => _ | _ => _ end) in Ho.
    assert (Hm : Forall untold mid) by (unfold mid; destruct i as [|n e| |n e|k st sz]; [easy| | | |destruct (nget k (p_def p'))]; repeat constructor).
    assert (Ha : Forall untold (answer i (run E fa l') (advance E i (seen i (run E fa l') p')))).
    { unfold answer. destruct i; [easy| | | |]; repeat constructor. destruct (P_Grow.kept _); match goal with |- Forall _ (if ?x then _ else _) => destruct x end; repeat constructor; now destruct (f_resp _). }
    assert (He : (answer i (run E fa l') (advance E i (seen i (run E fa l') p')) ++ evs ++ mid) ++ [ev_of i] = after ++ EvEval a :: past).
    { apply app_inv_tail with (l := f_log (run E fa l')). rewrite <- !app_assoc. exact Ho. }
    destruct past as [|z past] using rev_ind.
    + change (after ++ [EvEval a]) with (after ++ [EvEval a]) in He. apply app_inj_tail in He as [_ He]. destruct i; discriminate.
    + clear IHpast. change (EvEval a :: past ++ [z]) with ((EvEval a :: past) ++ [z]) in He. rewrite (app_assoc after) in He. apply app_inj_tail in He as [He Hz].
      assert (Hall : Forall untold (after ++ EvEval a :: past)) by (rewrite <- He; apply Forall_app; split; [exact Ha|apply Forall_app; split; [now apply NI|exact Hm]]).
      apply Forall_app in Hall as [Hall1 Hall2]. split; [exact Hall1|]. intros l1 i1 H1. apply app_inj_tail in H1 as [_ <-]. exists past. rewrite Hz. split; [reflexivity|now inversion Hall2].
Qed.

(** the host has an answer, good or bad, for everything: attributes, response headers, bodies *)
Definition answers_all (E : env) : Prop :=
  (forall h p, h_prop E h p <> HNotAvail) /\ (forall h, h_map E h MResp <> HNotAvail) /\ (forall h hs, h_setmap E h MResp hs <> HNotAvail) /\
  forall src h a n, read E src h a n <> HNotAvail.
(** Once every body is there, an action that asks only for what it can get — the values of store actions that are over
    with, and fields of the body it reads itself — waits for nothing but the actions it depends on. *)
Theorem C123_settled_once_all_is_there : forall E cfg fa s l i y,
  fresh_tokens E -> try_from E cfg = Some fa -> serves E cfg fa s -> later l ->
  f_pipe (run E fa l) <> None -> ~ terminated (f_log (run E fa l)) ->
  i < length (as_actions s) -> has_action E cfg s (nat_text i) y -> clean_action E y -> tidy_action E y -> waiting (f_log (run E fa l)) (nat_text i) ->
  answers_all E ->
  (forall x q more b pr tm g sq v export, In x (awaited y) -> stands E x (q ++ more) ->
     has_action E cfg s b (mkT pr tm g sq (OpStore (joined q) v export)) -> over_with b (before_last E fa l)) ->
  (forall x src f, In x (awaited y) -> asks_for E src f x -> (gives_up y \/ own_body E y src) /\ ended src (f_log (run E fa l))) ->
  exists j, depends (as_actions s) i j /\ ~ In (EvDone (nat_text j)) (f_log (run E fa l)).
Proof.
  intros E cfg fa s l i y F Hf Hs Hl Hne Htm Hi Hy Hc Ht Hw (A1 & A2 & A3 & A4) Hst Hb.
  destruct (C123_waits_only_for_what_is_missing E cfg fa s l i y F Hf Hs Hl Hne Htm Hi Hy Hc Ht Hw) as [H|(after & past & Ho & Hla)]; [exact H|exfalso].
  destruct (told_first E fa l _ after past Hl Hne Ho) as [Hu _]. set (h := EvEval (nat_text i) :: past ++ before_last E fa l) in *.
  assert (He : forall src, announced src (f_log (run E fa l)) = announced src h) by (intros src; rewrite Ho; now apply announced_app).
  assert (Hen : forall src, ended src (f_log (run E fa l)) -> ended src h) by (intros src; unfold ended; now rewrite He).
  destruct Hla as [x Hx Hg [q Hq Hab|q more b pr tm g sq v export Hq Hb' Hov|src f Hfx Hfo]|src n eos Hown Hann Hr|Hown Hm|p tm g sq x -> [Hm|(hs & Hm)]].
  - destruct Hab as [p H1 H2 H3|p hp H1 H3|H3|H3]; solve [now apply A1 in H3|now apply A2 in H3].
  - apply Hov. destruct (Hst x q more b pr tm g sq v export Hx Hq Hb') as [H|H]; [left|right]; right; apply in_or_app; now right.
  - destruct (Hb x src f Hx Hfx) as [[H|H] Hend]; [exact (Hg H src f Hfx (Hen _ Hend))|exact (Hfo H (Hen _ Hend))].
  - assert (Hend : ended src h).
    { apply Hen. destruct y as [pr tm g sq [| | |pa v export|]]; try easy. destruct Hown as [(x & f & Hx & Hfx) _].
      exact (proj2 (Hb x src f Hx Hfx)). }
    unfold ended in Hend. rewrite Hann in Hend. cbn in Hend. subst eos. destruct Hr as [[_ H]|(start & _ & H)]; [discriminate|now apply A4 in H].
  - now apply A2 in Hm.
  - now apply A2 in Hm.
  - now apply A3 in Hm.
Qed.
Print Assumptions C123_settled_once_all_is_there.

(** * Examples and counterexamples *)
Lemma tidy_parsed E y : forallb (fun x => match o_parse E x with Some a => tidyb a && cleanb a | None => true end) (texts y) = true -> tidy_action E y /\ clean_action E y.
Proof.
  intros H. rewrite forallb_forall in H. split; intros x e Hx He; apply H in Hx; unfold parse_expr in He; destruct (o_parse E x) as [a|]; try discriminate; apply andb_prop in Hx as [H1 H2];
    injection He as <-; [now apply tidyb_tidy|now apply cleanb_clean].
Qed.
Ltac acts i := eexists; split; [vm_compute; reflexivity|]; exists i; eexists _, _; split; [reflexivity|]; split; [reflexivity|constructor].
(** the call whose message asks for an attribute the host does not have yet *)
Example C123_ex : let l := [InRespBody 3 false] in
  fresh_tokens Ed /\ try_from Ed (dcfg ex18) = Some (dfac Ed ex18) /\ serves Ed (dcfg ex18) (dfac Ed ex18) (set_of ex18) /\ later l /\
  f_pipe (run Ed (dfac Ed ex18) l) <> None /\ ~ terminated (dlog Ed ex18 l) /\ waiting (dlog Ed ex18 l) (nat_text 0) /\
  (exists y, has_action Ed (dcfg ex18) (set_of ex18) (nat_text 0) y /\ clean_action Ed y /\ tidy_action Ed y) /\
  stands Ed (tx "wait") [tx "request"; tx "late"] /\ absent Ed (dlog Ed ex18 l) [tx "request"; tx "late"].
Proof.
  cbv zeta. destruct C18_ex as (H1 & H2 & H3 & H4 & H5 & H6 & H7 & _).
  repeat (split; [assumption|]). split; [eexists; split; [acts 0|split; apply tidy_parsed; vm_compute; reflexivity]|].
  split; [eexists; split; [reflexivity|apply (me_chain (AIdent (tx "request")) (tx "late") false [tx "request"]); constructor]|].
  apply ab_prop; [intros [H|[H|[H|[]]]]; discriminate|discriminate|vm_compute; reflexivity].
Qed.

(** a host that has everything; a sequential call behind one that is on its way *)
Definition Ea : env := e_prop Ej (fun _ p => HOk (if path_eqb p [tx "request"; tx "host"] then Some (tx "h") else None)).
Lemma Ea_answers : answers_all Ea.
Proof. split; [discriminate|]. split; [discriminate|]. split; [discriminate|]. now intros []. Qed.
Lemma no_terminate l a : forallb (fun e => match e with EvTerminate _ => false | _ => true end) l = true -> ~ In (EvTerminate a) l.
Proof. intros H Hi. rewrite forallb_forall in H. now apply H in Hi. Qed.
Example C123_settled_ex : exists y,
  fresh_tokens Ea /\ try_from Ea (dcfg ex01) = Some (dfac Ea ex01) /\ serves Ea (dcfg ex01) (dfac Ea ex01) (set_of ex01) /\ later [] /\
  f_pipe (run Ea (dfac Ea ex01) []) <> None /\ ~ terminated (dlog Ea ex01 []) /\ has_action Ea (dcfg ex01) (set_of ex01) (nat_text 1) y /\
  clean_action Ea y /\ tidy_action Ea y /\ waiting (dlog Ea ex01 []) (nat_text 1) /\ answers_all Ea /\
  (forall x q, In x (awaited y) -> ~ stands Ea x q) /\ (forall x src f, In x (awaited y) -> ~ asks_for Ea src f x).
Proof.
  eexists. split; [intros l c k [= <-] H; apply next_token_above in H; lia|]. split; [vm_compute; reflexivity|]. split; [serve|]. split; [now intros []|]. split; [vm_compute; discriminate|].
  split; [intros (a & Ha); revert Ha; apply no_terminate; vm_compute; reflexivity|]. split; [acts 1|].
  split; [apply tidy_parsed; vm_compute; reflexivity|]. split; [apply tidy_parsed; vm_compute; reflexivity|]. split.
  { split; [intros Hi; vm_compute in Hi; intuition discriminate|]. split; [intros Hi; vm_compute in Hi; intuition discriminate|].
    intros k Hk. apply call_open_spec in Hk. vm_compute in Hk. destruct Hk as [Hk|[]]. discriminate. }
  split; [exact Ea_answers|]. split.
  - intros x q [<-|[<-|[]]] (e & [= <-] & Hm); inversion Hm; subst; try discriminate; match goal with H : sub _ _ |- _ => inversion H end.
  - intros x src f [<-|[<-|[]]] (e & [= <-] & Hm); inversion Hm; subst; try discriminate; try (now destruct src); match goal with H : sub _ _ |- _ => inversion H end.
Qed.

(** Without the condition on the body an action reads itself this fails: a store action that asks for fields of both bodies reads
    only that of the request. With both bodies complete, a host that has everything, no other action and no call on its way, it
    still waits, and the end of the response is held. *)
Definition Ebb : env := e_parse Ea (fun s => if text_eqb s (tx "both")
  then Some (AList [ACall None (tx "requestBodyJSON") [ALit (VString (tx "/a"))]; ACall None (tx "responseBodyJSON") [ALit (VString (tx "/a"))]]) else parse_demo s).
Definition ex123 : list action_cfg := [dstore "both"].
Definition bodies : list fin := [InReqBody 6 true; InRespHeaders; InRespBody 6 true].
Theorem C123_settled_once_all_is_there_refuted : exists E cfg fa s l y past,
  fresh_tokens E /\ try_from E cfg = Some fa /\ serves E cfg fa s /\ later l /\
  f_pipe (run E fa l) <> None /\ ~ terminated (f_log (run E fa l)) /\
  length (as_actions s) = 1 /\ has_action E cfg s (nat_text 0) y /\ clean_action E y /\ tidy_action E y /\ waiting (f_log (run E fa l)) (nat_text 0) /\
  answers_all E /\ (forall x q, In x (awaited y) -> ~ stands E x q) /\ (forall src, ended src (f_log (run E fa l))) /\
  (forall j, ~ depends (as_actions s) 0 j) /\ opens (f_log (run E fa l)) = [] /\ f_log (run E fa l) = EvRet true :: past.
Proof.
  exists Ebb, (dcfg ex123), (dfac Ebb ex123), (set_of ex123), bodies. eexists _, _.
  split; [intros l c k [= <-] H; apply next_token_above in H; lia|]. split; [vm_compute; reflexivity|]. split; [serve|]. split; [intros [H|[H|[H|[]]]]; discriminate|]. split; [vm_compute; discriminate|].
  split; [intros (a & Ha); revert Ha; apply no_terminate; vm_compute; reflexivity|]. split; [reflexivity|]. split; [acts 0|].
  split; [apply tidy_parsed; vm_compute; reflexivity|]. split; [apply tidy_parsed; vm_compute; reflexivity|]. split.
  { split; [intros Hi; vm_compute in Hi; intuition discriminate|]. split; [intros Hi; vm_compute in Hi; intuition discriminate|].
    intros k Hk. apply call_open_spec in Hk. vm_compute in Hk. exact Hk. }
  split; [split; [discriminate|]; split; [discriminate|]; split; [discriminate|]; now intros []|]. split.
  { intros x q [<-|[<-|[]]] (e & [= <-] & Hm); inversion Hm; subst.
    all: match goal with H : In _ _ |- _ => repeat (destruct H as [<-|H]); try destruct H end.
    all: match goal with H : mentions _ _ |- _ => inversion H; subst; try discriminate end.
    all: match goal with H : In _ _ |- _ => repeat (destruct H as [<-|H]); try destruct H end; match goal with H : mentions (ALit _) _ |- _ => inversion H end. }
  split; [intros []; vm_compute; reflexivity|]. split; [intros j Hj; apply depends_lt in Hj; lia|]. split; vm_compute; reflexivity.
Qed.
Print Assumptions C123_settled_once_all_is_there_refuted.

(** * C71 *)
Lemma stuck_why E cfg fa s ts p t t' c' : try_from E cfg = Some fa -> serves E cfg fa s -> goes E fa (t :: ts) p -> wf_q t ->
  step E t (p_ctx p) = (ORequeued [t'], c') -> (forall a y, has_action E cfg s a y -> clean_action E y /\ tidy_action E y) ->
  (exists y, has_action E cfg s (t_id t) y /\ lacks E cfg s y (EvEval (t_id t) :: c_log (p_ctx p))) \/
  (t_id t = tx "token_usage" /\ (h_map E (EvEval (t_id t) :: c_log (p_ctx p)) MResp = HNotAvail \/ ~ ended SrcResp (EvEval (t_id t) :: c_log (p_ctx p)) \/
     exists m, (0 < m)%N /\ h_respbody E (EvEval (t_id t) :: c_log (p_ctx p)) 0 m = HNotAvail)) \/
  t_id t = dev_id.
Proof.
  intros Hf Hs Hg Hw Hst Hall.
  destruct (reach_build _ _ _ _ Hg) as (p0 & Hb). pose proof (served_V _ _ _ _ _ Hs Hb _ _ Hg) as HV. destruct (fed_goes _ _ _ _ Hg) as [[_ HB] _].
  pose proof (shaped_goes _ _ _ _ Hg) as Hsh. assert (Hsh1 : shaped t) by (unfold shapedI in Hsh; rewrite Forall_forall in Hsh; apply Hsh; unfold P_Ids.items; now left).
  pose proof Hst as Ha. apply step_apply in Ha as (c1 & Ha & _).
  assert (HD : forall nd, In nd (top_node (core t)) -> (exists y, has_action E cfg s (t_id t) y) \/ t_id t = dev_id).
  { intros nd Hn. assert (Hi : In nd (nodess (p_queue p0))).
    { apply (b_nodes _ _ _ _ _ (v_b _ _ _ _ _ _ HV)). apply in_flat_map. exists t. split; [unfold P_Ids.items; now left|]. rewrite <- nodes_core. now apply top_nodes. }
    destruct (serves_nodes _ _ _ _ _ Hs Hb _ Hi) as [(svs & a & x & Hsv & Hcf & Hds)|Hds].
    - assert (a = t_id t) as -> by (eapply describes_top; eauto). left. exists x, svs. now split.
    - right. rewrite <- core_id. destruct (core t); try easy; destruct Hn as [<-|[]]; try easy; now destruct Hds. }
  assert (HD' : top_node (core t) <> [] -> (exists y, has_action E cfg s (t_id t) y) \/ t_id t = dev_id) by (destruct (top_node (core t)) as [|nd l] eqn:Hn; [easy|intros _; apply (HD nd); rewrite <- Hn; rewrite Hn; now left]).
  assert (HH : (exists y, has_action E cfg s (t_id t) y) \/ t_id t = dev_id -> (exists y, has_action E cfg s (t_id t) y /\ lacks E cfg s y (EvEval (t_id t) :: c_log (p_ctx p))) \/ t_id t = dev_id).
  { intros [(y & Hy)|H]; [left|now right]. exists y. split; [exact Hy|]. destruct (Hall _ _ Hy). eapply stuck_lacks; eauto. }
  destruct (core t) as [id sv var msg rs pred deps g0|id sv var rs g0|id g0|u b|u|id pred tm0|id pred hx tg tm0|id pred deny tm0|id pred ex path export tm0 bs|st fs|] eqn:Hk;
    try (destruct HH as [H|H]; [apply HD'; discriminate|now left|right; now right]).
  all: try (exfalso; assert (HK : kept_for E (emit (EvEval (t_id t)) (p_ctx p)) (core t)) by (apply (apply_why E t _ t' c1 Hsh1 Hw); [rewrite Hk; now intros x []|exact Ha]); rewrite Hk in HK; exact HK).
  right. left. assert (HK : kept_for E (emit (EvEval (t_id t)) (p_ctx p)) (core t)) by (apply (apply_why E t _ t' c1 Hsh1 Hw); [rewrite Hk; now intros x []|exact Ha]). rewrite Hk in HK. cbn [kept_for emit with_log c_log c_respb] in HK.
  split; [rewrite <- core_id, Hk; reflexivity|]. destruct HK as [H|[H|[H1 H2]]]; [now left|right; left|right; right; eauto].
  unfold ended. cbn [announced tells]. rewrite (bo_size _ _ HB SrcResp). cbn [snd src_body]. congruence.
Qed.

(** Partial: if no action has failed, a response paused at the end of its body waits for a call, or for an action that was
    evaluated just now and found something missing. What is left open is the action added by developer mode. *)
Theorem C71_held_for_what_is_missing_partial : forall E cfg fa s l n past,
  fresh_tokens E -> try_from E cfg = Some fa -> serves E cfg fa s -> later l ->
  let l' := l ++ [InRespBody n true] in
  f_log (run E fa l') = EvRet true :: past ->
  (forall a, ~ In (EvFailed a) (f_log (run E fa l'))) ->
  (forall a y, has_action E cfg s a y -> clean_action E y /\ tidy_action E y) ->
  (exists k, Prop_Guard.awaited (f_log (run E fa l')) k) \/
  exists a after h, f_log (run E fa l') = after ++ EvEval a :: h ++ EvRespBody n true :: f_log (run E fa l) /\
    ((exists y, has_action E cfg s a y /\ lacks E cfg s y (EvEval a :: h ++ EvRespBody n true :: f_log (run E fa l))) \/
     (a = tx "token_usage" /\ (h_map E (EvEval a :: h ++ EvRespBody n true :: f_log (run E fa l)) MResp = HNotAvail \/
        exists m, (0 < m)%N /\ h_respbody E (EvEval a :: h ++ EvRespBody n true :: f_log (run E fa l)) 0 m = HNotAvail)) \/
     a = tx "kuadrant.devMode").
Proof.
  intros E cfg fa s l n past0 F Hf Hs Hl l' Hlog Hfail Hall.
  assert (Hl' : later l') by (intros H; apply in_app_or in H as [H|[H|[]]]; [now apply Hl|discriminate]).
  destruct (paused_pipe E fa l n past0 Hl Hlog) as (p & Hp). fold l' in Hp.
  destruct (reach E fa l' p Hl' Hp) as (p0 & Hb & HB & Hlv & Hdead).
  destruct (build_shape _ _ _ _ Hb) as (b & HBt). destruct (bt_sel _ _ _ _ _ HBt) as (c & Hsel).
  pose proof (Z_run_filter E cfg fa p0 b c l' Hf Hb Hsel Hl') as HZ. unfold holds in HZ. rewrite Hp in HZ. destruct HZ as [[HZ HN] _].
  destruct (C71_response_released_partial E cfg fa s l n past0 F Hf Hs Hl Hlog Hfail) as [H|_]; [now left|].
  destruct (opens (f_log (run E fa l'))) as [|[k0 o] os] eqn:Ho; [right|left; exists k0; apply opens_awaited; exists o; rewrite Ho; now left].
  assert (Hdf : p_def p = []).
  { pose proof (b_open _ _ _ _ _ HB F) as Hm. change (p_def (f_take (run E fa l') p)) with (p_def p) in Hm. change (c_log (p_ctx (f_take (run E fa l') p))) with (f_log (run E fa l')) in Hm.
    rewrite Ho in Hm. now inversion Hm. }
  destruct (pipe_busy E fa l' p Hl' Hp) as [Hq|Hq]; [|congruence].
  destruct (p_queue p) as [|t ts] eqn:Hqe; [easy|]. destruct (queue_stuck E cfg fa l' p Hf Hl' Hp) as [Hr (e2 & He)].
  assert (Hin : In t (p_queue p)) by (rewrite Hqe; now left).
  destruct (Hr t Hin) as [(ts1 & p1 & t1 & c1 & Hg & Hwf & Hst & (pst & Hpst) & evs & Hev)|(d & H1 & H2)].
  - pose proof Hst as Hss. apply step_sum in Hss as (evs1 & Hss). destruct (requeued_one _ _ _ _ _ _ Hwf Hss) as (t2 & [= <-] & _ & Hid & _).
    unfold l' in Hpst. rewrite before_snoc in Hpst.
    assert (Hfl : f_log (run E fa l') = (e2 ++ evs ++ ghost t1 (ORequeued [t]) ++ evs1) ++ EvEval (t_id t1) :: c_log (p_ctx p1)) by (rewrite He, Hev, (ss_log _ _ _ _ _ _ Hss); now rewrite <- !app_assoc).
    assert (Hne : f_pipe (run E fa l') <> None) by congruence.
    assert (Hfl' : f_log (run E fa l') = (e2 ++ evs ++ ghost t1 (ORequeued [t]) ++ evs1) ++ EvEval (t_id t1) :: pst ++ before_last E fa l') by (unfold l' at 2; rewrite before_snoc, <- Hpst; exact Hfl).
    destruct (told_first E fa l' _ _ pst Hl' Hne Hfl') as [_ Hh]. destruct (Hh l (InRespBody n true) eq_refl) as (h & -> & Hhu). cbn [ev_of] in *.
    exists (t_id t1), (e2 ++ evs ++ ghost t1 (ORequeued [t]) ++ evs1), h. rewrite <- app_assoc in Hpst. cbn [app] in Hpst. split; [now rewrite <- Hpst|].
    rewrite <- Hpst. destruct (stuck_why E cfg fa s ts1 p1 t1 t c1 Hf Hs Hg Hwf Hst Hall) as [H|[(H1 & H2)|H]]; [now left| |now right; right].
    right. left. split; [exact H1|]. destruct H2 as [H2|[H2|H2]]; [now left| |now right]. exfalso. apply H2.
    unfold ended. rewrite Hpst. change (EvEval (t_id t1) :: h ++ EvRespBody n true :: f_log (run E fa l)) with ((EvEval (t_id t1) :: h) ++ EvRespBody n true :: f_log (run E fa l)).
    rewrite announced_app by (constructor; [exact Logic.I|exact Hhu]). reflexivity.
  - exfalso. destruct (queued_top E cfg fa s l' p t d Hf Hs Hl' Hp Hin H1) as (i & Hi).
    destruct (queued_deps E cfg fa s l' p t i d Hf Hs Hl' Hp Hin Hi H1) as (j & -> & Hdep).
    assert (Hij : j < i /\ i < length (as_actions s)) by now apply depends_lt.
    assert (Htm : p_term p = false).
    { destruct (p_term p) eqn:H; [|reflexivity]. destruct Hlv as [_ Hlv]. rewrite (Hlv H) in Hqe. discriminate. }
    destruct (z_acc _ _ _ _ _ _ HZ F Htm (nat_text j)) as [H|[(k & x & H & _)|[H|H]]].
    + eapply top_ids; eauto. lia.
    + cbn in H. rewrite app_nil_r, Hqe in H. destruct H as [H|H]; [rewrite Hi in H; apply nat_text_inj in H; lia|].
      pose proof (z_ord _ _ _ _ _ _ HZ) as Hor. cbn in Hor. rewrite app_nil_r, Hqe in Hor. destruct Hor as [Hor _]. now apply (Hor _ H1).
    + cbn in H. rewrite Hdf in H. discriminate.
    + now apply H2.
    + now apply Hfail in H.
Qed.
Print Assumptions C71_held_for_what_is_missing_partial.
(** the call asks for an attribute that never comes *)
Definition Enever : env := e_prop Ed (fun l p => if path_eqb p [tx "request"; tx "host"] then HOk (Some (tx "h")) else HNotAvail).
Definition ex71 : list action_cfg := [dwait "hard" false].
Example C71_held_ex : let l := [InRespHeaders] in
  fresh_tokens Enever /\ try_from Enever (dcfg ex71) = Some (dfac Enever ex71) /\ serves Enever (dcfg ex71) (dfac Enever ex71) (set_of ex71) /\ later l /\
  f_log (run Enever (dfac Enever ex71) (l ++ [InRespBody 3 true])) = EvRet true :: tl (dlog Enever ex71 (l ++ [InRespBody 3 true])) /\
  (forall a, ~ In (EvFailed a) (f_log (run Enever (dfac Enever ex71) (l ++ [InRespBody 3 true])))) /\
  (forall a y, has_action Enever (dcfg ex71) (set_of ex71) a y -> clean_action Enever y /\ tidy_action Enever y).
Proof.
  cbv zeta. split; [intros l c k [= <-] H; apply next_token_above in H; lia|]. split; [vm_compute; reflexivity|]. split; [serve|]. split; [intros [H|[]]; discriminate|]. split; [vm_compute; reflexivity|]. split.
  - assert (H : forallb (fun e => match e with EvFailed _ => false | _ => true end) (dlog Enever ex71 ([InRespHeaders] ++ [InRespBody 3 true])) = true) by (vm_compute; reflexivity).
    rewrite forallb_forall in H. intros a Ha. now apply H in Ha.
  - intros a y (svs & _ & (i & cc & tt0 & H1 & H2 & H3)). assert (H : y = mkT (tx "true") false true false (OpGrpc (tx "r") (tx "hard") (tx "wait") [])).
    { destruct i as [|[]]; try discriminate. injection H1 as <-. vm_compute in H2. injection H2 as <-. inversion H3; subst; [reflexivity|]. match goal with H : nth_error _ _ = Some _ |- _ => destruct i; discriminate H end. }
    rewrite H. split; apply tidy_parsed; vm_compute; reflexivity.
Qed.

(** * C123 on the deployed environment *)
(** The host never rejects an argument (attributes, response headers to be set, the bodies) and knows a response header:
    whatever else goes wrong there, no action waits for it. *)
Theorem C123_settled_once_all_is_there_deployed : forall K D E0 cfg fa s l i y,
  let E := deployed K D E0 in
  fresh_tokens E -> try_from E cfg = Some fa -> serves E cfg fa s -> later l ->
  f_pipe (run E fa l) <> None -> ~ terminated (f_log (run E fa l)) ->
  i < length (as_actions s) -> has_action E cfg s (nat_text i) y -> clean_action E y -> tidy_action E y -> waiting (f_log (run E fa l)) (nat_text i) ->
  (forall h p, k_property K h p <> HcErr BadArgument) -> (forall h, k_map K h MResp <> HcOk []) ->
  (forall h hs, k_setmap K h MResp hs <> HcErr BadArgument) -> (forall h b a n, b <> BGrpc -> k_buffer K h b a n <> HcErr BadArgument) ->
  (forall x q more b pr tm g sq v export, In x (awaited y) -> stands E x (q ++ more) ->
     has_action E cfg s b (mkT pr tm g sq (OpStore (joined q) v export)) -> over_with b (before_last E fa l)) ->
  (forall x src f, In x (awaited y) -> asks_for E src f x -> (gives_up y \/ own_body E y src) /\ ended src (f_log (run E fa l))) ->
  exists j, depends (as_actions s) i j /\ ~ In (EvDone (nat_text j)) (f_log (run E fa l)).
Proof.
  intros K D E0 cfg fa s l i y E F Hf Hs Hl Hne Htm Hi Hy Hc Ht Hw K1 K2 K3 K4 Hst Hb.
  apply (C123_settled_once_all_is_there E cfg fa s l i y F Hf Hs Hl Hne Htm Hi Hy Hc Ht Hw); [|exact Hst|exact Hb].
  split; [|split; [|split]].
  - intros h p. cbn. unfold get_attribute, of_status. specialize (K1 h p). destruct (k_property K h p) as [|[]] eqn:Hk; [discriminate|now destruct K1|discriminate].
  - intros h. cbn. unfold get_attribute_map. specialize (K2 h). destruct (k_map K h MResp) as [[|]|] eqn:Hk; [now destruct K2|discriminate|discriminate].
  - intros h hs. cbn. unfold set_attribute_map, of_status. specialize (K3 h hs). destruct (k_setmap K h MResp hs) as [|[]] eqn:Hk; [discriminate|now destruct K3|discriminate].
  - intros src h a n. assert (Hr : read E src h a n = of_status (k_buffer K h match src with SrcReq => BReqBody | SrcResp => BRespBody end a n)) by now destruct src.
    rewrite Hr. unfold of_status. destruct (k_buffer K h _ a n) as [|[]] eqn:Hk; [discriminate| |discriminate]. exfalso. revert Hk. apply K4. now destruct src.
Qed.
Print Assumptions C123_settled_once_all_is_there_deployed.
(** a host with no attribute but the request's host: everything else is another error; the second call waits for the first *)
Definition Kx : host := mkHost (fun _ p => if path_eqb p [tx "request"; tx "host"] then HcOk (Some (tx "h")) else HcErr OtherStatus)
  (fun _ _ => HcErr OtherStatus) (fun _ _ _ => HcErr OtherStatus) (fun _ _ _ => HcErr OtherStatus) (fun _ _ _ => HcErr OtherStatus)
  (fun _ _ _ _ => HcErr OtherStatus) (fun l _ => HcOk (next_token l)) (fun _ _ _ _ => HcOk tt).
Definition Ex : env := deployed Kx Prop_Deploy.Dd (e_parse Ed (fun s => if text_eqb s (tx "msg") then Some (ALit (VStruct (tx "M") Prop_Deploy.req_m)) else parse_demo s)).
Example C123_deployed_ex : exists y,
  fresh_tokens Ex /\ try_from Ex (dcfg ex01) = Some (dfac Ex ex01) /\ serves Ex (dcfg ex01) (dfac Ex ex01) (set_of ex01) /\ later [] /\
  f_pipe (run Ex (dfac Ex ex01) []) <> None /\ ~ terminated (dlog Ex ex01 []) /\ has_action Ex (dcfg ex01) (set_of ex01) (nat_text 1) y /\
  clean_action Ex y /\ tidy_action Ex y /\ waiting (dlog Ex ex01 []) (nat_text 1) /\
  (forall h p, k_property Kx h p <> HcErr BadArgument) /\ (forall h, k_map Kx h MResp <> HcOk []) /\
  (forall h hs, k_setmap Kx h MResp hs <> HcErr BadArgument) /\ (forall h b a n, b <> BGrpc -> k_buffer Kx h b a n <> HcErr BadArgument) /\
  (forall x q, In x (awaited y) -> ~ stands Ex x q) /\ (forall x src f, In x (awaited y) -> ~ asks_for Ex src f x).
Proof.
  eexists. split; [intros l c k [= <-] H; apply next_token_above in H; lia|]. split; [vm_compute; reflexivity|]. split; [serve|]. split; [now intros []|]. split; [vm_compute; discriminate|].
  split; [intros (a & Ha); revert Ha; apply no_terminate; vm_compute; reflexivity|]. split; [acts 1|].
  split; [apply tidy_parsed; vm_compute; reflexivity|]. split; [apply tidy_parsed; vm_compute; reflexivity|]. split.
  { split; [intros Hi; vm_compute in Hi; intuition discriminate|]. split; [intros Hi; vm_compute in Hi; intuition discriminate|].
    intros k Hk. apply call_open_spec in Hk. vm_compute in Hk. destruct Hk as [Hk|[]]. discriminate. }
  split; [intros h p; cbn; destruct (path_eqb _ _); discriminate|]. split; [discriminate|]. split; [discriminate|]. split; [discriminate|]. split.
  - intros x q [<-|[<-|[]]] (e & [= <-] & Hm); inversion Hm; subst; try discriminate; match goal with H : sub _ _ |- _ => inversion H end.
  - intros x src f [<-|[<-|[]]] (e & [= <-] & Hm); inversion Hm; subst; try discriminate; try (now destruct src); match goal with H : sub _ _ |- _ => inversion H end.
Qed.
