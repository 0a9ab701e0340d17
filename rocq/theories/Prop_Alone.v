(** C126: what one request can do to the others of the same instance. *)
From Coq Require Import String List NArith ZArith Bool Lia Arith.
From Verif Require Import Base Value Headers AttrPath Ctx CelProps CelEval Sse Body Tasks Exec Config Legacy Blueprint Factory Filter Root
  P_Frame P_Apply P_Exec P_Run P_Inv P_Ids P_Plan P_Order P_Cfg P_Hist P_Grow P_Head P_Eff P_Rid P_Root Demo DemoCfg
  Prop_Order Prop_Guard Prop_Eff Prop_Rid.
From Verif Require Prop_Root.
Import ListNotations.
Open Scope list_scope.

(** * Specifications *)
(** what happens to the instance apart from the request [id] *)
Definition without (id : N) (h : list vin) : list vin :=
  filter (fun i => match i with VCreate j | VHttp j _ => negb (N.eqb j id) | _ => true end) h.
(** the id of a request: the first x-request-id header that the host shows, or a generated one *)
Definition id_in (E : env) (l : log) (rid : text) : Prop :=
  match h_map E l MReq with
  | HOk hc => first_value (tx "x-request-id") hc rid \/ ~ In (tx "x-request-id") (map fst hc) /\ rid = o_uuid E l
  | _ => rid = o_uuid E l
  end.
(** contexts share the CEL parser with the compiler *)
Definition one_parser (E : env) (Es : N -> env) : Prop := forall id, o_parse (Es id) = o_parse E /\ o_alpha (Es id) = o_alpha E.

(** * Lemmas: building *)
Record Q (E : env) (l : log) (c : ctx) : Prop := {
  q_log : c_log c = l;
  q_rid : c_rid c = None;
  q_hdr : forall v, cache_get p_req_headers c = Some v -> fetch E l p_req_headers = HOk v }.
Lemma Q_extf E l c c' : extf E c c' -> Q E l c -> Q E l c'.
Proof.
  intros [Hx Hn] [Q1 Q2 Q3]. constructor.
  - now rewrite (ext_log _ _ Hx).
  - now rewrite (ext_rid _ _ Hx).
  - intros v Hv. destruct (cache_get p_req_headers c) as [w|] eqn:Hw.
    + rewrite (ext_cached _ _ _ _ Hx Hw) in Hv. injection Hv as <-. now apply Q3.
    + destruct (Hn _ _ Hw Hv) as (q & K1 & K2). symmetry in K1. apply req_headers_key in K1. subst q. now rewrite <- Q1.
Qed.
Lemma Q_same E l c c' : c_log c' = c_log c -> c_rid c' = c_rid c -> c_cache c' = c_cache c -> Q E l c -> Q E l c'.
Proof. intros H1 H2 H3 [Q1 Q2 Q3]. constructor; [congruence|congruence|]. unfold cache_get in *. now rewrite H3. Qed.
Lemma to_core_dyn E l a : forall c, a_dyn a -> Q E l c -> exists t c', to_core E a c = Some (t, c') /\ Q E l c'.
Proof.
  induction a as [id p tm s var m rs d g IH|id p tm o d g Ho] using action_ind'; intros c Hd HQ.
  - rewrite to_core_grpc. cbn [a_dyn] in Hd. destruct Hd as [(k & sv & ->) Hd]. apply a_dyn_go in Hd.
    assert (K : forall c, Q E l c -> exists ts c1, to_cores E rs c = Some (ts, c1) /\ Q E l c1).
    { clear -IH Hd. induction IH as [|r rs Hr _ IH]; intros c HQ; simpl; [eauto|]. inversion Hd; subst.
      destruct (Hr c) as (t1 & c2 & -> & Q2); auto. destruct (IH H2 c2 Q2) as (ts & c3 & -> & Q3). eauto. }
    destruct (K c HQ) as (ts & c1 & -> & Q1). do 2 eexists. split; [reflexivity|]. eapply Q_extf; [apply warm_extf|exact Q1].
  - destruct o; simpl; try (do 2 eexists; split; [reflexivity|]; revert HQ; now apply Q_same). edestruct Ho; reflexivity.
Qed.
Lemma action_tasks_dyn E l rd tr a c : a_dyn a -> Q E l c -> exists ts tds c', action_tasks E rd tr a c = Some (ts, tds, c') /\ Q E l c'.
Proof.
  intros Hd HQ. destruct (to_core_dyn E l a c Hd HQ) as (t & c' & Ht & Q1). unfold action_tasks. rewrite Ht.
  destruct a as [id p tm op d g]. cbn [a_op]. destruct op as [s v m rs|x|x y|x y z|]; try (do 3 eexists; split; [reflexivity|exact Q1]).
  cbn [a_dyn] in Hd. destruct Hd as [(k & sv & ->) _]. do 3 eexists; split; [reflexivity|exact Q1].
Qed.
Lemma actions_tasks_dyn E l rd tr l1 l2 : forall c, Forall a_dyn l1 -> Q E l c -> actions_tasks E rd tr (l1 ++ l2) c = None ->
  exists c1, actions_tasks E rd tr l2 c1 = None /\ Q E l c1.
Proof.
  induction l1 as [|a l1 IH]; intros c Hd HQ; cbn [app actions_tasks]; [eauto|]. inversion Hd; subst.
  destruct (action_tasks_dyn E l rd tr a c) as (ts & tds & c1 & -> & Q1); auto.
  destruct (actions_tasks E rd tr (l1 ++ l2) c1) as [[[? ?] ?]|] eqn:Hx; [discriminate|]. intros _. eauto.
Qed.
Lemma h_get_absent n h : h_get n h = None -> ~ In n (map fst h).
Proof.
  unfold h_get. intros H Hi. apply in_map_iff in Hi as ([k v] & Hk & Hi). cbn in Hk. subst k.
  destruct (find _ h) as [kv|] eqn:Hf; [discriminate|]. apply (find_none _ _ Hf) in Hi. cbn in Hi. now rewrite text_eqb_refl in Hi.
Qed.
Lemma h_get_first n v h : h_get n h = Some v -> first_value n h v.
Proof.
  unfold h_get, first_value. induction h as [|[k w] h IH]; cbn; [discriminate|]. destruct (text_eqb k n) eqn:He.
  - apply text_eqb_eq in He. subst k. intros [= <-]. exists [], h. split; [reflexivity|easy].
  - intros H. destruct (IH H) as (h1 & h2 & -> & Hn). exists ((k, w) :: h1), h2. split; [reflexivity|]. cbn. intros [->|Hi]; [now rewrite text_eqb_refl in He|easy].
Qed.
Lemma request_id_in E l c r c' : Q E l c -> request_id E c = (r, c') -> id_in E l r.
Proof.
  intros HQ. unfold request_id. rewrite (q_rid _ _ _ HQ). destruct (read_headers E p_req_headers c) as [r1 c1] eqn:Hr.
  pose proof (read_headers_ext _ _ _ _ _ Hr) as Hx. pose proof (ext_log _ _ Hx) as Hl. rewrite (q_log _ _ _ HQ) in Hl.
  assert (Hf : match h_map E l MReq with HOk hc => r1 = RAvail hc | _ => forall hc, r1 <> RAvail hc end).
  { assert (F : fetch E l p_req_headers = match h_map E l MReq with HOk h => HOk (CHeaders h) | _ => HErr end) by reflexivity.
    unfold read_headers, read_attr in Hr. destruct (cache_get p_req_headers c) as [v|] eqn:Hc.
    - apply (q_hdr _ _ _ HQ) in Hc. rewrite F in Hc. destruct (h_map E l MReq) as [h| |]; [|discriminate|discriminate]. injection Hc as <-. now injection Hr as <- _.
    - rewrite (q_log _ _ _ HQ), F in Hr. destruct (h_map E l MReq) as [h| |]; injection Hr as <- _; [reflexivity|easy|easy]. }
  unfold id_in. destruct (h_map E l MReq) as [hc| |].
  - subst r1. destruct (h_get _ hc) as [id|] eqn:Hg; intros [= <- _].
    + left. now apply h_get_first.
    + right. split; [now apply h_get_absent|now rewrite Hl].
  - destruct r1 as [|h|]; [|now destruct (Hf h)|]; intros [= <- _]; now rewrite Hl.
  - destruct r1 as [|h|]; [|now destruct (Hf h)|]; intros [= <- _]; now rewrite Hl.
Qed.
Lemma dev_panics E l rd tr cfg svs c : Q E l c -> actions_tasks E rd tr (cfg_dev svs cfg) c = None ->
  exists n rid, cfg_track svs cfg = Some n /\ id_in E l rid /\ parse_expr E (tracker_src n rid) = None.
Proof.
  intros HQ. unfold cfg_dev, cfg_track. destruct (pc_identifier cfg) as [n|]; cbn [actions_tasks]; [|discriminate].
  destruct (cfg_tracing svs cfg) as [k sv|o] eqn:Hc.
  - destruct (action_tasks_dyn E l rd tr (dev_action (IDyn k sv) n) c) as (ts & tds & c1 & -> & Q1); [cbn; split; [eauto|exact Logic.I]|exact HQ|discriminate].
  - destruct (action_tasks E rd tr (dev_action (ITrace o) n) c) as [[[? ?] ?]|] eqn:H1; [discriminate|]. intros _.
    unfold action_tasks, dev_action in H1. cbn [a_op] in H1. rewrite to_core_grpc in H1. cbn [to_cores] in H1. cbv zeta in H1.
    destruct (request_id E (with_track c (Some n))) as [rid c3] eqn:Hr. exists n, rid. split; [reflexivity|].
    split; [eapply request_id_in; [|exact Hr]; revert HQ; now apply Q_same|]. destruct (parse_expr E (tracker_src n rid)); [|reflexivity]. destruct o; discriminate.
Qed.
Lemma build_panics E cfg fa l c : try_from E cfg = Some fa -> build E fa (ctx0 l) = BPanic c ->
  exists n rid, tracker_name cfg = Some n /\ id_in E l rid /\ parse_expr E (dev_text n rid) = None.
Proof.
  intros Hf. unfold build. destruct (select E fa (ctx0 l)) as [[[b|]|] c1] eqn:Hs; try discriminate.
  destruct (read_headers E p_req_headers c1) as [r c2] eqn:Hr. cbn [snd].
  destruct (to_tasks E _ b c2) as [[[ts tds] c3]|] eqn:Ht; [now destruct ts|]. intros _.
  assert (HQ : Q E l c2).
  { eapply Q_extf; [eapply read_headers_extf; exact Hr|]. eapply Q_extf; [eapply select_extf; exact Hs|]. constructor; try reflexivity. discriminate. }
  destruct (select_served _ _ _ _ _ _ Hf Hs) as (svs & Hsv & Hb). rewrite <- (track_name cfg svs Hsv). unfold to_tasks in Ht.
  destruct Hb as [s bp Hin Hcs|h Hh]; cbn [bp_actions] in Ht.
  - apply (actions_tasks_dyn E l) in Ht as (c3 & Ht & Q3); [|eapply compile_set_dyn; eauto|exact HQ]. exact (dev_panics _ _ _ _ _ _ _ Q3 Ht).
  - exact (dev_panics _ _ _ _ _ _ _ HQ Ht).
Qed.
Lemma empty_never E l c : build E factory0 (ctx0 l) <> BPanic c.
Proof. unfold build, select. cbn [factory0 fa_index fa_fallback]. destruct (get_hostname E (ctx0 l)) as [[h|] c1]; [|discriminate]. destruct (reverse_subdomain h); discriminate. Qed.

(** a callback that ends the instance *)
Lemma fstep_dies E fa f i : f_dead f = false -> f_dead (fstep E fa f i) = true ->
  i = InReqHeaders /\
  ((exists c, build E fa (ctx0 (EvReqHeaders :: f_log f)) = BErr c) /\ h_reply E (EvMetric MErrors :: EvReqHeaders :: f_log f) 500 [] (Some ise_body) = false \/
   exists c, build E fa (ctx0 (EvReqHeaders :: f_log f)) = BPanic c).
Proof.
  intros Hd H.
  assert (Hi : i = InReqHeaders).
  { destruct i; [reflexivity| | | |]; exfalso; (destruct (f_pipe f) as [p|] eqn:Hp;
    [match type of H with f_dead (fstep _ _ _ ?i) = _ => destruct (callback E fa f i p Hd Hp) as (_ & _ & K & _); [discriminate|congruence] end
    |match type of H with f_dead (fstep _ _ _ ?i) = _ => destruct (no_pipe_callback E fa f i Hd Hp) as (_ & _ & K & _); [discriminate|congruence] end]). }
  subst i. split; [reflexivity|]. unfold fstep in H. rewrite Hd in H. unfold on_req_headers in H. cbn [f_emit f_log ev_of] in H.
  pose proof (build_spec E fa (ctx0 (EvReqHeaders :: f_log f))) as Hs.
  destruct (build E fa (ctx0 (EvReqHeaders :: f_log f))) as [p|c|c|c].
  - exfalso. unfold f_ret in H. cbn [f_emit f_dead] in H. match type of H with f_dead (f_state ?s ?f) = _ => destruct (state_resp s f) as (_ & _ & K); rewrite K in H end. cbn in H. congruence.
  - exfalso. cbn in H. congruence.
  - left. destruct Hs as [Hs _]. cbn in Hs. cbn [f_log f_pipe f_resp f_force f_dead f_emit] in H. rewrite Hs in H. split; [eauto|].
    destruct (h_reply E _ 500 [] (Some ise_body)); [cbn in H; congruence|reflexivity].
  - right. eauto.
Qed.

(** * Lemmas: the instance *)
Lemma contexts_alive R E Es h : v_dead (vrun R E Es h) = false -> forall id fa f, aget N.eqb id (v_ctxs (vrun R E Es h)) = Some (fa, f) ->
  f_dead f = false /\ (fa = factory0 \/ exists cfg, In (VConfigure (Some cfg)) h /\ try_from E cfg = Some fa).
Proof.
  induction h as [|i h IH] using rev_ind; [discriminate|]. intros Hd id fa f. pose proof (Prop_Root.alive_before _ _ _ _ _ Hd) as Hd'. specialize (IH Hd').
  assert (IH' : forall id fa f, aget N.eqb id (v_ctxs (vrun R E Es h)) = Some (fa, f) ->
    f_dead f = false /\ (fa = factory0 \/ exists cfg, In (VConfigure (Some cfg)) (h ++ [i]) /\ try_from E cfg = Some fa)).
  { intros id0 fa0 f0 H0. destruct (IH _ _ _ H0) as [A [B|(cfg & B & C)]]; (split; [exact A|]); [now left|right; exists cfg; split; [apply in_or_app; now left|exact C]]. }
  rewrite vrun_snoc in *. pose proof (Prop_Root.factory_in_force R E Es h Hd') as Hff. set (v := vrun R E Es h) in *. unfold vstep in *. rewrite Hd' in *.
  destruct i as [c| |t s z|id'|id' j]; cbn [v_ctxs]; try apply IH'.
  - destruct (N.eqb_spec id id') as [->|Hne].
    + rewrite (aget_aset_same N.eqb N_eqb_eq'). intros [= <- <-]. split; [reflexivity|]. destruct Hff as [h0 cfg h3 fa0 Ht _|h0 _]; [right|now left].
      exists cfg. split; [|exact Ht]. apply in_or_app. left. apply in_or_app. right. now left.
    + rewrite (aget_aset_other N.eqb N_eqb_eq') by exact Hne. apply IH'.
  - destruct (aget N.eqb id' (v_ctxs v)) as [[fa' f']|] eqn:Hg; [|apply IH']. cbn [v_ctxs v_dead] in *. destruct (N.eqb_spec id id') as [->|Hne].
    + rewrite (aget_aset_same N.eqb N_eqb_eq'). intros [= <- <-]. split; [exact Hd|]. now apply (IH' _ _ _ Hg).
    + rewrite (aget_aset_other N.eqb N_eqb_eq') by exact Hne. apply IH'.
Qed.
Lemma without_app id h1 h2 : without id (h1 ++ h2) = without id h1 ++ without id h2.
Proof. apply filter_app. Qed.

(** * C126 *)
(** As long as the instance lives, a request makes no difference to the others, nor to the
    descriptors and the configuration: they are what they would be without it. *)
Theorem C126_requests_do_not_see_each_other R E Es h id :
  v_dead (vrun R E Es h) = false ->
  v_dead (vrun R E Es (without id h)) = false /\ v_root (vrun R E Es (without id h)) = v_root (vrun R E Es h) /\
  forall id', id' <> id -> aget N.eqb id' (v_ctxs (vrun R E Es (without id h))) = aget N.eqb id' (v_ctxs (vrun R E Es h)).
Proof.
  induction h as [|i h IH] using rev_ind; [now repeat split|]. intros Hd. pose proof (Prop_Root.alive_before _ _ _ _ _ Hd) as Hd'.
  destruct (IH Hd') as (A & B & C). clear IH. rewrite without_app, vrun_app. rewrite vrun_snoc in *.
  set (v := vrun R E Es h) in *. set (w := vrun R E Es (without id h)) in *. unfold vstep in *. rewrite Hd' in *.
  destruct i as [c| |t s z|id0|id0 j]; cbn [without filter fold_left v_dead v_root v_ctxs] in *; rewrite ?A, ?B; cbn [v_dead v_root v_ctxs]; try now repeat split.
  - destruct (N.eqb_spec id0 id) as [->|Hne]; cbn [negb fold_left].
    + repeat split; [exact A|exact B|]. intros id' Hne. rewrite (aget_aset_other N.eqb N_eqb_eq') by exact Hne. auto.
    + rewrite A. cbn [v_dead v_root v_ctxs]. rewrite B. repeat split. intros id' Hne'. destruct (N.eqb_spec id' id0) as [->|Hn].
      * now rewrite !(aget_aset_same N.eqb N_eqb_eq').
      * rewrite !(aget_aset_other N.eqb N_eqb_eq') by exact Hn. auto.
  - destruct (N.eqb_spec id0 id) as [->|Hne]; cbn [negb fold_left].
    + destruct (aget N.eqb id (v_ctxs v)) as [[fa f]|]; cbn [v_root v_ctxs]; (split; [exact A|split; [exact B|]]); [|exact C].
      intros id' Hne. rewrite (aget_aset_other N.eqb N_eqb_eq') by exact Hne. auto.
    + rewrite A, (C _ Hne). destruct (aget N.eqb id0 (v_ctxs v)) as [[fa f]|]; cbn [v_root v_ctxs v_dead] in *; [|now repeat split].
      split; [exact Hd|]. split; [exact B|]. intros id' Hne'. destruct (N.eqb_spec id' id0) as [->|Hn].
      * now rewrite !(aget_aset_same N.eqb N_eqb_eq').
      * rewrite !(aget_aset_other N.eqb N_eqb_eq') by exact Hn. auto.
Qed.
Print Assumptions C126_requests_do_not_see_each_other.

(** What can end an instance, and with it all its requests: the start of a request for which the
    host refuses even the 500 reply, or for which dev mode cannot read the text it made of the
    tracker's name and the request's id. *)
Theorem C126_what_ends_an_instance R E Es h i :
  one_parser E Es -> v_dead (vrun R E Es h) = false -> v_dead (vrun R E Es (h ++ [i])) = true ->
  exists id fa f, i = VHttp id InReqHeaders /\ aget N.eqb id (v_ctxs (vrun R E Es h)) = Some (fa, f) /\
    (h_reply (Es id) (EvMetric MErrors :: EvReqHeaders :: f_log f) 500 [] (Some ise_body) = false \/
     exists cfg n rid, In (VConfigure (Some cfg)) h /\ tracker_name cfg = Some n /\ id_in (Es id) (EvReqHeaders :: f_log f) rid /\
       parse_expr (Es id) (dev_text n rid) = None).
Proof.
  intros Hp Hd. pose proof (contexts_alive R E Es h Hd) as Hal. rewrite vrun_snoc. unfold vstep. rewrite Hd.
  destruct i as [c| |t s z|id|id j]; cbn [v_dead]; try discriminate.
  destruct (aget N.eqb id (v_ctxs (vrun R E Es h))) as [[fa f]|] eqn:Hg; [|congruence]. cbn [v_dead]. destruct (Hal _ _ _ Hg) as [Hf Hfa].
  intros H. apply fstep_dies in H as [-> H]; [|exact Hf]. exists id, fa, f. split; [reflexivity|]. split; [exact Hg|].
  destruct H as [[_ H]|(c & H)]; [now left|]. right. destruct Hfa as [->|(cfg & Hc & Ht)]; [now apply empty_never in H|].
  destruct (Hp id) as [P1 P2]. rewrite <- (Prop_Root.try_from_ext E (Es id) P1 P2) in Ht. apply (build_panics _ cfg) in H as (n & rid & K); [|exact Ht].
  exists cfg, n, rid. easy.
Qed.
Print Assumptions C126_what_ends_an_instance.

(** So an instance survives all its requests if the host takes replies and if the names of
    trackers and the ids of requests can stand in quotes. *)
Theorem C126_instances_survive_requests_partial R E Es h :
  one_parser E Es -> (forall id, reads_literals (Es id)) ->
  (forall id l, h_reply (Es id) l 500 [] (Some ise_body) = true) ->
  (forall cfg n, In (VConfigure (Some cfg)) h -> tracker_name cfg = Some n -> literal_text n /\ forall id l rid, id_in (Es id) l rid -> literal_text rid) ->
  v_dead (vrun R E Es h) = false.
Proof.
  intros Hp Hl Hr. induction h as [|i h IH] using rev_ind; [reflexivity|]. intros Hn.
  assert (Hd : v_dead (vrun R E Es h) = false). { apply IH. intros cfg n Hc. apply (Hn cfg n). apply in_or_app. now left. }
  destruct (v_dead (vrun R E Es (h ++ [i]))) eqn:Hx; [exfalso|reflexivity].
  destruct (C126_what_ends_an_instance R E Es h i Hp Hd Hx) as (id & fa & f & _ & _ & [H|(cfg & n & rid & H1 & H2 & H3 & H4)]); [now rewrite Hr in H|].
  destruct (Hn cfg n) as [K1 K2]; [apply in_or_app; now left|exact H2|]. destruct (Hl id n rid K1 (K2 _ _ _ H3)) as (x & Hpx & _). congruence.
Qed.
Print Assumptions C126_instances_survive_requests_partial.

(** * Examples *)
(** request 1 sends [a], request 2 sends [b] *)
Definition Ev (a b : string) (id : N) : env := if N.eqb id 1 then Eq a else Eq b.
Definition rune (a b : string) (h : list vin) : vm := vrun Prop_Root.Rd (Eq "x") (Ev a b) h.
Definition ex126 : list action_cfg := [dcall "hard" false []].
Definition start2 : list vin := [VConfigure (Some (tcfg ex126)); VCreate 2; VHttp 2 InReqHeaders; VCreate 1].
Definition log_of (id : N) (v : vm) : option log := option_map (fun p => f_log (snd p)) (aget N.eqb id (v_ctxs v)).
Lemma e_map_same E f : o_parse (e_map E f) = o_parse E /\ o_alpha (e_map E f) = o_alpha E /\ h_reply (e_map E f) = h_reply E /\ h_map (e_map E f) = f.
Proof. destruct E. repeat split. Qed.
Lemma e_parse_same E f : o_parse (e_parse E f) = f /\ o_alpha (e_parse E f) = o_alpha E /\ h_reply (e_parse E f) = h_reply E.
Proof. destruct E. repeat split. Qed.
Lemma Eq_parse a : o_parse (Eq a) = parse_pairs.
Proof. unfold Eq. rewrite (proj1 (e_map_same _ _)). apply e_parse_same. Qed.
Lemma Eq_alpha a : o_alpha (Eq a) = o_alpha Et.
Proof. unfold Eq. rewrite (proj1 (proj2 (e_map_same _ _))). apply e_parse_same. Qed.
Lemma Eq_reply a : h_reply (Eq a) = h_reply Et.
Proof. unfold Eq. rewrite (proj1 (proj2 (proj2 (e_map_same _ _)))). apply e_parse_same. Qed.
Lemma Eq_map a l : h_map (Eq a) l MReq = HOk [(tx "x-request-id", tx a)].
Proof. unfold Eq. now rewrite (proj2 (proj2 (proj2 (e_map_same _ _)))). Qed.
Lemma Ev_all (P : env -> Prop) a b : P (Eq a) -> P (Eq b) -> forall id, P (Ev a b id).
Proof. intros H1 H2 id. unfold Ev. destruct (N.eqb id 1); assumption. Qed.
Lemma ev_parser a b : one_parser (Eq "x") (Ev a b).
Proof.
  unfold one_parser. rewrite Eq_parse, Eq_alpha. apply (Ev_all (fun E => o_parse E = parse_pairs /\ o_alpha E = o_alpha Et)); (split; [apply Eq_parse|apply Eq_alpha]).
Qed.
Lemma ev_reply a b : forall id l st hd bd, h_reply (Ev a b id) l st hd bd = true.
Proof. apply (Ev_all (fun E => forall l st hd bd, h_reply E l st hd bd = true)); intros; rewrite Eq_reply; reflexivity. Qed.
Lemma plain_id s : forallb (fun c => negb (Ascii.eqb c quote) && negb (Ascii.eqb c backslash)) s = true -> literal_text s.
Proof.
  intros H. rewrite forallb_forall in H. split; intros Hi; apply H in Hi; rewrite Ascii.eqb_refl in Hi; [discriminate|now rewrite andb_false_r in Hi].
Qed.
Lemma ev_ids a b : literal_text (tx a) -> literal_text (tx b) -> forall id l rid, id_in (Ev a b id) l rid -> literal_text rid.
Proof.
  intros Ha Hb. apply (Ev_all (fun E => forall l rid, id_in E l rid -> literal_text rid)); intros l rid; unfold id_in; rewrite Eq_map;
    (intros [H|[Hn _]]; [apply first_value_get in H; cbn in H; injection H as <-; assumption|destruct Hn; now left]).
Qed.
(** two requests with ids that can stand in quotes *)
Example C126_survive_ex : one_parser (Eq "x") (Ev "a" "b") /\ (forall id, reads_literals (Ev "a" "b" id)) /\
  (forall id l, h_reply (Ev "a" "b" id) l 500 [] (Some ise_body) = true) /\
  tracker_name (tcfg ex126) = Some (tx "x-id") /\ literal_text (tx "x-id") /\ (forall id l rid, id_in (Ev "a" "b" id) l rid -> literal_text rid) /\
  try_from (Eq "x") (tcfg ex126) <> None /\
  v_dead (rune "a" "b" (start2 ++ [VHttp 1 InReqHeaders; VHttp 2 (InGrpc 0 0 0)])) = false /\
  log_of 2 (rune "a" "b" (start2 ++ [VHttp 1 InReqHeaders; VHttp 2 (InGrpc 0 0 0)])) =
    log_of 2 (rune "a" "b" (without 1 (start2 ++ [VHttp 1 InReqHeaders; VHttp 2 (InGrpc 0 0 0)]))) /\
  without 1 (start2 ++ [VHttp 1 InReqHeaders; VHttp 2 (InGrpc 0 0 0)]) =
    [VConfigure (Some (tcfg ex126)); VCreate 2; VHttp 2 InReqHeaders; VHttp 2 (InGrpc 0 0 0)].
Proof.
  split; [apply ev_parser|]. split; [apply Ev_all; apply literals_read|].
  split; [intros; apply ev_reply|]. split; [reflexivity|]. split; [now apply plain_id|].
  split; [apply ev_ids; now apply plain_id|]. vm_compute. repeat split. discriminate.
Qed.
(** Without that condition it is false: one request whose id has a quote ends the instance, and
    the answer that another request waits for is lost; without that request it arrives. *)
Theorem C126_quoted_id_ends_all_requests_refuted : exists R E Es cfg h id id' rid ev l,
  one_parser E Es /\ (forall id l st hd b, h_reply (Es id) l st hd b = true) /\ tracker_name cfg <> None /\ id <> id' /\
  h = [VConfigure (Some cfg); VCreate id'; VHttp id' InReqHeaders; VCreate id] /\ v_dead (vrun R E Es h) = false /\
  id_in (Es id) [EvReqHeaders] rid /\ In quote rid /\
  v_dead (vrun R E Es (h ++ [VHttp id InReqHeaders])) = true /\
  log_of id' (vrun R E Es h) = Some l /\
  log_of id' (vrun R E Es (h ++ [VHttp id InReqHeaders; VHttp id' ev])) = Some l /\
  ~ In EvResumeReq l /\ exists l', log_of id' (vrun R E Es (without id (h ++ [VHttp id InReqHeaders; VHttp id' ev]))) = Some (EvResumeReq :: l').
Proof.
  exists Prop_Root.Rd, (Eq "x"), (Ev "a'b" "b"), (tcfg ex126), start2, 1%N, 2%N, (tx "a'b"), (InGrpc 0 0 0),
    (match log_of 2 (rune "a'b" "b" start2) with Some l => l | None => [] end).
  split; [apply ev_parser|]. split; [apply ev_reply|]. split; [discriminate|]. split; [discriminate|]. split; [reflexivity|]. split; [vm_compute; reflexivity|].
  split; [left; exists [], []; split; [reflexivity|easy]|]. split; [right; now left|]. split; [vm_compute; reflexivity|]. split; [vm_compute; reflexivity|].
  split; [vm_compute; reflexivity|]. split; [vm_compute; intuition discriminate|].
  exists (match log_of 2 (rune "a'b" "b" (without 1 (start2 ++ [VHttp 1 InReqHeaders; VHttp 2 (InGrpc 0 0 0)]))) with Some l => tl l | None => [] end). vm_compute. reflexivity.
Qed.
Print Assumptions C126_quoted_id_ends_all_requests_refuted.
(** ... and it ends as [C126_what_ends_an_instance] says *)
Example C126_ends_ex : one_parser (Eq "x") (Ev "a'b" "b") /\ v_dead (rune "a'b" "b" start2) = false /\
  v_dead (rune "a'b" "b" (start2 ++ [VHttp 1 InReqHeaders])) = true /\ parse_expr (Ev "a'b" "b" 1) (dev_text (tx "x-id") (tx "a'b")) = None.
Proof. split; [apply ev_parser|]. vm_compute. repeat split. Qed.
