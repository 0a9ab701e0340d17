(** C31, C33: who sees the reply of a call, and which paths are reserved. *)
From Coq Require Import String List NArith ZArith Bool Lia Arith Permutation.
From Verif Require Import Base Value Headers AttrPath Ctx CelProps CelEval Sse Body Tasks Exec Config Legacy Blueprint Factory Filter
  P_Frame P_Apply P_Exec P_Run P_Inv P_Ids P_Plan P_Deps P_Order P_Term P_Bar P_Cfg P_Hist P_Grow P_Wake P_Fail P_Told P_Eff P_Rid P_Scope P_Blind P_Eval P_Props Demo DemoCfg
  Prop_Order Prop_Term Prop_Guard Prop_Wake Prop_Fail Prop_Know Prop_Eff.
Import ListNotations.
Open Scope list_scope.

(** * C31 *)
(** In every state a request goes through, the variables visible to an action are exactly the replies
    its own call and the calls it is nested in have received: no others, whatever the ids look like. *)
Theorem C31_reply_is_visible_exactly_to_its_scope E cfg fa s ts p b y :
  serves E cfg fa s -> goes E fa ts p -> has_action E cfg s b y ->
  forall n v, visible b n v (p_ctx p) <-> exists a x, answers E cfg s (c_log (p_ctx p)) b y a x n v.
Proof.
  intros Hs Hr (svs & Hsv & Hy) n v. rewrite visible_bound. split.
  - intros (a & Ha & Hb). apply (bound_replies _ _ _ _ _ _ Hs Hr) in Hb as (x & pr & tm & g & sq & service & msg & r & rs & svs' & k & sv & (svs2 & Hsv2 & Hx) & -> & Hsv' & Hk & Hg).
    exists a, (mkT pr tm g sq (OpGrpc n service msg (r :: rs))). assert (svs2 = svs) as -> by congruence. split; [now exists svs|]. split; [now apply (configured_below _ _ _ _ _ _ _ Hx Hy)|].
    exists pr, tm, g, sq, service, msg, r, rs, svs', k, sv. auto.
  - intros (a & x & Hx & Hw & pr & tm & g & sq & service & msg & r & rs & svs' & k & sv & -> & Hsv' & Hk & Hg). exists a. split; [now apply within_below in Hw|].
    apply (bound_replies _ _ _ _ _ _ Hs Hr). exists (mkT pr tm g sq (OpGrpc n service msg (r :: rs))), pr, tm, g, sq, service, msg, r, rs, svs', k, sv. auto.
Qed.
Print Assumptions C31_reply_is_visible_exactly_to_its_scope.
(** If several enclosing calls use the same name, the reply of the innermost one is what the name means. *)
Theorem C31_innermost_reply_wins E cfg fa s ts p b y n v :
  serves E cfg fa s -> goes E fa ts p -> has_action E cfg s b y ->
  tget n (scope_vars b (p_ctx p)) = Some v ->
  exists a x, answers E cfg s (c_log (p_ctx p)) b y a x n v /\
    forall a' x' v', answers E cfg s (c_log (p_ctx p)) b y a' x' n v' -> within a' x' a x.
Proof. apply innermost_reply. Qed.
Print Assumptions C31_innermost_reply_wins.
(** Replies of other calls make no difference at all: dropping them (whatever [keep] drops, as long as
    it keeps the replies of the calls that enclose the action), an evaluation of the action does the
    same: same outcome, same effects, same state up to those replies. *)
Theorem C31_other_replies_make_no_difference E cfg fa s ts p b y keep t :
  serves E cfg fa s -> goes E fa ts p -> has_action E cfg s b y -> t_id t = b ->
  (forall a x, has_action E cfg s a x -> within a x b y -> keep a = true) ->
  match core t with TPending _ _ _ _ _ => False | _ => True end ->
  let binds := filter (fun ab => keep (fst ab)) (c_binds (p_ctx p)) in
  step E t (with_binds (p_ctx p) binds) = (fst (step E t (p_ctx p)), with_binds (snd (step E t (p_ctx p))) binds).
Proof.
  intros Hs Hr (svs & Hsv & Hy) Hid Hk Hc binds. apply step_wb; [exact Hc|]. unfold same_view, scope_vars. f_equal. rewrite Hid.
  change (c_binds (with_binds (p_ctx p) binds)) with binds. unfold binds.
  assert (K : forall a bs, In (a, bs) (c_binds (p_ctx p)) -> is_ancestor a b = true -> keep a = false -> bs = []).
  { intros a [|[n v] bs] Hi Ha Hf; [reflexivity|]. exfalso. apply is_ancestor_below in Ha.
    assert (Hb : bound a n v (c_binds (p_ctx p))) by (exists ((n, v) :: bs); split; [exact Hi|now left]).
    apply (bound_replies _ _ _ _ _ _ Hs Hr) in Hb as (x & pr & tm & g & sq & service & msg & r & rs & svs' & k & sv & Hx & _).
    rewrite (Hk a x Hx) in Hf; [discriminate|]. destruct Hx as (svs2 & Hsv2 & Hx). assert (svs2 = svs) as -> by congruence. now apply (configured_below _ _ _ _ _ _ _ Hx Hy). }
  induction (c_binds (p_ctx p)) as [|[a bs] l IH]; [reflexivity|]. cbn [filter fst]. 
  assert (IH' := IH (fun a' bs' Hi => K a' bs' (or_intror Hi))).
  destruct (keep a) eqn:Hka; cbn [flat_map fst snd]; rewrite IH'; [reflexivity|].
  destruct (is_ancestor a b) eqn:Ha; [|reflexivity]. now rewrite (K a bs (or_introl eq_refl) Ha Hka).
Qed.
Print Assumptions C31_other_replies_make_no_difference.

(** * C33 *)
(** the store actions a task still stands for: itself, or any nested in its reply actions *)
Inductive will_store : task -> text -> Prop :=
| ws_store id pr ex path export tm bs : will_store (TStore id pr ex path export tm bs) path
| ws_call id sv var msg rs pr ds g r path : In r rs -> will_store r path -> will_store (TDynamic id sv var msg rs pr ds g) path
| ws_pending id sv var rs g r path : In r rs -> will_store r path -> will_store (TPending id sv var rs g) path
| ws_failure t abort path : will_store t path -> will_store (TFailureMode t abort) path
| ws_tracing t path : will_store t path -> will_store (TTracing t) path.
(** tasks being processed, queued, or waiting for a response *)
Definition live_task (ts : list task) (p : pipe) (t : task) : Prop := In t ts \/ In t (p_queue p) \/ exists k, In (k, t) (p_def p).

Lemma will_store_node t path : will_store t path <-> exists id pr ex export tm, In (NStore id pr ex path export tm) (nodes t).
Proof.
  split.
  - induction 1 as [id pr ex path export tm bs|id sv var msg rs pr ds g r path Hi _ (i & p & e & x & tm & IH)|id sv var rs g r path Hi _ (i & p & e & x & tm & IH)|t abort path _ IH|t path _ IH];
      [exists id, pr, ex, export, tm; now left| | |exact IH|exact IH]; exists i, p, e, x, tm; cbn [nodes]; rewrite nodes_go; [right; right|right]; apply in_flat_map; eauto.
  - revert path. revert t.
    refine (fix go t := match t with
      | TDynamic id sv var msg rs pr ds g => _ | TPending id sv var rs g => _
      | TFailureMode t' _ => _ | TTracing t' => _ | TStore id pr ex p ex' tm bs => _ | _ => _ end); intros path (i' & p' & e' & x' & tm' & H); cbn [nodes] in H; try (now destruct H as [[=]|[]]); try easy.
    + rewrite nodes_go in H. destruct H as [[=]|[[=]|H]].
      assert (K : exists r, In r rs /\ will_store r path); [|destruct K as (r & K1 & K2); eapply ws_call; eauto].
      induction rs as [|r rs IH]; [easy|]. unfold nodess in H. cbn [flat_map] in H. apply in_app_or in H as [H|H].
      * exists r. split; [now left|]. apply go. eauto 6.
      * destruct (IH H) as (r' & H1 & H2). exists r'. split; [now right|exact H2].
    + rewrite nodes_go in H. destruct H as [[=]|H].
      assert (K : exists r, In r rs /\ will_store r path); [|destruct K as (r & K1 & K2); eapply ws_pending; eauto].
      induction rs as [|r rs IH]; [easy|]. unfold nodess in H. cbn [flat_map] in H. apply in_app_or in H as [H|H].
      * exists r. split; [now left|]. apply go. eauto 6.
      * destruct (IH H) as (r' & H1 & H2). exists r'. split; [now right|exact H2].
    + constructor. apply go. eauto 6.
    + constructor. apply go. eauto 6.
    + destruct H as [H|[]]. injection H as _ _ _ -> _ _. constructor.
Qed.
Lemma will_store_paths t path : will_store t path <-> In path (t_paths t).
Proof.
  split.
  - induction 1; cbn [t_paths]; try (now left); try assumption.
    + induction rs as [|r' rs IH]; [easy|]. apply in_or_app. destruct H as [<-|H]; [now left|]. right. now apply IH.
    + induction rs as [|r' rs IH]; [easy|]. apply in_or_app. destruct H as [<-|H]; [now left|]. right. now apply IH.
  - revert path. revert t.
    refine (fix go t := match t with
      | TDynamic id sv var msg rs pr ds g => _ | TPending id sv var rs g => _
      | TFailureMode t' _ => _ | TTracing t' => _ | TStore id pr ex p ex' tm bs => _ | _ => _ end); intros path H; cbn [t_paths] in H; try easy.
    + assert (K : exists r, In r rs /\ will_store r path); [|destruct K as (r & K1 & K2); eapply ws_call; eauto].
      induction rs as [|r rs IH]; [easy|]. apply in_app_or in H as [H|H]; [exists r; split; [now left|now apply go]|].
      destruct (IH H) as (r' & H1 & H2). exists r'. split; [now right|exact H2].
    + assert (K : exists r, In r rs /\ will_store r path); [|destruct K as (r & K1 & K2); eapply ws_pending; eauto].
      induction rs as [|r rs IH]; [easy|]. apply in_app_or in H as [H|H]; [exists r; split; [now left|now apply go]|].
      destruct (IH H) as (r' & H1 & H2). exists r'. split; [now right|exact H2].
    + constructor. now apply go.
    + constructor. now apply go.
    + destruct H as [<-|[]]. constructor.
Qed.
Lemma goes_R E cfg fa ts p : try_from E cfg = Some fa -> goes E fa ts p -> R ts p.
Proof. intros Hf. apply (reach_inv _ _ _ _ (R_finv E)). intros q Hb. eapply R_start; eauto. Qed.
Lemma live_items ts p t : live_task ts p t <-> In t (items ts p).
Proof.
  unfold live_task, items, dts. rewrite !in_app_iff, in_map_iff. split.
  - intros [H|[H|(k & H)]]; auto. right. right. now exists (k, t).
  - intros [H|[H|((k & t') & <- & H)]]; auto. right. right. now exists k.
Qed.

(** In every state a request goes through, a path is reserved iff some task that is being processed, is
    queued or waits for a response is (or contains) an action that stores it. *)
Theorem C33_reserved_iff_a_live_store_action E cfg fa ts p path :
  try_from E cfg = Some fa -> goes E fa ts p ->
  (In path (c_res (p_ctx p)) <-> exists t, live_task ts p t /\ will_store t path).
Proof.
  intros Hf Hg. pose proof (r_res _ _ (goes_R _ _ _ _ _ Hf Hg)) as HP. split.
  - intros H. apply (Permutation_in _ HP) in H. apply in_flat_map in H as (t & H1 & H2). exists t. split; [now apply live_items|now apply will_store_paths].
  - intros (t & H1 & H2). apply (Permutation_in _ (Permutation_sym HP)). apply in_flat_map. exists t. split; [now apply live_items|now apply will_store_paths].
Qed.
Print Assumptions C33_reserved_iff_a_live_store_action.
(** When a request starts, exactly the paths of the configured store actions, nested ones included,
    are reserved. *)
Theorem C33_reserved_at_the_start E cfg fa s p path :
  try_from E cfg = Some fa -> serves E cfg fa s -> build E fa (ctx0 [EvReqHeaders]) = BOk p ->
  (In path (c_res (p_ctx p)) <-> exists a pr tm g sq v export, has_action E cfg s a (mkT pr tm g sq (OpStore path v export))).
Proof.
  intros Hf Hs Hb. assert (Hg : goes E fa [] (p_emit (EvMetric MHits) p)) by now constructor.
  change (c_res (p_ctx p)) with (c_res (p_ctx (p_emit (EvMetric MHits) p))). rewrite (C33_reserved_iff_a_live_store_action _ _ _ _ _ path Hf Hg).
  assert (Hd : p_def p = []) by (pose proof (build_spec E fa (ctx0 [EvReqHeaders])) as Hsp; rewrite Hb in Hsp; destruct Hsp as (bb & c1 & tds & _ & _ & H & _); now rewrite H).
  split.
  - intros (t & [H|[H|(k & H)]] & Hw); [easy| |cbn in H; rewrite Hd in H; easy]. apply will_store_node in Hw as (id & pr & ex & export & tm & Hw).
    assert (Hi : In (NStore id pr ex path export tm) (nodess (p_queue p))) by (apply in_flat_map; exists t; split; [exact H|exact Hw]).
    destruct (serves_nodes _ _ _ _ _ Hs Hb _ Hi) as [(svs & a & [px tmx g sq op] & Hsv & Hc & (pe & _ & Hds))|[]].
    destruct op as [| | |path' v export'|]; try easy. destruct Hds as (-> & _ & _ & -> & _). exists a, px, tmx, g, sq, v, export'. now exists svs.
  - intros (a & pr & tm & g & sq & v & export & svs' & Hsv' & Hc). destruct Hs as (Hin & svs & bp & c & Hsv & Hcm & Hsel). assert (svs' = svs) as -> by congruence.
    destruct (built_all _ _ _ _ _ _ _ _ Hsv Hcm Hsel Hb _ _ Hc) as (nd & Hi & _ & (pe & _ & Hds)). destruct nd; try easy. destruct Hds as (-> & _ & _ & -> & _).
    apply in_flat_map in Hi as (t & H1 & H2). exists t. split; [right; left; exact H1|]. apply will_store_node. eauto 6.
Qed.
Print Assumptions C33_reserved_at_the_start.
(** Once every task is gone, nothing is reserved any more. *)
Theorem C33_all_released_at_the_end E cfg fa p :
  try_from E cfg = Some fa -> goes E fa [] p -> p_queue p = [] -> p_def p = [] -> c_res (p_ctx p) = [].
Proof.
  intros Hf Hg Hq Hd. destruct (c_res (p_ctx p)) as [|path l] eqn:H; [reflexivity|]. exfalso.
  destruct (proj1 (C33_reserved_iff_a_live_store_action _ _ _ _ _ path Hf Hg)) as (t & [[]|[Ht|(k & Ht)]] & _); [rewrite H; now left| |].
  - now rewrite Hq in Ht.
  - now rewrite Hd in Ht.
Qed.
Print Assumptions C33_all_released_at_the_end.

(** * C32: where stored values come from *)
(** In every state a request goes through, the value under a path is the one of the store action of that path
    that ended last, those with a false condition aside; there is none if all had a false condition. *)
Theorem C32_stored_values_come_from_store_actions_partial E cfg fa s ts p path :
  serves E cfg fa s -> goes E fa ts p ->
  match tget path (c_vals (p_ctx p)) with
  | Some v => newest E cfg s path v (c_log (p_ctx p))
  | None => skipped E cfg s path 0 (c_log (p_ctx p))
  end.
Proof.
  intros Hs Hg. destruct (reach_build _ _ _ _ Hg) as (p0 & Hb). destruct (latest_served _ _ _ _ _ _ _ Hs Hb Hg) as [_ HL]. specialize (HL path).
  assert (HP : forall n, P_Last.passed E fa (nodess (p_queue p0)) path n (c_log (p_ctx p)) -> skipped E cfg s path n (c_log (p_ctx p))).
  { intros n H. constructor. intros after now b past px tmx g sq y export Hl Hlen Hy He.
    destruct (store_there _ _ _ _ _ _ _ _ _ _ _ _ _ Hs Hb Hy) as (pe & ye & Y1 & Y2 & Hi). eapply pred_told; [exact Hs|exact Hy|exact Y1|].
    eapply (H after now b past pe ye export tmx); eauto. destruct He as (e & mid & -> & E1 & E2). exists e, mid. split; [reflexivity|]. split; [exact E1|]. rewrite Forall_forall. intros e' He'. specialize (E2 _ He'). now destruct e'. }
  destruct (tget path (c_vals (p_ctx p))) as [v|]; [|now apply HP].
  destruct HL as (after & now & a & past & pred & ex & export & tm & Hl & Hi & He & Hp & Hx & Hpa). apply HP in Hpa. rewrite Hl in Hpa |- *.
  destruct (store_node _ _ _ _ _ _ _ _ _ _ _ Hs Hb Hi) as (px & tmx & g & sq & y & H1 & H2 & H3).
  eapply nw_stored; [exact H1| |eapply pred_told; eauto|eapply expr_told; [exact Hs|exact H1|exact H2|now right; left|exact H3|exact Hx]|exact Hpa].
  destruct He as (e & mid & -> & E1 & E2). exists e, mid. split; [reflexivity|]. split; [exact E1|]. rewrite Forall_forall in E2. intros e' He'. specialize (E2 _ He'). destruct e'; try exact Logic.I. now apply E2.
Qed.
Print Assumptions C32_stored_values_come_from_store_actions_partial.

(** * C31: replies in expressions *)
(** An expression evaluated with the variables [vs] (those visible to its action) sees under the name [n] what
    [vs] has there, if that is neither a name the evaluator binds itself nor the first name of a stored path.
    (The claim lacks these conditions, see below.) *)
Theorem C31_expressions_see_the_reply_partial E e vs c vs' c' n :
  clean e -> eval_vars E (expr_of e) vs c = (RAvail vs', c') ->
  ~ In n [tx "request"; tx "metadata"; tx "source"; tx "destination"; tx "auth"; tx "@requestBodyJSON"; tx "@responseBodyJSON"] ->
  tget n (c_vals c) = None -> ~ root_known c n ->
  tget n vs' = tget n vs.
Proof. apply name_kept. Qed.
Print Assumptions C31_expressions_see_the_reply_partial.

(** * Examples and counterexamples *)
Definition pipe_of (E : env) (fa : factory) (l : list fin) : option pipe := option_map (f_take (run E fa l)) (f_pipe (run E fa l)).
Lemma goes_run E fa l p : later l -> pipe_of E fa l = Some p -> goes E fa [] p.
Proof. unfold pipe_of. intros Hl. destruct (f_pipe (run E fa l)) as [p0|] eqn:Hp; [|discriminate]. intros [= <-]. now apply run_reach. Qed.
(** services answer with the body the host gives *)
Definition Er : env := mkEnv (h_prop Ed) (h_map Ed) (h_reqheader Ed) (h_setprop Ed) (h_setmap Ed) (h_reqbody Ed) (h_respbody Ed) (h_dispatch Ed) (fun _ sz => Some (nat_text (N.to_nat sz))) (h_reply Ed) (o_parse Ed) (o_cel Ed) (o_json Ed) (o_pointer Ed) (o_jshow Ed) (o_f64 Ed) (o_jnew Ed) (o_jfeed Ed) (o_jraw Ed) (o_jfinish Ed) (o_encode Ed) (fun _ _ b => Some (VString b)) (o_uuid Ed) (o_trace Ed) (o_span_on Ed) (o_spans Ed) (o_alpha Ed).
Definition dst (pred path : string) : taction := mkT (tx pred) false false false (OpStore (tx path) (tx "msg") false).
Definition dvcall (v : string) (rs : list taction) : taction := mkT (tx "true") false true false (OpGrpc (tx v) (tx "soft") (tx "msg") rs).
(** eleven actions: calls 0 and 1 with replies; a reply action of 1 and action 10 wait for the response headers *)
Definition ex31 : list action_cfg :=
  [dcall "soft" false [dhdr "wait" false]; dcall "soft" false [dhdr "wait" false]] ++ map CTyped [dhdr "false" false; dhdr "false" false; dhdr "false" false; dhdr "false" false; dhdr "false" false; dhdr "false" false; dhdr "false" false; dhdr "false" false; dhdr "wait" false].
Definition in31 : list fin := [InGrpc 1 0 7].
Notation pipe31 := (pipe_of Er (dfac Er ex31) in31).
Lemma of_pipe {A} (f : pipe -> A) o p a : o = Some p -> option_map f o = Some a -> f p = a.
Proof. intros ->. now intros [= <-]. Qed.
Definition scopes (l : list string) (p : pipe) : list vars := map (fun a => scope_vars (tx a) (p_ctx p)) l.
Lemma some_pipe (o : option pipe) {A} (f : pipe -> A) a : option_map f o = Some a -> exists p, o = Some p /\ f p = a.
Proof. destruct o as [p|]; [|discriminate]. intros [= <-]. now exists p. Qed.
Example C31_ex : exists p, serves Er (dcfg ex31) (dfac Er ex31) (mkSet (tx "s") [tx "h"] [] ex31) /\ goes Er (dfac Er ex31) [] p /\
  has_action Er (dcfg ex31) (mkSet (tx "s") [tx "h"] [] ex31) (tx "10") (dhdr "wait" false) /\
  visible (tx "1") (tx "r") (VString (tx "7")) (p_ctx p) /\ visible (tx "1.0") (tx "r") (VString (tx "7")) (p_ctx p) /\
  scope_vars (tx "10") (p_ctx p) = [] /\ scope_vars (tx "0.0") (p_ctx p) = [].
Proof.
  destruct (some_pipe pipe31 (scopes ["1"; "1.0"; "10"; "0.0"]%string) [[(tx "r", VString (tx "7"))]; [(tx "r", VString (tx "7"))]; []; []]) as (p & Hp & Hs); [vm_compute; reflexivity|].
  exists p. split; [serve|]. split; [eapply goes_run; [|exact Hp]; intros [H|[]]; discriminate|].
  split; [acts 10|]. unfold visible.
  rewrite (f_equal (fun l => nth 0 l []) Hs : scope_vars (tx "1") (p_ctx p) = _), (f_equal (fun l => nth 1 l []) Hs : scope_vars (tx "1.0") (p_ctx p) = _),
    (f_equal (fun l => nth 2 l []) Hs : scope_vars (tx "10") (p_ctx p) = _), (f_equal (fun l => nth 3 l []) Hs : scope_vars (tx "0.0") (p_ctx p) = _). split; [now left|]. split; [now left|]. split; reflexivity.
Qed.
(** two nested calls whose variables have the same name *)
Definition ex31b : list action_cfg := [CTyped (dvcall "r" [dvcall "r" [dhdr "wait" false]])].
Notation pipe31b := (pipe_of Er (dfac Er ex31b) [InGrpc 0 0 7; InGrpc 1 0 8]).
Example C31_ex2 : exists p, serves Er (dcfg ex31b) (dfac Er ex31b) (mkSet (tx "s") [tx "h"] [] ex31b) /\ goes Er (dfac Er ex31b) [] p /\
  visible (tx "0.0.0") (tx "r") (VString (tx "7")) (p_ctx p) /\ visible (tx "0.0.0") (tx "r") (VString (tx "8")) (p_ctx p) /\
  tget (tx "r") (scope_vars (tx "0.0.0") (p_ctx p)) = Some (VString (tx "8")) /\ tget (tx "r") (scope_vars (tx "0") (p_ctx p)) = Some (VString (tx "7")).
Proof.
  destruct (some_pipe pipe31b (scopes ["0.0.0"; "0"]%string) [[(tx "r", VString (tx "8")); (tx "r", VString (tx "7"))]; [(tx "r", VString (tx "7"))]]) as (p & Hp & Hs); [vm_compute; reflexivity|].
  exists p. split; [serve|]. split; [eapply goes_run; [|exact Hp]; intros [H|[H|[]]]; discriminate|].
  unfold visible. rewrite (f_equal (fun l => nth 0 l []) Hs : scope_vars (tx "0.0.0") (p_ctx p) = _), (f_equal (fun l => nth 1 l []) Hs : scope_vars (tx "0") (p_ctx p) = _). split; [right; now left|]. split; [now left|]. split; reflexivity.
Qed.
(** what action 10 does is the same without the reply of call 1 *)
Example C31_ex3 : exists p, goes Er (dfac Er ex31) [] p /\ c_binds (p_ctx p) <> [] /\
  let t := THeaders (tx "10") (expr_of (ALit (VBool true))) (expr_of (AIdent (tx "r"))) MReq false in
  step Er t (with_binds (p_ctx p) []) = (fst (step Er t (p_ctx p)), with_binds (snd (step Er t (p_ctx p))) []).
Proof.
  destruct (some_pipe pipe31 (fun p => c_binds (p_ctx p)) [(tx "1", [(tx "r", VString (tx "7"))])]) as (p & Hp & Hs); [vm_compute; reflexivity|].
  assert (Hg : goes Er (dfac Er ex31) [] p) by (eapply goes_run; [|exact Hp]; intros [H|[]]; discriminate).
  exists p. split; [exact Hg|]. split; [rewrite Hs; discriminate|]. intros t.
  assert (Hf : filter (fun ab => (fun a => negb (text_eqb a (tx "1"))) (fst ab)) (c_binds (p_ctx p)) = []) by (rewrite Hs; reflexivity).
  rewrite <- Hf. apply (C31_other_replies_make_no_difference Er (dcfg ex31) (dfac Er ex31) (mkSet (tx "s") [tx "h"] [] ex31) [] p (tx "10") (dhdr "wait" false) (fun a => negb (text_eqb a (tx "1"))) t); [serve|exact Hg|acts 10|reflexivity| |exact Logic.I].
  intros a x _ Hw. apply within_below in Hw. destruct (text_eqb a (tx "1")) eqn:He; [|reflexivity]. apply text_eqb_eq in He. subst a. exfalso. destruct Hw as [H|(r & H)]; discriminate H.
Qed.
(** store actions: two, one of them nested; while the call is out both paths are reserved, at the end none *)
Definition ex33 : list action_cfg := [CTyped (dvcall "r" [dst "true" "auth.b"]); CTyped (dst "wait" "auth.a")].
Notation pipe33 l := (pipe_of Er (dfac Er ex33) l).
Example C33_ex : try_from Er (dcfg ex33) = Some (dfac Er ex33) /\
  (exists p, goes Er (dfac Er ex33) [] p /\ c_res (p_ctx p) = [tx "auth.a"; tx "auth.b"] /\ exists t, live_task [] p t /\ will_store t (tx "auth.b")) /\
  (exists p, goes Er (dfac Er ex33) [] p /\ c_res (p_ctx p) = [tx "auth.a"] /\ tget (tx "auth.b") (c_vals (p_ctx p)) = Some (VString (tx "m"))).
Proof.
  split; [vm_compute; reflexivity|]. split.
  - destruct (some_pipe (pipe33 []) (fun p => c_res (p_ctx p)) [tx "auth.a"; tx "auth.b"]) as (p & Hp & Hs); [vm_compute; reflexivity|].
    assert (Hg : goes Er (dfac Er ex33) [] p) by (eapply goes_run; [|exact Hp]; intros []). exists p. split; [exact Hg|]. split; [exact Hs|].
    apply (C33_reserved_iff_a_live_store_action Er (dcfg ex33) (dfac Er ex33)); [vm_compute; reflexivity|exact Hg|]. rewrite Hs. right. now left.
  - destruct (some_pipe (pipe33 [InGrpc 0 0 7]) (fun p => (c_res (p_ctx p), c_vals (p_ctx p))) ([tx "auth.a"], [(tx "auth.b", VString (tx "m"))])) as (p & Hp & Hs); [vm_compute; reflexivity|].
    exists p. split; [eapply goes_run; [|exact Hp]; intros [H|[]]; discriminate|]. split; [exact (f_equal fst Hs)|]. now rewrite (f_equal snd Hs : c_vals (p_ctx p) = _).
Qed.
(** A reply whose variable has the name of something the evaluator binds is visible to the reply actions, but hidden
    from their expressions. *)
Definition ex31c : list action_cfg := [CTyped (dvcall "auth" [dhdr "wait" false])].
Notation pipe31c := (pipe_of Er (dfac Er ex31c) [InGrpc 0 0 7]).
Theorem C31_reply_named_auth_is_hidden_refuted : exists E cfg fa s p b y n v vs' c',
  serves E cfg fa s /\ goes E fa [] p /\ has_action E cfg s b y /\ visible b n v (p_ctx p) /\
  eval_vars E (expr_of (AIdent n)) (scope_vars b (p_ctx p)) (p_ctx p) = (RAvail vs', c') /\ tget n vs' = Some VNull /\ v <> VNull.
Proof.
  destruct (some_pipe pipe31c (fun p => (scope_vars (tx "0.0") (p_ctx p), (match eval_vars Er (expr_of (AIdent (tx "auth"))) (scope_vars (tx "0.0") (p_ctx p)) (p_ctx p) with (RAvail vs', _) => tget (tx "auth") vs' | _ => None end)))
    ([(tx "auth", VString (tx "7"))], Some VNull)) as (p & Hp & Hs); [vm_compute; reflexivity|].
  pose proof (f_equal fst Hs : scope_vars (tx "0.0") (p_ctx p) = _) as H1. pose proof (f_equal snd Hs : (match eval_vars Er (expr_of (AIdent (tx "auth"))) (scope_vars (tx "0.0") (p_ctx p)) (p_ctx p) with (RAvail vs', _) => tget (tx "auth") vs' | _ => None end) = _) as H2. clear Hs.
  destruct (eval_vars Er (expr_of (AIdent (tx "auth"))) (scope_vars (tx "0.0") (p_ctx p)) (p_ctx p)) as [[|vs'|] c'] eqn:He; [discriminate H2| |discriminate H2].
  exists Er, (dcfg ex31c), (dfac Er ex31c), (mkSet (tx "s") [tx "h"] [] ex31c), p, (tx "0.0"), (dhdr "wait" false), (tx "auth"), (VString (tx "7")), vs', c'.
  split; [serve|]. split; [eapply goes_run; [|exact Hp]; intros [H|[]]; discriminate|].
  split; [eexists; split; [vm_compute; reflexivity|]; exists 0; eexists _, _; split; [reflexivity|]; split; [reflexivity|]; eapply (wi_reply _ _ _ _ _ _ _ _ _ 0); [reflexivity|constructor]|].
  split; [unfold visible; rewrite H1; now left|]. split; [exact He|]. split; [exact H2|discriminate].
Qed.
Print Assumptions C31_reply_named_auth_is_hidden_refuted.
